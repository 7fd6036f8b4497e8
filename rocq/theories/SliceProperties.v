(** C43: slices of typed lists, and the operations a typed list inherits. *)
From Coq Require Import List Bool ZArith Lia.
From Verif Require Import Base VlModel VlSpec VlProofs SliceModel SliceSpec SliceProofs.
Import ListNotations.
Open Scope list_scope.

(** Assigning to a slice succeeds exactly when the object assigned is itself permitted, the trigger accepts it and what
    the trigger leaves can be iterated over, and then its members take the place of what the slice selects. *)
Theorem set_slice_ok : forall A ty S (inst : A -> ty -> bool) members eqb v s x st v' st',
  xstep A ty S inst members eqb v (XSetSlice s x) st = (v', None, st') <->
  permitted A ty inst (ctypes v) x /\ exists y ys l, stored_as A S (trig v) x st y st' /\ members y = Some ys /\
    spliced A (items v) s ys l /\ v' = mkVl (ctypes v) (trig v) l.
Proof.
  intros A ty S inst members eqb v s x st v' st'. cbn [xstep]. unfold set_slice.
  rewrite <- accepts_permitted. destruct (accepts A ty inst (ctypes v) x).
  2:{ split; [discriminate|]. intros (H & _). discriminate. }
  destruct (fire A S (trig v) x st) as [[y|e] s1] eqn:F.
  - destruct (list_set_slice A members (items v) s y) as [l|e] eqn:L.
    + split.
      * intros H. injection H as <- <-. split; auto. apply list_set_slice_ok in L as (ys & Y & L).
        exists y, ys, l. repeat split; auto. now apply fire_ok.
      * intros (_ & y' & ys & l' & St & Y & Sp & ->). apply fire_ok in St. rewrite F in St. injection St as <- <-.
        assert (X : list_set_slice A members (items v) s y = Ok l') by (apply list_set_slice_ok; eauto).
        rewrite L in X. injection X as <-. reflexivity.
    + split; [discriminate|]. intros (_ & y' & ys & l' & St & Y & Sp & ->). apply fire_ok in St. rewrite F in St. injection St as <- <-.
      assert (X : list_set_slice A members (items v) s y = Ok l') by (apply list_set_slice_ok; eauto). congruence.
  - split; [discriminate|]. intros (_ & y' & ys & l' & St & _). apply fire_ok in St. congruence.
Qed.
Print Assumptions set_slice_ok.

(** Otherwise it raises: TypeError for what is not permitted, before the trigger is called, what the trigger raises,
    TypeError for what cannot be iterated over, and ValueError for a step of zero or the wrong number of members. *)
Theorem set_slice_failure : forall A ty S (inst : A -> ty -> bool) members eqb v s x st v' e st',
  xstep A ty S inst members eqb v (XSetSlice s x) st = (v', Some e, st') ->
  v' = v /\
  ( (e = TypeError /\ st' = st /\ ~ permitted A ty inst (ctypes v) x)
    \/ (exists f, trig v = Some f /\ f x st = (Err e, st'))
    \/ exists y, stored_as A S (trig v) x st y st' /\
       ( (e = ValueError /\ step_of s = 0%Z) \/ (e = TypeError /\ members y = None)
         \/ (e = ValueError /\ step_of s <> 1%Z /\ exists ys, members y = Some ys /\
              ~ forall m, (exists p, selected (Z.of_nat (length (items v))) s m p) <-> m < length ys))).
Proof.
  intros A ty S inst members eqb v s x st v' e st' H. split; [eapply xstep_err; eauto|].
  cbn [xstep] in H. unfold set_slice in H. destruct (accepts A ty inst (ctypes v) x) eqn:AC.
  2:{ injection H as _ <- <-. left. repeat split; auto. rewrite <- accepts_permitted. congruence. }
  right. destruct (fire A S (trig v) x st) as [[y|e'] s1] eqn:F.
  - right. destruct (list_set_slice A members (items v) s y) as [l|e'] eqn:L; [discriminate|].
    injection H as _ <- <-. exists y. split; [now apply fire_ok|]. now apply list_set_slice_err.
  - left. injection H as _ <- <-. destruct (trig v) as [f|]; cbn [fire] in F; [|discriminate].
    exists f. split; auto. destruct (f x st) as [[[z|]|e1] s2]; congruence.
Qed.
Print Assumptions set_slice_failure.

(** So a list whose permitted elements are not iterable refuses every slice assignment. *)
Theorem set_slice_refused : forall A ty S (inst : A -> ty -> bool) members eqb v s x st,
  closed_trigger A ty S inst (ctypes v) (trig v) -> (forall y, permitted A ty inst (ctypes v) y -> members y = None) ->
  exists e st', xstep A ty S inst members eqb v (XSetSlice s x) st = (v, Some e, st').
Proof.
  intros A ty S inst members eqb v s x st C N.
  destruct (xstep A ty S inst members eqb v (XSetSlice s x) st) as [[v' [e|]] st'] eqn:E.
  - pose proof (xstep_err _ _ _ _ _ _ _ _ _ _ _ _ E) as ->. eauto.
  - apply set_slice_ok in E as (P & y & ys & l & St & Y & _).
    rewrite N in Y; [discriminate|]. eapply stored_permitted; eauto.
Qed.
Print Assumptions set_slice_refused.

(** Deleting a slice removes exactly what it selects and keeps the order of the rest; it raises exactly for a step of zero. *)
Theorem del_slice_ok : forall A ty S (inst : A -> ty -> bool) members eqb v s st v' r st',
  xstep A ty S inst members eqb v (XDelSlice s) st = (v', r, st') ->
  st' = st /\ (step_of s = 0%Z -> r = Some ValueError /\ v' = v) /\
  (step_of s <> 0%Z -> r = None /\ exists l, v' = mkVl (ctypes v) (trig v) l /\
     kept A (fun p => exists m, selected (Z.of_nat (length (items v))) s m p) 0 (items v) l).
Proof.
  intros A ty S inst members eqb v s st v' r st' H. cbn [xstep] in H. unfold del_slice in H.
  destruct (list_del_slice A (items v) s) as [l|e] eqn:L; injection H as <- <- <-.
  - apply list_del_slice_ok in L as (K & L). repeat split; try contradiction; auto. exists l. split; auto.
  - apply list_del_slice_err in L as (-> & K). repeat split; auto; contradiction.
Qed.
Print Assumptions del_slice_ok.

(** [remove] takes out the first member equal to its argument, or raises ValueError if there is none. *)
Theorem remove_ok : forall A ty S (inst : A -> ty -> bool) members eqb v x st v' r st',
  xstep A ty S inst members eqb v (XRemove x) st = (v', r, st') ->
  (r = Some ValueError /\ v' = v /\ Forall (fun b => eqb b x = false) (items v))
  \/ (r = None /\ exists pre a post, items v = pre ++ a :: post /\ eqb a x = true /\ Forall (fun b => eqb b x = false) pre /\
       v' = mkVl (ctypes v) (trig v) (pre ++ post)).
Proof.
  intros A ty S inst members eqb v x st v' r st' H. cbn [xstep] in H. unfold remove in H.
  destruct (remove_first A eqb x (items v)) as [l|] eqn:R; injection H as <- <- <-.
  - right. split; auto. apply remove_first_ok in R as (pre & a & post & E & Q & F & ->). exists pre, a, post. auto.
  - left. repeat split; auto. now apply remove_first_none.
Qed.
Print Assumptions remove_ok.

(** [pop] takes out the element at an index, by default the last, and raises IndexError outside the list. *)
Theorem pop_ok : forall A ty S (inst : A -> ty -> bool) members eqb v i st v' r st',
  xstep A ty S inst members eqb v (XPop i) st = (v', r, st') ->
  let at_ (k : nat) := match i with None => k = length (items v) - 1 | Some z => z = Z.of_nat k \/ z = (Z.of_nat k - Z.of_nat (length (items v)))%Z end in
  (r = None /\ exists pre a post, items v = pre ++ a :: post /\ at_ (length pre) /\ v' = mkVl (ctypes v) (trig v) (pre ++ post))
  \/ (r = Some IndexError /\ v' = v /\ forall k, k < length (items v) -> ~ at_ k).
Proof.
  intros A ty S inst members eqb v i st v' r st' H. cbn [xstep] in H. unfold pop, delitem, norm_index in H.
  set (z := match i with Some i => i | None => (-1)%Z end) in *.
  set (n := length (items v)) in *. set (j := (if z <? 0 then z + Z.of_nat n else z)%Z) in *.
  destruct ((0 <=? j) && (j <? Z.of_nat n))%Z%bool eqn:E; injection H as <- <- <-; cbv zeta.
  - left. split; auto. apply andb_true_iff in E as (E1 & E2). apply Z.leb_le in E1. apply Z.ltb_lt in E2.
    destruct (nth_error (items v) (Z.to_nat j)) as [a|] eqn:Na; [|apply nth_error_None in Na; unfold n in *; lia].
    apply nth_error_split in Na as (pre & post & Es & Le). exists pre, a, post. split; auto. split.
    + rewrite Le. destruct i as [i|]; subst z; unfold j in *; [destruct (Z.ltb_spec i 0)|destruct (Z.ltb_spec (-1) 0)]; lia.
    + unfold with_items, del_nth. f_equal. rewrite Es, <- Le, firstn_app, firstn_all, Nat.sub_diag, firstn_O, app_nil_r. f_equal.
      change (pre ++ a :: post) with (pre ++ [a] ++ post). rewrite app_assoc.
      replace (Datatypes.S (length pre)) with (length (pre ++ [a])) by (rewrite app_length; cbn; lia).
      rewrite skipn_app, skipn_all, Nat.sub_diag. reflexivity.
  - right. repeat split; auto. intros k L X. apply andb_false_iff in E.
    assert (B : j = Z.of_nat k).
    { destruct i as [i|]; subst z; unfold j in *; [destruct (Z.ltb_spec i 0)|destruct (Z.ltb_spec (-1) 0)]; lia. }
    destruct E as [E|E]; [apply Z.leb_gt in E|apply Z.ltb_ge in E]; lia.
Qed.
Print Assumptions pop_ok.

(** Whatever raises leaves the list as it was. *)
Theorem inherited_failure_atomic : forall A ty S (inst : A -> ty -> bool) members eqb v o st v' e st',
  xstep A ty S inst members eqb v o st = (v', Some e, st') -> v' = v.
Proof. exact xstep_err. Qed.
Print Assumptions inherited_failure_atomic.

(** After any history of these and the former operations, [+=] with something forbidden aside, only permitted elements
    are held, if what is permitted contains only what is permitted. *)
Theorem inherited_history_types : forall A ty S (inst : A -> ty -> bool) members eqb i ts t s v s' ops s2,
  closed_trigger A ty S inst ts t -> closed_members A ty inst members ts ->
  init A ty S inst i ts t s = (Ok v, s') -> Forall (xguarded A ty inst ts) ops ->
  Forall (permitted A ty inst ts) (items (fst (xrun A ty S inst members eqb v ops s2))).
Proof.
  intros A ty S inst members eqb i ts t s v s' ops s2 C M I G.
  assert (O : ctypes v = ts /\ trig v = t /\ ok_list A ty S inst v).
  { unfold init in I. destruct (forallb _ _) eqn:F; [|discriminate].
    destruct (fire_all A S t (later_pass A i) s) as [[ys|e] s1] eqn:FA; [|discriminate].
    injection I as <- <-. repeat split. unfold ok_list; cbn.
    apply fire_all_ok in FA. refine (all_stored_permitted _ _ _ _ _ _ _ _ _ _ C _ FA).
    apply later_permitted. now apply forallb_permitted. }
  destruct O as (E1 & E2 & O).
  destruct (xrun_ok_list A ty S inst members eqb ops v s2) as [X Y]; rewrite ?E1, ?E2; auto.
  unfold ok_list in X. rewrite Y, E1 in X. exact X.
Qed.
Print Assumptions inherited_history_types.

(** The condition is needed: the lists of a template (has_condition_templates.py:60-66) take templates, links and
    [template, bounds] pairs. Assigning a pair to a slice stores its two members, one of which is bounds. *)
Inductive thing := Template | Bounds | Pair (l : list thing).
Definition is_a (x : thing) (t : bool) : bool := match x with Template => t | Bounds => false | Pair _ => negb t end.
Definition thing_members (x : thing) : option (list thing) := match x with Pair l => Some l | _ => None end.
Definition thing_eqb (x y : thing) : bool := match x, y with Template, Template | Bounds, Bounds => true | _, _ => false end.

Theorem slice_types_refuted : exists (v v' : vlist thing bool unit),
  init thing bool unit is_a (Reusable [Pair [Template; Bounds]]) [true; false] None tt = (Ok v, tt) /\
  xstep thing bool unit is_a thing_members thing_eqb v (XSetSlice (mkSlice None None None) (Pair [Template; Bounds])) tt = (v', None, tt) /\
  ~ Forall (permitted thing bool is_a [true; false]) (items v').
Proof.
  exists (mkVl [true; false] None [Pair [Template; Bounds]]), (mkVl [true; false] None [Template; Bounds]).
  repeat split. intros F. inversion F as [|a l _ F2]; subst. inversion F2 as [|a l P _]; subst.
  destruct P as (t & [<-|[<-|[]]] & H); discriminate.
Qed.
Print Assumptions slice_types_refuted.

(** Concrete cases, with numbers as elements; a number above 9 "contains" its digits. *)
Definition num_is (x : nat) (t : bool) : bool := if t then Nat.leb x 99 else false.
Definition digits (x : nat) : option (list nat) := if Nat.ltb 9 x then Some [x / 10; x mod 10] else None.
Example slices_ex :
  xrun nat bool unit num_is digits Nat.eqb (mkVl [true] None [1; 2; 3; 4; 5])
    [XSetSlice (mkSlice (Some 1) (Some (-1)) None)%Z 67; XSetSlice (mkSlice (Some 5) (Some 2) None)%Z 89;
     XSetSlice (mkSlice None None (Some (-3)))%Z 45; XSetSlice (mkSlice None None (Some 2))%Z 45;
     XSetSlice (mkSlice None None (Some 0))%Z 45; XSetSlice (mkSlice None None None) 7; XPop None; XRemove 7; XPop (Some (-9)%Z);
     XDelSlice (mkSlice None None (Some (-2)))%Z; XImul 2] tt
  = (mkVl [true] None [6; 5; 6; 5], tt).
Proof. vm_compute. reflexivity. Qed.
Example closed_ex : closed_members nat bool num_is digits [true] /\ closed_trigger nat bool unit num_is [true] None.
Proof.
  split; [|intros f x y s s' E; discriminate].
  intros x ys (t & [<-|[]] & P) H. unfold digits in H. destruct (Nat.ltb 9 x); [|discriminate].
  assert (E : ys = [x / 10; x mod 10]) by congruence. clear H.
  unfold num_is in P. apply Nat.leb_le in P.
  assert (x / 10 <= 99) by (apply Nat.div_le_upper_bound; lia). pose proof (Nat.mod_upper_bound x 10 ltac:(lia)).
  rewrite E. constructor; [|constructor; [|constructor]]; exists true; (split; [now left|]); apply Nat.leb_le; lia.
Qed.
Example refused_ex : exists e st', xstep nat bool unit num_is (fun _ => None) Nat.eqb (mkVl [true] None [1; 2]) (XSetSlice (mkSlice None None None) 45) tt
  = (mkVl [true] None [1; 2], Some e, st').
Proof. apply set_slice_refused; auto. intros f x y s s' E; discriminate. Qed.
