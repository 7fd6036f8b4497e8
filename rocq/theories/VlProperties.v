(** C03, C04: typed lists. *)
From Coq Require Import List Bool ZArith Lia.
From Verif Require Import Base VlModel VlSpec VlProofs.
Import ListNotations.
Open Scope list_scope.

(** C03. Construction from a reusable iterable succeeds exactly when every element is permitted and
    the trigger raises on none; the content is the image of the elements, in order, the trigger
    having been called once per element. *)
Theorem vl_construction : forall A ty S (inst : A -> ty -> bool) l ts t s v s',
  init A ty S inst (Reusable l) ts t s = (Ok v, s') <->
  Forall (permitted A ty inst ts) l /\ exists ys, all_stored_as A S t l s ys s' /\ v = mkVl ts t ys.
Proof. exact init_ok. Qed.
Print Assumptions vl_construction.

(** C03. ... and otherwise raises TypeError for a forbidden element, before any trigger has run, or
    the trigger's exception. *)
Theorem vl_construction_failure : forall A ty S (inst : A -> ty -> bool) l ts t s e s',
  init A ty S inst (Reusable l) ts t s = (Err e, s') ->
  (e = TypeError /\ s' = s /\ ~ Forall (permitted A ty inst ts) l) \/ trigger_raises A S t l s e s'.
Proof. exact init_err. Qed.
Print Assumptions vl_construction_failure.

(** C03. Whatever history of operations follows, failing ones included, only permitted elements are
    held. *)
Theorem vl_history_types_guarded : forall A ty S (inst : A -> ty -> bool) i ts t s v s' ops s2,
  closed_trigger A ty S inst ts t ->
  init A ty S inst i ts t s = (Ok v, s') -> Forall (guarded A ty inst ts) ops ->
  Forall (permitted A ty inst ts) (items (fst (run A ty S inst v ops s2))).
Proof.
  intros A ty S inst i ts t s v s' ops s2 C I G.
  assert (O : ctypes v = ts /\ trig v = t /\ ok_list A ty S inst v).
  { unfold init in I. destruct (forallb _ _) eqn:F; [|discriminate].
    destruct (fire_all A S t (later_pass A i) s) as [[ys|e] s1] eqn:FA; [|discriminate].
    injection I as <- <-. repeat split. unfold ok_list; cbn.
    apply fire_all_ok in FA. refine (all_stored_permitted _ _ _ _ _ _ _ _ _ _ C _ FA).
    apply later_permitted. now apply forallb_permitted. }
  destruct O as (E1 & E2 & O).
  destruct (run_ok_list A ty S inst ops v s2) as [X Y]; rewrite ?E1, ?E2; auto.
  unfold ok_list in X. rewrite Y, E1 in X. exact X.
Qed.
Print Assumptions vl_history_types_guarded.

(** C03. Without [+=], which the claim does not mention, there is no further condition. *)
Theorem vl_history_types : forall A ty S (inst : A -> ty -> bool) i ts t s v s' ops s2,
  closed_trigger A ty S inst ts t ->
  init A ty S inst i ts t s = (Ok v, s') -> (forall l, ~ In (OIadd l) ops) ->
  Forall (permitted A ty inst ts) (items (fst (run A ty S inst v ops s2))).
Proof.
  intros A ty S inst i ts t s v s' ops s2 C I N. refine (vl_history_types_guarded _ _ _ _ _ _ _ _ _ _ _ _ C I _).
  apply Forall_forall. intros [] J; cbn; auto. destruct (N _ J).
Qed.
Print Assumptions vl_history_types.

(** C03. A one-shot iterable of permitted elements adds nothing and runs no trigger, so what is stored is the image of
    what was supplied in this case, too. *)
Theorem vl_one_shot : forall A ty S (inst : A -> ty -> bool) v l s, Forall (permitted A ty inst (ctypes v)) l ->
  step A ty S inst v (OExtend (Some (OneShot l))) s = (v, None, s)
  /\ forall ts t, Forall (permitted A ty inst ts) l -> init A ty S inst (OneShot l) ts t s = (Ok (mkVl ts t []), s).
Proof.
  intros A ty S inst v l s F. split.
  - cbn [step]. unfold extend. cbn [first_pass later_pass fire_all]. apply forallb_permitted in F. rewrite F.
    unfold with_items. rewrite app_nil_r. now destruct v.
  - intros ts t G. unfold init. cbn [first_pass later_pass fire_all]. apply forallb_permitted in G. now rewrite G.
Qed.
Print Assumptions vl_one_shot.

(** C03. append, extend and insert put the image of what was supplied where Python lists put it. *)
Theorem vl_append : forall A ty S (inst : A -> ty -> bool) v x s v' s',
  step A ty S inst v (OAppend x) s = (v', None, s') <->
  permitted A ty inst (ctypes v) x /\ exists y, stored_as A S (trig v) x s y s' /\
    v' = mkVl (ctypes v) (trig v) (items v ++ [y]).
Proof. exact append_ok. Qed.
Print Assumptions vl_append.

Theorem vl_extend : forall A ty S (inst : A -> ty -> bool) v l s v' s',
  step A ty S inst v (OExtend (Some (Reusable l))) s = (v', None, s') <->
  Forall (permitted A ty inst (ctypes v)) l /\ exists ys, all_stored_as A S (trig v) l s ys s' /\
    v' = mkVl (ctypes v) (trig v) (items v ++ ys).
Proof. exact extend_ok. Qed.
Print Assumptions vl_extend.

Theorem vl_insert : forall A ty S (inst : A -> ty -> bool) v i x s v' s',
  step A ty S inst v (OInsert i x) s = (v', None, s') <->
  permitted A ty inst (ctypes v) x /\ exists y pre post, stored_as A S (trig v) x s y s' /\
    items v = pre ++ post /\
    Z.of_nat (length pre) = (let n := Z.of_nat (length (items v)) in
                             if i <? 0 then Z.max 0 (n + i) else Z.min i n)%Z /\
    v' = mkVl (ctypes v) (trig v) (pre ++ y :: post).
Proof. exact insert_ok. Qed.
Print Assumptions vl_insert.

Theorem vl_setitem : forall A ty S (inst : A -> ty -> bool) v i x s v' s',
  step A ty S inst v (OSetitem i x) s = (v', None, s') <->
  permitted A ty inst (ctypes v) x /\ exists y pre old post, stored_as A S (trig v) x s y s' /\
    items v = pre ++ old :: post /\
    (i = Z.of_nat (length pre) \/ i = - Z.of_nat (length (old :: post)))%Z /\
    v' = mkVl (ctypes v) (trig v) (pre ++ y :: post).
Proof. exact setitem_ok. Qed.
Print Assumptions vl_setitem.

(** C04. Any operation that raises, for whatever reason, leaves the list unchanged. *)
Theorem vl_failure_atomic : forall A ty S (inst : A -> ty -> bool) v o s v' e s',
  step A ty S inst v o s = (v', Some e, s') -> v' = v.
Proof. exact step_err_unchanged. Qed.
Print Assumptions vl_failure_atomic.

(** Concrete case: objects are numbers, the two types are "even" and "below 10"; the trigger logs its
    argument, adds 2 to everything above 100 and raises on 13. *)
Definition ex_inst (x : nat) (t : bool) : bool := if t then Nat.even x else Nat.ltb x 10.
Definition ex_trig : trigger nat (list nat) := fun x log =>
  (if Nat.eqb x 8 then Err ValueError else if Nat.ltb 100 x then Ok (Some (x + 2)) else Ok None, log ++ [x]).

Example vl_ex_construction :
  init nat bool (list nat) ex_inst (Reusable [4; 102; 7]) [true; false] (Some ex_trig) []
  = (Ok (mkVl [true; false] (Some ex_trig) [4; 104; 7]), [4; 102; 7]).
Proof. vm_compute. reflexivity. Qed.

Example vl_ex_closed : closed_trigger nat bool (list nat) ex_inst [true] (Some ex_trig).
Proof.
  intros f x y s s' E. injection E as <-. intros (t & [<-|[]] & H) F. exists true. split; [now left|].
  unfold ex_inst in *. unfold ex_trig in F. destruct (Nat.eqb x 8); [discriminate|].
  destruct (Nat.ltb 100 x); [|discriminate]. injection F as <- _.
  replace (x + 2) with (S (S x)) by lia. exact H.
Qed.

Example vl_ex_history :
  let v := mkVl [true; false] (Some ex_trig) [4; 104; 7] in
  run nat bool (list nat) ex_inst v
    [OAppend 11; OExtend (Some (Reusable [2; 8; 6])); OInsert (-1) 200; OSetitem (-4)%Z 0; OReverse] []
  = (mkVl [true; false] (Some ex_trig) [7; 202; 104; 0], [2; 8; 200; 0]).
Proof. vm_compute. reflexivity. Qed.

(** Finding: a one-shot iterable is consumed by the type check, so building from one (or extending
    by one) silently stores nothing. *)
Theorem vl_one_shot_refuted : exists (v v' : vlist nat bool unit),
  init nat bool unit ex_inst (OneShot [4; 6]) [true] None tt = (Ok v, tt) /\ items v = [] /\
  step nat bool unit ex_inst v (OExtend (Some (OneShot [2]))) tt = (v', None, tt) /\ items v' = [].
Proof.
  exists (mkVl [true] None []), (mkVl [true] None []). repeat split.
Qed.
Print Assumptions vl_one_shot_refuted.

(** Finding: [+=] is inherited and stores anything. *)
Theorem vl_iadd_refuted : exists (v v' : vlist nat bool unit),
  init nat bool unit ex_inst (Reusable [4]) [true] None tt = (Ok v, tt) /\
  step nat bool unit ex_inst v (OIadd [5]) tt = (v', None, tt) /\
  ~ Forall (permitted nat bool ex_inst [true]) (items v').
Proof.
  exists (mkVl [true] None [4]), (mkVl [true] None [4; 5]). repeat split.
  intros F. inversion F as [|a l P1 P2]; subst. inversion P2 as [|a l P3 P4]; subst.
  destruct P3 as (t & [<-|[]] & H). discriminate.
Qed.
Print Assumptions vl_iadd_refuted.

(** C03, validate_list: None gives the empty list, a single object a one-element list. *)
Theorem validate_list_none : forall A ty S (inst : A -> ty -> bool) ts t s,
  validate_list A ty S inst ANone ts t s = (Ok (mkVl ts t []), s).
Proof. reflexivity. Qed.
Print Assumptions validate_list_none.

Theorem validate_list_scalar : forall A ty S (inst : A -> ty -> bool) x ts t s v s',
  validate_list A ty S inst (AScalar x) ts t s = (Ok v, s') <->
  permitted A ty inst ts x /\ exists y, stored_as A S t x s y s' /\ v = mkVl ts t [y].
Proof.
  intros A ty S inst x ts t s v s'. unfold validate_list. rewrite vl_construction. split.
  - intros [F (ys & H & ->)]. inversion F; subst. split; auto.
    inversion H as [|x0 y xs ys0 s0 s1 s2 Ha Hb]; subst. inversion Hb; subst. eauto.
  - intros [P (y & H & ->)]. split; auto. exists [y]. split; auto. econstructor; eauto. constructor.
Qed.
Print Assumptions validate_list_scalar.

Example validate_list_ex :
  validate_list nat bool (list nat) ex_inst (AScalar 102) [true] (Some ex_trig) []
  = (Ok (mkVl [true] (Some ex_trig) [104]), [102]).
Proof. vm_compute. reflexivity. Qed.
