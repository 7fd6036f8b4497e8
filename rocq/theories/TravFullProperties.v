(** C57: what the traversals do on every graph, with every function that leaves fields alone. *)
From Coq Require Import String List Bool Arith Lia Permutation.
From Verif Require Import Base BaseFacts GraphModel GraphProofs EqSpec EqProofs EqCopies TravModel TravSpec TravProofs TravProperties TravFullModel TravFullSpec TravFullProofs.
Import ListNotations.
Open Scope string_scope.
Open Scope list_scope.
Open Scope nat_scope.

Lemma in_order_prefix : forall h keep obj l r, in_order_found h keep obj (l ++ r) -> in_order_found h keep obj l.
Proof. intros h keep obj l r O a o b E. apply (O a o (b ++ r)). now rewrite E, <- app_assoc. Qed.

Lemma in_order_reach : forall h keep obj l, in_order_found h keep obj l -> forall o, In o l -> reach h keep obj o.
Proof.
  intros h keep obj. induction l as [|x l IH] using rev_ind; intros O o I; [contradiction|].
  apply in_app_iff in I as [I|[<-|[]]]; [apply IH; auto; eapply in_order_prefix; eauto|].
  destruct (O l x []) as [_ [W|(p & e & f & v & Ip & Hg & If & K & W)]]; auto.
  - apply r_obj. now apply mentions_within.
  - eapply r_field; eauto; [apply IH; auto; eapply in_order_prefix; eauto | now apply mentions_within].
Qed.

Lemma in_order_nodup : forall h keep obj l, in_order_found h keep obj l -> NoDup l.
Proof.
  intros h keep obj. induction l as [|x l IH] using rev_ind; intros O; [constructor|].
  destruct (O l x [] eq_refl) as [N _]. apply (NoDup_Add (a := x) (l := l)); [|split; auto].
  - rewrite <- (app_nil_r l) at 1. apply Add_app.
  - apply IH. eapply in_order_prefix; eauto.
Qed.

Lemma found_met : forall h keep obj l w, (forall o, In o l -> reach h keep obj o) -> found_from h keep obj l w -> met h keep obj w.
Proof. intros h keep obj l w R [W|(p & e & f & v & Ip & Hg & If & K & W)]; [now apply m_obj | eapply m_field; eauto]. Qed.

(** The outcome of the loop from the beginning. *)
Lemma loop_outcome : forall A (func : oid -> heap * A -> (heap * A) * option exn) arrange keep backwards first h a obj,
  (forall l, Permutation (arrange l) l) -> keeps_fields func ->
  exists l st' x, calls _ func l (h, a) st' x /\ in_order_found h keep obj l
    /\ ((exists e, x = Some e /\ loop A func arrange keep backwards first (budget h obj) [] [obj] (h, a) = Threw e st')
        \/ (x = None /\ loop A func arrange keep backwards first (budget h obj) [] [obj] (h, a) = Ended st'
            /\ (forall o, In o l <-> reach h keep obj o) /\ hashable_tuples h keep obj)
        \/ (x = None /\ loop A func arrange keep backwards first (budget h obj) [] [obj] (h, a) = Threw TypeError st'
            /\ exists t, found_from h keep obj l (PTuple t) /\ ~ can_hash (PTuple t))).
Proof.
  intros A func arrange keep backwards first h a obj P K.
  destruct (trip_exists h arrange keep backwards P _ [] [obj] (budget_enough h obj)) as (l & f & T).
  destruct (trip_start h arrange keep backwards P obj l f T) as (O & X1 & X2).
  destruct (loop_trip h arrange keep backwards P A func first K _ _ _ _ T (budget h obj) (h, a) (budget_enough h obj) (same_fields_refl h))
    as (l' & st' & x & C & [r E] & L & N).
  exists l', st', x. split; auto. split; [subst l; eapply in_order_prefix; eauto|].
  destruct x as [e|]; [left; eauto|]. specialize (N eq_refl). subst l'. right. destruct f; [left | right]; auto.
Qed.

(** recursive_foreach, for every graph, cyclic or not, every object and every function that leaves
    the fields alone. The function is called on entities one after the other, none twice, each lying
    in the object or in a field of an entity called before. Then one of three things happens: a call
    raises and its exception leaves the loop; or all reachable entities were called, and no tuple
    with a list or dictionary in it was met; or such a tuple was met, and a TypeError leaves the loop. In each
    case what the calls did remains. *)
Theorem foreach_outcome : forall A (func : oid -> heap * A -> (heap * A) * option exn) apply_first h a obj, keeps_fields func ->
  exists l st' x, calls _ func l (h, a) st' x /\ in_order_found h everything obj l
    /\ ((exists e, x = Some e /\ recursive_foreach func apply_first obj (h, a) = Threw e st')
        \/ (x = None /\ recursive_foreach func apply_first obj (h, a) = Ended st'
            /\ (forall o, In o l <-> reach h everything obj o) /\ hashable_tuples h everything obj)
        \/ (x = None /\ recursive_foreach func apply_first obj (h, a) = Threw TypeError st'
            /\ exists t, found_from h everything obj l (PTuple t) /\ ~ can_hash (PTuple t))).
Proof. intros A func first h a obj K. exact (loop_outcome A func (fun d => d) everything false first h a obj (fun l => Permutation_refl l) K). Qed.

(** So, if no call raises, it raises exactly if a tuple with a list or dictionary in it can be met. *)
Theorem foreach_raises_iff : forall A (func : oid -> heap * A -> (heap * A) * option exn) apply_first h a obj, keeps_fields func ->
  (forall o st, snd (func o st) = None) ->
  ((exists st', recursive_foreach func apply_first obj (h, a) = Ended st') <-> hashable_tuples h everything obj)
  /\ ((exists e st', recursive_foreach func apply_first obj (h, a) = Threw e st') <-> ~ hashable_tuples h everything obj)
  /\ (forall e st', recursive_foreach func apply_first obj (h, a) = Threw e st' -> e = TypeError).
Proof.
  intros A func first h a obj K Nr. destruct (foreach_outcome A func first h a obj K) as (l & st' & x & C & O & X).
  assert (Nx : x = None).
  { clear -C Nr. induction C as [|o st st' e E|]; auto. specialize (Nr o st). now rewrite E in Nr. }
  subst x. destruct X as [(e & Y & _)|[(_ & E & R & T)|(_ & E & t & F & N)]]; [discriminate| |]; rewrite E.
  - split; [|split].
    + split; intros; eauto.
    + split; [intros (e & s & Y); discriminate | intros N; contradiction].
    + intros e s Y. discriminate.
  - assert (NT : ~ hashable_tuples h everything obj).
    { intros T. apply N. apply T. eapply found_met; [|exact F]. now apply in_order_reach. }
    split; [|split].
    + split; [intros [s Y]; discriminate | intros; contradiction].
    + split; intros; eauto.
    + intros e s Y. injection Y. auto.
Qed.

(** [apply_first] makes no difference to such functions. *)
Theorem apply_first_irrelevant : forall A (func : oid -> heap * A -> (heap * A) * option exn) obj st, keeps_fields func ->
  recursive_foreach func true obj st = recursive_foreach func false obj st.
Proof.
  intros A func obj st K. unfold recursive_foreach. generalize (budget (fst st) obj) as n, (@nil oid) as s, [obj] as stack.
  intros n. revert st. induction n as [|n IH]; intros st s stack; destruct stack as [|v rest]; auto. cbn [loop].
  destruct v as [| | |o|l|l|l|t l]; auto.
  - destruct (mem o s); auto. assert (Ko := K o st). destruct (func o st) as [st1 [e|]]; auto. cbn [fst] in Ko.
    rewrite (pushed_same (fst st) (fun d => d) (fun _ _ => true) false (fst st1) (PRef o) Ko). apply IH.
  - destruct (hashable (PTuple l)); auto.
Qed.

(** A function that only notes the entities it is called on, in order. *)
Definition note (o : oid) (st : heap * list oid) : (heap * list oid) * option exn := ((fst st, snd st ++ [o]), None).

Lemma note_keeps : keeps_fields note.
Proof. intros o st. apply same_fields_refl. Qed.

Lemma note_calls : forall l h a st' x, calls _ note l (h, a) st' x -> st' = (h, a ++ l) /\ x = None.
Proof.
  induction l as [|o l IH]; intros h a st' x C; inversion C; subst.
  - now rewrite app_nil_r.
  - discriminate.
  - match goal with A : note _ _ = _ |- _ => unfold note in A; cbn [fst snd] in A; injection A as <- end.
    match goal with A : calls _ _ _ _ _ _, B : calls _ _ l _ _ _ |- _ => destruct (IH _ _ _ _ B) as [-> ->] end.
    now rewrite <- app_assoc.
Qed.

(** The documentation of [apply_first] ("whether to apply the func before applying it to members")
    suggests that by default the members come first. They never do: whatever [apply_first] says, an
    entity given as the object is called before everything it refers to, on every graph. *)
Theorem owner_before_members : forall apply_first h o,
  exists r, recursive_foreach note apply_first (PRef o) (h, []) = Ended (h, o :: r)
            \/ recursive_foreach note apply_first (PRef o) (h, []) = Threw TypeError (h, o :: r).
Proof.
  intros first h o. destruct (foreach_outcome _ note first h [] (PRef o) note_keeps) as (l & st' & x & C & O & X).
  destruct (note_calls _ _ _ _ _ C) as [-> ->]. cbn [app] in X.
  destruct l as [|p l].
  - exfalso. destruct X as [(e & Y & _)|[(_ & _ & R & _)|(_ & _ & t & [W|(p & e & f & v & [] & _)] & _)]]; [discriminate| |].
    + apply (R o). apply r_obj. constructor.
    + inversion W.
  - destruct (O [] p l eq_refl) as [_ [W|(q & e & f & v & [] & _)]]. inversion W; subst. exists l.
    destruct X as [(e & Y & _)|[(_ & E & _)|(_ & E & _)]]; [discriminate | now left | now right].
Qed.

(** ** recursive_flatmap *)

Section Flatmap.
  Variable sorted : list (string * pv) -> list (string * pv).
  Hypothesis sorts : forall l, Permutation (sorted l) l.

  (** Which fields are entered. *)
  Definition enters (unidirectional : bool) (keep : ekind -> string -> bool) : Prop :=
    forall k f, keep k f = false <-> unidirectional = true /\ read_only k f.

  Lemma enters_skipped : forall uni keep, enters uni keep -> forall k f, negb (uni && skipped k f) = keep k f.
  Proof.
    intros uni keep En k f. assert (X := skipped_iff k f). assert (Y := En k f). destruct uni, (skipped k f), (keep k f); cbn; auto.
    - symmetry. apply Y. split; auto. now apply X.
    - symmetry. destruct Y as [Y _]. destruct (Y eq_refl) as [_ Z]. now apply X in Z.
    - symmetry. destruct Y as [Y _]. destruct (Y eq_refl). discriminate.
    - symmetry. destruct Y as [Y _]. destruct (Y eq_refl). discriminate.
  Qed.

  Lemma extend_keeps : forall B (func : heap -> oid -> list B + exn), keeps_fields (extend B func).
  Proof. intros B func o st. unfold extend. destruct (func (fst st) o); apply same_fields_refl. Qed.

  Lemma extend_calls : forall B (func : heap -> oid -> list B + exn) h l a st' x, calls _ (extend B func) l (h, a) st' x ->
    fst st' = h /\ exists rs, Forall2 (fun o r => func h o = inl r) (match x with None => l | Some _ => removelast l end) rs /\ snd st' = a ++ concat rs
      /\ match x with None => True | Some e => exists l0 o, l = l0 ++ [o] /\ func h o = inr e end.
  Proof.
    intros B func h. induction l as [|o l IH]; intros a st' x C; inversion C as [|? ? ? e E|? ? ? st1 ? ? E C2]; subst.
    - split; auto. exists []. split; [constructor|]. cbn. now rewrite app_nil_r.
    - unfold extend in E. cbn [fst snd] in E. destruct (func h o) as [r|e'] eqn:F; [discriminate|]. injection E as <- <-.
      split; auto. exists []. split; [constructor|]. cbn. rewrite app_nil_r. split; auto. exists [], o. auto.
    - unfold extend in E. cbn [fst snd] in E. destruct (func h o) as [r|e'] eqn:F; [|discriminate]. injection E as <-.
      destruct (IH _ _ _ C2) as (-> & rs & F2 & Es & X). split; auto. exists (r :: rs). cbn [concat]. rewrite app_assoc. destruct x as [e|].
      + destruct X as (l0 & o1 & -> & Fo). split; [|split; [exact Es|]].
        * change (o :: l0 ++ [o1]) with ((o :: l0) ++ [o1]). rewrite removelast_last in *. now constructor.
        * exists (o :: l0), o1. auto.
      + split; [now constructor|]. split; auto.
  Qed.

  Lemma found_ext : forall h k1 k2 obj l w, (forall k f, k1 k f = k2 k f) -> found_from h k1 obj l w -> found_from h k2 obj l w.
  Proof.
    intros h k1 k2 obj l w E [W|(p & e & f & v & Ip & Hg & If & K & W)]; [now left|].
    right. exists p, e, f, v. rewrite <- E. auto.
  Qed.

  (** recursive_flatmap, for every graph, object and list-valued function: the results of the calls,
      in order, on all reachable entities, each once; or the exception of the first call that raises;
      or a TypeError for a tuple with a list or dictionary in it. The graph is as before. *)
  Theorem flatmap_outcome : forall B (func : heap -> oid -> list B + exn) uni keep h obj, enters uni keep ->
    exists l res, in_order_found h keep obj l /\
      ((exists rs, recursive_flatmap sorted B func uni h obj = Ended (h, concat rs) /\ Forall2 (fun o r => func h o = inl r) l rs
          /\ (forall o, In o l <-> reach h keep obj o) /\ hashable_tuples h keep obj)
       \/ (exists l0 o e, recursive_flatmap sorted B func uni h obj = Threw e (h, res) /\ l = l0 ++ [o]
             /\ (forall p, In p l0 -> exists r, func h p = inl r) /\ func h o = inr e)
       \/ (recursive_flatmap sorted B func uni h obj = Threw TypeError (h, res) /\ (forall p, In p l -> exists r, func h p = inl r)
             /\ exists t, found_from h keep obj l (PTuple t) /\ ~ can_hash (PTuple t))).
  Proof.
    intros B func uni keep h obj En. assert (Ext := enters_skipped uni keep En).
    destruct (loop_outcome _ (extend B func) sorted (fun k f => negb (uni && skipped k f)) true true h [] obj sorts (extend_keeps B func))
      as (l & st' & x & C & O & X).
    destruct (extend_calls _ _ _ _ _ _ _ C) as (Hf & rs & F2 & Es & Z). destruct st' as [h' res]. cbn [fst snd app] in Hf, Es. subst h' res.
    assert (All : forall l rs, Forall2 (fun o r => func h o = inl r) l rs -> forall p, In p l -> exists r, func h p = inl r).
    { clear. induction 1 as [|o r l rs E F IH]; intros p I; [contradiction|]. destruct I as [<-|I]; eauto. }
    exists l, (concat rs). split.
    { intros a o b El. destruct (O a o b El) as [N F]. split; auto. eapply found_ext; [|exact F]. auto. }
    destruct X as [(e & -> & E)|[(-> & E & R & T)|(-> & E & t & F & N)]].
    - right. left. destruct Z as (l0 & o & -> & Fo). exists l0, o, e. rewrite removelast_last in F2. repeat (split; auto). eapply All; eauto.
    - left. exists rs. split; [exact E|]. split; auto. split.
      + intros o. rewrite R. split; apply reach_ext; auto.
      + intros t M. apply T. inversion M as [w W|p e f v w Rp Hg If K W]; subst; [now apply m_obj|].
        eapply m_field; [eapply reach_ext; [|exact Rp]; auto | eauto | eauto | now rewrite Ext | auto].
    - right. right. split; [exact E|]. split; [eapply All; eauto|]. exists t. split; auto. eapply found_ext; [|exact F]. auto.
  Qed.

  (** ** The order of a list *)

  Definition noting (h : heap) (o : oid) : list oid + exn := inl [o].

  Lemma noting_results : forall h l rs, Forall2 (fun o r => noting h o = inl r) l rs -> concat rs = l.
  Proof. induction 1 as [|o r l rs E F IH]; auto. injection E as <-. cbn. now rewrite IH. Qed.

  Lemma trip_func : forall h arrange keep backwards s stack l f, trip h arrange keep backwards s stack l f ->
    forall l' f', trip h arrange keep backwards s stack l' f' -> l' = l /\ f' = f.
  Proof.
    intros h arrange keep backwards. induction 1 as [s|s o rest l f I T IH|s o rest l f N T IH|s t rest C|s v rest l f N C T IH]; intros l' f' T'; inversion T'; subst; auto; try contradiction;
      try (exfalso; match goal with A : forall o, PRef _ <> PRef o |- _ => now apply (A _ eq_refl) | A : forall o, _ <> PRef o |- _ => now apply (A _ eq_refl) end).
    - match goal with A : trip _ _ _ _ (o :: s) _ _ _ |- _ => destruct (IH _ _ A) as [-> ->] end. auto.
    - exfalso. match goal with A : forall t, _ = PTuple t -> can_hash _ |- _ => now apply C, (A t) end.
    - exfalso. match goal with A : ~ can_hash _ |- _ => apply A; now apply (C _ eq_refl) end.
  Qed.

  (** What comes first in a list or tuple is dealt with first: the entities reached from the first part
      of it are visited, all of them, before any other. *)
  Theorem flatmap_keeps_order : forall (seq : list pv -> pv) uni keep h a b l, seq = PList \/ seq = PTuple -> enters uni keep ->
    recursive_flatmap sorted oid noting uni h (seq (a ++ b)) = Ended (h, l) ->
    exists la lb, l = la ++ lb /\ NoDup l /\ (forall o, In o la <-> reach h keep (PList a) o)
      /\ (forall o, In o l <-> reach h keep (PList (a ++ b)) o).
  Proof.
    intros seq uni keep h a b l Sq En E. assert (Ext := enters_skipped uni keep En).
    set (kp := fun k f => negb (uni && skipped k f)) in *.
    destruct (trip_exists h sorted kp true sorts _ [] [seq (a ++ b)] (budget_enough h _)) as (l1 & f & T).
    destruct (loop_trip h sorted kp true sorts _ (extend oid noting) true (extend_keeps _ _) _ _ _ _ T _ (h, []) (budget_enough h _) (same_fields_refl h))
      as (l' & st' & x & C & [r E1] & L & N).
    unfold recursive_flatmap in E. fold kp in E. cbn [fst] in L. rewrite L in E.
    destruct (extend_calls _ _ _ _ _ _ _ C) as (Hf & rs & F2 & Es & Z). destruct x as [e|]; [discriminate|]. specialize (N eq_refl). subst l'.
    destruct f; [|discriminate]. injection E as ->. cbn [fst snd app] in Hf, Es. apply noting_results in F2. rewrite F2 in Es. subst l1. clear Hf Z r E1 L C.
    assert (Tl : trip h sorted kp true [] (a ++ b) l Complete).
    { destruct Sq as [-> | ->]; inversion T as [| | | |? ? ? ? ? Np Ch T1]; subst; unfold pushed in T1; rewrite rev_involutive, app_nil_r in T1; exact T1. }
    destruct (trip_app _ _ _ _ _ _ _ _ Tl a b eq_refl) as [[X _]|(la & lb & -> & T1 & T2)]; [discriminate|].
    assert (Lst : forall x l, trip h sorted kp true [] x l Complete -> trip h sorted kp true [] [PList x] l Complete).
    { intros x l0 T0. apply t_plain; try congruence. unfold pushed. now rewrite rev_involutive, app_nil_r. }
    destruct (trip_start h sorted kp true sorts _ _ _ (Lst _ _ T1)) as (_ & _ & R1). destruct (R1 eq_refl) as [Ra _].
    destruct (trip_start h sorted kp true sorts _ _ _ (Lst _ _ Tl)) as (O & _ & R2). destruct (R2 eq_refl) as [Rl _].
    exists la, lb. split; auto. split; [eapply in_order_nodup; eauto|]. split; intros o.
    - rewrite Ra. split; apply reach_ext; unfold kp; auto.
    - rewrite Rl. split; apply reach_ext; unfold kp; auto.
  Qed.
End Flatmap.

(** recursive_foreach takes a list from its end. *)
Theorem foreach_reverses_order : forall (seq : list pv -> pv) apply_first h a b l, seq = PList \/ seq = PTuple ->
  recursive_foreach note apply_first (seq (a ++ b)) (h, []) = Ended (h, l) ->
  exists lb la, l = lb ++ la /\ NoDup l /\ (forall o, In o lb <-> reach h everything (PList b) o)
    /\ (forall o, In o l <-> reach h everything (PList (a ++ b)) o).
Proof.
  intros seq first h a b l Sq E. set (ident := fun d : list (string * pv) => d).
  assert (sorts : forall l, Permutation (ident l) l) by (intros; apply Permutation_refl).
  destruct (trip_exists h ident everything false sorts _ [] [seq (a ++ b)] (budget_enough h _)) as (l1 & f & T).
  destruct (loop_trip h ident everything false sorts _ note first note_keeps _ _ _ _ T _ (h, []) (budget_enough h _) (same_fields_refl h))
    as (l' & st' & x & C & [r E1] & L & N).
  unfold recursive_foreach in E. cbn [fst] in E. change (fun d : list (string * pv) => d) with ident in E. change (fun (_ : ekind) (_ : string) => true) with everything in E. rewrite L in E.
  destruct (note_calls _ _ _ _ _ C) as [-> ->]. specialize (N eq_refl). subst l'.
  destruct f; [|discriminate]. injection E as ->. clear r E1 L C.
  assert (Tl : trip h ident everything false [] (rev b ++ rev a) l Complete).
  { rewrite <- rev_app_distr. destruct Sq as [-> | ->]; inversion T as [| | | |? ? ? ? ? Np Ch T1]; subst; unfold pushed in T1; rewrite app_nil_r in T1; exact T1. }
  destruct (trip_app _ _ _ _ _ _ _ _ Tl (rev b) (rev a) eq_refl) as [[X _]|(lb & la & -> & T1 & T2)]; [discriminate|].
  assert (Lst : forall x l, trip h ident everything false [] (rev x) l Complete -> trip h ident everything false [] [PList x] l Complete).
  { intros x l0 T0. apply t_plain; try congruence. unfold pushed. now rewrite app_nil_r. }
  rewrite <- rev_app_distr in Tl.
  destruct (trip_start h ident everything false sorts _ _ _ (Lst _ _ T1)) as (_ & _ & R1). destruct (R1 eq_refl) as [Rb _].
  destruct (trip_start h ident everything false sorts _ _ _ (Lst _ _ Tl)) as (O & _ & R2). destruct (R2 eq_refl) as [Rl _].
  exists lb, la. split; auto. split; [eapply in_order_nodup; eauto|]. split; auto.
Qed.

(** ** set_uuids *)

Lemma uuid_keeps : forall uuid4 scope, keeps_fields (func_set_uuid uuid4 scope).
Proof.
  intros uuid4 scope o [h n] o'. unfold func_set_uuid, give_uid. cbn [fst].
  destruct (hget h o) as [e|] eqn:E; auto. destruct (e_uids e); auto. cbn [fst]. rewrite hget_set_uids.
  destruct (Nat.eqb o o'); auto. destruct (hget h o'); auto.
Qed.

Lemma uuid_calls : forall uuid4 scope l st st' x, calls _ (func_set_uuid uuid4 scope) l st st' x ->
  x = None /\ st' = fold_left (give_uid uuid4 scope) l st.
Proof.
  induction 1 as [|o st st' e E|o l st st1 st2 x E C IH]; auto; unfold func_set_uuid in E; [discriminate|].
  injection E as <-. exact IH.
Qed.

(** set_uuids on every graph and object. Some entities were dealt with: those that had no uid have exactly one, under
    the scope, from a call of the generator of their own; everything else is as before. They are all the
    reachable entities, and the function returns; or a tuple with a list or dictionary in it was met, a
    TypeError is raised, and those dealt with before it keep their new uids. *)
Theorem set_uuids_outcome : forall uuid4 h n obj scope, exists l h' n' num,
  in_order_found h everything obj l
  /\ (forall o e, hget h o = Some e ->
        (In o l -> e_uids e = [] -> hget h' o = Some (mkE (e_kind e) [(scope, uuid4 (num o))] (e_fields e)) /\ n <= num o < n')
        /\ (~ In o l \/ e_uids e <> [] -> hget h' o = Some e))
  /\ (forall o, hget h o = None -> hget h' o = None)
  /\ (forall o o' e e', In o l -> In o' l -> hget h o = Some e -> hget h o' = Some e' -> e_uids e = [] -> e_uids e' = [] -> num o = num o' -> o = o')
  /\ ((set_uuids_all uuid4 h n obj scope = Ended (h', n') /\ (forall o, In o l <-> reach h everything obj o) /\ hashable_tuples h everything obj)
      \/ (set_uuids_all uuid4 h n obj scope = Threw TypeError (h', n') /\ ~ hashable_tuples h everything obj)).
Proof.
  intros uuid4 h n obj scope. unfold set_uuids_all.
  destruct (foreach_outcome _ _ false h n obj (uuid_keeps uuid4 scope)) as (l & st' & x & C & O & X).
  destruct (uuid_calls _ _ _ _ _ _ C) as [-> Es].
  destruct (given_step uuid4 scope l h n (in_order_nodup _ _ _ _ O)) as (Len & Ln & num & G1 & G2 & G3). rewrite <- Es in *. destruct st' as [h' n']. cbn [fst snd] in *.
  exists l, h', n', num. split; auto. split.
  { intros o e He. split.
    - intros I U. split; [|eapply G3; eauto]. rewrite (G1 o e He), U. now replace (mem o l) with true by (symmetry; now apply mem_In).
    - intros [N|U]; rewrite (G1 o e He).
      + replace (mem o l) with false; auto. symmetry. destruct (mem o l) eqn:M; auto. apply mem_In in M. contradiction.
      + destruct (e_uids e); [congruence|]. now rewrite andb_false_r. }
  split.
  { intros o Ho. unfold hget in *. apply nth_error_None. rewrite Len. now apply nth_error_None. }
  split; [intros; eapply G2; eauto|].
  destruct X as [(e & Y & _)|[(_ & E & R & T)|(_ & E & t & F & N)]]; [discriminate | left; auto|].
  right. split; auto. intros T. apply N. apply T. eapply found_met; [|exact F]. now apply in_order_reach.
Qed.

(** ** The same visits as in TravModel *)
Theorem visits_agree : forall h obj l, foreach h obj = Done l <-> recursive_foreach note false obj (h, []) = Ended (h, l).
Proof.
  intros h obj l. unfold foreach, visits, recursive_foreach. cbn [fst].
  enough (G : forall n s stack, walk h (fun d => d) (fun _ _ => true) false n s stack = Done l <->
    loop (list oid) note (fun d => d) (fun _ _ => true) false false n s stack (h, rev s) = Ended (h, l)) by apply (G _ []).
  induction n as [|n IH]; intros s stack; destruct stack as [|v rest]; cbn [walk loop]; try (split; congruence).
  destruct v as [| | |o|t|t|t|ty t]; try apply IH.
  - destruct (mem o s); [apply IH|]. cbn [note fst snd]. apply (IH (o :: s)).
  - destruct (hashable (PTuple t)); [apply IH | split; congruence].
Qed.

(** ** Examples *)

(** A graph with a cycle in which a tuple with a list in it is met after two of the entities: their uids stay. *)
Definition ex_bad : heap :=
  [ mkE KMatR [] [("tags", PTuple [PList []]); ("measurements", PList [PRef 1])]
  ; mkE KMeasR [] [("material", PRef 0)]
  ; mkE KMeasS [] [] ].

Example set_uuids_outcome_ex : exists h', set_uuids_all ex_uuid ex_bad 0 (PList [PRef 2; PRef 0]) "auto" = Threw TypeError (h', 2)
  /\ map e_uids h' = [[("auto", "a")]; [("auto", "b")]; []].
Proof. eexists. vm_compute. split; reflexivity. Qed.

Example owner_before_members_ex : recursive_foreach note false (PRef 0) (ex_pair, []) = Ended (ex_pair, [0; 1]).
Proof. reflexivity. Qed.

(** A function that raises on the second entity. *)
Example foreach_outcome_ex :
  let f := fun o (st : heap * nat) => ((fst st, S (snd st)), if Nat.eqb o 1 then Some ValueError else None) in
  keeps_fields f /\ recursive_foreach f false (PList [PRef 2; PRef 0]) (ex_pair, 0) = Threw ValueError (ex_pair, 2).
Proof. split; [intros o st; apply same_fields_refl | reflexivity]. Qed.

Example flatmap_keeps_order_ex :
  recursive_flatmap (fun d => d) oid noting true ex_pair (PList ([PRef 2] ++ [PRef 1])) = Ended (ex_pair, [2; 1; 0])
  /\ recursive_foreach note false (PList ([PRef 2] ++ [PRef 1])) (ex_pair, []) = Ended (ex_pair, [1; 0; 2]).
Proof. split; reflexivity. Qed.

Print Assumptions foreach_outcome.
Print Assumptions foreach_raises_iff.
Print Assumptions apply_first_irrelevant.
Print Assumptions owner_before_members.
Print Assumptions flatmap_outcome.
Print Assumptions flatmap_keeps_order.
Print Assumptions foreach_reverses_order.
Print Assumptions set_uuids_outcome.
Print Assumptions visits_agree.
