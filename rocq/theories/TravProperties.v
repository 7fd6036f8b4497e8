(** C20: graph traversals; C19: set_uuids. *)
From Coq Require Import String List Bool Arith Lia Permutation.
From Verif Require Import Base BaseFacts GraphModel GraphProofs EqSpec EqProofs EqCopies TravModel TravSpec TravProofs.
Import ListNotations.
Open Scope string_scope.
Open Scope list_scope.
Open Scope nat_scope.

(** ** C20 *)

(** Both traversals end on every graph, cyclic or not: the loop never runs out of steps. They raise
    nothing but TypeError, and only on meeting a tuple that contains a list or a dictionary. *)
Theorem foreach_terminates : forall h obj,
  (exists l, foreach h obj = Done l)
  \/ (foreach h obj = Raised TypeError /\ exists l, met h everything obj (PTuple l) /\ ~ can_hash (PTuple l)).
Proof.
  intros. destruct (visits_outcome h (fun d => d) (fun _ _ => true) false (fun l => Permutation_refl l) obj) as [(l & E & _)|X].
  - left. eauto.
  - right. exact X.
Qed.

Theorem flatmap_terminates : forall sorted uni h obj, (forall l, Permutation (sorted l) l) ->
  (exists l, flatmap sorted uni h obj = Done l)
  \/ (flatmap sorted uni h obj = Raised TypeError /\ exists l, met h everything obj (PTuple l) /\ ~ can_hash (PTuple l)).
Proof.
  intros sorted uni h obj P.
  destruct (visits_outcome h sorted (fun k f => negb (uni && skipped k f)) true P obj) as [(l & E & _)|(E & l & M & N)].
  - left. eauto.
  - right. split; [exact E|]. exists l. split; auto.
    assert (R : forall o, reach h (fun k f => negb (uni && skipped k f)) obj o -> reach h everything obj o).
    { induction 1; [now apply r_obj | eapply r_field; eauto]. }
    inversion M; subst; [now apply m_obj | eapply m_field; eauto].
Qed.

(** recursive_foreach calls the function exactly once on every reachable entity and on no other.
    Missing for the full C20: tuples containing lists or dictionaries ([unhashable_tuple_refuted]). *)
Theorem foreach_visits_partial : forall h obj, hashable_tuples h everything obj ->
  exists l, foreach h obj = Done l /\ NoDup l /\ forall o, In o l <-> reach h everything obj o.
Proof.
  intros h obj T. destruct (visits_outcome h (fun d => d) (fun _ _ => true) false (fun l => Permutation_refl l) obj) as [X|(E & l & M & N)]; [exact X|].
  exfalso. apply N. now apply T.
Qed.

Lemma reach_ext : forall h k1 k2 obj, (forall k f, k1 k f = k2 k f) -> forall o, reach h k1 obj o -> reach h k2 obj o.
Proof. intros h k1 k2 obj E. induction 1; [now apply r_obj|]. eapply r_field; eauto. Qed.

(** The same of recursive_flatmap: in both directions, or leaving out the read-only fields. *)
Theorem flatmap_visits_partial : forall sorted h obj, (forall l, Permutation (sorted l) l) -> hashable_tuples h everything obj ->
  exists l, flatmap sorted false h obj = Done l /\ NoDup l /\ forall o, In o l <-> reach h everything obj o.
Proof.
  intros sorted h obj P T. destruct (visits_outcome h sorted (fun k f => negb (false && skipped k f)) true P obj) as [X|(E & l & M & N)]; [exact X|].
  exfalso. apply N. now apply T.
Qed.

Lemma skipped_iff : forall k f, skipped k f = true <-> read_only k f.
Proof.
  intros k f. unfold skipped, read_only. split.
  - destruct k; try discriminate; rewrite ?orb_true_iff, ?String.eqb_eq; tauto.
  - intros [[-> ->]|[[-> | ->] [-> | ->]]]; reflexivity.
Qed.

Theorem flatmap_one_way_partial : forall sorted keep h obj, (forall l, Permutation (sorted l) l) -> hashable_tuples h everything obj ->
  (forall k f, keep k f = false <-> read_only k f) ->
  exists l, flatmap sorted true h obj = Done l /\ NoDup l /\ forall o, In o l <-> reach h keep obj o.
Proof.
  intros sorted keep h obj P T K.
  assert (Ext : forall k f, negb (true && skipped k f) = keep k f).
  { intros k f. cbn. assert (X := skipped_iff k f). assert (Y := K k f). destruct (skipped k f), (keep k f); cbn; auto.
    - symmetry. apply Y, X. reflexivity.
    - symmetry. apply X, Y. reflexivity. }
  destruct (visits_outcome h sorted (fun k f => negb (true && skipped k f)) true P obj) as [(l & E & ND & R)|(E & l & M & N)].
  - exists l. split; [exact E|]. split; auto. intros o. rewrite R. split; apply reach_ext; auto.
  - exfalso. apply N, T. inversion M; subst; [now apply m_obj|]. eapply m_field; eauto.
    clear - H. induction H; [now apply r_obj | eapply r_field; eauto].
Qed.

(** A material with a measurement, each referring to the other, in nested containers: hypotheses met. *)
Definition ex_pair : heap :=
  [ mkE KMatR [] [("spec", PNone); ("process", PNone); ("measurements", PList [PRef 1])]
  ; mkE KMeasR [("id", "x")] [("spec", PLink "id" "s"); ("material", PRef 0)]
  ; mkE KMeasS [] [("template", PNone)] ].
Definition ex_obj : pv := PDict [("a", PTuple [PRef 1; PAtom (AStr "b")]); ("c", PList [PList [PRef 1]; PRef 0])].

Lemma ex_pair_tuples : hashable_tuples ex_pair everything ex_obj.
Proof. apply hashable_tuples_check. reflexivity. Qed.

Example foreach_visits_ex : hashable_tuples ex_pair everything ex_obj /\ foreach ex_pair ex_obj = Done [0; 1]
  /\ flatmap (fun l => l) false ex_pair ex_obj = Done [1; 0]
  /\ flatmap (fun l => l) true ex_pair (PRef 0) = Done [0] /\ flatmap (fun l => l) true ex_pair (PRef 1) = Done [1; 0].
Proof. split; [exact ex_pair_tuples|]. vm_compute. auto. Qed.

(** The full C20 is false: a tuple containing a list or dictionary stops the traversal with a
    TypeError, because a tuple has a [__hash__] but cannot be hashed then. *)
Theorem unhashable_tuple_refuted : exists h obj, foreach h obj = Raised TypeError
  /\ (forall sorted uni, flatmap sorted uni h obj = Raised TypeError) /\ reach h everything obj 0.
Proof.
  exists [mkE KMatT [] []], (PTuple [PList [PRef 0]; PNone]). split; [reflexivity|]. split; [intros; reflexivity|].
  apply r_obj. eapply m_tuple; [now left|]. eapply m_list; [now left|]. constructor.
Qed.

(** ** C19 *)

(** After set_uuids, an entity that was reachable and had no uid has exactly one, under the given
    scope, freshly generated, and nothing else about it changed; every other entity is unchanged.
    No two entities are given the same call's uuid, and calls are numbered from [n] to [n'].
    Missing for the full C19: tuples containing lists or dictionaries, as for C20. *)
Theorem set_uuids_exact_partial : forall uuid4 h n obj scope, hashable_tuples h everything obj ->
  exists h' n' num, set_uuids uuid4 h n obj scope = Done (h', n') /\ length h' = length h /\
    (forall o e, hget h o = Some e -> e_uids e = [] -> reach h everything obj o ->
       hget h' o = Some (mkE (e_kind e) [(scope, uuid4 (num o))] (e_fields e)) /\ n <= num o < n')
    /\ (forall o e, hget h o = Some e -> e_uids e <> [] \/ ~ reach h everything obj o -> hget h' o = Some e)
    /\ (forall o o' e e', hget h o = Some e -> hget h o' = Some e' -> e_uids e = [] -> e_uids e' = [] ->
          reach h everything obj o -> reach h everything obj o' -> num o = num o' -> o = o').
Proof.
  intros uuid4 h n obj scope T. destruct (foreach_visits_partial h obj T) as (l & E & ND & R).
  destruct (given_step uuid4 scope l h n ND) as (Len & Ln & num & G1 & G2 & G3).
  unfold set_uuids. rewrite E. destruct (fold_left (give_uid uuid4 scope) l (h, n)) as [h' n']. cbn [fst snd] in *.
  exists h', n', num. split; auto. split; auto. split; [|split].
  - intros o e He Hu Ro. apply R in Ro. split.
    + rewrite (G1 o e He), Hu. replace (mem o l) with true; auto. symmetry. now apply mem_In.
    + eapply G3; eauto.
  - intros o e He [Hu|Nr]; rewrite (G1 o e He).
    + destruct (e_uids e); [congruence|]. now rewrite andb_false_r.
    + destruct (mem o l) eqn:M; auto. apply mem_In, R in M. contradiction.
  - intros o o' e e' He He' Hu Hu' Ro Ro'. apply R in Ro. apply R in Ro'. eapply G2; eauto.
Qed.

(** What the traversal sees is not changed by giving uids. *)
Lemma reach_same_fields : forall h h' keep obj, (forall o, option_map e_fields (hget h' o) = option_map e_fields (hget h o)) ->
  (forall o, option_map e_kind (hget h' o) = option_map e_kind (hget h o)) ->
  forall o, reach h keep obj o -> reach h' keep obj o.
Proof.
  intros h h' keep obj F K. induction 1 as [o M|o e f v o' R IH He If Kp M]; [now apply r_obj|].
  assert (Fo := F o). assert (Ko := K o). rewrite He in Fo, Ko. destruct (hget h' o) as [e'|] eqn:He'; [|discriminate]. cbn in Fo, Ko. inv Fo. inv Ko.
  eapply (r_field _ _ _ o e' f v); auto; congruence.
Qed.

(** Afterwards every reachable entity has a uid. *)
Theorem set_uuids_complete_partial : forall uuid4 h n obj scope, hashable_tuples h everything obj ->
  exists h' n', set_uuids uuid4 h n obj scope = Done (h', n') /\
    (forall o, reach h' everything obj o <-> reach h everything obj o)
    /\ forall o e, reach h' everything obj o -> hget h' o = Some e -> e_uids e <> [].
Proof.
  intros uuid4 h n obj scope T. destruct (set_uuids_exact_partial uuid4 h n obj scope T) as (h' & n' & num & E & Len & A & B & _).
  exists h', n'. split; auto.
  assert (Dec : forall o, In o (match foreach h obj with Done l => l | _ => [] end) <-> reach h everything obj o).
  { destruct (foreach_visits_partial h obj T) as (l & -> & _ & R). exact R. }
  assert (Each : forall o, (hget h o = None /\ hget h' o = None) \/ exists e e', hget h o = Some e /\ hget h' o = Some e' /\ e_kind e' = e_kind e /\ e_fields e' = e_fields e
    /\ (reach h everything obj o -> e_uids e' <> [])).
  { intros o. destruct (hget h o) as [e|] eqn:He.
    - right. destruct (e_uids e) as [|p r] eqn:Hu.
      + destruct (in_dec Nat.eq_dec o (match foreach h obj with Done l => l | _ => [] end)) as [I|I]; rewrite Dec in I.
        * exists e, (mkE (e_kind e) [(scope, uuid4 (num o))] (e_fields e)). destruct (A o e He Hu I) as [-> _]. cbn. repeat split; discriminate.
        * exists e, e. rewrite (B o e He (or_intror I)). repeat split; auto; intros; contradiction.
      + exists e, e. rewrite (B o e He) by (left; congruence). repeat split; auto; intros; congruence.
    - left. split; auto. unfold hget in *. apply nth_error_None. rewrite Len. now apply nth_error_None. }
  assert (Iff : forall o, reach h' everything obj o <-> reach h everything obj o).
  { intros o. split; apply reach_same_fields; intros x; destruct (Each x) as [[-> ->]|(e & e' & -> & -> & K & F & _)]; cbn; congruence. }
  split; [exact Iff|]. intros o e Ro He. apply Iff in Ro. destruct (Each o) as [[_ X]|(e1 & e' & H1 & H2 & _ & _ & U)]; [congruence|].
  rewrite He in H2. inv H2. auto.
Qed.

Lemma fold_give_idle : forall uuid4 scope l h n, (forall o e, In o l -> hget h o = Some e -> e_uids e <> []) -> fold_left (give_uid uuid4 scope) l (h, n) = (h, n).
Proof.
  intros uuid4 scope. induction l as [|x l IH]; intros h n H; auto. cbn [fold_left].
  replace (give_uid uuid4 scope (h, n) x) with (h, n).
  - apply IH. intros. eapply H; eauto. now right.
  - unfold give_uid. destruct (hget h x) as [e|] eqn:E; auto. specialize (H x e (or_introl eq_refl) E). destruct (e_uids e); [congruence|auto].
Qed.

(** A second call, under whatever scope, changes nothing and generates nothing. *)
Theorem set_uuids_idempotent_partial : forall uuid4 h n obj scope scope2, hashable_tuples h everything obj ->
  exists h' n', set_uuids uuid4 h n obj scope = Done (h', n') /\ set_uuids uuid4 h' n' obj scope2 = Done (h', n').
Proof.
  intros uuid4 h n obj scope scope2 T. destruct (set_uuids_complete_partial uuid4 h n obj scope T) as (h' & n' & E & Iff & U).
  destruct (set_uuids_exact_partial uuid4 h n obj scope T) as (h2 & n2 & num & E2 & Len & A & B & _). rewrite E in E2. inv E2.
  exists h2, n2. split; auto.
  assert (T' : hashable_tuples h2 everything obj).
  { intros l M. inversion M; subst; [apply T; now apply m_obj|]. apply Iff in H.
    destruct (hget h o) as [e0|] eqn:He.
    - apply T. eapply m_field; eauto. destruct (e_uids e0) eqn:Hu.
      + destruct (A o e0 He Hu H) as [X _]. rewrite H0 in X. inv X. exact H1.
      + rewrite (B o e0 He) in H0 by (left; congruence). inv H0. exact H1.
    - exfalso. unfold hget in *. apply nth_error_None in He. rewrite <- Len in He. apply nth_error_None in He. congruence. }
  destruct (foreach_visits_partial h2 obj T') as (l & Ef & _ & R). unfold set_uuids. rewrite Ef.
  f_equal. apply fold_give_idle. intros o e I He. eapply U; eauto. now apply R.
Qed.

Definition ex_uuid (n : nat) : string := String (Ascii.ascii_of_nat (97 + n)) "".
Example set_uuids_ex : hashable_tuples ex_pair everything ex_obj /\
  exists h', set_uuids ex_uuid ex_pair 0 ex_obj "auto" = Done (h', 1)
    /\ map e_uids h' = [ [("auto", "a")]; [("id", "x")]; [] ].
Proof. split; [exact ex_pair_tuples|]. eexists. vm_compute. split; reflexivity. Qed.

Print Assumptions foreach_terminates.
Print Assumptions flatmap_terminates.
Print Assumptions foreach_visits_partial.
Print Assumptions flatmap_visits_partial.
Print Assumptions flatmap_one_way_partial.
Print Assumptions unhashable_tuple_refuted.
Print Assumptions set_uuids_exact_partial.
Print Assumptions set_uuids_complete_partial.
Print Assumptions set_uuids_idempotent_partial.
