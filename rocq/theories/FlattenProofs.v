(** flatten *)
From Coq Require Import String List Bool Arith Lia Permutation Sorted.
From Verif Require Import Base BaseFacts CidModel GraphModel GraphSpec GraphProofs EqModel EqSpec EqProofs EqCopies TravModel TravSpec TravProofs TravProperties SerialModel SerialSpec SerialSim SerialProofs SerialLinks SerialEntity SerialRecords.
Import ListNotations.
Open Scope string_scope.
Open Scope list_scope.
Open Scope nat_scope.

Section Sort.
  Context {A : Type}.
  Variable key : A -> nat.

  Lemma insert_by_perm : forall x l, Permutation (insert_by key x l) (x :: l).
  Proof. induction l as [|y r IH]; cbn; auto. destruct (key x <=? key y); auto. rewrite IH. apply perm_swap. Qed.
  Lemma sort_by_perm : forall l, Permutation (sort_by key l) l.
  Proof. induction l as [|x r IH]; cbn; auto. unfold sort_by in *. cbn [fold_right]. rewrite insert_by_perm. now constructor. Qed.
  Lemma insert_by_sorted : forall x l, StronglySorted (fun a b => key a <= key b) l -> StronglySorted (fun a b => key a <= key b) (insert_by key x l).
  Proof.
    induction l as [|y r IH]; intros S; cbn; [repeat constructor|]. inv S. destruct (key x <=? key y) eqn:E.
    - apply Nat.leb_le in E. constructor; [now constructor|]. constructor; auto. eapply Forall_impl; eauto. cbn. intros. lia.
    - apply Nat.leb_gt in E. constructor; auto. rewrite Forall_forall in *. intros z I. apply (Permutation_in _ (insert_by_perm x r)) in I.
      destruct I as [<-|I]; auto. lia.
  Qed.
  Lemma sort_by_sorted : forall l, StronglySorted (fun a b => key a <= key b) (sort_by key l).
  Proof. induction l as [|x r IH]; cbn; [constructor|]. unfold sort_by in *. cbn [fold_right]. now apply insert_by_sorted. Qed.

  Lemma sorted_before : forall l1 (y : A) l2 x, StronglySorted (fun a b => key a <= key b) (l1 ++ y :: l2) -> In x (l1 ++ y :: l2) -> key x < key y -> In x l1.
  Proof.
    intros l1 y l2 x S I H. apply in_app_or in I as [I|[<-|I]]; auto; [lia|]. exfalso. revert S. induction l1 as [|z l1 IH]; cbn; intros S; inv S; auto.
    rewrite Forall_forall in H3. apply H3 in I. lia.
  Qed.
End Sort.

Lemma rank_ref : forall k f pk, asked_kind k f pk -> rank pk < rank k.
Proof. intros k f pk H. unfold asked_kind in H. cbn in H. repeat destruct H as [E|H]; try contradiction; inv E; cbn; lia. Qed.

Lemma pair_eqb_eq : forall p q, pair_eqb p q = true <-> p = q.
Proof.
  intros [a b] [c d]. unfold pair_eqb. cbn. rewrite andb_true_iff, !String.eqb_eq. split; [intros [-> ->]; auto | intros E; now inv E].
Qed.

Lemma new_by_uid_all : forall h l seen, NoDup l ->
  (forall o, In o l -> exists e, hget h o = Some e /\ e_uids e <> []) ->
  (forall o s i, In o l -> uid_of h o s i -> ~ In (s, i) seen) ->
  (forall o o' s i, In o l -> In o' l -> uid_of h o s i -> uid_of h o' s i -> o = o') ->
  new_by_uid h seen l = Ok l.
Proof.
  intros h l. induction l as [|o l IH]; intros seen N H1 H2 H3; [reflexivity|]. inv N. cbn [new_by_uid].
  destruct (H1 o (or_introl eq_refl)) as (e & He & Ne). rewrite He. destruct (e_uids e) as [|p r] eqn:Eu; [congruence|]. rewrite <- Eu in *.
  rewrite IH; auto.
  - cbn [bind]. replace (existsb (fun u => existsb (pair_eqb u) seen) (e_uids e)) with false; auto. symmetry. apply not_true_is_false. intros X.
    apply existsb_exists in X as ([s i] & I & X). apply existsb_exists in X as (q & J & X). apply pair_eqb_eq in X. subst q.
    apply (H2 o s i); auto; [now left|]. exists e. auto.
  - intros x I. apply H1. now right.
  - intros x s i I U J. apply in_app_or in J as [J|J]; [|eapply H2; eauto; now right].
    assert (x = o) by (eapply (H3 x o s i); eauto; [now right | now left | exists e; auto]). subst x. contradiction.
  - intros x y s i I J. apply H3; now right.
Qed.

Lemma traverse_ok : forall A B (f : A -> res B) (P : A -> B -> Prop) l, (forall x, In x l -> exists y, f x = Ok y /\ P x y) ->
  exists ys, traverse f l = Ok ys /\ Forall2 P l ys.
Proof.
  induction l as [|x l IH]; intros H; [exists []; split; constructor|].
  destruct (H x (or_introl eq_refl)) as (y & E & Py). destruct IH as (ys & E' & F); [intros; apply H; now right|].
  exists (y :: ys). cbn [traverse]. rewrite E. cbn. rewrite E'. cbn. auto.
Qed.

(** What a field says through its getter is among what is reachable. *)
Lemma fval_in : forall h o f v, fval h o f = v -> v <> PNone -> exists e, hget h o = Some e /\ In (f, v) (e_fields e).
Proof.
  intros h o f v H N. unfold fval in H. destruct (hget h o) as [e|]; [|congruence]. exists e. split; auto. unfold fget in H.
  destruct (dict_get f (e_fields e)) eqn:E; [|congruence]. subst. now apply dict_get_In.
Qed.
Lemma fval_reach : forall h obj o f x, reachable h obj o -> mentions (fval h o f) x -> reachable h obj x.
Proof.
  intros h obj o f x R M. destruct (fval_in h o f _ eq_refl) as (e & He & I); [intros E; rewrite E in M; inv M|].
  eapply r_field; eauto.
Qed.
Lemma read_reach : forall h obj o f x, reachable h obj o -> mentions (read h o f) x -> reachable h obj x.
Proof.
  intros h obj o f x R M. unfold read in M. destruct (kind_at h o) as [[]|]; try (eapply fval_reach; eauto; fail).
  destruct (String.eqb f "name" || String.eqb f "labels"); try (eapply fval_reach; eauto; fail).
  destruct (fval h o "spec") eqn:Es; try (eapply fval_reach; eauto; fail).
  destruct (is_kind h KIngS (PRef o0)); try (eapply fval_reach; eauto; fail).
  assert (R' : reachable h obj o0) by (eapply (fval_reach h obj o "spec"); eauto; rewrite Es; constructor).
  eapply fval_reach; eauto.
Qed.

Section FL.
  Variable lower : string -> string.
  Variable known : string -> bool.
  Variable construct : heap -> string -> list (string * pv) -> res (list (string * pv)).

  Lemma link_of_none : forall h o e, hget h o = Some e -> e_uids e <> [] -> exists s i r, e_uids e = (s, i) :: r /\ link_of lower h None true o = Ok (PLink s i).
  Proof.
    intros h o e He N. unfold link_of. rewrite He. destruct (e_uids e) as [|[s i] r]; [congruence|]. exists s, i, r. split; auto.
    unfold uid_get. cbn [find fst]. rewrite String.eqb_refl. reflexivity.
  Qed.
  Lemma to_links_as_link : forall h a b, to_links lower h None true a b -> as_link h a b.
  Proof.
    intros h a b H. destruct a; cbn in H; try contradiction.
    - subst b. cbn. auto.
    - destruct (link_of_link _ _ _ _ _ _ H) as (s & i & ->). cbn. unfold uid_of. unfold link_of in H.
      destruct (hget h o) as [e|]; [|discriminate]. exists e. split; auto. destruct (e_uids e) as [|[s0 i0] r]; [discriminate|].
      unfold uid_get in H. cbn [find fst] in H. rewrite String.eqb_refl in H. cbn in H. inv H. now left.
  Qed.

  Lemma thin_flat : forall h o e e', hget h o = Some e -> thin lower h None true o e e' -> flat_copy h o e'.
  Proof.
    intros h o e e' He (K & P & N & Kf & S & B). exists e. split; auto. split; auto. split; auto. split; auto. split; auto. split.
    - intros f I R. eapply sim_mono_in; [apply S; auto|]. intros a b _. apply to_links_as_link.
    - intros f R. unfold fget. rewrite B by auto. rewrite <- skipped_iff in R. destruct (e_kind e); cbn in R; try discriminate;
      try apply orb_prop in R as [R|R]; apply String.eqb_eq in R; subst; cbn; auto.
  Qed.

  (** The list of records, and the entities they are records of. *)
  Lemma flatten_set_ok : forall sorted h obj, (forall l, Permutation (sorted l) l) -> hashable_tuples h everything obj ->
    all_well_formed lower known construct h obj -> own_uids (fun s => s) h obj ->
    (forall o e, reachable h obj o -> hget h o = Some e -> e_uids e <> []) ->
    exists os es, flatten_set lower known construct sorted h obj = Ok es /\ NoDup os /\ (forall o, In o os <-> reachable h obj o)
      /\ Forall2 (fun o e' => exists e, hget h o = Some e /\ thin lower h None true o e e') os es
      /\ StronglySorted (fun a b => rank (e_kind a) <= rank (e_kind b)) es.
  Proof.
    intros sorted h obj Ps T W O U.
    destruct (flatmap_visits_partial sorted h obj Ps T) as (l & E & ND & R).
    assert (Lk : forall x, reachable h obj x -> exists k, link_of lower h None true x = Ok k).
    { intros x Rx. destruct (W x Rx) as (e & He & _). destruct (link_of_none h x e He (U x e Rx He)) as (s & i & r & _ & H). eauto. }
    destruct (traverse_ok _ _ (substitute_links_entity lower known construct h None true) (fun o e' => exists e, hget h o = Some e /\ thin lower h None true o e e') l) as (es & Et & F).
    { intros o I. apply R in I. destruct (W o I) as (e & He & We). destruct (record_ok lower known construct h None true o e He We) as (e' & Er & Th).
      - intros f x _ _ M. apply Lk. eapply read_reach; eauto.
      - exists e'. split; auto. exists e. auto. }
    destruct (Forall2_perm_l _ _ (fun e' o => exists e, hget h o = Some e /\ thin lower h None true o e e') es l (sort_by (fun e => rank (e_kind e)) es)) as (os & Po & Fo).
    { clear - F. induction F; constructor; auto. }
    { symmetry. apply sort_by_perm. }
    exists os, (sort_by (fun e => rank (e_kind e)) es). split; [|split; [|split; [|split]]].
    - unfold flatten_set. rewrite E. cbn [of_outcome bind]. rewrite (new_by_uid_all h l []); auto.
      + cbn [bind]. rewrite Et. reflexivity.
      + intros o I. apply R in I. destruct (W o I) as (e & He & _). exists e. split; auto. eapply U; eauto.
      + intros o o' s i I I' U1 U2. apply R in I. apply R in I'. eapply O; eauto.
    - eapply Permutation_NoDup; eauto.
    - intros o. unfold reachable. rewrite <- R. split; apply Permutation_in; auto. now symmetry.
    - clear - Fo. induction Fo; constructor; auto.
    - apply (sort_by_sorted (fun e => rank (e_kind e))).
  Qed.

  (** References go to entities of lower rank. *)
  Lemma reference_rank : forall h obj o e f x, all_well_formed lower known construct h obj -> attributes_typed h obj ->
    reachable h obj o -> hget h o = Some e -> In f (keys (e_fields e)) -> ~ read_only (e_kind e) f -> mentions (read h o f) x ->
    exists k, kind_at h x = Some k /\ rank k < rank (e_kind e).
  Proof.
    intros h obj o e f x W T R He If B M. destruct (W o R) as (e0 & He0 & We). rewrite He in He0. inv He0.
    assert (Ko : kind_at h o = Some (e_kind e0)) by (unfold kind_at; now rewrite He).
    destruct (in_dec string_dec f (ref_args (e_kind e0))) as [Ir|Ir].
    - apply ref_args_iff in Ir. rewrite (read_fval h o f (e_kind e0)) in M; auto.
      destruct (wf_refs _ _ _ _ _ _ We f Ir) as (k & pk & K & A & [E|[(s & i & E)|(p & E & Kp)]]); rewrite E in M; inv M.
      exists pk. split; auto. rewrite Ko in K. inv K. eapply rank_ref; eauto.
    - rewrite ref_args_iff in Ir. destruct (T o e0 f x R He If Ir B M) as [At An].
      assert (Rk : 0 < rank (e_kind e0)). { unfold attribute_template in An. rewrite Ko in An. destruct (e_kind e0); cbn; try lia; exfalso; tauto. }
      destruct At as [K|[K|K]]; eexists; (split; [exact K|]); cbn; lia.
  Qed.
End FL.

(** ** Heaps that differ in uids only *)

Definition same_content (h h' : heap) : Prop :=
  forall o, option_map (fun e => (e_kind e, e_fields e)) (hget h' o) = option_map (fun e => (e_kind e, e_fields e)) (hget h o).

Lemma same_content_sym : forall h h', same_content h h' -> same_content h' h.
Proof. intros h h' S o. symmetry. apply S. Qed.
Lemma same_some : forall h h' o e, same_content h h' -> hget h o = Some e -> exists e', hget h' o = Some e' /\ e_kind e' = e_kind e /\ e_fields e' = e_fields e.
Proof. intros h h' o e S He. specialize (S o). rewrite He in S. destruct (hget h' o) as [e'|]; [|discriminate]. cbn in S. inv S. eauto. Qed.
Lemma same_kind : forall h h' o, same_content h h' -> kind_at h' o = kind_at h o.
Proof. intros h h' o S. unfold kind_at. specialize (S o). destruct (hget h' o), (hget h o); cbn in *; try discriminate; auto. now inv S. Qed.
Lemma same_fval : forall h h' o f, same_content h h' -> fval h' o f = fval h o f.
Proof. intros h h' o f S. unfold fval, fget. specialize (S o). destruct (hget h' o), (hget h o); cbn in *; try discriminate; auto. now inv S. Qed.
Lemma same_read : forall h h' o f, same_content h h' -> read h' o f = read h o f.
Proof.
  intros h h' o f S. unfold read, is_kind. rewrite (same_kind _ _ _ S), !(same_fval _ _ _ _ S).
  destruct (kind_at h o) as [[]|]; auto. destruct (String.eqb f "name" || String.eqb f "labels"); auto.
  destruct (fval h o "spec"); auto. now rewrite (same_kind _ _ _ S), (same_fval _ _ _ _ S).
Qed.
Lemma same_reach : forall h h' obj o, same_content h h' -> reachable h obj o -> reachable h' obj o.
Proof.
  intros h h' obj o S. apply reach_same_fields; intros x; specialize (S x); destruct (hget h' x), (hget h x); cbn in *; try discriminate; auto; now inv S.
Qed.
Lemma same_hashable : forall h h' obj, same_content h h' -> hashable_tuples h everything obj -> hashable_tuples h' everything obj.
Proof.
  intros h h' obj S T l M. apply T. inv M; [now apply m_obj|].
  destruct (same_some h' h o e (same_content_sym _ _ S) H0) as (e0 & He0 & K & F). rewrite <- F in H1. eapply m_field; eauto. eapply same_reach; eauto. now apply same_content_sym.
Qed.
Lemma same_accepts : forall construct h h' t fs, same_content h h' -> accepts construct h t fs -> accepts construct h' t fs.
Proof.
  intros construct h h' t fs S A g d Sd. apply A. eapply sim_mono_in; eauto. intros a b _. destruct a, b; cbn; auto. now rewrite (same_kind _ _ _ S).
Qed.
Lemma same_storable : forall known construct h h' v, same_content h h' -> storable known construct h v -> storable known construct h' v.
Proof.
  intros known construct h h' v S. induction v using pv_ind2; intros St; inversion St; subst; try constructor; auto.
  - rewrite Forall_forall in *. auto.
  - rewrite Forall_forall in *. auto.
  - rewrite Forall_forall in *. auto.
  - eapply same_accepts; eauto.
Qed.
Lemma same_well_typed : forall h h' o f v, same_content h h' -> well_typed h o f v -> well_typed h' o f v.
Proof.
  intros h h' o f v S (k & pk & K & A & V). exists k, pk. rewrite (same_kind _ _ _ S). split; auto. split; auto.
  destruct V as [V|[V|(p & -> & Kp)]]; auto. right. right. exists p. split; auto. now rewrite (same_kind _ _ _ S).
Qed.

Lemma same_well_formed : forall lower known construct h h' o e e', same_content h h' -> hget h o = Some e -> hget h' o = Some e' ->
  NoDup (map (fun p => lower (fst p)) (e_uids e')) -> ~ In "type" (keys (e_uids e')) -> ~ In "seq" (keys (e_uids e')) /\ ~ In "self" (keys (e_uids e')) ->
  well_formed lower known construct h o e -> well_formed lower known construct h' o e'.
Proof.
  intros lower known construct h h' o e e' S He He' N T Tw W. destruct (same_some h h' o e S He) as (e0 & He0 & K & F). rewrite He' in He0. inv He0.
  destruct W as [[] wf_atoms]. split; [split|]; rewrite ?K, ?F; auto.
  - intros f R. rewrite (same_fval _ _ _ _ S). eapply same_well_typed; eauto.
  - intros f I R. rewrite (same_read _ _ _ _ S). eapply same_storable; eauto.
  - intros d Nd H. eapply same_accepts; eauto. apply rp_plain; auto. intros f v. rewrite H. now rewrite (same_read _ _ _ _ S).
  - intros a b A B. apply wf_atoms; [destruct A as (f & A) | destruct B as (f & B)]; exists f; rewrite (same_read _ _ _ _ S) in *; now rewrite ?K, ?F in *.
Qed.

(** What set_uuids leaves behind. *)
Lemma set_uuids_ready : forall lower known construct fold uuid4 h n obj scope, hashable_tuples h everything obj ->
  all_well_formed lower known construct h obj -> own_uids fold h obj -> fresh_uuids uuid4 n h obj -> plain_scope scope ->
  exists h' n', set_uuids uuid4 h n obj scope = Done (h', n') /\ same_content h h' /\ n <= n'
    /\ all_well_formed lower known construct h' obj /\ own_uids fold h' obj
    /\ (forall o e, reachable h' obj o -> hget h' o = Some e -> e_uids e <> [])
    /\ (forall o e, hget h o = Some e -> e_uids e <> [] -> hget h' o = Some e)
    /\ (forall o s i, reachable h' obj o -> uid_of h' o s i -> uid_of h o s i \/ (s = scope /\ exists m, n <= m < n' /\ i = uuid4 m)).
Proof.
  intros lower known construct fold uuid4 h n obj scope T W O [F1 F2] Sc.
  destruct (set_uuids_exact_partial uuid4 h n obj scope T) as (h' & n' & num & E & Len & A & B & C).
  destruct (set_uuids_complete_partial uuid4 h n obj scope T) as (h2 & n2 & E2 & Iff & U). rewrite E in E2. inv E2.
  assert (Dec : forall o, {reach h everything obj o} + {~ reach h everything obj o}).
  { destruct (foreach h obj) as [l| |] eqn:Ef; [| exfalso; destruct (foreach_visits_partial h obj T) as (l & X & _); congruence ..].
    intros o. destruct (in_dec Nat.eq_dec o l) as [I|I]; [left|right]; destruct (foreach_visits_partial h obj T) as (l' & X & _ & R); rewrite Ef in X; inv X; [now apply R | now rewrite <- R]. }
  assert (Each : forall o e, hget h o = Some e -> hget h2 o = Some e \/ (e_uids e = [] /\ reach h everything obj o /\ hget h2 o = Some (mkE (e_kind e) [(scope, uuid4 (num o))] (e_fields e)) /\ n <= num o < n2)).
  { intros o e He. destruct (e_uids e) as [|p r] eqn:Hu; [|left; apply B; auto; left; congruence].
    destruct (Dec o) as [I|I]; [right|left; apply B; auto]. destruct (A o e He Hu I) as [X1 X2]. split; auto. }
  assert (S : same_content h h2).
  { intros o. destruct (hget h o) as [e|] eqn:He.
    - destruct (Each o e He) as [-> | (_ & _ & -> & _)]; reflexivity.
    - replace (hget h2 o) with (@None entity); auto. symmetry. unfold hget in *. apply nth_error_None. rewrite Len. now apply nth_error_None. }
  assert (Src : forall o s i, reachable h2 obj o -> uid_of h2 o s i -> uid_of h o s i \/ (s = scope /\ exists e, hget h o = Some e /\ e_uids e = [] /\ n <= num o < n2 /\ i = uuid4 (num o))).
  { intros o s i R (e2 & He2 & I). destruct (same_some h2 h o e2 (same_content_sym _ _ S) He2) as (e & He & _).
    destruct (Each o e He) as [X|(Hu & Ro & X & Bd)]; rewrite He2 in X; inv X.
    - left. exists e. auto.
    - right. cbn in I. destruct I as [I|[]]. inv I. split; auto. exists e. auto. }
  exists h2, n2. split; auto. split; auto. split.
  { unfold set_uuids in E. destruct (foreach h obj) as [l| |]; try discriminate. inv E.
    assert (M : forall l h n, n <= snd (fold_left (give_uid uuid4 scope) l (h, n))).
    { clear. induction l as [|x l IH]; intros h n; cbn [fold_left]; auto. unfold give_uid at 2. destruct (hget h x) as [e|]; [|apply IH].
      destruct (e_uids e); [|apply IH]. eapply Nat.le_trans; [|apply IH]. lia. }
    specialize (M l h n). destruct (fold_left (give_uid uuid4 scope) l (h, n)). inv H0. exact M. }
  split; [|split; [|split; [|split]]].
  - intros o R. apply Iff in R. destruct (W o R) as (e & He & We). destruct (Each o e He) as [X|(Hu & Ro & X & Bd)].
    + exists e. split; auto. eapply (same_well_formed _ _ _ h h2 o e e); eauto; apply (wf_rep _ _ _ _ _ _ We).
    + eexists. split; eauto. eapply (same_well_formed _ _ _ h h2 o e); eauto; cbn; [repeat constructor; intros []| |]; destruct Sc as (Sc & Sc1 & Sc2); [|split]; intros [X'|[]]; congruence.
  - intros o o' s s' i R R' U1 U2 Es. assert (Ro := proj1 (Iff o) R). assert (Ro' := proj1 (Iff o') R').
    destruct (Src _ _ _ R U1) as [X|(-> & e & He & Hu & Bd & ->)], (Src _ _ _ R' U2) as [Y|(-> & e' & He' & Hu' & Bd' & Ei)].
    + eapply O; eauto.
    + subst i. exfalso. eapply F2; [|exact Ro|exact X]. lia.
    + exfalso. eapply F2; [|exact Ro'|exact Y]. lia.
    + eapply (C o o' e e'); eauto. apply F1; auto; lia.
  - exact U.
  - intros o e He Hu. destruct (Each o e He) as [X|(Hu' & _)]; [exact X|congruence].
  - intros o s i R U1. destruct (Src _ _ _ R U1) as [X|(-> & e & He & Hu & Bd & ->)]; auto. right. split; auto. eauto.
Qed.

Lemma uids_apart : forall h os es, NoDup os -> Forall2 (flat_copy h) os es -> (forall o e, In o os -> hget h o = Some e -> NoDup (e_uids e)) ->
  (forall o o' s i, In o os -> In o' os -> uid_of h o s i -> uid_of h o' s i -> o = o') -> NoDup (concat (map e_uids es)).
Proof.
  intros h os es N F Nd O. induction F as [|o e' os es C F IH]; [constructor|]. inv N. cbn [map concat]. destruct C as (e & He & K & P & _).
  apply NoDup_app_intro.
  - eapply Permutation_NoDup; [symmetry; exact P|]. eapply Nd; eauto. now left.
  - apply IH; auto; intros; [eapply Nd; eauto; now right | eapply O; eauto; now right].
  - intros [s i] I J. apply in_concat in J as (u & Iu & J). apply in_map_iff in Iu as (e2 & <- & Ie2).
    destruct (Forall2_in_r _ _ _ _ _ F e2 Ie2) as (o2 & Io2 & C2). destruct C2 as (e3 & He3 & _ & P3 & _).
    assert (o = o2); [|subst; contradiction]. apply (O o o2 s i); [now left | now right | exists e | exists e3]; (split; auto); eapply Permutation_in; eauto.
Qed.

Lemma flatmap_done_in : forall sorted h obj l, (forall l, Permutation (sorted l) l) -> flatmap sorted false h obj = Done l ->
  forall o, In o l <-> reachable h obj o.
Proof.
  intros sorted h obj l P E. destruct (visits_outcome h sorted (fun k f => negb (false && skipped k f)) true P obj) as [(l' & E' & _ & R)|(E' & _)].
  - unfold flatmap in E. rewrite E' in E. inv E. intros o. rewrite R. split; apply reach_ext; auto.
  - unfold flatmap in E. congruence.
Qed.

Lemma app_inj_len : forall A (a b c d : list A), a ++ b = c ++ d -> length a = length c -> a = c /\ b = d.
Proof.
  induction a as [|x a IH]; intros b [|y c] d E L; cbn in *; try discriminate; auto. inv E. destruct (IH b c d) as [-> ->]; auto.
Qed.
