(** Proofs about thin_dumps, copy and complete_material_history. *)
From Coq Require Import String List Bool Arith Lia Permutation.
From Verif Require Import Base BaseFacts CidModel GraphModel GraphSpec GraphProofs EqModel EqSpec EqProofs TravModel TravSpec TravProofs TravProperties SerialModel SerialSpec SerialSim SerialProofs SerialLinks SerialEntity SerialRecords FlattenProofs SubstProperties LoadProofs RoundTripProofs ThinModel ThinSpec.
Import ListNotations.
Open Scope string_scope.
Open Scope list_scope.
Open Scope nat_scope.

(** ** Well-formedness carries over to copies *)

Lemma relinked_trans : forall h g k a b c, relinked h g a b -> relinked g k b c -> relinked h k a c.
Proof. intros h g k a b c H1 H2. destruct a, b, c; cbn in *; try contradiction; try tauto; try congruence. destruct H1, H2; subst; auto. Qed.

Lemma accepts_twin : forall construct h g t l m, dsim (sim (relinked h g)) l m -> accepts construct h t l -> accepts construct g t m.
Proof.
  intros construct h g t l m D H k d S. apply (H k d). apply sim_dict in S. apply sim_dict. eapply dsim_trans; eauto.
  intros f x y z _ Sxy Syz. eapply sim_trans; eauto. intros a b c _. apply relinked_trans.
Qed.

Lemma dsim_members : forall P l m k y, dsim P l m -> In (k, y) m -> exists x, In (k, x) l /\ P x y.
Proof.
  intros P l m k y D I. destruct (dsim_arrange _ _ _ D) as (l' & Pl & F). destruct (Forall2_in_r _ _ _ _ _ F _ I) as ([k' x] & Ix & E & Sx).
  cbn in E, Sx. subst k'. exists x. split; auto. eapply Permutation_in; [symmetry; exact Pl|exact Ix].
Qed.

Lemma sim_storable : forall known construct h g v, storable known construct h v -> forall w, sim (relinked h g) v w -> storable known construct g w.
Proof.
  intros known construct h g v. induction v using pv_ind2; intros St w S;
  destruct (sim_inv _ _ _ S) as [[E ->]|[(a' & E & ->)|[(E & F & Lvw)|[(l0 & m & E & -> & F)|[(l0 & m & E & -> & F)|[(l0 & m & E & -> & F)|(t0 & l0 & m & E & -> & F)]]]]]];
  try discriminate; try (destruct E as [[? E]|(? & ? & E)]; discriminate); try (constructor; fail).
  - destruct F as [[? ->]|(? & ? & ->)]; constructor.
  - destruct F as [[? ->]|(? & ? & ->)]; constructor.
  - inv E. inv St. constructor. apply Forall_forall. intros y Iy. destruct (Forall2_in_r _ _ _ _ _ F y Iy) as (x & Ix & Sx).
    rewrite Forall_forall in *. eapply H; eauto.
  - inv St.
  - inv E. inv St. assert (D := F). destruct D as (N1 & N2 & _). constructor; auto.
    + intros I. apply H2. eapply Permutation_in; [symmetry; eapply dsim_keys; eauto|exact I].
    + apply Forall_forall. intros [k y] Iy. destruct (dsim_members _ _ _ _ _ F Iy) as (x & Ix & Sx). rewrite Forall_forall in *.
      apply (H (k, x)) with (w := y); auto.
  - inv E. inversion St as [| | | | | |? ? Kn Ko Nl Nf Nt Fs Ac]; subst. assert (D := F). destruct D as (N1 & N2 & _). constructor; auto.
    + intros I. apply Nt. eapply Permutation_in; [symmetry; eapply dsim_keys; eauto|exact I].
    + apply Forall_forall. intros [k y] Iy. destruct (dsim_members _ _ _ _ _ F Iy) as (x & Ix & Sx). rewrite Forall_forall in *.
      apply (H (k, x)) with (w := y); auto.
    + eapply accepts_twin; eauto.
Qed.

Lemma sim_atoms : forall (L : pv -> pv -> Prop) v w a, (forall x y, L x y -> (exists o, x = PRef o) \/ (exists s i, x = PLink s i)) ->
  sim L v w -> within (PAtom a) w -> within (PAtom a) v.
Proof.
  intros L v w a Hl. revert w. induction v using pv_ind2; intros w S W;
  destruct (sim_inv _ _ _ S) as [[E ->]|[(a' & E & ->)|[(E & F & Lvw)|[(l0 & m & E & -> & F)|[(l0 & m & E & -> & F)|[(l0 & m & E & -> & F)|(t0 & l0 & m & E & -> & F)]]]]]];
  try discriminate; try (destruct E as [[? E]|(? & ? & E)]; discriminate); try (inv W; fail).
  - inv E. exact W.
  - destruct F as [[? ->]|(? & ? & ->)]; inv W.
  - destruct F as [[? ->]|(? & ? & ->)]; inv W.
  - inv E. inversion W as [|? y ? Iy Wy| | |]; subst. destruct (Forall2_in_r _ _ _ _ _ F y Iy) as (x & Ix & Sx). rewrite Forall_forall in H. eapply w_list; eauto.
  - inv E. inversion W as [| |? y ? Iy Wy| |]; subst. destruct (Forall2_in_r _ _ _ _ _ F y Iy) as (x & Ix & Sx). rewrite Forall_forall in H. eapply w_tuple; eauto.
  - inv E. inversion W as [| | |? k y ? Iy Wy|]; subst. destruct (dsim_members _ _ _ _ _ F Iy) as (x & Ix & Sx). rewrite Forall_forall in H. eapply w_dict; eauto. eapply (H (k, x)); eauto.
  - inv E. inversion W as [| | | |? k y ? ? Iy Wy]; subst. destruct (dsim_members _ _ _ _ _ F Iy) as (x & Ix & Sx). rewrite Forall_forall in H. eapply w_obj; eauto. eapply (H (k, x)); eauto.
Qed.

(** A copy of a well-formed entity is well formed. *)
Lemma well_formed_twin : forall lower known construct h g o c e e', hget h o = Some e -> hget g c = Some e' -> well_formed lower known construct h o e ->
  e_kind e' = e_kind e -> Permutation (e_uids e') (e_uids e) -> NoDup (keys (e_fields e')) ->
  (forall f, In f (keys (e_fields e')) <-> In f (keys (e_fields e))) ->
  (forall f, In f (keys (e_fields e)) -> ~ read_only (e_kind e) f -> sim (relinked h g) (read h o f) (read g c f)) ->
  well_formed lower known construct g c e'.
Proof.
  intros lower known construct h g o c e e' He He' W K Pu N Kf S.
  assert (Ko : kind_at h o = Some (e_kind e)) by (unfold kind_at; now rewrite He).
  assert (Kc : kind_at g c = Some (e_kind e)) by (unfold kind_at; now rewrite He'; cbn; rewrite K).
  split; [split|].
  - exact N.
  - rewrite !Kf. apply (wf_rep _ _ _ _ _ _ W).
  - rewrite K. intros f I. apply Kf. now apply (wf_rep _ _ _ _ _ _ W).
  - eapply Permutation_NoDup; [|exact (wf_uids _ _ _ _ _ _ W)]. apply Permutation_map. now symmetry.
  - intros I. apply (wf_scopes _ _ _ _ _ _ W). eapply Permutation_in; [apply perm_keys; exact Pu|exact I].
  - destruct (rp_words _ _ _ _ _ _ (wf_rep _ _ _ _ _ _ W)) as [W1 W2]. split; intros I; [apply W1|apply W2]; (eapply Permutation_in; [apply perm_keys; exact Pu|exact I]).
  - rewrite K. intros f Rf. destruct (wf_refs _ _ _ _ _ _ W f Rf) as (k & pk & Kk & A & V). exists k, pk. rewrite Ko in Kk. inv Kk. split; auto. split; auto.
    assert (Sf : sim (relinked h g) (fval h o f) (fval g c f)).
    { rewrite <- (read_fval h o f _ Ko Rf), <- (read_fval g c f _ Kc Rf). apply S; [|now apply ref_not_ro]. apply (wf_rep _ _ _ _ _ _ W). apply blank_keys. auto. }
    destruct V as [V|[(s & i & V)|(p & V & Kp)]]; rewrite V in Sf; destruct (fval g c f); cbn in Sf; try contradiction; eauto.
    right. right. eexists. split; eauto. congruence.
  - rewrite K. intros f I R. eapply sim_storable; [|apply S]; auto; [|now apply Kf]. apply (wf_rep _ _ _ _ _ _ W); auto. now apply Kf.
  - rewrite K. intros d Nd Hd.
    set (l := filter (fun kv => negb (mem_str (fst kv) (ref_args (e_kind e)))) (fields_of h o e)).
    assert (Hl : forall f v, In (f, v) l <-> In f (keys (e_fields e)) /\ ~ reference (e_kind e) f /\ ~ read_only (e_kind e) f /\ v = read h o f).
    { intros f v. unfold l. rewrite filter_In, fields_of_in, negb_true_iff. cbn [fst]. rewrite <- ref_args_iff, <- (mem_str_iff f (ref_args (e_kind e))), not_true_iff_false. tauto. }
    assert (Nl : NoDup (keys l)).
    { unfold l. apply (nodup_filter _ (fun f => negb (mem_str f (ref_args (e_kind e))))). apply fields_of_nodup. apply (wf_rep _ _ _ _ _ _ W). }
    apply (accepts_twin construct h g _ l d); [|now apply (wf_plain _ _ _ _ _ _ W)].
    assert (Hk : forall f, In f (keys l) <-> In f (keys d)).
    { intros f. unfold keys. rewrite !in_map_iff. split; intros ([f' v] & <- & I); cbn.
      - apply Hl in I as (I1 & I2 & I3 & _). exists (f', read g c f'). split; auto. apply Hd. split; [now apply Kf|auto].
      - apply Hd in I as (I1 & I2 & I3 & _). exists (f', read h o f'). split; auto. apply Hl. split; [now apply Kf|auto]. }
    apply dsim_each. split; auto. split; auto. split.
    + assert (P := NoDup_Permutation Nl Nd Hk). apply Permutation_length in P. unfold keys in P. now rewrite !map_length in P.
    + intros f x I. apply Hl in I as (I1 & I2 & I3 & ->). exists (read g c f). split; [|now apply S]. apply Hd. split; [now apply Kf|auto].
  - assert (At : forall a, atom_of g c e' a -> atom_of h o e a).
    { intros a (f & If & Rf & Wa). exists f. rewrite Kf in If. rewrite K in Rf. split; auto. split; auto.
      eapply sim_atoms; [|apply S; eauto|exact Wa]. intros x y Rx. destruct x; cbn in Rx; try contradiction; eauto. }
    intros a b A B. apply (wf_atoms _ _ _ _ _ _ W); auto.
Qed.

(** ** Records *)
Section R.
  Variable lower : string -> string.
  Variable known : string -> bool.
  Variable construct : heap -> string -> list (string * pv) -> res (list (string * pv)).

  (** Assigning links changes the entity only. *)
  Lemma back_links : forall k n args g, (forall f v, In (f, v) args -> forall p, v <> PRef p) -> fold_left (back k n) args g = g.
  Proof.
    intros k n args. induction args as [|[f v] r IH]; intros g H; auto. cbn [fold_left].
    replace (back k n g (f, v)) with g; [apply IH; intros; eapply H; right; eauto|].
    unfold back. cbn [fst snd]. destruct v; auto. exfalso. eapply H; [left; reflexivity|reflexivity].
  Qed.

  Lemma record_loads : forall h o e e' j, hget h o = Some e -> well_formed lower known construct h o e -> thin lower h None true o e e' ->
    encode_nested [e'] 1 0 = Ok j ->
    forall g, lists_exist g -> exists e2, raw_loads lower known construct g j = Ok (PRef (length g), g ++ [e2]) /\ thin lower h None true o e e2.
  Proof.
    intros h o e e' j He W T Ej g Lg. destruct (record_json lower known construct h None true o e e' He W T) as (j' & Ej' & D). rewrite Ej in Ej'. inv Ej'.
    destruct (D false (g, [])) as (d & Ed & Dd); [intros; apply resolvable_false|].
    assert (D2 : dsim (sim (to_links lower h None true)) (("uids", uids_val e) :: fields_of h o e) d).
    { eapply dsim_mono_in; eauto. intros k x y _ _ S. eapply sim_mono_in; eauto. intros a b _ L. now apply L12_false in L. }
    destruct (make_entity_ok lower known construct h g [] o e d _ He (wf_rep _ _ _ _ _ _ W) D2) as (u & fs & Em & Pu & Nf & Kf & Sf & Bf & Rf).
    { intros f a b _ _ _ L. destruct (to_links_link _ _ _ _ _ _ L) as (s & i & ->). destruct a; cbn in *; try contradiction; auto. now inv L. }
    { exact Lg. }
    cbn zeta in *. rewrite back_links in Em.
    - assert (Er := f_equal (fun r => do (v, st) <- r; Ok (v, fst st)) (eq_trans Ed Em)). cbn [bind fst] in Er.
      eexists. split; [exact Er|]. split; [reflexivity|]. split; [exact Pu|]. cbn [e_fields]. split; [exact Nf|]. split; [exact Kf|]. split; [|exact Bf].
      intros f I R. destruct (Sf f I R) as (v & Ev & Sv). unfold fget. cbn [e_fields]. now rewrite Ev.
    - intros f v I. apply in_map_iff in I as (f' & E & I). inv E. apply ref_args_iff in I. apply (no_top_ref lower h None true (fval h o f)). now apply Rf.
  Qed.

  (** The record of a copy is a record of the original. *)
  Lemma thin_wf : forall h o e e', hget h o = Some e -> well_formed lower known construct h o e -> thin lower h None true o e e' ->
    well_formed lower known construct [e'] 0 e'.
  Proof.
    intros h o e e' He W T. assert (T' := T). destruct T' as (K & Pu & N & Kf & S & B).
    eapply (well_formed_twin lower known construct h [e'] o 0 e e'); eauto.
    intros f I R. rewrite (thin_read lower known construct h None true o e e' f He W T). eapply sim_mono_in; [now apply S|].
    intros a b _ L. destruct (to_links_link _ _ _ _ _ _ L) as (s & i & ->). destruct a; cbn in *; try contradiction; auto. now inv L.
  Qed.
End R.

(** ** The traversal starts with its argument *)
Lemma walk_prefix : forall h arrange keep bw n seen stack l, walk h arrange keep bw n seen stack = Done l -> exists t, l = rev seen ++ t.
Proof.
  intros h arrange keep bw n. induction n as [|n IH]; intros seen [|v r] l E; cbn [walk] in E; try discriminate.
  - inv E. exists []. now rewrite app_nil_r.
  - inv E. exists []. now rewrite app_nil_r.
  - destruct v; try (now apply IH in E).
    + destruct (mem o seen); [now apply IH in E|]. apply IH in E as (t & ->). cbn [rev]. rewrite <- app_assoc. eauto.
    + destruct (hashable (PTuple l0)); [now apply IH in E|discriminate].
Qed.
Lemma foreach_first : forall h m l, foreach h (PRef m) = Done l -> exists t, l = m :: t.
Proof.
  intros h m l E. unfold foreach, visits in E. unfold budget in E. cbn [vsize Nat.add walk mem existsb] in E. apply walk_prefix in E as (t & ->). cbn. eauto.
Qed.

Lemma sub_reach : forall h m o x, reachable h m o -> reachable h (PRef o) x -> reachable h m x.
Proof.
  intros h m o x R. induction 1 as [x M|x e f v y Rx IH He I K M].
  - inv M. exact R.
  - eapply r_field; eauto.
Qed.
Lemma sub_met : forall h m o w, reachable h m o -> met h everything (PRef o) w -> (exists p, w = PRef p) \/ met h everything m w.
Proof.
  intros h m o w R M. inversion M as [? W|o1 e1 f1 v1 ? R1 H1 I1 K1 W1]; subst.
  - inv W. eauto.
  - right. exact (m_field _ _ _ o1 e1 f1 v1 w (sub_reach _ _ _ _ R R1) H1 I1 K1 W1).
Qed.

(** What dumps needs of a graph. *)
Record ready lower known construct uuid4 (h : heap) (n : nat) (obj : pv) : Prop := mkReady {
  rd_tuples : hashable_tuples h everything obj;
  rd_wf : all_well_formed lower known construct h obj;
  rd_uids : own_uids lower h obj;
  rd_fresh : fresh_uuids uuid4 n h obj;
  rd_attrs : attributes_typed h obj;
  rd_mirror : mirrored h;
  rd_links : loose_links lower uuid4 n h obj;
  rd_names : plain_names h obj
}.

Section H.
  Variable lower : string -> string.
  Variable known : string -> bool.
  Variable construct : heap -> string -> list (string * pv) -> res (list (string * pv)).
  Variable uuid4 : nat -> string.
  Notation ready := (ready lower known construct uuid4).

  Lemma sub_ready : forall h n m o, ready h n m -> reachable h m o -> ready h n (PRef o).
  Proof.
    intros h n m o [T W O [F1 F2] A M L P] R. assert (Sr := fun x => sub_reach h m o x R). split; auto.
    - intros l Ml. destruct (sub_met _ _ _ _ R Ml) as [[p X]|X]; [discriminate|]. now apply T.
    - intros x Rx. apply W. auto.
    - intros x y s s' i Rx Ry. apply O; auto.
    - split; [exact F1|]. intros a x s Ha Rx. apply F2; auto.
    - intros x e f y Rx. apply A; auto.
    - intros s i Ml. destruct (sub_met _ _ _ _ R Ml) as [[p X]|X]; [discriminate|]. destruct (L s i X) as [L1 L2]. split; auto. intros x s' Rx. apply L1; auto.
    - intros x f y Rx. apply P; auto.
  Qed.

  Lemma uids_idle : forall h n obj scope, hashable_tuples h everything obj -> (forall o e, reachable h obj o -> hget h o = Some e -> e_uids e <> []) ->
    set_uuids uuid4 h n obj scope = Done (h, n).
  Proof.
    intros h n obj scope T U. destruct (foreach_visits_partial h obj T) as (l & E & _ & R). unfold set_uuids. rewrite E. f_equal. apply fold_give_idle.
    intros o e I He. eapply U; eauto. now apply R.
  Qed.

  Lemma ready_after : forall h n obj scope, ready h n obj -> plain_scope scope -> exists h' n', set_uuids uuid4 h n (PDict [("object", obj)]) scope = Done (h', n')
    /\ ready h' n' obj /\ same_content h h' /\ (forall o e, reachable h' obj o -> hget h' o = Some e -> e_uids e <> []).
  Proof.
    intros h n obj scope [T W O F A M L P] Sc.
    set (wr := PDict [("object", obj)]).
    assert (O1 : own_uids lower h wr). { intros o o' s s' i R R'. apply O; now apply wrap_reach. }
    assert (W1 : all_well_formed lower known construct h wr). { intros o R. apply W. now apply wrap_reach. }
    assert (F1 : fresh_uuids uuid4 n h wr). { destruct F as [Fa Fb]. split; auto. intros a o s Ha R. apply Fb; auto. now apply wrap_reach. }
    destruct (set_uuids_ready lower known construct lower uuid4 h n wr scope (wrap_hashable _ _ T) W1 O1 F1 Sc) as (h' & n' & E & S & Hn & W2 & O2 & U2 & Un & Uf).
    assert (Back : forall o, reachable h' obj o -> reachable h obj o) by (intros o; apply same_reach; now apply same_content_sym).
    exists h', n'. split; [exact E|]. split; [|split; [exact S|]].
    - split.
      + eapply same_hashable; eauto.
      + intros o R. apply W2. now apply wrap_reach.
      + intros o o' s s' i R R'. apply O2; now apply wrap_reach.
      + destruct F as [Fa Fb]. split; [intros a b Ha Hb; apply Fa; lia|]. intros a o s Ha R U.
        destruct (Uf o s (uuid4 a)) as [Uh|(_ & m & Hm & Ei)]; auto; [now apply wrap_reach| |].
        * apply (Fb a o s); auto. lia.
        * apply Fa in Ei; lia.
      + intros o0 e0 f0 y R0 He0 If0 Nr B0 M0. destruct (same_some h' h o0 e0 (same_content_sym _ _ S) He0) as (e1 & He1 & K1 & Fd1).
        unfold attribute_template. rewrite !(same_kind h h') by auto. rewrite (same_read h h') in M0 by auto.
        eapply (A o0 e1); eauto; try rewrite ?K1, ?Fd1; auto.
      + eapply same_mirrored; eauto.
      + intros s i Ml. assert (Ml' : met h everything obj (PLink s i)).
        { eapply same_met; [|exact Ml]. now apply same_content_sym. }
        destruct (L s i Ml') as [La Lb]. split; [|intros a Ha; apply Lb; lia]. intros o s' R U. destruct (Uf o s' i) as [Uh|(_ & m & Hm & Ei)]; auto; [now apply wrap_reach| |].
        * eapply La; eauto.
        * exfalso. apply (Lb m); auto. lia.
      + intros o f x R K Hf. rewrite (same_kind h h') in K by auto. rewrite (same_fval h h') by auto. apply P; auto.
    - intros o e R. apply U2. now apply wrap_reach.
  Qed.
End H.

(** ** One step of complete_material_history *)
Section Step.
  Variable lower : string -> string.
  Variable known : string -> bool.
  Variable construct : heap -> string -> list (string * pv) -> res (list (string * pv)).
  Variable sorted : list (string * pv) -> list (string * pv).
  Variable uuid4 : nat -> string.
  Hypothesis Ps : forall l, Permutation (sorted l) l.
  Notation ready := (ready lower known construct uuid4).

  Lemma storable_tuple : forall h v l, storable known construct h v -> ~ within (PTuple l) v.
  Proof.
    intros h v l. induction v using pv_ind2; intros St W; inv W; try (now inv St).
    - inv St. rewrite Forall_forall in *. eapply H; eauto.
    - inv St. rewrite Forall_forall in *. eapply (H (k, v)); eauto.
    - inversion St as [| | | | | |? ? Kn Ko Nl Nf Nt Fs Ac]; subst. rewrite Forall_forall in *. eapply (H (k, v)); eauto.
  Qed.

  Lemma thin_no_refs : forall h o e e' f x, thin lower h None true o e e' -> ~ mentions (fget e' f) x.
  Proof.
    intros h o e e' f x (K & Pu & N & Kf & S & B) M.
    destruct (in_dec string_dec f (keys (e_fields e))) as [I|I].
    - destruct (skipped (e_kind e) f) eqn:Ek.
      + apply skipped_iff in Ek. unfold fget in M. rewrite B in M by auto.
        apply skipped_iff in Ek. destruct (e_kind e); cbn in Ek; try discriminate; try apply orb_prop in Ek as [Ek|Ek]; apply String.eqb_eq in Ek; subst; cbn in M; inv M; contradiction.
      + assert (R : ~ read_only (e_kind e) f) by (intros R; apply skipped_iff in R; congruence).
        apply mentions_within in M. destruct (sim_leaf _ _ _ _ (S f I R) M) as (a & _ & La); [eauto|].
        destruct (to_links_link _ _ _ _ _ _ La) as (s & i & X). discriminate.
    - unfold fget in M. rewrite <- Kf in I. rewrite dict_get_keys in I. destruct (dict_get f (e_fields e')) eqn:E; [exfalso; apply I; discriminate|]. inv M.
  Qed.

  Lemma field_fget : forall e f v, NoDup (keys (e_fields e)) -> In (f, v) (e_fields e) -> fget e f = v.
  Proof. intros e f v N I. unfold fget. now rewrite (In_dict_get f v _ N I). Qed.

  (** A thin entity by itself is a graph of one entity. *)
  Lemma thin_alone : forall h o e e', thin lower h None true o e e' -> forall x, reachable [e'] (PRef 0) x <-> x = 0.
  Proof.
    intros h o e e' T x. split; [|intros ->; apply r_obj; constructor]. induction 1 as [x M|x e1 f v y R IH H1 I K M]; [now inv M|]. subst x. cbn in H1. inv H1.
    exfalso. assert (N : NoDup (keys (e_fields e1))) by (destruct T as (_ & _ & N & _); exact N). rewrite <- (field_fget e1 f v N I) in M. eapply thin_no_refs; eauto.
  Qed.

  Lemma thin_written : forall h o e e' n, hget h o = Some e -> well_formed lower known construct h o e -> e_uids e <> [] -> thin lower h None true o e e' ->
    exists j j2, dumps lower known construct sorted uuid4 [e'] n (PRef 0) "auto" = Ok ([e'], n, j) /\ first_record j = Ok j2
      /\ exists e3, thin lower [e'] None true 0 e' e3 /\ encode_nested [e3] 1 0 = Ok j2.
  Proof.
    intros h o e e' n He W U T. assert (W' := thin_wf lower known construct h o e e' He W T). assert (Al := thin_alone h o e e' T).
    assert (T' := T). destruct T' as (K & Pu & N & Kf & S & B).
    assert (U' : e_uids e' <> []). { intros E. rewrite E in Pu. apply Permutation_nil in Pu. contradiction. }
    assert (Th : hashable_tuples [e'] everything (PRef 0)).
    { intros l M. exfalso. inversion M as [? Wi|x e1 f v ? R H1 I Kp Wi]; subst; [inv Wi|]. apply Al in R. subst x. cbn in H1. inv H1.
      assert (Hf := field_fget e1 f v N I). assert (If : In f (keys (e_fields e1))) by (apply in_map_iff; exists (f, v); auto).
      destruct (skipped (e_kind e1) f) eqn:Ek.
      - apply skipped_iff in Ek. rewrite K in Ek. unfold fget in Hf. rewrite B in Hf by auto. apply skipped_iff in Ek.
        destruct (e_kind e); cbn in Ek; try discriminate; try apply orb_prop in Ek as [Ek|Ek]; apply String.eqb_eq in Ek; subst; cbn in Wi; inv Wi; contradiction.
      - assert (R : ~ read_only (e_kind e1) f) by (intros R; apply skipped_iff in R; congruence).
        apply (storable_tuple [e1] (read [e1] 0 f) l (wf_values _ _ _ _ _ _ W' f If R)).
        now rewrite (thin_read lower known construct h None true o e e1 f He W T), Hf. }
    set (wr := PDict [("object", PRef 0)]).
    assert (Rw : forall x, reachable [e'] wr x <-> x = 0) by (intros x; unfold wr; rewrite wrap_reach; apply Al).
    assert (Uw : forall x e0, reachable [e'] wr x -> hget [e'] x = Some e0 -> e_uids e0 <> []).
    { intros x e0 R H. apply Rw in R. subst x. cbn in H. now inv H. }
    assert (Tw := wrap_hashable _ _ Th). fold wr in Tw.
    destruct (flatten_set_ok lower known construct sorted [e'] wr Ps Tw) as (os & es & Ef & Nd & Ro & Fo & _); auto.
    { intros x R. apply Rw in R. subst x. exists e'. split; auto. }
    { intros x y s s' i R R' _ _ _. apply Rw in R. apply Rw in R'. congruence. }
    assert (Eo : os = [0]).
    { destruct os as [|x os]; [exfalso; apply (proj2 (Ro 0)); now apply Rw|]. assert (X : x = 0) by (apply Rw, Ro; now left). subst x.
      destruct os as [|y os]; auto. assert (X : y = 0) by (apply Rw, Ro; right; now left). subst y. inv Nd. exfalso. apply H1. now left. }
    subst os. inversion Fo as [|? e3 ? ? (e0 & H0 & T3) F0]; subst. inv F0. cbn in H0. inv H0. rename e0 into e'.
    destruct (record_json lower known construct [e'] None true 0 e' e3 eq_refl W' T3) as (j3 & E3 & _).
    destruct (link_of_none lower [e'] 0 e' eq_refl U') as (s & i & r & _ & El).
    eexists. exists j3. split; [|split].
    - unfold dumps, flatten. fold wr. rewrite (uids_idle uuid4 [e'] n wr "auto" Tw Uw). cbn [of_outcome bind]. rewrite Ef. cbn [bind].
      unfold substitute_links. cbn [subst]. rewrite El. cbn [bind traverse]. rewrite E3. reflexivity.
    - reflexivity.
    - exists e3. auto.
  Qed.

  Lemma step : forall h n o acc, ready h n (PRef o) ->
    exists h' n' r, history_body lower known construct sorted uuid4 (h, n, acc) o = Ok (h', n', acc ++ [r])
      /\ set_uuids uuid4 h n (PDict [("object", PRef o)]) "auto" = Done (h', n') /\ record_of lower known construct h' o r.
  Proof.
    intros h n o acc Rd. assert (Rd' := Rd). destruct Rd' as [T W O F A M L P].
    destruct (round_trip lower known construct sorted uuid4 h n (PRef o) "auto" Ps T W O F) as (h' & n' & j & os & Ed & Es & S & Ro & N & W' & O' & U' & Un & Lo); auto; try discriminate; try (repeat split; discriminate).
    { constructor. }
    { intros a b Wa. inv Wa. }
    assert (M' : mirrored h') by (eapply same_mirrored; eauto).
    assert (P' : plain_names h' (PRef o)).
    { intros x f y R K Hf. rewrite (same_kind h h') in K by auto. rewrite (same_fval h h') by auto. apply P; auto.
      eapply same_reach; [|exact R]. now apply same_content_sym. }
    destruct (Lo h' (mirrored_lists _ M')) as (obj' & st & El & Iv & So).
    apply renamed_ref_l in So as (c & -> & Rc). assert (Rc' := Rc). destruct Rc' as [Io Ec].
    assert (New : forall x, In x os -> exists e e', hget h' x = Some e /\ well_formed lower known construct h' x e
      /\ hget (fst st) (LoadProofs.copy os h' x) = Some e' /\ copied h' os h' os x e e').
    { intros x Ix. destruct (W' x) as (e & He & We); [now apply Ro|]. destruct (i_new _ _ _ _ _ _ Iv x e Ix He) as (e' & He' & C). eauto 8. }
    assert (Rdr : forall x e, In x os -> hget h' x = Some e -> forall f, ~ read_only (e_kind e) f ->
      sim (renamed (LoadProofs.R os h')) (read h' x f) (read (fst st) (LoadProofs.copy os h' x) f)).
    { intros x e Ix He. eapply iso_read; eauto. }
    destruct (New o Io) as (e & ec & He & We & Hc & C). rewrite <- Ec in Hc.
    destruct C as (K & Pu & Nf & Kf & _ & _).
    assert (Rel : forall a b, renamed (LoadProofs.R os h') a b -> relinked h' (fst st) a b).
    { intros a b Rab. destruct a, b; cbn in *; try contradiction; auto. destruct Rab as [Ix ->].
      destruct (New o0 Ix) as (x & x' & Hx & _ & Hx' & Kx & _). unfold kind_at. rewrite Hx, Hx'. cbn. now rewrite Kx. }
    assert (Sc : forall f, ~ read_only (e_kind e) f -> sim (renamed (LoadProofs.R os h')) (read h' o f) (read (fst st) c f)).
    { intros f R. rewrite Ec. now apply (Rdr o e). }
    assert (Wc : well_formed lower known construct (fst st) c ec).
    { eapply (well_formed_twin lower known construct h' (fst st) o c e ec); eauto. intros f I R. eapply sim_mono_in; [now apply Sc|]. intros a b _. apply Rel. }
    destruct (record_ok lower known construct (fst st) None true c ec Hc Wc) as (e2 & E2 & T2).
    { intros f x If Rf Mx. rewrite K in Rf. destruct (renamed_mentions_r _ _ _ _ (Sc f Rf) Mx) as (y & My & Iy & ->).
      destruct (New y Iy) as (ey & ey' & Hy & _ & Hy' & Ky & Puy & _).
      destruct (link_of_none lower (fst st) _ ey' Hy') as (s & i & r & _ & Elk); eauto.
      intros Eu. rewrite Eu in Puy. apply Permutation_nil in Puy. revert Puy. eapply U'; eauto. now apply Ro. }
    assert (Uc : e_uids ec <> []).
    { intros Eu. rewrite Eu in Pu. apply Permutation_nil in Pu. revert Pu. eapply U'; eauto. now apply Ro. }
    destruct (thin_written (fst st) c ec e2 n' Hc Wc Uc T2) as (j2 & r & Ed2 & Er & e3 & T3 & Ee3).
    exists h', n', r. split; [|split; [exact Es|]].
    { unfold history_body. rewrite Ed. cbn [bind]. rewrite El. cbn [bind]. rewrite E2. cbn [bind]. rewrite Ed2. cbn [bind]. rewrite Er. reflexivity. }
    intros g Lg. assert (W2 := thin_wf lower known construct (fst st) c ec e2 Hc Wc T2).
    destruct (record_loads lower known construct [e2] 0 e2 e3 r eq_refl W2 T3 Ee3 g Lg) as (e4 & E4 & T4). exists e4. split; auto.
    assert (T2' := T2). destruct T2' as (K2 & Pu2 & N2 & Kf2 & S2 & B2). destruct T4 as (K4 & Pu4 & N4 & Kf4 & S4 & B4).
    exists e. split; [exact He|]. split; [congruence|]. split; [now rewrite Pu4, Pu2|]. split; [exact N4|].
    split; [intros f; now rewrite Kf4, Kf2, Kf|]. split.
    - intros f I R. assert (Rc2 : ~ read_only (e_kind ec) f) by now rewrite K. assert (Re2 : ~ read_only (e_kind e2) f) by now rewrite K2.
      assert (I1 : In f (keys (e_fields ec))) by now apply Kf. assert (I2 : In f (keys (e_fields e2))) by now apply Kf2.
      assert (S4f := S4 f I2 Re2). rewrite (thin_read lower known construct (fst st) None true c ec e2 f Hc Wc T2) in S4f.
      assert (Sa : sim (to_links lower (fst st) None true) (read (fst st) c f) (fget e4 f)).
      { eapply sim_trans; [now apply S2|exact S4f|]. intros a b d _ L1 L2. destruct (to_links_link _ _ _ _ _ _ L1) as (s & i & ->). cbn in L2. now subst d. }
      eapply sim_trans; [now apply Sc|exact Sa|]. intros a b d _ L1 L2. apply to_links_as_link in L2.
      destruct a, b, d; cbn in *; try contradiction; auto; [destruct L1, L2; subst; auto|].
      destruct L1 as [Ix ->]. destruct (New o0 Ix) as (x & x' & Hx & _ & Hx' & _ & Pux & _). destruct L2 as (x2 & Hx2 & I3). rewrite Hx' in Hx2. inv Hx2.
      exists x. split; auto. eapply Permutation_in; eauto.
    - intros f R. unfold fget. rewrite <- K, <- K2 in R. rewrite B4 by auto. rewrite <- skipped_iff in R. destruct (e_kind e2); cbn in R; try discriminate;
      try apply orb_prop in R as [R|R]; apply String.eqb_eq in R; subst; cbn; auto.
  Qed.
End Step.
