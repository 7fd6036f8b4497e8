(** What loads builds from what dumps wrote equals the original *)
From Coq Require Import String List Bool Arith Lia Permutation.
From Verif Require Import Base BaseFacts CidModel GraphModel GraphSpec GraphProofs EqModel EqSpec EqProofs EqCopies EqProperties TravModel TravSpec TravProofs TravProperties SerialModel SerialSpec SerialSim SerialProofs SerialLinks SerialEntity SerialRecords FlattenProofs SubstProperties LoadProofs RoundTripProofs.
Import ListNotations.
Open Scope string_scope.
Open Scope list_scope.
Open Scope nat_scope.

Lemma sim_twin_sub : forall (Q RR : oid -> oid -> Prop), (forall a b, Q a b -> RR a b) -> forall v w, sim (renamed Q) v w -> twin RR v w.
Proof.
  intros Q RR H v w S. apply sim_twin. eapply sim_mono_in; eauto. intros a b _ X. destruct a, b; cbn in *; auto.
Qed.

Lemma alike_list : forall g (Q RR : oid -> oid -> Prop) l m m', (forall a b, Q a b -> RR a b) -> Permutation m' m -> Forall2 (sim (renamed Q)) l m' ->
  (forall x y a b ex ey, Q a x -> Q b y -> hget g x = Some ex -> hget g y = Some ey -> same_pairs (e_uids ex) (e_uids ey) -> x = y) ->
  (exists m', Permutation m' m /\ Forall2 (twin RR) l m') /\
  (forall x y ex ey, In (PRef x) m -> In (PRef y) m -> hget g x = Some ex -> hget g y = Some ey -> same_pairs (e_uids ex) (e_uids ey) -> x = y).
Proof.
  intros g Q RR l m m' Sub P F D. split.
  - exists m'. split; auto. clear - F Sub. induction F; constructor; auto. eapply sim_twin_sub; eauto.
  - assert (X : forall x, In (PRef x) m -> exists a, Q a x).
    { intros x I. apply (Permutation_in _ (Permutation_sym P)) in I. destruct (Forall2_in_r _ _ _ _ _ F _ I) as (v & _ & Sv).
      destruct (renamed_mentions_r _ _ _ x Sv) as (o & _ & Ro); [constructor|eauto]. }
    intros x y ex ey Ix Iy. destruct (X x Ix) as (a & Qa). destruct (X y Iy) as (b & Qb). apply (D x y a b); auto.
Qed.

Lemma alike_sim : forall g (Q RR : oid -> oid -> Prop), (forall a b, Q a b -> RR a b) ->
  (forall x y a b ex ey, Q a x -> Q b y -> hget g x = Some ex -> hget g y = Some ey -> same_pairs (e_uids ex) (e_uids ey) -> x = y) ->
  forall v w, sim (renamed Q) v w -> alike g RR v w.
Proof.
  intros g Q RR Sub D v w S. assert (Tw := sim_twin_sub Q RR Sub v w S).
  unfold alike. destruct v, w; cbn in S; try contradiction; cbn [items_of]; try exact Tw.
  - apply (alike_list g Q RR l l0 l0); auto. now apply sim_list.
  - apply (alike_list g Q RR l l0 l0); auto. now apply sim_tuple.
  - apply (proj1 (sim_dict (renamed Q) _ _)) in S. destruct S as (N & M & m' & Pm & F).
    apply (alike_list g Q RR _ _ (map (fun kv => str (fst kv)) m')); auto; [now apply Permutation_map|].
    clear - F. induction F as [|[k x] [k' y] l m [E _] F IH]; constructor; auto. cbn in *. now subst.
Qed.

(** References inside attributes. *)
Lemma sim_inside : forall (Q : oid -> oid -> Prop) v w c, sim (renamed Q) v w -> mentions_inside w c -> exists o, mentions_inside v o /\ Q o c.
Proof.
  intros Q v w c S M. unfold mentions_inside in *.
  assert (LS : forall l m, Forall2 (sim (renamed Q)) l m -> (exists x, In x m /\ (forall p, x <> PRef p) /\ mentions x c) -> exists o, (exists x, In x l /\ (forall p, x <> PRef p) /\ mentions x o) /\ Q o c).
  { intros l m F (x & Ix & Nx & Mx). destruct (Forall2_in_r _ _ _ _ _ F _ Ix) as (y & Iy & Sy). destruct (renamed_mentions_r _ _ _ _ Sy Mx) as (o & Mo & Qo).
    exists o. split; auto. exists y. split; auto. split; auto. intros p ->. apply renamed_ref_l in Sy as (c' & -> & _). now apply (Nx c'). }
  destruct v, w; cbn in S; try contradiction; cbn [items_of] in *; try (destruct M as [X M]; inversion M; subst; exfalso; eapply X; reflexivity).
  - eapply LS; eauto. now apply sim_list.
  - eapply LS; eauto. now apply sim_tuple.
  - destruct M as (x & Ix & _ & Mx). apply in_map_iff in Ix as (kv & <- & _). inversion Mx.
  - destruct M as [_ Mc]. destruct (renamed_mentions_r Q (PObj typ fs) (PObj typ0 fs0) c S Mc) as (o & Mo & Qo). exists o. split; auto. split; auto. discriminate.
Qed.

Section Eq.
  Variable lower : string -> string.
  Variable known : string -> bool.
  Variable construct : heap -> string -> list (string * pv) -> res (list (string * pv)).
  Variable h : heap.
  Variable obj : pv.
  Variable os : list oid.
  Variable st : state.
  Variable obj' : pv.
  Notation R := (LoadProofs.R os h).
  Notation copy := (LoadProofs.copy os h).
  Notation g := (fst st).

  Hypothesis os_reach : forall o, In o os <-> reachable h obj o.
  Hypothesis W : all_well_formed lower known construct h obj.
  Hypothesis N : NoDup os.
  Hypothesis M : mirrored h.
  Hypothesis Pn : plain_names h obj.
  Hypothesis Iv : inv lower h os h os st.
  Hypothesis So : sim (renamed R) obj obj'.
  Hypothesis Ow : own_uids lower h obj.
  Hypothesis Ne : forall o e, reachable h obj o -> hget h o = Some e -> e_uids e <> [].
  Hypothesis Cl : closed h.
  Hypothesis La : layered h.
  Hypothesis Uo : uids_ok h.

  Lemma old : forall o e, hget h o = Some e -> hget g o = Some e.
  Proof. intros o e He. rewrite (i_old _ _ _ _ _ _ Iv); auto. eapply hget_lt; eauto. Qed.
  Lemma old_kind : forall o k, kind_at h o = Some k -> kind_at g o = Some k.
  Proof. intros o k K. unfold kind_at in *. destruct (hget h o) as [e|] eqn:He; [|discriminate]. rewrite (old o e He). exact K. Qed.
  Lemma old_fval : forall o f e, hget h o = Some e -> fval g o f = fval h o f.
  Proof. intros o f e He. unfold fval. rewrite He. now rewrite (old o e He). Qed.
  Lemma old_read : forall o f e, hget h o = Some e -> read g o f = read h o f.
  Proof.
    intros o f e He. unfold read. assert (K : kind_at g o = kind_at h o) by (unfold kind_at; rewrite He; now rewrite (old o e He)).
    rewrite K, !(old_fval o _ e He). destruct (kind_at h o) as [[]|]; auto. destruct (String.eqb f "name" || String.eqb f "labels"); auto.
    destruct (fval h o "spec") as [| | |s| | | |] eqn:Es; auto. destruct (fval_in h o "spec" (PRef s) Es) as (e0 & He0 & I); [discriminate|].
    assert (Hs := Cl o e0 "spec" (PRef s) s He0 I (m_ref s)). destruct (hget h s) as [es|] eqn:Hes; [|contradiction].
    unfold is_kind, kind_at. rewrite Hes, (old s es Hes), (old_fval s f es Hes). reflexivity.
  Qed.

  (** Every entity of the new heap is an old one or a copy. *)
  Lemma old_or_copy : forall c e, hget g c = Some e -> (exists e0, hget h c = Some e0 /\ e = e0) \/ exists o, In o os /\ c = copy o.
  Proof.
    intros c e He. assert (Lt := hget_lt _ _ _ He). destruct (Nat.lt_ge_cases c (length h)) as [L|L].
    - left. rewrite (i_old _ _ _ _ _ _ Iv c L) in He. eauto.
    - right. rewrite (i_len _ _ _ _ _ _ Iv) in Lt. destruct (nth_error os (c - length h)) as [x|] eqn:X.
      + exists x. assert (Ix := nth_error_In _ _ X). split; auto. unfold LoadProofs.copy. enough (pos x os = c - length h) by lia.
        apply (proj1 (NoDup_nth_error os) N); [apply nth_error_Some; rewrite pos_nth by auto; discriminate|]. now rewrite pos_nth.
      + apply nth_error_None in X. lia.
  Qed.

  Lemma is_iso : isomorphic h obj g obj' R.
  Proof. eapply iso; eauto. Qed.

  Lemma same_pairs_sym : forall u w, same_pairs u w -> same_pairs w u.
  Proof. intros u w H kv. symmetry. apply H. Qed.
  Lemma same_pairs_trans : forall u w z, same_pairs u w -> same_pairs w z -> same_pairs u z.
  Proof. intros u w z H1 H2 kv. rewrite (H1 kv). apply H2. Qed.
  Lemma perm_pairs : forall u w, Permutation u w -> same_pairs u w.
  Proof. intros u w P kv. split; apply Permutation_in; auto. now symmetry. Qed.

  Lemma originals_apart : forall x y ex ey, In x os -> In y os -> hget h x = Some ex -> hget h y = Some ey -> same_pairs (e_uids ex) (e_uids ey) -> x = y.
  Proof.
    intros x y ex ey Ix Iy Hx Hy S. apply os_reach in Ix. apply os_reach in Iy. assert (X := Ne x ex Ix Hx).
    destruct (e_uids ex) as [|[s i] r] eqn:E; [contradiction|]. apply (Ow x y s s i); auto.
    - exists ex. split; auto. rewrite E. now left.
    - exists ey. split; auto. apply S. now left.
  Qed.
  Lemma copies_apart : forall x y a b ex ey, R a x -> R b y -> hget g x = Some ex -> hget g y = Some ey -> same_pairs (e_uids ex) (e_uids ey) -> x = y.
  Proof.
    intros x y a b ex ey Ra Rb Hx Hy S. destruct (iso_entity _ _ _ _ _ is_iso a x Ra) as (ea & ex' & Ha & Hx' & _ & Pa & _).
    destruct (iso_entity _ _ _ _ _ is_iso b y Rb) as (eb & ey' & Hb & Hy' & _ & Pb & _). rewrite Hx in Hx'. rewrite Hy in Hy'. inv Hx'. inv Hy'.
    enough (a = b) by (subst; eapply (iso_function _ _ _ _ _ is_iso); eauto).
    destruct Ra as [Ia _], Rb as [Ib _]. eapply originals_apart; eauto.
    eapply same_pairs_trans; [apply same_pairs_sym, perm_pairs; exact Pa|]. eapply same_pairs_trans; [exact S|]. now apply perm_pairs.
  Qed.

  Definition either (a b : oid) : Prop := R a b \/ R b a.

  Lemma copies_either : copies g either.
  Proof.
    split; [unfold either; tauto|].
    assert (Fd : forall a b ea eb f, R a b -> hget h a = Some ea -> hget g b = Some eb -> In f (keys (e_fields ea)) -> f <> "output_material" ->
       exists l, (sim (renamed R) (read g a f) l /\ read g b f = l) \/
         (exists m m' k, read g a f = PList m /\ read g b f = PList k /\ Permutation m' k /\ Forall2 (sim (renamed R)) m m')).
    { intros a b ea eb f Rab Ha Hb If Nf. destruct (iso_entity _ _ _ _ _ is_iso a b Rab) as (ea0 & eb0 & Ha0 & Hb0 & K & P & Kf & Sm & Ro).
      rewrite Ha in Ha0. rewrite Hb in Hb0. inv Ha0. inv Hb0. rewrite (old_read a f ea0 Ha). eexists. destruct (skipped (e_kind ea0) f) eqn:Sk.
      - right. apply skipped_iff in Sk. destruct (Ro f Sk) as [[-> _]|(_ & l & m & m' & E1 & E2 & Pm & F)]; [contradiction|].
        assert (Rd : forall hh o k, kind_at hh o = Some k -> read_only k f -> read hh o f = fval hh o f).
        { intros hh o k K0 R0. unfold read. rewrite K0. destruct k; auto. unfold read_only in R0. destruct R0 as [[X _]|[[X|X] _]]; discriminate. }
        exists l, m', m. rewrite (Rd h a (e_kind ea0)), (Rd g b (e_kind ea0)); auto; unfold kind_at; rewrite ?Ha, ?Hb; cbn; congruence.
      - left. split; [|reflexivity]. apply Sm; auto. rewrite <- skipped_iff, Sk. discriminate. }
    intros a b [Rab|Rba].
    - destruct (iso_entity _ _ _ _ _ is_iso a b Rab) as (ea & eb & Ha & Hb & K & P & Kf & Sm & Ro). exists ea, eb. split; [now apply old|]. split; auto. split; auto.
      split; [apply same_pairs_sym, perm_pairs; exact P|]. split; [intros f; symmetry; apply Kf|]. intros f If Nf.
      destruct (Fd a b ea eb f Rab Ha Hb If Nf) as (l & [[S <-]|(m & m' & k & E1 & E2 & Pm & F)]).
      + apply (alike_sim g R either); auto; [unfold either; auto|]. intros x y a0 b0 ex ey. apply copies_apart.
      + unfold alike. rewrite E1, E2. cbn [items_of]. apply (alike_list g R either m k m'); auto; [unfold either; auto|]. intros x y a0 b0 ex ey. apply copies_apart.
    - destruct (iso_entity _ _ _ _ _ is_iso b a Rba) as (eb & ea & Hb & Ha & K & P & Kf & Sm & Ro). exists ea, eb. split; auto. split; [now apply old|]. split; auto.
      split; [apply perm_pairs; exact P|]. split; [apply Kf|]. intros f If Nf.
      assert (D : forall x y a0 b0 ex ey, R x a0 -> R y b0 -> hget g x = Some ex -> hget g y = Some ey -> same_pairs (e_uids ex) (e_uids ey) -> x = y).
      { intros x y a0 b0 ex ey [Ix _] [Iy _] Hx Hy. destruct (W x) as (ex0 & Hx0 & _); [now apply os_reach|]. destruct (W y) as (ey0 & Hy0 & _); [now apply os_reach|].
        rewrite (old _ _ Hx0) in Hx. rewrite (old _ _ Hy0) in Hy. inv Hx. inv Hy. eapply originals_apart; eauto. }
      apply Kf in If. destruct (Fd b a eb ea f Rba Hb Ha If Nf) as (l & [[S <-]|(m & m' & k & E1 & E2 & Pm & F)]).
      + apply (alike_sim g (fun x y => R y x) either); [unfold either; auto| |now apply renamed_flip]. intros x y a0 b0 ex ey. apply D.
      + unfold alike. rewrite E1, E2. cbn [items_of].
        assert (F' : Forall2 (sim (renamed (fun x y => R y x))) m' m) by (clear - F; induction F; constructor; auto; now apply renamed_flip).
        destruct (Forall2_perm_l _ _ _ _ _ k F' Pm) as (m2 & Pm2 & F2).
        apply (alike_list g (fun x y => R y x) either k m m2); [unfold either; auto|now symmetry|exact F2|]. intros x y a0 b0 ex ey. apply D.
  Qed.

  Lemma uids_ok_g : uids_ok g.
  Proof.
    intros c e He. destruct (old_or_copy c e He) as [(e0 & He0 & ->)|(o & Io & ->)]; [eauto|].
    destruct (iso_entity _ _ _ _ _ is_iso o (copy o)) as (eo & e' & Ho & He' & _ & P & _); [split; auto|]. rewrite He in He'. inv He'.
    eapply Permutation_NoDup; [apply Permutation_map; symmetry; exact P|]. exact (Uo o eo Ho).
  Qed.

  Lemma template_old : forall x, attribute_template h x -> attribute_template g x.
  Proof. intros x [K|[K|K]]; apply old_kind in K; unfold attribute_template; auto. Qed.
  Lemma template_copy : forall o c, R o c -> attribute_template h o <-> attribute_template g c.
  Proof.
    intros o c Rc. destruct (iso_entity _ _ _ _ _ is_iso o c Rc) as (e & e' & He & He' & K & _).
    unfold attribute_template, kind_at. rewrite He, He'. cbn. now rewrite K.
  Qed.

  (** A field that mentions something belongs to an entity of the heap. *)
  Lemma read_some : forall hh o f x, mentions (read hh o f) x -> exists e, hget hh o = Some e.
  Proof.
    intros hh o f x Hm. destruct (hget hh o) as [e|] eqn:E; eauto. exfalso. unfold read, kind_at, fval in Hm. rewrite E in Hm. cbn in Hm. inversion Hm.
  Qed.

  (** Reading a field of a copy. *)
  Lemma copy_read : forall o c f x, R o c -> mentions (read g c f) x ->
    sim (renamed R) (read h o f) (read g c f) \/ (exists l, read g c f = PList (map PRef l)) \/ exists y, read g c f = PRef y.
  Proof.
    intros o c f x Rc Hm. destruct (iso_entity _ _ _ _ _ is_iso o c Rc) as (e & e' & He & He' & K & P & Kf & Sm & Ro).
    destruct (skipped (e_kind e) f) eqn:Sk.
    - right. apply skipped_iff in Sk. assert (Rd : read g c f = fval g c f).
      { unfold read, kind_at. rewrite He'. cbn. rewrite K. destruct (e_kind e); auto. unfold read_only in Sk. destruct Sk as [[X _]|[[X|X] _]]; discriminate. }
      rewrite Rd in *. destruct Rc as [Io ->]. destruct (new_entity lower known construct h obj os h st os_reach W Iv o Io) as (e0 & e1 & He0 & We & He1 & C).
      rewrite He in He0. rewrite He' in He1. inv He0. inv He1. destruct C as (_ & _ & _ & _ & _ & B). unfold fval in *. rewrite He' in *. rewrite (B f Sk) in *.
      unfold rebuilt in *. destruct (String.eqb f "output_material").
      + right. destruct (find _ _); [eauto|]. inversion Hm.
      + left. rewrite <- (map_map copy PRef). eauto.
    - assert (B : ~ read_only (e_kind e) f) by (rewrite <- skipped_iff, Sk; discriminate).
      left. auto.
  Qed.

  Lemma layered_g : layered g.
  Proof.
    destruct La as [L1 L2]. split.
    - intros c f x Hm. assert (Mx : mentions (read g c f) x).
      { unfold mentions_inside in Hm. destruct (read g c f); cbn [items_of] in Hm; try (now destruct Hm).
        - destruct Hm as (y & Iy & _ & My). eapply m_list; eauto.
        - destruct Hm as (y & Iy & _ & My). eapply m_tuple; eauto.
        - destruct Hm as (y & Iy & _ & My). apply in_map_iff in Iy as (kv & <- & _). inversion My. }
      destruct (read_some g c f x Mx) as (e & He). destruct (old_or_copy c e He) as [(e0 & He0 & ->)|(o & Io & ->)].
      + rewrite (old_read c f e0 He0) in Hm. apply template_old. eauto.
      + destruct (copy_read o (copy o) f x) as [S|[(l & E)|(y & E)]]; [split; auto|auto| | |].
        * destruct (sim_inside _ _ _ _ S Hm) as (y & My & Ry). apply (template_copy y x Ry). eauto.
        * rewrite E in Hm. unfold mentions_inside in Hm. cbn [items_of] in Hm. destruct Hm as (z & Iz & Nz & _). apply in_map_iff in Iz as (y & <- & _). exfalso. eapply Nz; reflexivity.
        * rewrite E in Hm. unfold mentions_inside in Hm. cbn [items_of] in Hm. destruct Hm as [X _]. exfalso. eapply X; reflexivity.
    - intros c f x A Mx. destruct (read_some g c f x Mx) as (e & He). destruct (old_or_copy c e He) as [(e0 & He0 & ->)|(o & Io & ->)].
      + rewrite (old_read c f e0 He0) in Mx. eapply L2; eauto. unfold attribute_template, kind_at in *. rewrite He in A. rewrite He0. exact A.
      + assert (Rc : R o (copy o)) by (split; auto). assert (Ao := proj2 (template_copy o (copy o) Rc) A).
        destruct (copy_read o (copy o) f x) as [S|Hr]; auto.
        * destruct (renamed_mentions_r _ _ _ _ S Mx) as (y & My & _). eapply L2; eauto.
        * (* templates have no read-only fields *)
          destruct (iso_entity _ _ _ _ _ is_iso o (copy o) Rc) as (eo & e' & Ho & He' & K & P & Kf & Sm & Ro).
          assert (Kt : e_kind eo = KPropT \/ e_kind eo = KCondT \/ e_kind eo = KParamT).
          { unfold attribute_template, kind_at in Ao. rewrite Ho in Ao. cbn in Ao. destruct Ao as [X|[X|X]]; inv X; auto. }
          assert (B : ~ read_only (e_kind eo) f). { rewrite <- skipped_iff. destruct Kt as [-> |[-> | ->]]; discriminate. }
          destruct (renamed_mentions_r _ _ _ _ (Sm f B) Mx) as (y & My & _). eapply L2; eauto.
  Qed.

  Lemma equal_copies : forall o c, R o c -> entity_eq lower g o c = true /\ entity_eq lower g c o = true.
  Proof. intros o c Rc. apply (copies_equal lower g either layered_g uids_ok_g copies_either). now left. Qed.
End Eq.
