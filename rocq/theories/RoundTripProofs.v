(** loads after dumps: whole graphs *)
From Coq Require Import String List Bool Arith Lia Permutation Sorted.
From Verif Require Import Base BaseFacts CidModel GraphModel GraphSpec GraphProofs EqModel EqSpec EqProofs EqCopies EqProperties TravModel TravSpec TravProofs TravProperties SerialModel SerialSpec SerialSim SerialProofs SerialLinks SerialEntity SerialRecords FlattenProofs SubstProperties LoadProofs.
Import ListNotations.
Open Scope string_scope.
Open Scope list_scope.
Open Scope nat_scope.

(** ** The other way round *)

Lemma sim_flip : forall (L : pv -> pv -> Prop) v w, sim L v w -> sim (fun a b => L b a) w v.
Proof.
  intros L v. induction v using pv_ind2; intros w S;
    destruct (sim_inv _ _ _ S) as [[E ->]|[(a' & E & ->)|[(E & F & Lvw)|[(l0 & m & E & -> & F)|[(l0 & m & E & -> & F)|[(l0 & m & E & -> & F)|(t0 & l0 & m & E & -> & F)]]]]]];
    try discriminate; try (destruct E as [[? E]|(? & ? & E)]; discriminate).
  - exact I.
  - inv E. reflexivity.
  - destruct F as [[o ->]|(s' & i' & ->)]; exact Lvw.
  - destruct F as [[o' ->]|(s' & i' & ->)]; exact Lvw.
  - inv E. apply sim_list. clear S. revert H. induction F; intros Hf; constructor; inv Hf; auto.
  - inv E. apply sim_tuple. clear S. revert H. induction F; intros Hf; constructor; inv Hf; auto.
  - inv E. apply sim_dict. destruct F as (N & M & m' & Pm & F). apply dsim_perm_l with (l := m'); auto.
    split; [eapply perm_nodup; [symmetry; exact Pm|auto]|]. split; auto. exists l0. split; auto.
    clear - F H. induction F as [|[k x] [k' y] l m [Ek Hxy] F IH]; constructor; inv H; auto. split; cbn in *; auto.
  - inv E. apply sim_obj. split; auto. destruct F as (N & M & m' & Pm & F). apply dsim_perm_l with (l := m'); auto.
    split; [eapply perm_nodup; [symmetry; exact Pm|auto]|]. split; auto. exists l0. split; auto.
    clear - F H. induction F as [|[k x] [k' y] l m [Ek Hxy] F IH]; constructor; inv H; auto. split; cbn in *; auto.
Qed.
Lemma renamed_flip : forall (R : oid -> oid -> Prop) v w, sim (renamed R) v w -> sim (renamed (fun a b => R b a)) w v.
Proof.
  intros R v w S. eapply sim_mono_in; [apply sim_flip; exact S|]. intros a b _ H. destruct a, b; cbn in *; try contradiction; auto. destruct H; auto.
Qed.

Lemma renamed_mentions_r : forall (R : oid -> oid -> Prop) v w c, sim (renamed R) v w -> mentions w c -> exists o, mentions v o /\ R o c.
Proof.
  intros R v w c S M. apply mentions_within in M. destruct (sim_leaf _ _ _ _ S M) as (a & Wa & La); [eauto|].
  destruct a as [| | |o| | | |]; cbn in La; try contradiction. exists o. split; auto. now apply mentions_within.
Qed.
Lemma renamed_mentions_l : forall (R : oid -> oid -> Prop) v w o, sim (renamed R) v w -> mentions v o -> exists c, mentions w c /\ R o c.
Proof. intros R v w o S M. apply renamed_flip in S. destruct (renamed_mentions_r _ _ _ _ S M) as (c & Mc & Rc). eauto. Qed.

Lemma renamed_ref_l : forall R o w, sim (renamed R) (PRef o) w -> exists c, w = PRef c /\ R o c.
Proof. intros R o w S. destruct w; cbn in S; try contradiction; eauto. Qed.

(** ** Wrapping *)

Lemma reach_obj : forall h k a b o, (forall x, mentions a x -> mentions b x) -> reach h k a o -> reach h k b o.
Proof. intros h k a b o H R. induction R; [apply r_obj; auto | eapply r_field; eauto]. Qed.
Lemma wrap_mentions : forall obj x, mentions (PDict [("object", obj)]) x <-> mentions obj x.
Proof.
  intros obj x. split.
  - intros M. inversion M as [| | |? k v ? I M'|]; subst. destruct I as [I|[]]. now inv I.
  - intros M. eapply m_dict; [now left|auto].
Qed.
Lemma wrap_reach : forall h obj o, reachable h (PDict [("object", obj)]) o <-> reachable h obj o.
Proof. intros. split; apply reach_obj; intros x; apply wrap_mentions. Qed.
Lemma wrap_hashable : forall h obj, hashable_tuples h everything obj -> hashable_tuples h everything (PDict [("object", obj)]).
Proof.
  intros h obj H l M. apply H. inversion M as [w Wi|o e f v w R He I K Wi]; subst.
  - apply m_obj. inversion Wi as [| | |? k v ? I Wv|]; subst. destruct I as [I|[]]. now inv I.
  - eapply m_field; eauto. now apply wrap_reach.
Qed.

Lemma fval_met : forall h obj o f w, reachable h obj o -> within w (fval h o f) -> w <> PNone -> met h everything obj w.
Proof.
  intros h obj o f w R W N. destruct (fval_in h o f _ eq_refl) as (e & He & I); [intros E; rewrite E in W; inv W; contradiction|].
  eapply m_field; eauto.
Qed.
Lemma read_met : forall h obj o f w, reachable h obj o -> within w (read h o f) -> w <> PNone -> met h everything obj w.
Proof.
  intros h obj o f x R M N. unfold read in M. destruct (kind_at h o) as [[]|]; try (eapply fval_met; eauto; fail).
  destruct (String.eqb f "name" || String.eqb f "labels"); try (eapply fval_met; eauto; fail).
  destruct (fval h o "spec") eqn:Es; try (eapply fval_met; eauto; fail).
  destruct (is_kind h KIngS (PRef o0)); try (eapply fval_met; eauto; fail).
  assert (R' : reachable h obj o0) by (eapply (fval_reach h obj o "spec"); eauto; rewrite Es; constructor).
  eapply fval_met; eauto.
Qed.
Lemma same_met : forall h h' obj w, same_content h h' -> met h everything obj w -> met h' everything obj w.
Proof.
  intros h h' obj w S M. inv M; [now apply m_obj|]. destruct (same_some h h' o e S H0) as (e0 & He0 & K & F). rewrite <- F in H1.
  eapply m_field; eauto. eapply same_reach; eauto.
Qed.

Lemma traverse_through : forall A B C (f : B -> res C) (Q : A -> B -> Prop) (P : A -> C -> Prop) os es, Forall2 Q os es ->
  (forall o e, In o os -> Q o e -> exists j, f e = Ok j /\ P o j) -> exists js, traverse f es = Ok js /\ Forall2 P os js.
Proof.
  induction 1 as [|o e os es Hq F IH]; intros H; [exists []; split; constructor|].
  destruct (H o e (or_introl eq_refl) Hq) as (j & E & Pj). destruct IH as (js & E' & F'); [intros; apply H; auto; now right|].
  exists (j :: js). cbn [traverse]. rewrite E. cbn. rewrite E'. cbn. auto.
Qed.

(** ** The loaded graph *)
Section Iso.
  Variable lower : string -> string.
  Variable known : string -> bool.
  Variable construct : heap -> string -> list (string * pv) -> res (list (string * pv)).
  Variable h : heap.
  Variable obj : pv.
  Variable os : list oid.
  Variable g0 : heap.
  Variable st : state.
  Variable obj' : pv.

  Notation R := (LoadProofs.R os g0).
  Notation copy := (LoadProofs.copy os g0).

  Hypothesis os_reach : forall o, In o os <-> reachable h obj o.
  Hypothesis W : all_well_formed lower known construct h obj.
  Hypothesis N : NoDup os.
  Hypothesis M : mirrored h.
  Hypothesis Pn : plain_names h obj.
  Hypothesis Iv : inv lower h os g0 os st.
  Hypothesis So : sim (renamed R) obj obj'.

  Lemma new_entity : forall o, In o os -> exists e e', hget h o = Some e /\ well_formed lower known construct h o e
    /\ hget (fst st) (copy o) = Some e' /\ copied h os g0 os o e e'.
  Proof.
    intros o Io. destruct (W o) as (e & He & We); [now apply os_reach|]. destruct (i_new _ _ _ _ _ _ Iv o e Io He) as (e' & He' & C). eauto 8.
  Qed.

  Lemma back_in : forall x f y, In x os -> mentions (fval h x f) y -> In y os.
  Proof. intros x f y Ix Hm. apply os_reach. apply os_reach in Ix. eapply fval_reach; eauto. Qed.

  (** The other sides. *)
  Lemma ro_field : forall o e e', In o os -> hget h o = Some e -> copied h os g0 os o e e' -> forall f, read_only (e_kind e) f ->
    (f = "output_material" /\ sim (renamed R) (fval h o f) (fget e' f))
    \/ (f <> "output_material" /\ exists l m m', fval h o f = PList l /\ fget e' f = PList m /\ Permutation m' m /\ Forall2 (sim (renamed R)) l m').
  Proof.
    intros o e e' Io He (_ & _ & _ & _ & _ & B) f Ro. rewrite (B f Ro). destruct M as (Mp & Ml & Mo).
    assert (Ko : kind_at h o = Some (e_kind e)) by (unfold kind_at; now rewrite He).
    destruct (string_dec f "output_material") as [->|Nf].
    - left. split; auto. eapply rebuilt_output; eauto. apply back_in.
    - right. split; auto. destruct (rebuilt_list h os g0 N Ml back_in o (e_kind e) f Io Ko Ro Nf) as (xs & ys & E1 & E2 & P & _ & Ins).
      exists (map PRef xs), (map (fun y => PRef (copy y)) ys), (map (fun y => PRef (copy y)) xs). split; auto. split; auto. split; [now apply Permutation_map|].
      clear - Ins. induction xs as [|x xs IH]; constructor; [|apply IH; intros; apply Ins; now right]. cbn. split; auto. apply Ins. now left.
  Qed.

  Lemma fget_in : forall e f v, NoDup (keys (e_fields e)) -> In (f, v) (e_fields e) -> fget e f = v.
  Proof. intros e f v Nd I. unfold fget. now rewrite (In_dict_get _ _ _ Nd I). Qed.

  Lemma iso_fget0 : forall o e e' f, hget h o = Some e -> copied h os g0 os o e e' -> ~ read_only (e_kind e) f ->
    read h o f = fval h o f -> sim (renamed R) (fval h o f) (fget e' f).
  Proof.
    intros o e e' f He (K & P & Nd & Kf & Sm & B) Ro Er.
    destruct (in_dec string_dec f (keys (e_fields e))) as [If|If]; [rewrite <- Er; auto|].
    assert (If' : ~ In f (keys (e_fields e'))) by (now rewrite Kf). apply dict_get_None in If. apply dict_get_None in If'.
    unfold fval, fget. rewrite He, If. unfold fget. rewrite If'. exact I.
  Qed.
  Lemma iso_fget : forall o e e' f, In o os -> hget h o = Some e -> well_formed lower known construct h o e -> copied h os g0 os o e e' ->
    kind_at h o <> Some KIngR \/ (f <> "name" /\ f <> "labels") -> ~ read_only (e_kind e) f -> sim (renamed R) (fval h o f) (fget e' f).
  Proof.
    intros o e e' f Io He We C Hf Ro. apply (iso_fget0 o e e' f); auto.
    { unfold read. destruct (kind_at h o) as [[]|]; auto. destruct Hf as [X|[X1 X2]]; [congruence|]. apply String.eqb_neq in X1. apply String.eqb_neq in X2. now rewrite X1, X2. }
  Qed.

  (** Fields as they are read. *)
  Lemma iso_read : forall o e, In o os -> hget h o = Some e -> forall f, ~ read_only (e_kind e) f ->
    sim (renamed R) (read h o f) (read (fst st) (copy o) f).
  Proof.
    intros o e0 Io He0 f Ro. destruct (new_entity o Io) as (e & e' & He & We & He' & C). rewrite He in He0. inv He0. rename e0 into e.
    assert (C' := C). destruct C' as (K & P & Nd & Kf & Sm & B).
    assert (Ko : kind_at h o = Some (e_kind e)) by (unfold kind_at; now rewrite He).
    assert (Kc : kind_at (fst st) (copy o) = Some (e_kind e)) by (unfold kind_at; rewrite He'; cbn; now rewrite K).
    assert (Fc : forall f, fval (fst st) (copy o) f = fget e' f) by (intros; unfold fval; now rewrite He').
    destruct (ekind_eq_dec (e_kind e) KIngR) as [Ek|Ek].
    2: { assert (Er : forall hh x, kind_at hh x = Some (e_kind e) -> read hh x f = fval hh x f) by (intros hh x Kx; unfold read; rewrite Kx; destruct (e_kind e); auto; contradiction).
         rewrite !Er, Fc by auto. eapply iso_fget0; eauto. }
    destruct (String.eqb f "name" || String.eqb f "labels") eqn:Ef.
    2: { assert (Er : forall hh x, kind_at hh x = Some (e_kind e) -> read hh x f = fval hh x f) by (intros hh x Kx; unfold read; now rewrite Kx, Ek, Ef).
         rewrite !Er, Fc by auto. eapply iso_fget0; eauto. }
    assert (Ssp : sim (renamed R) (fval h o "spec") (fget e' "spec")).
    { eapply iso_fget; eauto; [right; split; discriminate|]. rewrite <- skipped_iff, Ek. discriminate. }
    destruct (wf_refs _ _ _ _ _ _ We "spec") as (k & pk & Kk & Ak & Fx).
    { exists KIngS. rewrite Ek. unfold asked_kind. cbn. tauto. }
    assert (pk = KIngS). { rewrite Ko, Ek in Kk. inv Kk. eapply asked_fun; eauto. unfold asked_kind. cbn. tauto. } subst pk.
    unfold read. rewrite Ko, Kc, Ek, Ef, !Fc. destruct Fx as [Fx|[(s & i & Fx)|(s & Fx & Ks)]]; rewrite Fx in *.
    - assert (Eg : fget e' "spec" = PNone) by (destruct (fget e' "spec"); cbn in Ssp; try contradiction; auto). rewrite Eg.
      eapply iso_fget0; eauto. unfold read. now rewrite Ko, Ek, Ef, Fx.
    - assert (Eg : exists s i, fget e' "spec" = PLink s i) by (destruct (fget e' "spec"); cbn in Ssp; try contradiction; eauto). destruct Eg as (s1 & i1 & ->).
      eapply iso_fget0; eauto. unfold read. now rewrite Ko, Ek, Ef, Fx.
    - apply renamed_ref_l in Ssp as (c & Ec & [Is ->]). rewrite Ec. unfold is_kind. rewrite Ks.
      assert (Kcs : kind_at (fst st) (copy s) = Some KIngS) by (rewrite <- Ks; eapply (copied_kind lower known construct); eauto; [|now rewrite app_nil_r]; intros x Ix; apply W, os_reach; exact Ix).
      rewrite Kcs. change (ekind_eqb KIngS KIngS) with true. cbv iota. destruct (new_entity s Is) as (es & es' & Hs & Ws & Hs' & Cs).
      unfold fval at 2. rewrite Hs'. eapply iso_fget; eauto; [left; congruence|].
      unfold kind_at in Ks. rewrite Hs in Ks. inv Ks. rewrite H0. rewrite <- skipped_iff. discriminate.
  Qed.

  Lemma copy_reach : forall o, reachable h obj o -> reachable (fst st) obj' (copy o).
  Proof.
    intros o Ro. induction Ro as [o Mo|o e f v x Ro IH He I _ Mv].
    - destruct (renamed_mentions_l _ _ _ _ So Mo) as (c & Mc & [_ ->]). now apply r_obj.
    - assert (Io : In o os) by now apply os_reach. destruct (new_entity o Io) as (e0 & e' & He0 & We & He' & C). rewrite He in He0. inv He0.
      assert (Ev : fval h o f = v) by (unfold fval; rewrite He; apply fget_in; [apply (wf_keys _ _ _ _ _ _ We)|auto]).
      assert (If : In f (keys (e_fields e0))) by (apply (in_map fst) in I; exact I).
      enough (Hm : mentions (fget e' f) (copy x)).
      { apply (fval_reach (fst st) obj' (copy o) f); auto. unfold fval. now rewrite He'. }
      destruct (skipped (e_kind e0) f) eqn:Sk.
      + apply skipped_iff in Sk. destruct (ro_field o e0 e' Io He C f Sk) as [[_ S]|(_ & l & m & m' & E1 & E2 & P & F)].
        * rewrite Ev in S. destruct (renamed_mentions_l _ _ _ _ S Mv) as (c & Mc & [_ ->]). exact Mc.
        * rewrite E1 in Ev. subst v. inversion Mv as [|? y ? Iy My| | |]; subst. destruct (Forall2_in_l _ _ _ _ _ F y Iy) as (z & Iz & Sz).
          destruct (renamed_mentions_l _ _ _ _ Sz My) as (c & Mc & [_ ->]). rewrite E2. eapply m_list; [|exact Mc]. eapply Permutation_in; eauto.
      + assert (B : ~ read_only (e_kind e0) f) by (rewrite <- skipped_iff, Sk; discriminate).
        assert (Hf : kind_at h o <> Some KIngR \/ (f <> "name" /\ f <> "labels")).
        { destruct (ekind_eq_dec (e_kind e0) KIngR) as [Ek|Ek]; [|left; unfold kind_at; rewrite He; cbn; congruence].
          right. assert (X : f = "name" \/ f = "labels" -> False); [|tauto]. intros Hf. apply (Pn o f x); auto; [unfold kind_at; rewrite He; cbn; congruence | now rewrite Ev]. }
        assert (S := iso_fget o e0 e' f Io He We C Hf B). rewrite Ev in S. destruct (renamed_mentions_l _ _ _ _ S Mv) as (c & Mc & [_ ->]). exact Mc.
  Qed.

  Lemma reach_copy : forall c, reachable (fst st) obj' c -> exists o, R o c.
  Proof.
    intros c Rc. induction Rc as [c Mc|c e' f v x Rc (o & Io & ->) He' I _ Mv].
    - destruct (renamed_mentions_r _ _ _ _ So Mc) as (o & _ & Ro). eauto.
    - destruct (new_entity o Io) as (e & e1 & He & We & He1 & C). rewrite He' in He1. inv He1.
      assert (C' := C). destruct C' as (K & P & Nd & Kf & Sm & B).
      assert (Ev : fget e1 f = v) by (apply fget_in; auto).
      assert (If : In f (keys (e_fields e))) by (apply Kf; apply (in_map fst) in I; exact I).
      destruct (skipped (e_kind e) f) eqn:Sk.
      + apply skipped_iff in Sk. destruct (ro_field o e e1 Io He C f Sk) as [[_ S]|(_ & l & m & m' & E1 & E2 & Pm & F)].
        * rewrite Ev in S. destruct (renamed_mentions_r _ _ _ _ S Mv) as (y & _ & Ry). eauto.
        * rewrite E2 in Ev. subst v. inversion Mv as [|? y ? Iy My| | |]; subst. apply (Permutation_in _ (Permutation_sym Pm)) in Iy. destruct (Forall2_in_r _ _ _ _ _ F y Iy) as (z & Iz & Sz).
          destruct (renamed_mentions_r _ _ _ _ Sz My) as (w & _ & Rw). eauto.
      + assert (Bn : ~ read_only (e_kind e) f) by (rewrite <- skipped_iff, Sk; discriminate).
        assert (S := Sm f If Bn). rewrite Ev in S. destruct (renamed_mentions_r _ _ _ _ S Mv) as (y & _ & Ry). eauto.
  Qed.

  Lemma iso : isomorphic h obj (fst st) obj' R.
  Proof.
    split.
    - intros o. split; [intros Ro; exists (copy o); split; auto; now apply os_reach|]. intros (c & Io & _). now apply os_reach.
    - intros c. split; [apply reach_copy|]. intros (o & Io & ->). apply copy_reach. now apply os_reach.
    - intros o c c' [_ ->] [_ ->]. reflexivity.
    - intros o o' c [I1 ->] [I2 E]. eapply copy_inj; eauto.
    - exact So.
    - intros o c [Io ->]. destruct (new_entity o Io) as (e & e' & He & We & He' & C). exists e, e'.
      assert (C' := C). destruct C' as (K & P & Nd & Kf & Sm & B). split; auto. split; auto. split; auto. split; auto. split; auto. split.
      + intros f Ro. eapply iso_read; eauto.
      + intros f Ro. unfold fval at 2 4. rewrite He'. eapply ro_field; eauto.
  Qed.
End Iso.

(** ** Writing and loading *)

Lemma same_mirrored : forall h h', same_content h h' -> mirrored h -> mirrored h'.
Proof.
  intros h h' S (Mp & Ml & Mo). split; [|split].
  - intros mk pk m p C. rewrite !(same_kind h h'), !(same_fval h h') by auto. now apply Mp.
  - intros ck cf pk lf Ls. destruct (Ml ck cf pk lf Ls) as [A B]. split.
    + intros p K. rewrite (same_kind h h') in K by auto. destruct (A p K) as (xs & E & Nd & H). exists xs. rewrite (same_fval h h') by auto. split; auto. split; auto.
      intros c. rewrite !(same_kind h h'), !(same_fval h h') by auto. apply H.
    + intros c p K F. rewrite (same_kind h h') in * by auto. rewrite (same_fval h h') in F by auto. eauto.
  - intros p K. rewrite (same_fval h h') by auto. apply Mo. now rewrite <- !(same_kind h h') by auto.
Qed.

Lemma mirrored_lists : forall h, mirrored h -> lists_exist h.
Proof. intros h (_ & Ml & _) ck cf pk lf p Ls K. destruct (Ml ck cf pk lf Ls) as [A _]. destruct (A p K) as (xs & E & _). eauto. Qed.

Section Round.
  Variable lower : string -> string.
  Variable known : string -> bool.
  Variable construct : heap -> string -> list (string * pv) -> res (list (string * pv)).

  (** Everything about one call of dumps and any later call of loads. *)
  Lemma round_trip : forall sorted uuid4 h n obj scope, (forall l, Permutation (sorted l) l) ->
    hashable_tuples h everything obj -> all_well_formed lower known construct h obj -> own_uids lower h obj ->
    fresh_uuids uuid4 n h obj -> plain_scope scope -> attributes_typed h obj -> mirrored h -> loose_links lower uuid4 n h obj ->
    plain_names h obj -> storable known construct h obj -> coherent_numbers obj ->
    exists h' n' j os, dumps lower known construct sorted uuid4 h n obj scope = Ok (h', n', j)
      /\ set_uuids uuid4 h n (PDict [("object", obj)]) scope = Done (h', n')
      /\ same_content h h' /\ (forall o, In o os <-> reachable h' obj o) /\ NoDup os
      /\ all_well_formed lower known construct h' obj /\ own_uids lower h' obj
      /\ (forall o e, reachable h' obj o -> hget h' o = Some e -> e_uids e <> [])
      /\ (forall o e, hget h o = Some e -> e_uids e <> [] -> hget h' o = Some e)
      /\ forall g0, lists_exist g0 -> exists obj' st, loads lower known construct g0 j = Ok (obj', fst st)
           /\ inv lower h' os g0 os st /\ sim (renamed (LoadProofs.R os g0)) obj obj'.
  Proof.
    intros sorted uuid4 h n obj scope Ps T W O F Sc At Mi Ll Pn Sb Co.
    set (wr := PDict [("object", obj)]).
    assert (O1 : own_uids lower h wr). { intros o o' s s' i R R'. apply O; now apply wrap_reach. }
    assert (W1 : all_well_formed lower known construct h wr). { intros o R. apply W. now apply wrap_reach. }
    assert (F1 : fresh_uuids uuid4 n h wr). { destruct F as [Fa Fb]. split; auto. intros a o s Ha R. apply Fb; auto. now apply wrap_reach. }
    destruct (set_uuids_ready lower known construct lower uuid4 h n wr scope (wrap_hashable _ _ T) W1 O1 F1 Sc) as (h' & n' & E & S & Hn & W2 & O2 & U2 & Un & Uf).
    assert (O3 : own_uids (fun s => s) h' wr). { intros o o' s s' i R R' U U' Es. subst. eapply O2; eauto. }
    destruct (flatten_set_ok lower known construct sorted h' wr Ps (same_hashable _ _ _ S (wrap_hashable _ _ T)) W2 O3 U2) as (os & es & Ef & Nd & Ro & Fo & So).
    assert (Ros : forall o, In o os <-> reachable h' obj o). { intros o. rewrite Ro. apply wrap_reach. }
    assert (W' : all_well_formed lower known construct h' obj). { intros o R. apply W2. now apply wrap_reach. }
    assert (O' : own_uids lower h' obj). { intros o o' s s' i R R'. apply O2; now apply wrap_reach. }
    assert (U' : forall o e, reachable h' obj o -> hget h' o = Some e -> e_uids e <> []). { intros o e R. apply U2. now apply wrap_reach. }
    assert (Back : forall o, reachable h' obj o -> reachable h obj o) by (intros o; apply same_reach; now apply same_content_sym).
    assert (At' : attributes_typed h' obj).
    { intros o0 e0 f0 y R0 He0 If0 Nr B0 M0. destruct (same_some h' h o0 e0 (same_content_sym _ _ S) He0) as (e1 & He1 & K1 & Fd1).
      unfold attribute_template. rewrite !(same_kind h h') by auto. rewrite (same_read h h') in M0 by auto.
      eapply (At o0 e1); eauto; try rewrite ?K1, ?Fd1; auto. }
    (* links of the entities *)
    assert (Lk : forall x, reachable h' obj x -> exists l, link_of lower h' None true x = Ok l).
    { intros x R. destruct (W' x R) as (e & He & _). destruct (link_of_none lower h' x e He (U' x e R He)) as (s & i & r & _ & El). eauto. }
    (* the object *)
    assert (Sb' : storable known construct h' obj) by (eapply same_storable; eauto).
    destruct (subst_value lower known construct h' None true (fun a => within (PAtom a) obj)) with (v := obj) (seen := @nil atom) as (w & s & Ew & Sw & _); auto.
    { intros o M. apply Lk. now apply r_obj. }
    { intros b []. }
    destruct (encode_value lower known construct h' (to_links lower h' None true) (to_links_leaf lower h' None true) (to_links_link lower h' None true) (fun _ => Err ValueError) obj Sb' w Sw) as (jo & Ej & Cj).
    (* the records *)
    destruct (traverse_through _ _ _ (fun e => encode_nested [e] 1 0) _
      (fun o j => exists e, hget h' o = Some e /\ forall sb st, (forall f, In f (keys (e_fields e)) -> ~ read_only (e_kind e) f -> resolvable lower h' (to_links lower h' None true) sb st (read h' o f)) ->
        exists d, decode lower known construct sb st j = make_entity lower construct st (e_kind e) d
        /\ dsim (sim (L12 lower (to_links lower h' None true) sb st)) (("uids", uids_val e) :: fields_of h' o e) d) os es Fo) as (js & Ejs & Fjs).
    { intros o e' Io (e & He & Th). destruct (W' o) as (e0 & He0 & We); [now apply Ros|]. rewrite He in He0. inv He0.
      destruct (record_json lower known construct h' None true o e0 e' He We Th) as (j & E1 & E2). exists j. split; auto. exists e0. auto. }
    exists h', n', (JObj [("context", JArr js); ("object", jo)]), os. split; [|split; [exact E|split; [exact S|split; [exact Ros|split; [exact Nd|split; [exact W'|split; [exact O'|split; [exact U'|split; [exact Un|]]]]]]]]].
    { unfold dumps, flatten. fold wr. rewrite E. cbn [of_outcome bind]. rewrite Ef. cbn [bind]. unfold substitute_links. rewrite Ew. cbn [bind]. rewrite Ejs. cbn [bind]. rewrite Ej. reflexivity. }
    intros g0 L0.
    assert (Ord : forall P o Q e f x, os = P ++ o :: Q -> hget h' o = Some e -> In f (keys (e_fields e)) -> ~ read_only (e_kind e) f -> mentions (read h' o f) x -> In x P).
    { intros P o Q e f x Eo He If B M.
      assert (Rr : reachable h' obj o) by (apply Ros; rewrite Eo; apply in_or_app; right; now left).
      destruct (reference_rank lower known construct h' obj o e f x W' At' Rr He If B M) as (k & Kx & Rk).
      assert (Ix : In x os) by (apply Ros; eapply read_reach; eauto).
      apply (sorted_before (fun o => match kind_at h' o with Some k => rank k | None => 0 end) P o Q).
      - rewrite <- Eo. clear - Fo So. induction Fo as [|o e' os es (e & He & Th) F IH]; inv So; constructor; auto.
        clear IH. rewrite Forall_forall in *. intros y Iy. destruct (Forall2_in_l _ _ _ _ _ F y Iy) as (ey' & Iey & ey & Hey & Thy).
        specialize (H2 _ Iey). unfold kind_at. rewrite He, Hey. cbn. destruct Th as (<- & _). destruct Thy as (<- & _). exact H2.
      - now rewrite <- Eo.
      - rewrite Kx. unfold kind_at. rewrite He. exact Rk. }
    assert (Wo : forall o, In o os -> exists e, hget h' o = Some e /\ well_formed lower known construct h' o e) by (intros; apply W'; now apply Ros).
    assert (Own : forall o o' s s' i, In o os -> In o' os -> uid_of h' o s i -> uid_of h' o' s' i -> lower s = lower s' -> o = o').
    { intros o o' s0 s' i I1 I2. apply O'; now apply Ros. }
    assert (Loose0 : forall s i y s', met h everything obj (PLink s i) -> In y os -> uid_of h' y s' i -> lower s' <> lower s).
    { intros s0 i y s' M Iy U. destruct (Ll s0 i M) as [La Lb]. apply Ros in Iy. destruct (Uf y s' i) as [Uh|(_ & m & Hm & Ei)]; auto; [now apply wrap_reach| |].
      - eapply La; eauto.
      - exfalso. apply (Lb m); auto. lia. }
    assert (Loose : forall o e f s i y s', In o os -> hget h' o = Some e -> In f (keys (e_fields e)) -> ~ read_only (e_kind e) f ->
      within (PLink s i) (read h' o f) -> In y os -> uid_of h' y s' i -> lower s' <> lower s).
    { intros o e f s0 i y s' Io He If B Wl. apply Loose0. eapply same_met; [apply same_content_sym; exact S|]. eapply read_met; eauto; [now apply Ros|discriminate]. }
    destruct (load_all lower known construct h' os g0 Wo Nd Own Ord Loose L0 os js [] (g0, [])) as (st & Ed & Iv); auto.
    { apply inv_nil. }
    assert (Leaf : forall a b, within a obj -> L12 lower (to_links lower h' None true) true st a b -> renamed (LoadProofs.R os g0) a b).
    { intros a b Wa. apply (L12_twin lower h' os g0 os []); auto; [now rewrite app_nil_r| |].
      - intros x ->. apply Ros. apply r_obj. now apply mentions_within.
      - intros s0 i y s' ->. apply Loose0. now apply TravSpec.m_obj. }
    destruct (Cj true st) as (obj' & Eo & Sobj).
    { intros a s0 i Wa Ha. apply (twin_relinked lower known construct h' os g0 Wo os [] st); auto; [now rewrite app_nil_r| |].
      - intros x ->. apply Ros. apply r_obj. now apply mentions_within.
      - apply Leaf; auto. exists s0, i. auto. }
    exists obj', st. split; [|split; [exact Iv|eapply sim_mono_in; eauto]].
    unfold loads. rewrite decode_obj_eq. cbn [decode_pairs]. rewrite decode_arr_eq, Ed. cbn [bind]. rewrite Eo. reflexivity.
  Qed.
End Round.
