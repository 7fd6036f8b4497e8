(** The records that flatten and dumps write. *)
From Coq Require Import String List Bool Arith Lia Permutation.
From Verif Require Import Base BaseFacts CidModel GraphModel GraphSpec GraphProofs EqModel EqSpec EqProofs EqCopies TravModel TravSpec TravProofs TravProperties SerialModel SerialSpec SerialSim SerialProofs SerialLinks SerialEntity.
Import ListNotations.
Open Scope string_scope.
Open Scope list_scope.
Open Scope nat_scope.

Lemma lists_ok_nil : lists_ok [].
Proof. intros ck cf pk lf p _ K. destruct p; discriminate. Qed.

Lemma dsim_uids : forall L u w, Permutation u w -> NoDup (keys u) ->
  sim L (PDict (map (fun p => (fst p, str (snd p))) u)) (PDict (map (fun p => (fst p, str (snd p))) w)).
Proof.
  intros L u w P N. apply sim_dict.
  assert (Ku : forall v : list (string * string), keys (map (fun p => (fst p, str (snd p))) v) = keys v) by (intros; unfold keys; rewrite map_map; reflexivity).
  split; [now rewrite Ku|]. split; [rewrite Ku; eapply perm_nodup; eauto|].
  exists (map (fun p => (fst p, str (snd p))) u). split; [now apply Permutation_map|].
  clear. induction u as [|[k v] u IH]; cbn; constructor; auto. split; cbn; auto.
Qed.

Lemma within_uids : forall e a, within a (uids_val e) -> a = uids_val e \/ exists s, a = PAtom (AStr s).
Proof.
  intros e a W. inversion W as [| | |w k v l I W'|]; subst; [now left|]. right. apply in_map_iff in I as (p & E & _). inversion E; subst.
  inversion W'; subst. unfold str. eauto.
Qed.

Section R.
  Variable lower : string -> string.
  Variable known : string -> bool.
  Variable construct : heap -> string -> list (string * pv) -> res (list (string * pv)).
  Variable h : heap.
  Variable scope : option string.
  Variable fb : bool.
  Notation link_of := (link_of lower h scope fb).
  Notation to_links := (to_links lower h scope fb).
  Notation well_formed := (well_formed lower known construct h).
  Notation representable := (representable lower known construct h).

  Definition thin (o : oid) (e e' : entity) : Prop :=
    e_kind e' = e_kind e /\ Permutation (e_uids e') (e_uids e) /\ NoDup (keys (e_fields e'))
    /\ (forall f, In f (keys (e_fields e')) <-> In f (keys (e_fields e)))
    /\ (forall f, In f (keys (e_fields e)) -> ~ read_only (e_kind e) f -> sim to_links (read h o f) (fget e' f))
    /\ (forall f, read_only (e_kind e) f -> dict_get f (e_fields e') = dict_get f (blank (e_kind e))).

  Lemma no_top_ref : forall v w, sim to_links v w -> forall o, w <> PRef o.
  Proof.
    intros v w S o ->. destruct v; cbn in S; try contradiction; [discriminate|].
    apply link_of_link in S as (s & i & E). discriminate.
  Qed.

  Lemma uids_nodup : forall u, NoDup (map (fun p : string * string => lower (fst p)) u) -> NoDup (keys u).
  Proof. intros u N. apply (NoDup_map_inv lower). unfold keys. now rewrite map_map. Qed.

  Lemma members_storable : forall o e, representable o e -> Forall (fun kv => storable known construct h (snd kv)) (("uids", uids_val e) :: fields_of h o e).
  Proof.
    intros o e W. constructor.
    - cbn. unfold uids_val. apply st_dict.
      + unfold keys. rewrite map_map. cbn. apply (uids_nodup _ (rp_uids _ _ _ _ _ _ W)).
      + unfold keys. rewrite map_map. cbn. apply (rp_scopes _ _ _ _ _ _ W).
      + apply Forall_forall. intros kv I. apply in_map_iff in I as (p & <- & _). constructor.
    - apply Forall_forall. intros [f v] I. apply fields_of_in in I as (A & B & ->). cbn. now apply (rp_values _ _ _ _ _ _ W).
  Qed.
  Lemma members_nodup : forall o e, representable o e -> NoDup (keys (("uids", uids_val e) :: fields_of h o e)).
  Proof.
    intros o e W. cbn. constructor; [|apply fields_of_nodup; apply W]. intros I. apply fields_of_key in I as [I _]. now apply (proj1 (rp_names _ _ _ _ _ _ W)).
  Qed.
  Lemma members_type : forall o e, representable o e -> ~ In "type" (keys (("uids", uids_val e) :: fields_of h o e)).
  Proof.
    intros o e W. cbn. intros [E|I]; [discriminate|]. apply fields_of_key in I as [I _]. now apply (proj2 (rp_names _ _ _ _ _ _ W)).
  Qed.

  Lemma record_ok : forall o e, hget h o = Some e -> well_formed o e ->
    (forall f x, In f (keys (e_fields e)) -> ~ read_only (e_kind e) f -> mentions (read h o f) x -> exists l, link_of x = Ok l) ->
    exists e', substitute_links_entity lower known construct h scope fb o = Ok e' /\ thin o e e'.
  Proof.
    intros o e He W Hl. set (l := ("uids", uids_val e) :: fields_of h o e).
    set (A := fun a => (exists s, a = AStr s) \/ atom_of h o e a).
    assert (Co : forall a b, A a -> A b -> atom_eq a b = true -> a = b).
    { intros a b [(s & ->)|Ha] [(t & ->)|Hb] E; cbn in E.
      - apply String.eqb_eq in E. now subst.
      - destruct b; cbn in E; try discriminate. apply String.eqb_eq in E. now subst.
      - destruct a; cbn in E; try discriminate. apply String.eqb_eq in E. now subst.
      - eapply (wf_atoms _ _ _ _ _ _ W); eauto. }
    destruct (subst_pairs_ok lower known construct h scope fb A (l ++ [("type", str (typ_of (e_kind e)))])) with (seen := @nil atom) as (vs & s' & E & F & _).
    { apply Forall_app. split.
      - apply Forall_forall. intros [f v] I. cbn. apply subst_value; auto.
        + assert (X := members_storable o e (wf_rep _ _ _ _ _ _ W)). rewrite Forall_forall in X. apply (X _ I).
        + intros x M. destruct I as [I|I]; [inv I; apply mentions_within, within_uids in M as [M|[s M]]; discriminate|].
          apply fields_of_in in I as (B & C & ->). eauto.
        + intros a Wa. destruct I as [I|I].
          * inv I. apply within_uids in Wa as [Wa|[s Wa]]; [discriminate|]. inv Wa. left. eauto.
          * apply fields_of_in in I as (B & C & ->). right. exists f. auto.
      - constructor; [|constructor]. cbn. intros seen Hs. apply subst_value; auto; [constructor | intros x M; inv M | intros a Wa; inv Wa; left; eauto]. }
    { intros b []. }
    apply Forall2_app_inv_l in F as (vs1 & vt & F1 & F2 & ->). inv F2. inv H3. destruct y as [t' y]. destruct H1 as [E1 E2]. cbn in E1, E2. subst t'.
    destruct y; try contradiction. subst a.
    destruct (build_typed lower known construct h scope fb l vs1 (typ_of (e_kind e)) (members_nodup o e (wf_rep _ _ _ _ _ _ W)) (members_type o e (wf_rep _ _ _ _ _ _ W)) (members_storable o e (wf_rep _ _ _ _ _ _ W)) F1 _ (Permutation_refl _)) as (d & Eb & D).
    destruct (make_entity_ok lower known construct h [] [] o e d to_links He (wf_rep _ _ _ _ _ _ W) D) as (u & fs & Em & Pu & Nf & Kf & Sf & Bf & _).
    { intros f a b _ _ _ La. destruct (to_links_link _ _ _ _ _ _ La) as (s & i & ->). destruct a; cbn in *; try contradiction; auto. now inv La. }
    { apply lists_ok_nil. }
    set (final := dict_update (map (fun f => (f, arg d f)) (ref_args (e_kind e))) (blank (e_kind e) ++ fs)) in *.
    assert (Sb : forall f, reference (e_kind e) f -> forall p, arg d f <> PRef p).
    { intros f R p E1. assert (Rk : In f (keys (e_fields e)) /\ ~ read_only (e_kind e) f).
      { split; [|now apply ref_not_ro]. apply (wf_blank _ _ _ _ _ _ W), blank_keys. auto. }
      destruct (Sf f (proj1 Rk) (proj2 Rk)) as (v & Ev & Sv). apply no_top_ref with (o := p) in Sv. apply Sv.
      unfold final in Ev. rewrite dict_get_update in Ev.
      - rewrite (In_dict_get f (arg d f)) in Ev; [inv Ev; auto | |].
        + unfold keys. rewrite map_map. cbn. rewrite map_id. apply ref_args_nodup.
        + apply in_map_iff. exists f. split; auto. now apply ref_args_iff.
      - unfold keys. rewrite map_map. cbn. rewrite map_id. apply ref_args_nodup. }
    assert (Bk : fold_left (back (e_kind e) (length (@nil entity))) (map (fun f => (f, arg d f)) (ref_args (e_kind e))) [] = []).
    { assert (X : forall fs, (forall f, In f fs -> reference (e_kind e) f) -> fold_left (back (e_kind e) 0) (map (fun f => (f, arg d f)) fs) [] = []).
      { induction fs0 as [|f fs0 IH]; intros H; cbn [map fold_left]; auto.
        replace (back (e_kind e) 0 [] (f, arg d f)) with (@nil entity); [apply IH; intros; apply H; now right|].
        unfold back. cbn [snd fst]. destruct (arg d f) eqn:Ea; auto. exfalso. eapply Sb; eauto. apply H. now left. }
      apply X. intros f. apply ref_args_iff. }
    rewrite Bk in Em. cbn [app] in Em.
    exists (mkE (e_kind e) u final). split.
    - unfold substitute_links_entity. rewrite (as_dict_eq h o e He). rewrite subst_dict_eq. 
      change (("uids", uids_val e) :: fields_of h o e ++ [("type", str (typ_of (e_kind e)))]) with (l ++ [("type", str (typ_of (e_kind e)))]).
      rewrite E. cbn [bind]. unfold str in Eb. rewrite Eb. unfold load_typed. rewrite typ_not_link, kind_of_typ. 
      refine (eq_trans (f_equal (fun r => do (_, hb) <- (do (v, st) <- r; Ok (v, fst st)); match hb with [e0] => Ok e0 | _ => Err TypeError end) Em) _).
      reflexivity.
    - unfold thin. cbn [e_kind e_uids e_fields]. repeat split; auto; try apply Kf.
      intros f B C. destruct (Sf f B C) as (v & Ev & Sv). unfold fget. cbn [e_fields]. now rewrite Ev.
  Qed.

  Lemma thin_read : forall o e e' f, hget h o = Some e -> well_formed o e -> thin o e e' -> read [e'] 0 f = fget e' f.
  Proof.
    intros o e e' f He W (K & _ & _ & Kf & S & _). unfold read. cbn [kind_at hget nth_error option_map]. unfold kind_at, hget. cbn [nth_error option_map].
    rewrite K. unfold fval, hget. cbn [nth_error]. destruct (e_kind e) eqn:Ek; auto. destruct (String.eqb f "name" || String.eqb f "labels"); auto.
    destruct (fget e' "spec") eqn:Es; auto. exfalso. assert (B : In "spec" (keys (e_fields e))).
    { apply (wf_blank _ _ _ _ _ _ W). rewrite Ek. cbn. auto. }
    assert (C : ~ read_only KIngR "spec") by (rewrite <- skipped_iff; discriminate).
    specialize (S _ B C). rewrite Es in S. eapply no_top_ref; eauto.
  Qed.

  Lemma record_json : forall o e e', hget h o = Some e -> well_formed o e -> thin o e e' ->
    exists j, encode_nested [e'] 1 0 = Ok j /\
      forall sb st, (forall f, In f (keys (e_fields e)) -> ~ read_only (e_kind e) f -> resolvable lower h to_links sb st (read h o f)) ->
      exists d, decode lower known construct sb st j = make_entity lower construct st (e_kind e) d
        /\ dsim (sim (L12 lower to_links sb st)) (("uids", uids_val e) :: fields_of h o e) d.
  Proof.
    intros o e e' He W T. assert (T' := T). destruct T' as (K & Pu & N & Kf & S & B).
    set (l := ("uids", uids_val e) :: fields_of h o e). set (m := ("uids", uids_val e') :: fields_of [e'] 0 e').
    assert (Nm : NoDup (keys m)).
    { unfold m. cbn. constructor; [|now apply fields_of_nodup]. intros I. apply fields_of_key in I as [I _]. apply Kf in I. now apply (proj1 (wf_names _ _ _ _ _ _ W)). }
    assert (D : dsim (sim to_links) l m).
    { apply dsim_cons.
      - apply dsim_each. split; [apply fields_of_nodup; apply W|]. split; [now apply fields_of_nodup|].
        assert (Pk : Permutation (keys (fields_of h o e)) (keys (fields_of [e'] 0 e'))).
        { apply NoDup_Permutation; [apply fields_of_nodup; apply W | now apply fields_of_nodup |]. intros f. rewrite !fields_of_key, K, Kf. tauto. }
        split; [apply Permutation_length in Pk; unfold keys in Pk; rewrite !map_length in Pk; exact Pk|].
        intros f x I. apply fields_of_in in I as (I1 & I2 & ->). exists (fget e' f). split; [|auto].
        apply fields_of_in. split; [now apply Kf|]. split; [now rewrite K|]. symmetry. eapply thin_read; eauto.
      - unfold uids_val. apply dsim_uids; [now symmetry|]. apply uids_nodup. apply W.
      - intros I. apply fields_of_key in I as [I _]. now apply (proj1 (wf_names _ _ _ _ _ _ W)). }
    destruct (dsim_arrange _ _ _ D) as (l' & Pl & F).
    destruct (encode_members lower known construct h to_links (encode_nested [e'] 0) l' m F) as (js & E & C).
    { apply Forall_forall. intros [f x] I w Sw. apply (Permutation_in _ (Permutation_sym Pl)) in I. cbn in *.
      apply (encode_value lower known construct h to_links (to_links_leaf lower h scope fb) (to_links_link lower h scope fb)); auto.
      assert (X := members_storable o e (wf_rep _ _ _ _ _ _ W)). rewrite Forall_forall in X. apply (X _ I). }
    exists (JObj (sort_keys (js ++ [("type", JAtom (AStr (typ_of (e_kind e))))]))). split.
    - cbn [encode_nested]. rewrite encode_dict_eq, (as_dict_eq [e'] 0 e' eq_refl). fold m.
      change (("uids", uids_val e') :: fields_of [e'] 0 e' ++ [("type", str (typ_of (e_kind e')))]) with (m ++ [("type", str (typ_of (e_kind e')))]).
      rewrite encode_pairs_app. change (fun _ : oid => Err ValueError) with (encode_nested [e'] 0). rewrite E, K. reflexivity.
    - intros sb st R.
      destruct (load_typed_members lower known construct h to_links (to_links_leaf lower h scope fb) l' js (typ_of (e_kind e)) sb st) with (js' := js ++ [("type", JAtom (AStr (typ_of (e_kind e))))]) as (d & Ed & Dd); auto.
      + eapply perm_nodup; [exact Pl|]. apply members_nodup; apply W.
      + intros I. apply (members_type o e (wf_rep _ _ _ _ _ _ W)). eapply Permutation_in; [symmetry; apply perm_keys; exact Pl|exact I].
      + intros f x I. apply (Permutation_in _ (Permutation_sym Pl)) in I. destruct I as [I|I].
        * inv I. intros a s i Wa La. apply within_uids in Wa as [->|[s' ->]]; contradiction.
        * apply fields_of_in in I as (I1 & I2 & ->). auto.
      + exists d. rewrite Ed. unfold load_typed. rewrite typ_not_link, kind_of_typ. split; auto.
        apply dsim_perm_l with (l := l'); auto. now symmetry.
  Qed.
End R.
