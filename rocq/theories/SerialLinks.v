(** Replacing entities by links. *)
From Coq Require Import String List Bool Arith Lia Permutation.
From Verif Require Import Base BaseFacts CidModel GraphModel GraphProofs EqModel EqSpec EqProofs EqCopies TravModel TravSpec SerialModel SerialSpec SerialSim SerialProofs.
Import ListNotations.
Open Scope string_scope.
Open Scope list_scope.
Open Scope nat_scope.

Lemma encode_pairs_app : forall nested l1 l2, encode_pairs nested (l1 ++ l2) =
  do a <- encode_pairs nested l1; do b <- encode_pairs nested l2; Ok (a ++ b).
Proof.
  induction l1 as [|[k x] l1 IH]; intros l2; cbn [app encode_pairs].
  - cbn. destruct (encode_pairs nested l2); reflexivity.
  - destruct (encode nested x); cbn; auto. rewrite IH. destruct (encode_pairs nested l1); cbn; auto. destruct (encode_pairs nested l2); reflexivity.
Qed.

Section K.
  Variable lower : string -> string.
  Variable known : string -> bool.
  Variable construct : heap -> string -> list (string * pv) -> res (list (string * pv)).
  Variable h : heap.
  Variable scope : option string.
  Variable fb : bool.
  Notation link_of := (link_of lower h scope fb).
  Notation subst := (subst lower known construct h scope fb).
  Notation storable := (storable known construct h).

  Definition to_links (a b : pv) : Prop :=
    match a with
    | PRef o => link_of o = Ok b
    | PLink _ _ => b = a
    | _ => False
    end.

  Lemma link_of_link : forall o b, link_of o = Ok b -> exists s i, b = PLink s i.
  Proof.
    intros o b H. unfold SerialModel.link_of in H. repeat break_match; try discriminate; inv H; eauto.
  Qed.
  Lemma to_links_leaf : forall a b, to_links a b -> (exists o, a = PRef o) \/ (exists s i, a = PLink s i).
  Proof. intros [] b H; cbn in H; try contradiction; eauto. Qed.
  Lemma to_links_link : forall a b, to_links a b -> exists s i, b = PLink s i.
  Proof. intros [] b H; cbn in H; try contradiction; [subst; eauto | eapply link_of_link; eauto]. Qed.

  Variable A : atom -> Prop.
  Hypothesis coherent : forall a b, A a -> A b -> atom_eq a b = true -> a = b.

  Lemma visit_same : forall seen a, A a -> (forall b, In b seen -> A b) ->
    exists seen', visit seen a = (a, seen') /\ forall b, In b seen' -> A b.
  Proof.
    intros seen a Ha Hs. unfold visit. destruct (find _ seen) as [b|] eqn:E.
    - apply find_some in E as [I E]. rewrite (coherent a b); eauto.
    - exists (seen ++ [a]). split; auto. intros b I. apply in_app_or in I as [I|[<-|[]]]; auto.
  Qed.

  Fixpoint subst_list (seen : list atom) (l : list pv) : res (list pv * list atom) :=
    match l with
    | [] => Ok ([], seen)
    | x :: r => do (y, s1) <- subst seen x; do (ys, s2) <- subst_list s1 r; Ok (y :: ys, s2)
    end.
  Fixpoint subst_pairs (seen : list atom) (l : list (string * pv)) : res (list (string * pv) * list atom) :=
    match l with
    | [] => Ok ([], seen)
    | (k, x) :: r => do (y, s1) <- subst seen x; do (ys, s2) <- subst_pairs s1 r; Ok ((k, y) :: ys, s2)
    end.
  Lemma subst_list_eq : forall seen l, subst seen (PList l) = do (vs, s) <- subst_list seen l; Ok (PList vs, s).
  Proof. reflexivity. Qed.
  Lemma subst_dict_eq : forall seen l, subst seen (PDict l) = do (vs, s) <- subst_pairs seen l; Ok (PDict vs, s).
  Proof. reflexivity. Qed.
  Lemma subst_obj_eq : forall seen t l, subst seen (PObj t l) =
    do (vs, s) <- subst_pairs seen l; do (w, _) <- build lower known construct (vs ++ [("type", str t)]); Ok (w, s).
  Proof. reflexivity. Qed.

  Definition substitutes (x : pv) : Prop := forall seen, (forall b, In b seen -> A b) ->
    exists w seen', subst seen x = Ok (w, seen') /\ sim to_links x w /\ forall b, In b seen' -> A b.

  Lemma subst_list_ok : forall l, Forall substitutes l -> forall seen, (forall b, In b seen -> A b) ->
    exists ws seen', subst_list seen l = Ok (ws, seen') /\ Forall2 (sim to_links) l ws /\ forall b, In b seen' -> A b.
  Proof.
    induction 1 as [|x l Hx F IH]; intros seen Hs; [exists [], seen; repeat split; auto; constructor|].
    destruct (Hx seen Hs) as (w & s1 & E & S & H1). destruct (IH s1 H1) as (ws & s2 & E2 & S2 & H2).
    exists (w :: ws), s2. cbn [subst_list]. rewrite E. cbn. rewrite E2. cbn. repeat split; auto.
  Qed.
  Lemma subst_pairs_ok : forall l, Forall (fun kv => substitutes (snd kv)) l -> forall seen, (forall b, In b seen -> A b) ->
    exists ws seen', subst_pairs seen l = Ok (ws, seen') /\ Forall2 (both (sim to_links)) l ws /\ forall b, In b seen' -> A b.
  Proof.
    induction 1 as [|[k x] l Hx F IH]; intros seen Hs; [exists [], seen; repeat split; auto; constructor|].
    destruct (Hx seen Hs) as (w & s1 & E & S & H1). destruct (IH s1 H1) as (ws & s2 & E2 & S2 & H2). cbn in E, S.
    exists ((k, w) :: ws), s2. cbn [subst_pairs]. rewrite E. cbn. rewrite E2. cbn. repeat split; auto. constructor; auto. split; auto.
  Qed.

  Notation L12f := (L12 lower to_links false).
  Lemma L12_false : forall st a c, L12f st a c <-> to_links a c.
  Proof.
    intros st a c. split.
    - intros (s & i & H & ->). exact H.
    - intros H. destruct (to_links_link _ _ H) as (s & i & ->). exists s, i. auto.
  Qed.

  Lemma resolvable_false : forall st v, resolvable lower h to_links false st v.
  Proof. intros st v a s i W H. cbn. destruct a; cbn in *; try contradiction; auto. now inv H. Qed.

  (** Building from a dictionary of links. *)
  Lemma build_typed : forall l vs t, NoDup (keys l) -> ~ In "type" (keys l) -> Forall (fun kv => storable (snd kv)) l ->
    Forall2 (both (sim to_links)) l vs ->
    forall vs', Permutation (vs ++ [("type", str t)]) vs' ->
    exists d, build lower known construct vs' = (do (v, st) <- load_typed lower known construct false ([], []) t d; Ok (v, fst st))
      /\ dsim (sim to_links) l d.
  Proof.
    intros l vs t N I St F vs' Pv.
    assert (N' : NoDup (keys (("type", str t) :: l))) by (cbn; constructor; auto).
    destruct (Forall2_perm_l _ _ (fun q p => both (sim to_links) p q) (("type", str t) :: vs) (("type", str t) :: l) vs') as (l' & Pl & F').
    { constructor; [split; cbn; auto|]. clear - F. induction F; constructor; auto. }
    { rewrite <- Pv. apply Permutation_cons_append. }
    assert (F2 : Forall2 (both (sim to_links)) l' vs') by (clear - F'; induction F'; constructor; auto).
    destruct (encode_members lower known construct h to_links (fun _ => Err ValueError) l' vs' F2) as (js & E & C).
    { apply Forall_forall. intros [k x] J w Sw. apply (Permutation_in _ (Permutation_sym Pl)) in J. cbn in *.
      apply (encode_value lower known construct h to_links to_links_leaf to_links_link); auto.
      destruct J as [J|J]; [inv J; constructor|]. rewrite Forall_forall in St. apply (St _ J). }
    unfold build. rewrite encode_dict_eq, E. cbn [bind]. unfold raw_loads.
    destruct (load_members lower known construct h to_links l' js false ([], [])) as (d & Ed & D); auto.
    { eapply perm_nodup; eauto. }
    { intros. apply resolvable_false. }
    apply dsim_perm_l with (l' := ("type", str t) :: l) in D; [|now symmetry].
    destruct (dsim_del _ _ _ _ _ D) as (y & Ey & Sy & D'). destruct y; cbn in Sy; try contradiction. subst a.
    exists (dict_del "type" d). split.
    - refine (eq_trans (f_equal (fun r => do (v, st) <- r; Ok (v, fst st)) Ed) _). unfold SerialModel.load_and_index. rewrite Ey. reflexivity.
    - eapply dsim_mono_in; eauto. intros k x y _ _ S. eapply sim_mono_in; eauto. intros a b _. apply L12_false.
  Qed.

  Lemma subst_value : forall v, storable v -> (forall o, mentions v o -> exists l, link_of o = Ok l) ->
    (forall a, within (PAtom a) v -> A a) -> substitutes v.
  Proof.
    intros v. induction v using pv_ind2; intros St Hl Ha seen Hs; try (now inv St).
    - exists PNone, seen. cbn. auto.
    - destruct (visit_same seen a) as (s' & E & H'); auto; [apply Ha; constructor|].
      exists (PAtom a), s'. cbn. rewrite E. auto.
    - exists (PLink s i), seen. cbn. auto.
    - destruct (Hl o) as (l & E); [constructor|]. exists l, seen. cbn. rewrite E. cbn. split; auto. split; auto.
      destruct (link_of_link _ _ E) as (s & i & ->). reflexivity.
    - inv St. destruct (subst_list_ok l) with (seen := seen) as (ws & s' & E & S & H'); auto.
      { rewrite Forall_forall in *. intros x Ix. apply H; auto; intros; [apply Hl | apply Ha]; econstructor; eauto. }
      exists (PList ws), s'. rewrite subst_list_eq, E. cbn [bind]. split; auto. split; auto. now apply sim_list.
    - inv St. destruct (subst_pairs_ok l) with (seen := seen) as (ws & s' & E & S & H'); auto.
      { rewrite Forall_forall in *. intros [k x] Ix. apply (H _ Ix); cbn; [apply (H3 _ Ix) | |]; intros; [apply Hl | apply Ha]; econstructor; eauto. }
      exists (PDict ws), s'. rewrite subst_dict_eq, E. cbn [bind]. split; auto. split; auto. apply sim_dict. split; [auto|]. split; [|eauto].
      now rewrite <- (keys_both _ _ _ _ _ S).
    - inv St. destruct (subst_pairs_ok l) with (seen := seen) as (ws & s' & E & S & H'); auto.
      { rewrite Forall_forall in *. intros [k x] Ix. apply (H _ Ix); cbn; [apply (H7 _ Ix) | |]; intros; [apply Hl | apply Ha]; econstructor; eauto. }
      destruct (build_typed l ws t H5 H6 H7 S _ (Permutation_refl _)) as (d & Eb & D).
      destruct (H8 [] d) as (fs' & Ec & Pc).
      { apply sim_dict. eapply dsim_mono_in; eauto. intros k x y _ _ Sxy. eapply sim_mono_in; eauto. intros a b _ La.
        destruct (to_links_link _ _ La) as (s & i & ->). destruct a; cbn in *; try contradiction; auto. now inv La. }
      exists (PObj t fs'), s'. rewrite subst_obj_eq, E. cbn [bind]. rewrite Eb. unfold load_typed. apply String.eqb_neq in H4. rewrite H4, H3, H2.
      cbn [fst snd]. rewrite Ec. cbn. split; auto. split; auto. apply sim_obj. split; auto. apply dsim_perm_r with (m := d); auto. now symmetry.
  Qed.
End K.
