(** Facts about [sim]. *)
From Coq Require Import String List Bool Arith Lia Permutation.
From Verif Require Import Base BaseFacts GraphModel GraphProofs EqSpec EqProofs EqCopies TravSpec SerialModel SerialSpec.
Import ListNotations.
Open Scope string_scope.
Open Scope list_scope.

Definition both {A B} (P : A -> B -> Prop) (p : string * A) (q : string * B) : Prop := fst p = fst q /\ P (snd p) (snd q).

Lemma keys_both : forall A B (P : A -> B -> Prop) l m, Forall2 (both P) l m -> keys l = keys m.
Proof. induction 1 as [|p q l m [E _] _ IH]; unfold keys in *; cbn; auto. now rewrite E, IH. Qed.

Lemma perm_keys : forall A (l m : list (string * A)), Permutation l m -> Permutation (keys l) (keys m).
Proof. intros. now apply Permutation_map. Qed.

Lemma perm_nodup : forall A (l m : list (string * A)), Permutation l m -> NoDup (keys l) -> NoDup (keys m).
Proof. intros A l m P. apply Permutation_NoDup. now apply perm_keys. Qed.

(** Related dictionaries. *)
Definition dsim (P : pv -> pv -> Prop) (l m : list (string * pv)) : Prop :=
  NoDup (keys l) /\ NoDup (keys m) /\ exists m', Permutation m' m /\ Forall2 (both P) l m'.

Lemma dsim_each : forall P l m, dsim P l m <->
  NoDup (keys l) /\ NoDup (keys m) /\ length l = length m /\ forall k x, In (k, x) l -> exists y, In (k, y) m /\ P x y.
Proof.
  intros P l m. split.
  - intros (N & M & m' & Pm & F). split; [auto|]. split; [auto|]. split.
    + rewrite (Forall2_len _ _ _ _ _ F). now apply Permutation_length.
    + intros k x I. assert (X : exists y, In (k, y) m' /\ P x y).
      { clear - F I. induction F as [|[k1 x1] [k2 x2] l m' [E H] F IH]; [contradiction|]. cbn in *. destruct I as [I|I].
        - inv I. exists x2. split; auto.
        - destruct (IH I) as (y & Iy & Hy). eauto. }
      destruct X as (y & Iy & Hy). exists y. split; auto. eapply Permutation_in; eauto.
  - intros (N & M & Len & H). split; [auto|]. split; [auto|]. revert m M Len H. induction l as [|[k x] l IH]; intros m M Len H.
    + exists []. destruct m; [|discriminate]. split; constructor.
    + destruct (H k x (or_introl eq_refl)) as (y & Iy & Hy). destruct (in_split _ _ Iy) as (m1 & m2 & ->).
      assert (Pm : Permutation (m1 ++ (k, y) :: m2) ((k, y) :: m1 ++ m2)) by (symmetry; apply Permutation_middle).
      assert (M' := perm_nodup _ _ _ Pm M). cbn in M'. inv M'. cbn in N. inv N.
      destruct (IH H5 (m1 ++ m2)) as (m' & P' & F').
      * exact H3.
      * rewrite app_length in *. cbn in Len. lia.
      * intros k' x' I'. destruct (H k' x' (or_intror I')) as (y' & Iy' & Hy'). exists y'. split; auto.
        apply (Permutation_in _ Pm) in Iy'. destruct Iy' as [E|I2]; auto. inv E. exfalso. apply H4.
        change k' with (fst (k', x')). now apply in_map.
      * exists ((k, y) :: m'). split; [|constructor; auto; split; auto]. rewrite Pm. now constructor.
Qed.

Section S.
  Variable L : pv -> pv -> Prop.

  Lemma sim_list : forall l m, sim L (PList l) (PList m) <-> Forall2 (sim L) l m.
  Proof.
    induction l as [|x l IH]; intros [|y m]; cbn; split; intros H; try contradiction; try (now inversion H); auto.
    - destruct H as [A B]. constructor; auto. apply IH. exact B.
    - inv H. split; auto. apply IH in H5. exact H5.
  Qed.
  Lemma sim_tuple : forall l m, sim L (PTuple l) (PTuple m) <-> Forall2 (sim L) l m.
  Proof. exact sim_list. Qed.

  Lemma go_each : forall (l m : list (string * pv)),
    (fix go (l : list (string * pv)) : Prop :=
       match l with [] => True | (k, x) :: r => (exists y, In (k, y) m /\ sim L x y) /\ go r end) l
    <-> forall k x, In (k, x) l -> exists y, In (k, y) m /\ sim L x y.
  Proof.
    induction l as [|[k x] l IH]; intros m; split; try (intros; contradiction); auto.
    - intros [A B] k' x' [E|I]; [inv E; auto|]. eapply IH; eauto.
    - intros H. split; [apply H; now left|]. apply IH. intros. apply H. now right.
  Qed.

  Lemma sim_dict : forall l m, sim L (PDict l) (PDict m) <-> dsim (sim L) l m.
  Proof. intros. rewrite dsim_each, <- go_each. reflexivity. Qed.
  Lemma sim_obj : forall t u l m, sim L (PObj t l) (PObj u m) <-> t = u /\ dsim (sim L) l m.
  Proof. intros. rewrite dsim_each, <- go_each. reflexivity. Qed.

  (** The shapes of related values. *)
  Lemma sim_inv : forall v w, sim L v w ->
    (v = PNone /\ w = PNone) \/ (exists a, v = PAtom a /\ w = PAtom a)
    \/ (((exists o, v = PRef o) \/ (exists s i, v = PLink s i)) /\ ((exists o, w = PRef o) \/ (exists s i, w = PLink s i)) /\ L v w)
    \/ (exists l m, v = PList l /\ w = PList m /\ Forall2 (sim L) l m)
    \/ (exists l m, v = PTuple l /\ w = PTuple m /\ Forall2 (sim L) l m)
    \/ (exists l m, v = PDict l /\ w = PDict m /\ dsim (sim L) l m)
    \/ (exists t l m, v = PObj t l /\ w = PObj t m /\ dsim (sim L) l m).
  Proof.
    intros [] [] H; cbn in H; try contradiction.
    - left. auto.
    - right. left. subst. eauto.
    - right. right. left. split; [eauto|]. split; eauto.
    - right. right. left. split; [eauto|]. split; eauto.
    - right. right. left. split; [eauto|]. split; eauto.
    - right. right. left. split; [eauto|]. split; eauto.
    - do 3 right. left. apply sim_list in H. eauto.
    - do 4 right. left. apply sim_tuple in H. eauto.
    - do 5 right. left. apply sim_dict in H. eauto.
    - do 6 right. assert (X := proj1 (sim_obj typ typ0 fs fs0) H). destruct X as [-> X]. eauto 6.
  Qed.
End S.

Lemma Forall2_in_l : forall A B (P : A -> B -> Prop) l m, Forall2 P l m -> forall x, In x l -> exists y, In y m /\ P x y.
Proof. induction 1; intros z []; subst; [eexists; split; [now left|auto]|]. destruct (IHForall2 z) as (y' & I & H'); auto. exists y'. split; auto. now right. Qed.
Lemma Forall2_in_r : forall A B (P : A -> B -> Prop) l m, Forall2 P l m -> forall y, In y m -> exists x, In x l /\ P x y.
Proof. induction 1; intros z []; subst; [eexists; split; [now left|auto]|]. destruct (IHForall2 z) as (y' & I & H'); auto. exists y'. split; auto. now right. Qed.

Lemma Forall2_mono_in : forall A B (P Q : A -> B -> Prop) l m, Forall2 P l m -> (forall x y, In x l -> In y m -> P x y -> Q x y) -> Forall2 Q l m.
Proof. induction 1; intros H'; constructor; [apply H'; auto; now left|]. apply IHForall2. intros. apply H'; auto; now right. Qed.

Lemma Forall2_compose : forall A B C (P : A -> B -> Prop) (Q : B -> C -> Prop) (S : A -> C -> Prop) l m n,
  Forall2 P l m -> Forall2 Q m n -> (forall x y z, In x l -> P x y -> Q y z -> S x z) -> Forall2 S l n.
Proof.
  intros A B C P Q S l m n H. revert n. induction H; intros n H' HS; inv H'; constructor.
  - eapply HS; eauto. now left.
  - apply IHForall2; auto. intros. eapply HS; eauto. now right.
Qed.

Lemma dsim_mono_in : forall (P Q : pv -> pv -> Prop) l m, dsim P l m -> (forall k x y, In (k, x) l -> In (k, y) m -> P x y -> Q x y) -> dsim Q l m.
Proof.
  intros P Q l m (N & M & m' & Pm & F) H. split; [auto|]. split; [auto|]. exists m'. split; auto.
  eapply Forall2_mono_in; eauto. intros [k x] [k' y] Ix Iy [E Hxy]. cbn in *. subst. split; auto. cbn. eapply H; eauto. eapply Permutation_in; eauto.
Qed.

Lemma Forall2_perm_l : forall A B (P : A -> B -> Prop) l m l', Forall2 P l m -> Permutation l l' -> exists m', Permutation m m' /\ Forall2 P l' m'.
Proof.
  intros A B P l m l' F Pm. revert m F. induction Pm; intros m F.
  - inv F. exists []. split; constructor.
  - inv F. destruct (IHPm _ H3) as (m' & P' & F'). exists (y :: m'). split; [now constructor | now constructor].
  - inv F. inv H3. exists (y1 :: y0 :: l'0). split; [apply perm_swap | repeat constructor; auto].
  - destruct (IHPm1 _ F) as (m1 & P1 & F1). destruct (IHPm2 _ F1) as (m2 & P2 & F2). exists m2. split; auto. eapply perm_trans; eauto.
Qed.

Lemma dsim_trans : forall (P Q S : pv -> pv -> Prop) l m n, dsim P l m -> dsim Q m n ->
  (forall k x y z, In (k, x) l -> P x y -> Q y z -> S x z) -> dsim S l n.
Proof.
  intros P Q S l m n (N & M & m' & Pm & F) (_ & N' & n' & Pn & G) H. split; [auto|]. split; [auto|].
  destruct (Forall2_perm_l _ _ _ _ _ m' G (Permutation_sym Pm)) as (n2 & Pn2 & G2). exists n2. split.
  - rewrite <- Pn. now symmetry.
  - eapply Forall2_compose; eauto. intros [k x] [k1 y] [k2 z] I [E1 H1] [E2 H2]. cbn in *. subst. split; auto. cbn. eauto.
Qed.

Lemma dsim_perm_r : forall P l m m', dsim P l m -> Permutation m m' -> dsim P l m'.
Proof.
  intros P l m m' (N & M & m1 & Pm & F) H. split; [auto|]. split; [eapply perm_nodup; eauto|]. exists m1. split; auto. now rewrite Pm.
Qed.

Lemma dsim_perm_l : forall P l l' m, dsim P l m -> Permutation l l' -> dsim P l' m.
Proof.
  intros P l l' m (N & M & m1 & Pm & F) H. split; [eapply perm_nodup; eauto|]. split; [auto|].
  destruct (Forall2_perm_l _ _ _ _ _ l' F H) as (m2 & P2 & F2). exists m2. split; auto. rewrite <- Pm. now symmetry.
Qed.

Lemma dsim_cons : forall (P : pv -> pv -> Prop) k x y l m, dsim P l m -> P x y -> ~ In k (keys l) -> dsim P ((k, x) :: l) ((k, y) :: m).
Proof.
  intros P k x y l m (N & M & m' & Pm & F) H I. split; [now constructor|]. split.
  - cbn. constructor; auto. intros J. apply I. rewrite (keys_both _ _ _ _ _ F). eapply Permutation_in; [|exact J]. symmetry. now apply perm_keys.
  - exists ((k, y) :: m'). split; [now constructor|]. constructor; auto. split; auto.
Qed.

Lemma dsim_keys : forall P l m, dsim P l m -> Permutation (keys l) (keys m).
Proof. intros P l m (N & M & m' & Pm & F). rewrite (keys_both _ _ _ _ _ F). now apply perm_keys. Qed.

Lemma dsim_get : forall P l m k, dsim P l m ->
  match dict_get k l, dict_get k m with Some x, Some y => P x y | None, None => True | _, _ => False end.
Proof.
  intros P l m k D. destruct (dict_get k l) as [x|] eqn:E.
  - apply dict_get_In in E. assert (X := proj1 (dsim_each P l m) D). destruct X as (N & M & _ & H). destruct (H k x E) as (y & Iy & Hy).
    now rewrite (In_dict_get _ _ _ M Iy).
  - apply dict_get_None in E. replace (dict_get k m) with (@None pv); auto. symmetry. apply dict_get_None. intros I. apply E.
    eapply Permutation_in; [|exact I]. symmetry. eapply dsim_keys; eauto.
Qed.

Lemma sim_mono_in : forall (L1 L2 : pv -> pv -> Prop) v w, sim L1 v w ->
  (forall a b, within a v -> L1 a b -> L2 a b) -> sim L2 v w.
Proof.
  intros L1 L2 v. induction v using pv_ind2; intros w S I; destruct (sim_inv _ _ _ S) as [[E ->]|[(a' & E & ->)|[(E & F & Lvw)|[(l0 & m & E & -> & F)|[(l0 & m & E & -> & F)|[(l0 & m & E & -> & F)|(t0 & l0 & m & E & -> & F)]]]]]];
    try discriminate; try (destruct E as [[? E]|(? & ? & E)]; discriminate); try (inv E; cbn; auto; fail).
  - destruct F as [[o ->]|(s' & i' & ->)]; cbn; apply I; auto; constructor.
  - destruct F as [[o' ->]|(s' & i' & ->)]; cbn; apply I; auto; constructor.
  - inv E. apply sim_list. eapply Forall2_mono_in; eauto. intros x y Ix Iy Hxy. rewrite Forall_forall in H. apply H; auto.
    intros a b W. apply I. econstructor; eauto.
  - inv E. apply sim_tuple. eapply Forall2_mono_in; eauto. intros x y Ix Iy Hxy. rewrite Forall_forall in H. apply H; auto.
    intros a b W. apply I. econstructor; eauto.
  - inv E. apply sim_dict. eapply dsim_mono_in; eauto. intros k x y Ix Iy Hxy. rewrite Forall_forall in H. specialize (H _ Ix). apply H; auto.
    intros a b W. apply I. econstructor; eauto.
  - inv E. apply sim_obj. split; auto. eapply dsim_mono_in; eauto. intros k x y Ix Iy Hxy. rewrite Forall_forall in H. specialize (H _ Ix). apply H; auto.
    intros a b W. apply I. econstructor; eauto.
Qed.

Lemma sim_trans : forall (L1 L2 L3 : pv -> pv -> Prop) u v w, sim L1 u v -> sim L2 v w ->
  (forall a b c, within a u -> L1 a b -> L2 b c -> L3 a c) -> sim L3 u w.
Proof.
  intros L1 L2 L3 u. induction u using pv_ind2; intros v w S1 S2 I;
    destruct (sim_inv _ _ _ S1) as [[E ->]|[(a' & E & ->)|[(E & F & Lvw)|[(l0 & m & E & -> & F)|[(l0 & m & E & -> & F)|[(l0 & m & E & -> & F)|(t0 & l0 & m & E & -> & F)]]]]]];
    try discriminate; try (destruct E as [[? E]|(? & ? & E)]; discriminate).
  - destruct w; cbn in S2; try contradiction. exact S2.
  - inv E. destruct w; cbn in S2; try contradiction. exact S2.
  - destruct F as [[o ->]|(s' & i' & ->)]; destruct w; cbn in S2; try contradiction; cbn; eapply I; eauto; constructor.
  - destruct F as [[o' ->]|(s' & i' & ->)]; destruct w; cbn in S2; try contradiction; cbn; eapply I; eauto; constructor.
  - inv E. destruct w as [| | | |n| | |]; try contradiction. apply sim_list in S2. apply sim_list.
    eapply Forall2_compose; eauto. intros x y z Ix Hxy Hyz. rewrite Forall_forall in H. eapply H; eauto.
    intros a b c W. apply I. econstructor; eauto.
  - inv E. destruct w as [| | | | |n| |]; try contradiction. apply sim_tuple in S2. apply sim_tuple.
    eapply Forall2_compose; eauto. intros x y z Ix Hxy Hyz. rewrite Forall_forall in H. eapply H; eauto.
    intros a b c W. apply I. econstructor; eauto.
  - inv E. destruct w as [| | | | | |n|]; try contradiction. apply sim_dict in S2. apply sim_dict.
    eapply dsim_trans; eauto. intros k x y z Ix Hxy Hyz. rewrite Forall_forall in H. specialize (H _ Ix). eapply H; eauto.
    intros a b c W. apply I. econstructor; eauto.
  - inv E. destruct w as [| | | | | | |u n]; try contradiction. apply sim_obj in S2 as [-> S2]. apply sim_obj. split; auto.
    eapply dsim_trans; eauto. intros k x y z Ix Hxy Hyz. rewrite Forall_forall in H. specialize (H _ Ix). eapply H; eauto.
    intros a b c W. apply I. econstructor; eauto.
Qed.

(** Where the references in a related value come from. *)
Lemma sim_leaf : forall (L : pv -> pv -> Prop) v w b, sim L v w -> within b w -> (exists o, b = PRef o) \/ (exists s i, b = PLink s i) ->
  exists a, within a v /\ L a b.
Proof.
  intros L v. induction v using pv_ind2; intros w b S W Hb; destruct (sim_inv _ _ _ S) as [[E ->]|[(a' & E & ->)|[(E & F & Lvw)|[(l0 & m & E & -> & F)|[(l0 & m & E & -> & F)|[(l0 & m & E & -> & F)|(t0 & l0 & m & E & -> & F)]]]]]];
    try discriminate; try (destruct E as [[? E]|(? & ? & E)]; discriminate);
    try (inversion W; subst; destruct Hb as [[? X]|(? & ? & X)]; discriminate).
  - assert (b = w) by (destruct F as [[? ->]|(? & ? & ->)]; now inversion W). subst b. eexists. split; [constructor|auto].
  - assert (b = w) by (destruct F as [[? ->]|(? & ? & ->)]; now inversion W). subst b. eexists. split; [constructor|auto].
  - injection E as <-. inversion W as [|? v0 ? Iv Wv|? v0 ? Iv Wv|? k v0 ? Iv Wv|? k v0 ? ? Iv Wv]; subst; [destruct Hb as [[? X]|(? & ? & X)]; discriminate|]. destruct (Forall2_in_r _ _ _ _ _ F _ Iv) as (x & Ix & Sx).
    rewrite Forall_forall in H. destruct (H x Ix _ _ Sx Wv Hb) as (a & Wa & La). exists a. split; auto. econstructor; eauto.
  - injection E as <-. inversion W as [|? v0 ? Iv Wv|? v0 ? Iv Wv|? k v0 ? Iv Wv|? k v0 ? ? Iv Wv]; subst; [destruct Hb as [[? X]|(? & ? & X)]; discriminate|]. destruct (Forall2_in_r _ _ _ _ _ F _ Iv) as (x & Ix & Sx).
    rewrite Forall_forall in H. destruct (H x Ix _ _ Sx Wv Hb) as (a & Wa & La). exists a. split; auto. econstructor; eauto.
  - (injection E as <- || injection E as <- <-). inversion W as [|? v0 ? Iv Wv|? v0 ? Iv Wv|? k v0 ? Iv Wv|? k v0 ? ? Iv Wv]; subst; [destruct Hb as [[? X]|(? & ? & X)]; discriminate|]. destruct F as (_ & _ & m' & Pm & F).
    destruct (Forall2_in_r _ _ _ _ _ F (k, v0)) as ([k' x] & Ix & [Ek Sx]); [eapply Permutation_in; [symmetry|]; eauto|].
    rewrite Forall_forall in H. destruct (H _ Ix _ _ Sx Wv Hb) as (a & Wa & La). exists a. split; auto. econstructor; eauto.
  - (injection E as <- || injection E as <- <-). inversion W as [|? v0 ? Iv Wv|? v0 ? Iv Wv|? k v0 ? Iv Wv|? k v0 ? ? Iv Wv]; subst; [destruct Hb as [[? X]|(? & ? & X)]; discriminate|]. destruct F as (_ & _ & m' & Pm & F).
    destruct (Forall2_in_r _ _ _ _ _ F (k, v0)) as ([k' x] & Ix & [Ek Sx]); [eapply Permutation_in; [symmetry|]; eauto|].
    rewrite Forall_forall in H. destruct (H _ Ix _ _ Sx Wv Hb) as (a & Wa & La). exists a. split; auto. econstructor; eauto.
Qed.

Lemma storable_sim : forall known construct h (L : pv -> pv -> Prop) v, storable known construct h v ->
  (forall a, within a v -> (exists o, a = PRef o) \/ (exists s i, a = PLink s i) -> L a a) -> sim L v v.
Proof.
  intros known construct h L v. induction v using pv_ind2; intros S I; cbn; auto.
  - apply I; [constructor|eauto].
  - apply I; [constructor|eauto].
  - apply sim_list. inv S. clear - H H1 I. assert (I' : forall x, In x l -> forall a, within a x -> (exists o, a = PRef o) \/ (exists s i, a = PLink s i) -> L a a).
    { intros x Ix a W. apply I. econstructor; eauto. } clear I.
    induction l; constructor; inv H; inv H1; [apply H3; auto; apply I'; now left|]. apply IHl; auto. intros x Ix. apply I'. now right.
  - inv S.
  - apply sim_dict. inv S. split; [auto|]. split; [auto|]. exists l. split; auto.
    assert (I' : forall k x, In (k, x) l -> forall a, within a x -> (exists o, a = PRef o) \/ (exists s i, a = PLink s i) -> L a a).
    { intros k x Ix a W. apply I. econstructor; eauto. }
    clear I H1 H2. induction l as [|[k x] l IHl]; constructor; inv H; inv H3.
    + split; auto. cbn. apply H2; auto. apply (I' k). now left.
    + apply IHl; auto. intros k' x' Ix. apply (I' k'). now right.
  - apply sim_obj. split; auto. inv S. split; [auto|]. split; [auto|]. exists l. split; auto.
    assert (I' : forall k x, In (k, x) l -> forall a, within a x -> (exists o, a = PRef o) \/ (exists s i, a = PLink s i) -> L a a).
    { intros k x Ix a W. apply I. econstructor; eauto. }
    clear - H H7 I'. induction l as [|[k x] l IHl]; constructor; inv H; inv H7.
    + split; auto. cbn. apply H2; auto. apply (I' k). now left.
    + apply IHl; auto. intros k' x' Ix. apply (I' k'). now right.
Qed.

(** References as [twin] sees them. *)
Notation twin_leaf := renamed.

Lemma sim_twin : forall R v w, sim (twin_leaf R) v w -> twin R v w.
Proof.
  intros R v. induction v using pv_ind2; intros w S;
    destruct (sim_inv _ _ _ S) as [[E ->]|[(a' & E & ->)|[(E & F & Lvw)|[(l0 & m & E & -> & F)|[(l0 & m & E & -> & F)|[(l0 & m & E & -> & F)|(t0 & l0 & m & E & -> & F)]]]]]];
    try discriminate; try (destruct E as [[? E]|(? & ? & E)]; discriminate).
  - exact I.
  - inv E. reflexivity.
  - destruct F as [[o ->]|(s' & i' & ->)]; cbn in *; auto.
  - destruct F as [[o' ->]|(s' & i' & ->)]; cbn in *; auto.
  - inv E. clear S. revert H. induction F; intros Hf; [exact I|]. inv Hf. split; auto. apply IHF; auto.
  - inv E. clear S. revert H. induction F; intros Hf; [exact I|]. inv Hf. split; auto. apply IHF; auto.
  - inv E. apply dsim_each in F as (N & M & Len & G). apply twin_dict. split; [auto|]. split; [auto|]. split; [auto|].
    intros k x Ix. destruct (G k x Ix) as (y & Iy & Hy). exists y. split; auto. rewrite Forall_forall in H. apply (H _ Ix). exact Hy.
  - inv E. apply dsim_each in F as (N & M & Len & G). apply (twin_obj (fun s => s)). split; auto. apply twin_dict. split; [auto|]. split; [auto|]. split; [auto|].
    intros k x Ix. destruct (G k x Ix) as (y & Iy & Hy). exists y. split; auto. rewrite Forall_forall in H. apply (H _ Ix). exact Hy.
Qed.
