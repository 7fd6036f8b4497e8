(** Proofs for C05 (UniformInteger) and C30-C33. *)
From Coq Require Import String Ascii List Bool ZArith QArith Qabs Lia Lqa ZifyBool.
From Verif Require Import Base BaseFacts PyStr BoundsModel BoundsSpec BoundsProofs ValuesModel ValuesSpec.
Import ListNotations.
Open Scope list_scope.

(** ** UniformInteger *)
Lemma ustep_ok : forall s o s' e, iok s -> ustep s o = (s', e) -> iok s' /\ (e <> None -> s' = s).
Proof.
  intros s [x|x] s' e O; cbn; unfold set_ulo, set_uhi.
  - destruct (int_like x); [|intros H; inv H; auto].
    destruct (ihi s) as [h|] eqn:E; [destruct (h <? a)%Z eqn:B|]; intros H; inv H; split; auto; try congruence;
      unfold iok; cbn; try rewrite E; auto; lia.
  - destruct (int_like x); [|intros H; inv H; auto].
    destruct (ilo s) as [h|] eqn:E; [destruct (a <? h)%Z eqn:B|]; intros H; inv H; split; auto; try congruence;
      unfold iok; cbn; try rewrite E; auto; lia.
Qed.

Lemma urun_ok : forall ops s, iok s -> iok (urun s ops).
Proof.
  intros ops; induction ops as [|o r IH]; intros s O; cbn; auto.
  apply IH. destruct (ustep s o) eqn:E. eapply ustep_ok; eauto.
Qed.

Lemma init_uniform_ok : forall x y s, init_uniform x y = Ok s ->
  exists l h, s = mkI (Some l) (Some h) /\ (l <= h)%Z /\ int_like x = Ok l /\ int_like y = Ok h.
Proof.
  intros x y s. unfold init_uniform, set_ulo, set_uhi. destruct (int_like x) as [l|] eqn:X; [|discriminate].
  cbn. destruct (int_like y) as [h|] eqn:Y; [|discriminate]. destruct (h <? l)%Z eqn:E; [discriminate|].
  intros H; inv H. exists l, h. repeat split; auto; lia.
Qed.

(** ** Strings *)
Lemma lower_app : forall a b, lower (a ++ b) = (lower a ++ lower b)%string.
Proof. intros a; induction a; cbn; intros; f_equal; auto. Qed.

Lemma get_lt : forall n, (n < 256)%nat -> nat_of_ascii (ascii_of_nat n) = n.
Proof. intros; now apply nat_ascii_embedding. Qed.

Lemma lower_char_spec : forall c, let n := nat_of_ascii c in
  nat_of_ascii (lower_char c) = if (65 <=? n)%nat && (n <=? 90)%nat then (n + 32)%nat else n.
Proof.
  intros c n. unfold lower_char, is_upper, in_range. change (nat_of_ascii "A") with 65%nat.
  change (nat_of_ascii "Z") with 90%nat. fold n. destruct ((65 <=? n)%nat && (n <=? 90)%nat) eqn:E; auto.
  apply get_lt. lia.
Qed.

Lemma space_lower : forall c, is_space (lower_char c) = is_space c.
Proof.
  intros c. unfold is_space. rewrite lower_char_spec. cbn zeta.
  destruct ((65 <=? nat_of_ascii c)%nat && (nat_of_ascii c <=? 90)%nat) eqn:E; auto; lia.
Qed.

Lemma lower_char_idem : forall c, lower_char (lower_char c) = lower_char c.
Proof.
  assert (INJ : forall a b, nat_of_ascii a = nat_of_ascii b -> a = b).
  { intros a b H. rewrite <- (ascii_nat_embedding a), <- (ascii_nat_embedding b). now f_equal. }
  intros c. apply INJ. rewrite (lower_char_spec (lower_char c)). cbn zeta. rewrite lower_char_spec. cbn zeta.
  set (n := nat_of_ascii c). clearbody n.
  destruct ((65 <=? n)%nat && (n <=? 90)%nat) eqn:E.
  - destruct ((65 <=? n + 32)%nat && (n + 32 <=? 90)%nat) eqn:F; lia.
  - rewrite E. auto.
Qed.
Lemma lower_idem : forall s, lower (lower s) = lower s.
Proof. intros s; induction s; cbn; f_equal; auto using lower_char_idem. Qed.

Lemma lower_lstrip : forall s, lower (lstrip s) = lstrip (lower s).
Proof. intros s; induction s; cbn; auto. rewrite space_lower. destruct (is_space a); auto. Qed.
Lemma lower_srev_app : forall s acc, lower (srev_app s acc) = srev_app (lower s) (lower acc).
Proof. intros s; induction s; intros; cbn; auto. now rewrite IHs. Qed.
Lemma lower_strip : forall s, lower (strip s) = strip (lower s).
Proof.
  intros s. unfold strip, rstrip, srev.
  rewrite lower_srev_app, lower_lstrip, lower_srev_app, lower_lstrip. reflexivity.
Qed.

Lemma srev_app_app : forall s acc, srev_app s acc = (srev s ++ acc)%string.
Proof.
  unfold srev. intros s; induction s; intros; cbn; auto.
  rewrite IHs, (IHs (String a "")), srapp_assoc. reflexivity.
Qed.
Lemma srev_cons : forall c s, srev (String c s) = (srev s ++ String c "")%string.
Proof. intros. unfold srev at 1. cbn. apply srev_app_app. Qed.
Lemma srev_append : forall a b, srev (a ++ b) = (srev b ++ srev a)%string.
Proof.
  intros a b; induction a; cbn [append].
  - now rewrite srapp_nil.
  - rewrite !srev_cons, IHa, srapp_assoc. reflexivity.
Qed.
Lemma srev_srev : forall s, srev (srev s) = s.
Proof. intros s; induction s; auto. rewrite srev_cons, srev_append, IHs. reflexivity. Qed.

Lemma blank_cons : forall c s, blank (String c s) <-> is_space c = true /\ blank s.
Proof.
  intros c s. split.
  - intros H. split; [now apply (H O)|]. intros i d G. now apply (H (S i)).
  - intros [A B] [|i] d G; cbn in G; [congruence | now apply (B i)].
Qed.
Lemma blank_nil : blank "".
Proof. intros [|i] c; discriminate. Qed.
Lemma blank_app : forall a b, blank (a ++ b) <-> blank a /\ blank b.
Proof.
  intros a b; induction a; cbn [append].
  - split; [intros; split; auto using blank_nil | tauto].
  - rewrite !blank_cons, IHa. tauto.
Qed.
Lemma blank_srev : forall a, blank (srev a) <-> blank a.
Proof.
  intros a; induction a as [|c a IH]; [reflexivity|]. rewrite srev_cons, blank_app, IH, !blank_cons.
  pose proof blank_nil. tauto.
Qed.
Lemma blank_lower : forall a, blank (lower a) <-> blank a.
Proof.
  intros a; induction a as [|c a IH]; [reflexivity|]. cbn. rewrite !blank_cons.
  change (smap lower_char a) with (lower a). rewrite IH, space_lower. tauto.
Qed.

Lemma lstrip_split : forall s, exists a, s = (a ++ lstrip s)%string /\ blank a /\
  (forall c r, lstrip s = String c r -> is_space c = false).
Proof.
  intros s; induction s as [|c s (a & E & B & H)]; cbn.
  - exists ""%string. repeat split; auto using blank_nil; discriminate.
  - destruct (is_space c) eqn:S.
    + exists (String c a). cbn. split; [f_equal; auto|]. split; auto. apply blank_cons; auto.
    + exists ""%string. split; auto. split; [apply blank_nil|]. intros c' r Hc; inv Hc; auto.
Qed.
Lemma lstrip_blank : forall a x, blank a -> lstrip (a ++ x) = lstrip x.
Proof.
  intros a x; induction a as [|c a IH]; intros B; auto. apply blank_cons in B as [S B]. cbn. rewrite S. auto.
Qed.
Lemma lstrip_id : forall x, (forall c r, x = String c r -> is_space c = false) -> lstrip x = x.
Proof. intros [|c r] H; auto. cbn. rewrite (H c r); auto. Qed.

Lemma rstrip_split : forall s, exists b, s = (rstrip s ++ b)%string /\ blank b /\
  (forall c r, rstrip s = (r ++ String c "")%string -> is_space c = false).
Proof.
  intros s. unfold rstrip. destruct (lstrip_split (srev s)) as (a & E & B & H).
  exists (srev a). split; [|split].
  - rewrite <- srev_append, <- E, srev_srev. reflexivity.
  - now apply blank_srev.
  - intros c r F. apply (H c (srev r)). rewrite <- (srev_srev (lstrip _)), F, srev_append. reflexivity.
Qed.

Lemma app_nil_inv : forall a b : string, (a ++ b)%string = ""%string -> a = ""%string /\ b = ""%string.
Proof. intros [|]; cbn; auto; discriminate. Qed.

Lemma strip_split : forall s, exists a b, s = (a ++ strip s ++ b)%string /\ blank a /\ blank b /\ trimmed (strip s).
Proof.
  intros s. unfold strip. destruct (lstrip_split s) as (a & E & B & H).
  destruct (rstrip_split (lstrip s)) as (b & F & B2 & H2). exists a, b.
  split; [rewrite <- F; auto|]. split; auto. split; auto. split; auto.
  intros c r G. rewrite G in F. cbn in F. eapply H; eauto.
Qed.

Lemma strip_unique : forall a core b, blank a -> blank b -> trimmed core -> strip (a ++ core ++ b) = core.
Proof.
  intros a core b A B [H1 H2]. unfold strip. rewrite lstrip_blank by auto.
  destruct core as [|c core].
  - cbn [append]. assert (lstrip b = ""%string) as ->.
    { destruct b; auto. rewrite <- (srapp_nil (String a0 b)). rewrite lstrip_blank; auto. }
    reflexivity.
  - rewrite lstrip_id.
    + unfold rstrip. rewrite srev_append, lstrip_blank by now apply blank_srev.
      rewrite lstrip_id; [apply srev_srev|]. intros d r E. apply (H2 d (srev r)).
      rewrite <- (srev_srev (String c core)), E, srev_cons. reflexivity.
    + intros d r E. cbn in E. inv E. eapply H1; eauto.
Qed.

Lemma lower_split : forall s x y, lower s = (x ++ y)%string -> exists a b, s = (a ++ b)%string /\ lower a = x /\ lower b = y.
Proof.
  intros s; induction s as [|c s IH]; intros x y E.
  - cbn in E. symmetry in E. apply app_nil_inv in E as [-> ->]. exists ""%string, ""%string. auto.
  - destruct x as [|d x]; cbn in E.
    + exists ""%string, (String c s). auto.
    + inv E. destruct (IH x y H1) as (a & b & -> & <- & <-). exists (String c a), b. auto.
Qed.

Lemma trimmed_lower : forall s, trimmed s <-> trimmed (lower s).
Proof.
  intros s. split; intros [H1 H2]; split.
  - intros c r E. destruct s; inv E. rewrite space_lower. eapply H1; eauto.
  - intros c r E. apply lower_split in E as (a & b & -> & <- & E). destruct b as [|d [|]]; inv E.
    rewrite space_lower. eapply H2; eauto.
  - intros c r ->. rewrite <- space_lower. eapply H1; reflexivity.
  - intros c r ->. rewrite <- space_lower. eapply H2. rewrite lower_app. reflexivity.
Qed.

Lemma reads_iff : forall s t, trimmed t -> (reads s t <-> strip (lower s) = lower t).
Proof.
  intros s t T. rewrite <- lower_strip. split.
  - intros (a & core & b & -> & A & B & E). rewrite strip_unique; auto.
    apply trimmed_lower. rewrite E. now apply trimmed_lower in T.
  - intros E. destruct (strip_split s) as (a & b & S & A & B & _). exists a, (strip s), b. auto.
Qed.

(** ** Enumerations *)
Lemma matches_iff : forall m s, existsb (String.eqb s) (matches m) = true <-> exists t, spelling m t /\ lower t = s.
Proof.
  intros m s. rewrite existsb_exists. unfold matches, spelling. split.
  - intros (x & [<-|I] & E); apply String.eqb_eq in E; subst.
    + exists (mvalue m). auto.
    + apply in_map_iff in I as (t & E & I). exists t. auto.
  - intros (t & [->|I] & <-); eexists; (split; [|apply String.eqb_refl]); [now left|].
    right. now apply in_map.
Qed.

Lemma find_first : forall (A : Type) (f : A -> bool) l x,
  find f l = Some x <-> exists l1 l2, l = l1 ++ x :: l2 /\ f x = true /\ forall y, In y l1 -> f y = false.
Proof.
  intros A f l x; induction l as [|a l IH]; cbn.
  - split; [discriminate|]. intros (l1 & l2 & E & _). destruct l1; discriminate.
  - destruct (f a) eqn:F.
    + split.
      * intros H; inv H. exists [], l. repeat split; auto. intros ? [].
      * intros (l1 & l2 & E & X & H). destruct l1; inv E; auto. rewrite H in F; [discriminate|now left].
    + rewrite IH. split.
      * intros (l1 & l2 & -> & X & H). exists (a :: l1), l2. repeat split; auto. intros y [<-|I]; auto.
      * intros (l1 & l2 & E & X & H). destruct l1; inv E; [congruence|]. exists l1, l2. repeat split; auto.
        intros; apply H; now right.
Qed.

Lemma match_reads : forall cls m s, all_trimmed cls -> In m cls ->
  (existsb (String.eqb (strip (lower s))) (matches m) = true <-> exists t, spelling m t /\ reads s t).
Proof.
  intros cls m s T I. rewrite matches_iff. split; intros (t & S & E); exists t; split; auto.
  - apply reads_iff; eauto.
  - apply reads_iff in E; eauto.
Qed.

Lemma find_spec : forall cls s m, all_trimmed cls ->
  (find (fun m => existsb (String.eqb (strip (lower s))) (matches m)) cls = Some m <-> first_read cls s m).
Proof.
  intros cls s m T. rewrite find_first. unfold first_read.
  split; intros (l1 & l2 & -> & X & H); exists l1, l2; (split; [reflexivity|]); split.
  - eapply match_reads; eauto. apply in_elt.
  - intros m' t I S R. specialize (H m' I). assert (existsb (String.eqb (strip (lower s))) (matches m') = true); [|congruence].
    eapply match_reads; eauto. apply in_or_app; auto.
  - eapply match_reads; eauto. apply in_elt.
  - intros m' I. destruct (existsb _ _) eqn:E; auto. eapply match_reads in E as (t & S & R); eauto;
      [exfalso; eapply H; eauto | apply in_or_app; auto].
Qed.

Lemma find_none_spec : forall cls s, all_trimmed cls ->
  (find (fun m => existsb (String.eqb (strip (lower s))) (matches m)) cls = None <->
   forall m t, In m cls -> spelling m t -> ~ reads s t).
Proof.
  intros cls s T. split.
  - intros E m t I S R. eapply find_none in E; eauto. cbn beta in E.
    assert (existsb (String.eqb (strip (lower s))) (matches m) = true); [|congruence]. eapply match_reads; eauto.
  - intros H. destruct (find _ cls) as [m|] eqn:E; auto. apply find_spec in E as (l1 & l2 & -> & (t & S & R) & _); auto.
    exfalso. eapply H; eauto. apply in_elt.
Qed.

(** Class creation adds exactly the given members and no value is readable as an earlier one. *)
Definition separated (cls : list member) : Prop :=
  forall l1 m l2, cls = l1 ++ m :: l2 ->
    find (fun m' => existsb (String.eqb (strip (lower (mvalue m)))) (matches m')) l1 = None.

Lemma snoc_split : forall (A : Type) (c : list A) x l1 m l2, c ++ [x] = l1 ++ m :: l2 ->
  (l2 = [] /\ l1 = c /\ m = x) \/ exists l2', l2 = l2' ++ [x] /\ c = l1 ++ m :: l2'.
Proof.
  intros A c x l1 m l2 E. destruct l2 as [|y l2 _] using rev_ind.
  - left. apply app_inj_tail in E as [-> ->]. auto.
  - right. exists l2. replace (l1 ++ m :: l2 ++ [y]) with ((l1 ++ m :: l2) ++ [y]) in E by now rewrite <- app_assoc.
    apply app_inj_tail in E as [-> ->]. auto.
Qed.

Lemma reads_self : forall s, reads s s.
Proof. intros s. exists ""%string, s, ""%string. cbn. rewrite srapp_nil. repeat split; auto using blank_nil. Qed.
Lemma define_enum_sep : forall ms cls out, separated cls -> all_trimmed (cls ++ ms) -> define_enum cls ms = Ok out -> separated out /\ out = cls ++ ms.
Proof.
  intros ms; induction ms as [|m r IH]; intros cls out S T; cbn [define_enum].
  - intros H; inv H. rewrite app_nil_r. auto.
  - unfold add_member, from_str. destruct (find _ cls) as [m'|] eqn:F; cbn [bind]; [discriminate|].
    assert (Tc : all_trimmed cls) by (intros x t I; apply T; apply in_or_app; auto).
    replace (existsb (fun m' => String.eqb (mvalue m') (mvalue m)) cls) with false.
    2:{ symmetry. destruct (existsb _ cls) eqn:X; auto. apply existsb_exists in X as (x & I & E). apply String.eqb_eq in E.
        pose proof (proj1 (find_none_spec cls (mvalue m) Tc) F x (mvalue x) I (or_introl eq_refl)) as Q. exfalso. apply Q. rewrite E. apply reads_self. }
    cbn [bind]. intros H. apply IH in H as [S' ->].
    + split; auto. now rewrite <- app_assoc.
    + intros l1 x l2 E. apply snoc_split in E as [(-> & -> & ->)|(l2' & -> & ->)]; auto. eapply S; eauto.
    + rewrite <- app_assoc. exact T.
Qed.

(** ** InChI *)
Lemma startswith_app : forall p s, startswith p (p ++ s) = true.
Proof. intros p; induction p; cbn; auto. intros. now rewrite Ascii.eqb_refl, IHp. Qed.
Lemma startswith_iff : forall p s, startswith p s = true <-> exists r, s = (p ++ r)%string.
Proof.
  intros p; induction p as [|a p IH]; intros s; cbn.
  - split; eauto.
  - destruct s as [|b s]; [split; [discriminate|intros [r H]; discriminate]|].
    rewrite andb_true_iff, Ascii.eqb_eq, IH. split.
    + intros [-> [r ->]]. eauto.
    + intros [r H]. inv H. eauto.
Qed.

Lemma replace_skip : forall old new a r, replace_go old new (String.length a) (a ++ r) = replace_go old new 0 r.
Proof. intros old new a; induction a; intros; cbn; auto. Qed.

Lemma replace_at_start : forall c old new r,
  replace (String c old) new (String c old ++ r) = (new ++ replace (String c old) new r)%string.
Proof.
  intros c old new r. unfold replace. cbn [append replace_go].
  change (startswith (String c old) (String c (old ++ r))) with (startswith (String c old) (String c old ++ r)).
  rewrite startswith_app. f_equal. cbn [String.length]. rewrite Nat.sub_succ, Nat.sub_0_r. apply replace_skip.
Qed.

Lemma replace_absent : forall old new r, ~ occurs old r -> replace old new r = r.
Proof.
  intros old new r; induction r as [|c r IH]; intros N; auto.
  unfold replace in *. cbn [replace_go]. destruct (startswith old (String c r)) eqn:E.
  - apply startswith_iff in E as [t E]. exfalso. apply N. exists ""%string, t. auto.
  - f_equal. apply IH. intros (a & b & ->). apply N. exists (String c a), b. auto.
Qed.

(** ** Probabilities *)
Lemma validate_keys_total : forall d d', validate_keys d = Ok d' -> map snd d' = map snd d /\
  Forall2 (fun x y => fst x = OStr (fst y)) d d'.
Proof.
  intros d; induction d as [|[[k|] v] d IH]; intros d'; cbn; try discriminate.
  - intros H; inv H. auto.
  - destruct (validate_keys d) as [r|]; cbn; [|discriminate]. intros H; inv H. destruct (IH r) as [E F]; auto.
    cbn. rewrite E. auto.
Qed.

Definition finite_num (x : pynum) : Prop := exists q, num_value x = Some q.

(** Sums: a finite sum has only finite terms, unless NaN or both infinities are involved. *)
Lemma num_add_inv : forall x y z q, num_add x y = Ok z -> num_value z = Some q ->
  exists a b, num_value x = Some a /\ num_value y = Some b /\ q == a + b.
Proof.
  intros [] [] z' qq H V; cbn in H; inv H; cbn in V; inv V; cbn; do 2 eexists; repeat split.
  rewrite inject_Z_plus. reflexivity.
Qed.

Lemma num_sum_inv : forall l acc z q, num_sum acc l = Ok z -> num_value z = Some q ->
  exists a, num_value acc = Some a /\ Forall finite_num l.
Proof.
  intros l; induction l as [|x l IH]; intros acc z q; cbn.
  - intros H V; inv H. eauto.
  - destruct (num_add acc x) as [s|] eqn:A; cbn; [|discriminate]. intros H V.
    destruct (IH s z q H V) as (b & B & F). destruct (num_add_inv _ _ _ _ A B) as (c & d & C & D & _).
    exists c. split; auto. constructor; auto. exists d; auto.
Qed.

Lemma num_sum_total : forall (l : list (string * pynum)) acc z q a,
  num_sum acc (map snd l) = Ok z -> num_value z = Some q -> num_value acc = Some a ->
  exists t, total l = Some t /\ q == a + t.
Proof.
  intros l; induction l as [|[k x] l IH]; intros acc z q a; cbn.
  - intros H V A; inv H. exists 0. split; auto. rewrite V in A; inv A. lra.
  - destruct (num_add acc x) as [s|] eqn:A; cbn; [|discriminate]. intros H V B.
    destruct (num_sum_inv _ _ _ _ H V) as (b & Bb & _). destruct (num_add_inv _ _ _ _ A Bb) as (c & d & C & D & E).
    destruct (IH s z q b H V Bb) as (t & T & Q). rewrite D, T. exists (d + t). split; auto.
    rewrite B in C; inv C. lra.
Qed.

(** NaN needs a NaN or both infinities. *)
Lemma num_sum_nan : forall l acc, acc <> PyNaN -> ~ In PyNaN l ->
  ~ ((acc = PyInf \/ In PyInf l) /\ (acc = PyNegInf \/ In PyNegInf l)) -> num_sum acc l <> Ok PyNaN.
Proof.
  intros l; induction l as [|x l IH]; intros acc A N B; cbn; [congruence|].
  destruct (num_add acc x) as [s|] eqn:E; cbn; [|congruence].
  assert (x <> PyNaN) by (intros ->; apply N; now left).
  apply IH.
  - intros ->. destruct acc, x; cbn in E; try discriminate; try congruence; apply B; cbn; tauto.
  - intros I; apply N; now right.
  - intros [P Q]. apply B. cbn. destruct acc, x; cbn in E; inv E; intuition congruence.
Qed.

Lemma num_sum_none : forall l acc s, num_sum acc l = Ok s -> acc <> PyNone -> s <> PyNone.
Proof.
  intros l; induction l as [|x l IH]; intros acc s; cbn; [congruence|].
  destruct (num_add acc x) as [t|] eqn:E; cbn; [|discriminate]. intros H A. apply (IH t s H).
  destruct acc, x; cbn in E; inv E; congruence.
Qed.

Lemma off_one_false : forall s q, num_value s = Some q -> off_one s = false -> Qabs (q - 1) <= 1 # 1000000000.
Proof.
  intros [] qq H; cbn in H; inv H; unfold off_one; rewrite negb_false_iff, Qle_bool_iff; auto.
Qed.

Lemma set_probs_ok : forall old a p e, normalised old -> no_nan a -> set_probabilities old a = (p, e) ->
  normalised p /\ (e <> None -> p = old).
Proof.
  intros old [|s|d|] p e N F; cbn.
  - intros H; inv H. split; [exact I|congruence].
  - intros H; inv H. split; [|congruence]. exists (1 + 0). split; auto. unfold Qle; cbn; lia.
  - destruct (num_sum (PyInt 0) (map snd d)) as [s|] eqn:E; [|intros H; inv H; auto].
    destruct (off_one s) eqn:O; [intros H; inv H; auto|].
    destruct (validate_keys d) as [d'|] eqn:V; [|intros H; inv H; auto].
    intros H; inv H. split; [|congruence]. apply validate_keys_total in V as [V _]. rewrite <- V in *.
    assert (exists q, num_value s = Some q) as [q Q].
    { destruct F as [F1 F2]. pose proof (num_sum_none _ _ _ E ltac:(discriminate)).
      destruct s; try (eexists; reflexivity); try discriminate; try congruence.
      exfalso. rewrite V in E. revert E. apply num_sum_nan; [discriminate|auto|].
      intros [[A|A] [B|B]]; try discriminate. auto. }
    destruct (num_sum_total d' (PyInt 0) s q 0 E Q eq_refl) as (t & T & QT).
    exists t. split; auto. pose proof (off_one_false _ _ Q O) as L. assert (X : q - 1 == t - 1) by lra.
    now rewrite X in L.
  - intros H; inv H; auto.
Qed.
