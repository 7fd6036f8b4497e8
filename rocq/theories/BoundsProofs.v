(** Proofs for C05-C09. *)
From Coq Require Import String Ascii List Bool ZArith QArith Lia Lqa ZifyBool.
From Verif Require Import Base BaseFacts PyStr BoundsModel BoundsSpec.
Import ListNotations.
Open Scope list_scope.

(** ** Units *)
Lemma dim_eqb_eq : forall a b, dim_eqb a b = true <-> a = b.
Proof.
  intros a; induction a as [|x r IH]; intros [|y s]; cbn; try (split; congruence).
  rewrite andb_true_iff, Z.eqb_eq, IH. split; [intros [-> ->]; auto | intros H; inv H; auto].
Qed.
Lemma dim_eqb_refl : forall a, dim_eqb a a = true.
Proof. intros; now apply dim_eqb_eq. Qed.

Lemma base_mono : forall u x y, good_unit u -> (x <= y <-> to_base u x <= to_base u y).
Proof.
  intros u x y G. unfold to_base, good_unit in *. split; intros H.
  - assert (x * uscale u <= y * uscale u) by (apply Qmult_le_compat_r; lra). lra.
  - assert (E : x * uscale u <= y * uscale u) by lra. now apply Qmult_le_r in E.
Qed.

Lemma base_le : forall u x y, good_unit u -> x <= y -> to_base u x <= to_base u y.
Proof. intros; now apply base_mono. Qed.
Lemma base_le_inv : forall u x y, good_unit u -> to_base u x <= to_base u y -> x <= y.
Proof. intros u x y G H; now apply base_mono in H. Qed.

Lemma base_convert : forall x u v y, good_unit v -> convert x u v = Ok y ->
  udim u = udim v /\ to_base v y == to_base u x.
Proof.
  intros x u v y G. unfold convert. destruct (dim_eqb (udim u) (udim v)) eqn:E; [|discriminate].
  apply dim_eqb_eq in E. intros H; injection H as <-. split; auto.
  unfold to_base, good_unit in *. field. lra.
Qed.

Lemma convert_ok : forall x u v, udim u = udim v -> exists y, convert x u v = Ok y.
Proof. intros x u v E. unfold convert. rewrite E, dim_eqb_refl. eauto. Qed.

Lemma convert_err : forall x u v, udim u <> udim v -> convert x u v = Err IncompatibleUnitsError.
Proof.
  intros x u v E. unfold convert. destruct (dim_eqb _ _) eqn:D; auto. apply dim_eqb_eq in D; congruence.
Qed.

Lemma base_inv : forall u m, good_unit u -> exists x, to_base u x == m.
Proof. intros u m G. exists ((m - uoff u) / uscale u). unfold to_base, good_unit in *. field. lra. Qed.

Lemma base_proper : forall u x y, x == y -> to_base u x == to_base u y.
Proof. intros u x y H. unfold to_base. rewrite H. reflexivity. Qed.

(** Real bounds in terms of base-unit magnitudes. *)
Lemma admits_real : forall lo hi u d m, good_unit u ->
  (admits (BReal lo hi u) (PQuantity d m) <-> d = udim u /\ to_base u lo <= m <= to_base u hi).
Proof.
  intros lo hi u d m G. cbn. split.
  - intros (x & L & H & D & E). split; auto. fold (to_base u x) in E. rewrite E.
    split; apply base_le; auto.
  - intros (D & L & H). destruct (base_inv u m G) as [x E]. exists x. rewrite <- E in *.
    repeat split; auto; [now apply (base_le_inv u) | now apply (base_le_inv u) |]. symmetry; auto.
Qed.

Lemma contains_real : forall lo hi u lo' hi' u', good_unit u -> good_unit u' ->
  (contains_bounds (BReal lo hi u) (BReal lo' hi' u') = true <->
   udim u = udim u' /\ to_base u lo <= to_base u' lo' /\ to_base u' hi' <= to_base u hi).
Proof.
  intros lo hi u lo' hi' u' G G'. cbn. unfold convert_bounds.
  destruct (list_eq_dec Z.eq_dec (udim u) (udim u')) as [E|E].
  - destruct (convert_ok lo u u' E) as [l L], (convert_ok hi u u' E) as [h H].
    rewrite L, H. apply base_convert in L as [_ L]; auto. apply base_convert in H as [_ H]; auto.
    rewrite andb_true_iff, !Qle_bool_iff, (base_mono u' l lo'), (base_mono u' hi' h), L, H by auto.
    tauto.
  - rewrite (convert_err lo) by auto. split; [discriminate | tauto].
Qed.

Lemma subset_incl : forall a b, subset a b = true <-> incl a b.
Proof.
  intros a b. unfold subset. rewrite forallb_forall. split; intros H x I.
  - apply H in I. apply existsb_exists in I as [y [J E]]. apply String.eqb_eq in E; now subst.
  - apply existsb_exists. exists x. split; [now apply H | apply String.eqb_refl].
Qed.

(** C06 *)
Lemma contains_bounds_iff : forall a b, good_bounds a -> good_bounds b -> bounds_kind a = bounds_kind b ->
  (contains_bounds a b = true <-> forall p, admits b p -> admits a p).
Proof.
  intros a b Ga Gb K. destruct a as [lo hi u|lo hi|cs|cs|], b as [lo' hi' u'|lo' hi'|cs'|cs'|];
    try discriminate.
  - destruct Ga as [La Ua], Gb as [Lb Ub]. rewrite contains_real by auto. split.
    + intros (D & A & B) [d m| | | |] Hp; try (exfalso; exact Hp).
      apply admits_real in Hp as (Dd & H1 & H2); auto. apply admits_real; auto. subst d. split; auto.
      split; eapply Qle_trans; eauto.
    + intros H.
      assert (P1 : admits (BReal lo' hi' u') (PQuantity (udim u') (to_base u' lo'))).
      { apply admits_real; auto. repeat split; [lra|]. now apply (base_le u'). }
      assert (P2 : admits (BReal lo' hi' u') (PQuantity (udim u') (to_base u' hi'))).
      { apply admits_real; auto. repeat split; [|lra]. now apply (base_le u'). }
      apply H in P1, P2. apply admits_real in P1 as (D1 & A1 & B1); auto.
      apply admits_real in P2 as (D2 & A2 & B2); auto.
  - destruct Gb as (Lb & _). cbn. rewrite andb_true_iff, !Z.leb_le. split.
    + intros [A B] [d m|z| | |] Hp; cbn in *; lia.
    + intros H. pose proof (H (PInteger lo')) as H1. pose proof (H (PInteger hi')) as H2. cbn in H1, H2. lia.
  - cbn. rewrite subset_incl. split.
    + intros I [d m|z|c|l|s] Hp; cbn in *; auto.
    + intros H c I. now apply (H (PCategory c)).
  - cbn. rewrite subset_incl. split.
    + intros I [d m|z|c|l|s] Hp; cbn in *; auto. eapply incl_tran; eauto.
    + intros H. now apply (H (PComposition cs')), incl_refl.
  - cbn. split; auto.
Qed.

Lemma contains_bounds_kind : forall a b, contains_bounds a b = true -> bounds_kind a = bounds_kind b.
Proof. intros [] []; cbn; congruence. Qed.

Lemma nonempty_or_set : forall b, good_bounds b -> bounds_kind b = KReal -> exists p, admits b p.
Proof.
  intros [lo hi u|lo hi|cs|cs|] G K; try discriminate. destruct G as [L U].
  exists (PQuantity (udim u) (to_base u lo)). apply admits_real; auto. repeat split; [lra|].
  now apply (base_le u).
Qed.

Lemma contains_refl : forall a, good_bounds a -> contains_bounds a a = true.
Proof. intros a G. apply contains_bounds_iff; auto. Qed.

Lemma contains_trans : forall a b c, good_bounds a -> good_bounds b -> good_bounds c ->
  contains_bounds a b = true -> contains_bounds b c = true -> contains_bounds a c = true.
Proof.
  intros a b c Ga Gb Gc H1 H2.
  pose proof (contains_bounds_kind _ _ H1). pose proof (contains_bounds_kind _ _ H2).
  apply contains_bounds_iff; auto; [congruence|].
  pose proof (proj1 (contains_bounds_iff a b Ga Gb H) H1). pose proof (proj1 (contains_bounds_iff b c Gb Gc H0) H2). auto.
Qed.

(** ** Representable integers *)
Lemma float_exact_iff : forall z, float_exact z = true <-> (exists m e, z = m * 2 ^ e /\ Z.abs m < 2 ^ 53 /\ 0 <= e)%Z.
Proof.
  intros z. unfold float_exact. destruct (Z.abs z <? 2 ^ 53)%Z eqn:A.
  - split; auto. intros _. exists z, 0%Z. rewrite Z.pow_0_r. lia.
  - apply Z.ltb_ge in A. rewrite Z.eqb_eq.
    assert (L : (53 <= Z.log2 (Z.abs z))%Z) by (apply Z.log2_le_pow2; lia).
    set (k := (Z.log2 (Z.abs z) - 52)%Z) in *.
    assert (K : (0 < 2 ^ k)%Z) by (apply Z.pow_pos_nonneg; lia).
    split.
    + intros M. apply Z.mod_divide in M; [|lia].
      assert (D : (2 ^ k | z)%Z) by now apply Z.divide_abs_r.
      destruct D as [m D]. exists m, k. split; auto. split; [|lia].
      assert (E : (Z.abs z = Z.abs m * 2 ^ k)%Z) by (rewrite D, Z.abs_mul, (Z.abs_eq (2 ^ k)); lia).
      assert (U : (Z.abs z < 2 ^ (Z.log2 (Z.abs z) + 1))%Z).
      { pose proof (Z.log2_spec (Z.abs z)). rewrite <- Z.add_1_r in H. lia. }
      replace (Z.log2 (Z.abs z) + 1)%Z with (53 + k)%Z in U by lia.
      rewrite Z.pow_add_r in U by lia. rewrite E in U. apply Z.mul_lt_mono_pos_r in U; lia.
    + intros (m & e & E & M & P).
      assert (PE : (0 < 2 ^ e)%Z) by (apply Z.pow_pos_nonneg; lia).
      assert (EA : (Z.abs z = Z.abs m * 2 ^ e)%Z) by (rewrite E, Z.abs_mul, (Z.abs_eq (2 ^ e)); lia).
      assert (M0 : (0 < Z.abs m)%Z) by nia.
      assert (LE : (k <= e)%Z).
      { unfold k. rewrite EA, Z.log2_mul_pow2 by lia.
        assert (Z.log2 (Z.abs m) < 53)%Z by (apply Z.log2_lt_pow2; lia). lia. }
      apply Z.mod_divide; [lia|]. rewrite EA. apply Z.divide_mul_r.
      exists (2 ^ (e - k))%Z. rewrite <- Z.pow_add_r by lia. f_equal; lia.
Qed.

(** The largest double is 2^1024 - 2^971. *)
Lemma exact_gap : forall z, float_exact z = true -> (Z.abs z < 2 ^ 1024 -> Z.abs z < 2 ^ 1024 - 2 ^ 970)%Z.
Proof.
  intros z F. apply float_exact_iff in F as (m & e & -> & M & E). 
  replace (2 ^ 1024)%Z with (2 ^ 53 * (2 * 2 ^ 970))%Z by reflexivity.
  assert (P : (0 < 2 ^ 970)%Z) by reflexivity. rewrite Z.abs_mul, (Z.abs_eq (2 ^ e)%Z) by (apply Z.pow_nonneg; lia).
  destruct (Z.le_gt_cases e 970) as [L|L].
  - intros _. assert (2 ^ e <= 2 ^ 970)%Z by (apply Z.pow_le_mono_r; lia). assert (0 < 2 ^ e)%Z by (apply Z.pow_pos_nonneg; lia).
    revert P H H0 M. generalize (2 ^ 970)%Z, (2 ^ e)%Z. change (2 ^ 53)%Z with 9007199254740992%Z. intros. nia.
  - replace e with ((e - 971) + (1 + 970))%Z by lia. rewrite Z.pow_add_r by lia. rewrite (Z.pow_add_r 2 1 970) by lia. change (2 ^ 1)%Z with 2%Z. rewrite Z.mul_assoc.
    revert P. generalize (Z.abs m * 2 ^ (e - 971))%Z, (2 ^ 970)%Z. change (2 ^ 53)%Z with 9007199254740992%Z. intros x p P H.
    apply Z.mul_lt_mono_pos_r in H; [|lia]. assert (x * (2 * p) <= 9007199254740991 * (2 * p))%Z by (apply Z.mul_le_mono_nonneg_r; lia). lia.
Qed.
Lemma exact_below : forall z, (Z.abs z < 2 ^ 1024 - 2 ^ 970 -> Z.abs z < 2 ^ 1024)%Z.
Proof. intros z H. eapply Z.lt_trans; [exact H|]. reflexivity. Qed.

Lemma int_checked_iff : forall z, int_checked (PyInt z) = Ok z <-> representable z.
Proof.
  intros z. unfold int_checked, representable. rewrite <- float_exact_iff. destruct (float_exact z) eqn:F.
  2:{ destruct (_ <? _)%Z; split; try discriminate; intros [? _]; discriminate. }
  destruct (Z.abs z <? 2 ^ 1024 - 2 ^ 970)%Z eqn:E.
  - split; auto. intros _. split; auto. apply exact_below. now apply Z.ltb_lt.
  - apply Z.ltb_ge in E. split; [discriminate|]. intros [_ H]. exfalso. apply (Z.lt_irrefl (Z.abs z)). eapply Z.lt_le_trans; [|exact E]. now apply exact_gap.
Qed.

Lemma int_checked_val : forall x z, int_checked x = Ok z -> exists q, num_value x = Some q /\ q == inject_Z z.
Proof.
  intros [|z'|q| | |] z; unfold int_checked; try discriminate.
  - destruct (_ <? _)%Z; [|discriminate]. destruct (float_exact z'); [|discriminate].
    intros H; injection H as <-. eexists; split; reflexivity.
  - destruct (Zpos (Qden (Qred q)) =? 1)%Z eqn:E; [|discriminate].
    intros H; injection H as <-. exists q. split; auto. apply Z.eqb_eq in E. injection E as E.
    rewrite <- (Qred_correct q) at 1. destruct (Qred q) as [n d]; cbn in *. subst d. reflexivity.
Qed.

(** ** C05: no inverted bounds. *)
Definition iok (s : iattr) : Prop :=
  match ilo s, ihi s with Some l, Some h => (l <= h)%Z | _, _ => True end.
Definition rok (s : rattr) : Prop :=
  match rlo s, rhi s with Some l, Some h => l <= h | _, _ => True end.

Lemma set_ilo_ok : forall s x s' r, iok s -> set_ilo s x = (s', r) -> iok s' /\ (r <> None -> s' = s).
Proof.
  intros s x s' r O. unfold set_ilo. destruct (int_checked x); [|intros H; inv H; auto].
  destruct (ihi s) as [h|] eqn:E; [destruct (h <? a)%Z eqn:B|]; intros H; inv H; split; auto; try congruence;
    unfold iok; cbn; try rewrite E; auto; lia.
Qed.

Lemma set_ihi_ok : forall s x s' r, iok s -> set_ihi s x = (s', r) -> iok s' /\ (r <> None -> s' = s).
Proof.
  intros s x s' r O. unfold set_ihi. destruct (int_checked x); [|intros H; inv H; auto].
  destruct (ilo s) as [h|] eqn:E; [destruct (a <? h)%Z eqn:B|]; intros H; inv H; split; auto; try congruence;
    unfold iok; cbn; try rewrite E; auto; lia.
Qed.

Lemma Qle_bool_false : forall a b, Qle_bool a b = false -> b < a.
Proof.
  intros a b H. destruct (Qlt_le_dec b a) as [L|L]; auto. apply Qle_bool_iff in L. congruence.
Qed.

Lemma set_rlo_ok : forall s x s' r, rok s -> set_rlo s x = (s', r) -> rok s' /\ (r <> None -> s' = s).
Proof.
  intros s x s' r O. unfold set_rlo. destruct (finite_checked x); [|intros H; inv H; auto].
  destruct (rhi s) as [h|] eqn:E; [destruct (Qle_bool a h) eqn:B|]; intros H; inv H; split; auto; try congruence;
    unfold rok; cbn; try rewrite E; auto; now apply Qle_bool_iff.
Qed.

Lemma set_rhi_ok : forall s x s' r, rok s -> set_rhi s x = (s', r) -> rok s' /\ (r <> None -> s' = s).
Proof.
  intros s x s' r O. unfold set_rhi. destruct (finite_checked x); [|intros H; inv H; auto].
  destruct (rlo s) as [h|] eqn:E; [destruct (Qle_bool h a) eqn:B|]; intros H; inv H; split; auto; try congruence;
    unfold rok; cbn; try rewrite E; auto; now apply Qle_bool_iff.
Qed.

Lemma new_real_ok : forall x y u q r, num_value x = Some q -> num_value y = Some r -> q <= r ->
  new_real x y u = Ok (BReal q r u).
Proof.
  intros x y u q r X Y L. unfold new_real, init_real, set_rlo, set_rhi, finite_checked; cbn.
  rewrite X; cbn. rewrite Y; cbn. apply Qle_bool_iff in L. now rewrite L.
Qed.

Lemma new_real_inv : forall x y u b, new_real x y u = Ok b ->
  exists q r, num_value x = Some q /\ num_value y = Some r /\ q <= r /\ b = BReal q r u.
Proof.
  intros x y u b. unfold new_real, init_real, set_rlo, set_rhi, finite_checked; cbn.
  destruct (num_value x) as [q|]; cbn; [|discriminate]. destruct (num_value y) as [r|]; cbn; [|discriminate].
  destruct (Qle_bool q r) eqn:E; cbn; [|discriminate]. intros H; injection H as <-.
  apply Qle_bool_iff in E. eauto 6.
Qed.

Lemma new_int_ok : forall l h, (l <= h)%Z -> representable l -> representable h ->
  new_int (PyInt l) (PyInt h) = Ok (BInt l h).
Proof.
  intros l h L Rl Rh. apply int_checked_iff in Rl, Rh.
  unfold new_int, init_int, set_ilo, set_ihi. rewrite Rl. cbn [ihi]. rewrite Rh. cbn [ilo].
  destruct (h <? l)%Z eqn:E; [lia|]. reflexivity.
Qed.

(** ** C08: values *)
Lemma srapp_assoc : forall a b c : string, ((a ++ b) ++ c = a ++ (b ++ c))%string.
Proof. intros a; induction a; cbn; intros; f_equal; auto. Qed.
Lemma srapp_nil : forall a : string, (a ++ "" = a)%string.
Proof. intros a; induction a; cbn; f_equal; auto. Qed.

Definition lowers (s : string) : Prop := forall i d, String.get i s = Some d -> is_lower d = true.
Definition no_lower_head (s : string) : Prop := forall d, String.get 0 s = Some d -> is_lower d = false.

Lemma upper_not_lower : forall c, is_upper c = true -> is_lower c = false.
Proof.
  intros c. unfold is_upper, is_lower, in_range. change (nat_of_ascii "A") with 65%nat.
  change (nat_of_ascii "Z") with 90%nat. change (nat_of_ascii "a") with 97%nat. change (nat_of_ascii "z") with 122%nat.
  intros H. apply andb_true_iff in H as [H1 H2]. apply Nat.leb_le in H1, H2.
  apply andb_false_iff. left. apply Nat.leb_gt. lia.
Qed.

Lemma lowers_snoc : forall ls c, lowers ls -> is_lower c = true -> lowers (ls ++ String c "").
Proof.
  intros ls; induction ls as [|a ls IH]; intros c L C i d; cbn.
  - destruct i; cbn; [congruence|]. destruct i; discriminate.
  - destruct i; cbn; [intros H; apply (L O); auto|].
    apply IH; auto. intros j e H. now apply (L (S j)).
Qed.

Lemma lowers_app_inv : forall a b, lowers (a ++ b) -> lowers a /\ lowers b.
Proof.
  intros a; induction a as [|x a IH]; intros b L; cbn in *.
  - split; auto. intros i d; destruct i; discriminate.
  - destruct (IH b) as [A B]; [intros i d H; now apply (L (S i))|]. split; auto.
    intros [|i] d H; [now apply (L O) | now apply (A i)].
Qed.

(** Element tokens of [String c r], by the first character. *)
Lemma token_cons : forall c r t, element_token (String c r) t <->
  (is_upper c = true /\ exists ls post, r = (ls ++ post)%string /\ t = String c ls /\ lowers ls /\ no_lower_head post)
  \/ element_token r t.
Proof.
  intros c r t. split.
  - intros (pre & c' & ls & post & E & -> & U & L & N). destruct pre as [|a pre]; cbn in E.
    + injection E as -> E. left. split; auto. exists ls, post. auto.
    + injection E as -> E. right. exists pre, c', ls, post. auto.
  - intros [(U & ls & post & -> & -> & L & N)|(pre & c' & ls & post & -> & -> & U & L & N)].
    + exists ""%string, c, ls, post. auto.
    + exists (String c pre), c', ls, post. auto.
Qed.

Lemma token_nil : forall t, ~ element_token "" t.
Proof. intros t (pre & c & ls & post & E & -> & _). destruct pre; discriminate. Qed.

Lemma split_unique : forall a b x y : string, (a ++ x = b ++ y)%string -> lowers a -> lowers b ->
  no_lower_head x -> no_lower_head y -> a = b /\ x = y.
Proof.
  intros a; induction a as [|c a IH]; intros [|d b] x y E La Lb Nx Ny; cbn in *; auto.
  - subst x. exfalso. pose proof (Nx d eq_refl). pose proof (Lb O d eq_refl). congruence.
  - subst y. exfalso. pose proof (Ny c eq_refl). pose proof (La O c eq_refl). congruence.
  - injection E as -> E. destruct (IH b x y E) as [-> ->]; auto.
    + intros i e H; now apply (La (S i)).
    + intros i e H; now apply (Lb (S i)).
Qed.

Lemma elements_go_In : forall s t cur,
  In t (elements_go cur s) <->
  element_token s t \/ (exists c0 ls0, cur = Some c0 /\ t = (c0 ++ ls0)%string /\
     exists post, s = (ls0 ++ post)%string /\ lowers ls0 /\ no_lower_head post).
Proof.
  intros s; induction s as [|c r IH]; intros t cur; cbn.
  - split.
    + destruct cur as [t'|]; [|intros []]. intros [<-|[]]. right. exists t', ""%string. rewrite srapp_nil.
      repeat split; auto. exists ""%string. repeat split; auto; intros ?; [intros ?; destruct i|]; discriminate.
    + intros [H|(c0 & ls0 & -> & -> & post & E & L & N)]; [now apply token_nil in H|].
      destruct ls0; [|discriminate]. rewrite srapp_nil. now left.
  - assert (NIL : lowers ""%string) by (intros i d; destruct i; discriminate).
    destruct (is_upper c) eqn:U.
    + pose proof (upper_not_lower _ U) as NL.
      assert (HD : forall q, no_lower_head (String c q)) by (intros q d H; injection H as <-; auto).
      assert (X : In t (elements_go (Some (String c "")) r) <-> element_token (String c r) t).
      { rewrite IH, token_cons. split.
        - intros [H|(c0 & ls0 & E & -> & post & -> & L & N)]; auto. injection E as <-. left. split; auto.
          exists ls0, post. auto.
        - intros [(_ & ls & post & -> & -> & L & N)|H]; auto. right. exists (String c ""), ls.
          repeat split; auto. exists post; auto. }
      destruct cur as [t'|].
      * cbn. rewrite X. split.
        -- intros [<-|H]; auto. right. exists t', ""%string. rewrite srapp_nil. repeat split; auto.
           exists (String c r). auto.
        -- intros [H|(c0 & ls0 & E & -> & post & E2 & L & N)]; auto. injection E as <-. left.
           destruct ls0 as [|d ls0]; [now rewrite srapp_nil|]. cbn in E2. injection E2 as <- _.
           pose proof (L O c eq_refl). congruence.
      * rewrite X. split; auto. intros [H|(c0 & ls0 & E & _)]; [auto|discriminate].
    + assert (TK : element_token (String c r) t <-> element_token r t).
      { rewrite token_cons. split; [intros [[H _]|H]; [congruence|auto] | auto]. }
      rewrite TK. destruct cur as [t'|].
      * destruct (is_lower c) eqn:LC.
        -- rewrite IH. split.
           ++ intros [H|(c0 & ls0 & E & -> & post & -> & L & N)]; auto. injection E as <-.
              right. exists t', (String c ls0). rewrite srapp_assoc. cbn. repeat split; auto.
              exists post. repeat split; auto. intros [|i] d H; cbn in H; [injection H as <-; auto | now apply (L i)].
           ++ intros [H|(c0 & ls0 & E & -> & post & E2 & L & N)]; auto. injection E as <-. right.
              destruct ls0 as [|d ls0]; cbn in E2.
              ** subst post. pose proof (N c eq_refl). congruence.
              ** injection E2 as <- ->. exists (t' ++ String c "")%string, ls0. rewrite srapp_assoc; cbn.
                 repeat split; auto. exists post. repeat split; auto. intros i d H. now apply (L (S i)).
        -- cbn. rewrite IH. split.
           ++ intros [<-|[H|(c0 & ls0 & E & _)]]; auto; [|discriminate]. right. exists t', ""%string.
              rewrite srapp_nil. repeat split; auto. exists (String c r). repeat split; auto.
              intros d H; injection H as <-; auto.
           ++ intros [H|(c0 & ls0 & E & -> & post & E2 & L & N)]; auto. injection E as <-. left.
              destruct ls0 as [|d ls0]; [now rewrite srapp_nil|]. cbn in E2. injection E2 as <- _.
              pose proof (L O c eq_refl). congruence.
      * rewrite IH. split; [|intros [H|(c0 & ls0 & E & _)]; [auto|discriminate]].
        intros [H|(c0 & ls0 & E & _)]; [auto|discriminate].
Qed.

Lemma elements_In : forall s t, In t (elements s) <-> element_token s t.
Proof.
  intros s t. unfold elements. rewrite elements_go_In. split; auto.
  intros [H|(c0 & ls0 & E & _)]; [auto|discriminate].
Qed.

Lemma In_keys_iff : forall (A : Type) (d : list (string * A)) k, In k (keys d) <-> exists w, In (k, w) d.
Proof.
  intros A d k. unfold keys. rewrite in_map_iff. split.
  - intros [[a b] [<- I]]. exists b; auto.
  - intros [w I]. exists (k, w); auto.
Qed.

Lemma to_bounds_good : forall v, good_value v -> exists b, to_bounds v = Ok b /\ good_bounds b /\
  bounds_kind b = value_kind v /\ forall p, admits b p <-> takes v p.
Proof.
  intros v G. destruct v as [x u|lo hi u|x sd u|z|lo hi|[c|]|[p|]|q|[f|]|s|s]; cbn in G.
  - destruct G as [[q E] U]. exists (BReal q q u). cbn [to_bounds].
    rewrite (new_real_ok x x u q q) by (auto; lra). repeat split; auto; try lra; destruct p; cbn; try tauto.
    + intros (y & L & H & Q). exists q. split; auto. destruct Q as [D M]. split; auto.
      rewrite M. assert (y == q) by lra. rewrite H0. reflexivity.
    + intros (y & E2 & Q). rewrite E in E2; injection E2 as <-. exists q. split; [lra|]. split; [lra|auto].
  - destruct G as [(l & h & E1 & E2 & L) U]. exists (BReal l h u). cbn [to_bounds].
    rewrite (new_real_ok lo hi u l h) by auto. repeat split; auto; destruct p; cbn; try tauto.
    + intros (y & A & B & Q). exists l, h, y. auto.
    + intros (l' & h' & y & A & B & C & Q). rewrite E1 in A; rewrite E2 in B. injection A as <-; injection B as <-.
      exists y. tauto.
  - destruct G as [[q E] U]. exists (BReal q q u). cbn [to_bounds].
    rewrite (new_real_ok x x u q q) by (auto; lra). repeat split; auto; try lra; destruct p; cbn; try tauto.
    + intros (y & L & H & Q). exists q. split; auto. destruct Q as [D M]. split; auto.
      rewrite M. assert (y == q) by lra. rewrite H0. reflexivity.
    + intros (y & E2 & Q). rewrite E in E2; injection E2 as <-. exists q. split; [lra|]. split; [lra|auto].
  - exists (BInt z z). cbn [to_bounds]. rewrite new_int_ok by (auto; lia). repeat split; auto; try apply G; try lia;
      destruct p; cbn; try tauto; lia.
  - destruct G as (L & A & B). exists (BInt lo hi). cbn [to_bounds]. rewrite new_int_ok by (auto; lia).
    repeat split; auto; try apply A; try apply B; destruct p; cbn in *; try tauto; lia.
  - exists (BCat [c]). repeat split; auto; destruct p; cbn; try tauto; intuition congruence.
  - congruence.
  - exists (BCat (keys p)). split; [reflexivity|]. split; [exact I|]. split; [reflexivity|].
    intros p0; destruct p0; cbn; try tauto. apply In_keys_iff.
  - congruence.
  - exists (BComp (keys q)). split; [reflexivity|]. split; [exact I|]. split; [reflexivity|].
    intros p; destruct p as [| | |l|]; cbn; try tauto. unfold incl. split; intros H c I; apply H in I; now apply In_keys_iff.
  - exists (BComp (elements f)). split; [reflexivity|]. split; [exact I|]. split; [reflexivity|].
    intros p; destruct p as [| | |l|]; cbn; try tauto. unfold incl. split; intros H c I; apply H in I; now apply elements_In.
  - congruence.
  - exists BMol. repeat split; auto; destruct p; cbn; tauto.
  - exists BMol. repeat split; auto; destruct p; cbn; tauto.
Qed.

Lemma arg_bounds_good : forall x, good_arg x -> exists b, arg_bounds x = Ok b /\ good_bounds b /\
  arg_kind x = Some (bounds_kind b) /\ (forall p, admits b p <-> arg_point x p).
Proof.
  intros [|b|v|] G; cbn in *; try tauto.
  - exists b. repeat split; auto.
  - destruct (to_bounds_good v G) as (b & E & Gb & K & A). exists b. rewrite K. repeat split; auto; apply A.
Qed.

Lemma contains_arg : forall a x b, arg_bounds x = Ok b -> good_arg x -> contains a x = Ok (contains_bounds a b).
Proof.
  intros a [|b'|v|] b H G; cbn in *; try tauto.
  - congruence.
  - rewrite H. reflexivity.
Qed.

Lemma contains_arg_iff : forall a x, good_bounds a -> good_arg x ->
  exists r, contains a x = Ok r /\
    (r = true <-> arg_kind x = Some (bounds_kind a) /\ forall p, arg_point x p -> admits a p).
Proof.
  intros a x Ga Gx. destruct (arg_bounds_good x Gx) as (b & E & Gb & K & A).
  exists (contains_bounds a b). split; [now apply contains_arg|]. rewrite K. split.
  - intros H. pose proof (contains_bounds_kind _ _ H) as KK. split; [congruence|].
    pose proof (proj1 (contains_bounds_iff a b Ga Gb KK) H) as H'. intros p Hp. apply H'. now apply A.
  - intros [KK H]. apply contains_bounds_iff; auto; [congruence|]. intros p Hp. apply H. now apply A.
Qed.

(** ** C07: union *)
Lemma union_real_lub : forall others lo hi u, good_unit u -> lo <= hi ->
  (forall x, In x others -> good_arg x /\ arg_kind x = Some KReal) ->
  match union_real lo hi u others with
  | Ok (l, h) =>
      l <= lo /\ hi <= h /\
      (forall x b, In x others -> arg_bounds x = Ok b -> contains_bounds (BReal l h u) b = true) /\
      (forall z, good_bounds z -> contains_bounds z (BReal lo hi u) = true ->
         (forall x b, In x others -> arg_bounds x = Ok b -> contains_bounds z b = true) ->
         contains_bounds z (BReal l h u) = true)
  | Err e => e = IncompatibleUnitsError /\ exists x, In x others /\ arg_dim x <> Some (udim u)
  end.
Proof.
  intros others; induction others as [|x r IH]; intros lo hi u U L G; cbn [union_real].
  - repeat split; try lra; auto.
  - destruct (G x) as [Gx Kx]; [now left|].
    destruct (arg_bounds_good x Gx) as (b & E & Gb & K & A). rewrite E; cbn [bind].
    rewrite K in Kx. destruct b as [lo' hi' u'| | | |]; try discriminate.
    destruct Gb as [L' U'].
    assert (DX : arg_dim x = Some (udim u')).
    { destruct x as [|b0|v|]; cbn in E; try discriminate.
      - injection E as ->. reflexivity.
      - destruct v; cbn in E |- *; try discriminate;
          try (apply new_real_inv in E as (? & ? & _ & _ & _ & E); injection E as -> -> ->; reflexivity). }
    unfold convert_bounds.
    destruct (list_eq_dec Z.eq_dec (udim u') (udim u)) as [D|D].
    + destruct (convert_ok lo' u' u D) as [l1 C1], (convert_ok hi' u' u D) as [h1 C2].
      rewrite C1, C2. apply base_convert in C1 as [_ C1]; auto. apply base_convert in C2 as [_ C2]; auto.
      set (lo2 := if Qle_bool lo l1 then lo else l1). set (hi2 := if Qle_bool h1 hi then hi else h1).
      assert (B1 : lo2 <= lo /\ lo2 <= l1 /\ (lo2 = lo \/ lo2 = l1)).
      { unfold lo2. destruct (Qle_bool lo l1) eqn:Q; [apply Qle_bool_iff in Q | apply Qle_bool_false in Q];
          repeat split; auto; lra. }
      assert (B2 : hi <= hi2 /\ h1 <= hi2 /\ (hi2 = hi \/ hi2 = h1)).
      { unfold hi2. destruct (Qle_bool h1 hi) eqn:Q; [apply Qle_bool_iff in Q | apply Qle_bool_false in Q];
          repeat split; auto; lra. }
      clearbody lo2 hi2. destruct B1 as (B11 & B12 & B13), B2 as (B21 & B22 & B23).
      specialize (IH lo2 hi2 u U). destruct (union_real lo2 hi2 u r) as [[l h]|e].
      * destruct IH as (I1 & I2 & I3 & I4); [lra | intros; apply G; now right |].
        repeat split; try lra.
        -- intros y b [<-|Y] Eb.
           ++ rewrite E in Eb; injection Eb as <-. apply contains_real; auto. split; auto.
              rewrite <- C1, <- C2. split; apply (base_le u); auto; lra.
           ++ eapply I3; eauto.
        -- intros z Gz Cz Az. apply I4; auto.
           ++ pose proof (contains_bounds_kind _ _ Cz) as Kz. destruct z as [zl zh zu| | | |]; try discriminate.
              destruct Gz as [Lz Uz]. apply contains_real in Cz as (D1 & X1 & X2); auto.
              pose proof (Az x _ (or_introl eq_refl) E) as Cx. apply contains_real in Cx as (D2 & Y1 & Y2); auto.
              rewrite <- C1 in Y1. rewrite <- C2 in Y2.
              apply contains_real; auto. repeat split; auto.
              ** destruct B13 as [->| ->]; auto.
              ** destruct B23 as [->| ->]; auto.
           ++ intros y b Y. apply Az. now right.
      * destruct IH as [-> (y & Y & DY)]; [lra | intros; apply G; now right |].
        split; auto. exists y. split; auto. now right.
    + rewrite (convert_err lo') by auto. split; auto. exists x. split; [now left|].
      rewrite DX. congruence.
Qed.

Lemma union_int_lub : forall others lo hi, (lo <= hi)%Z -> representable lo -> representable hi ->
  (forall x, In x others -> good_arg x /\ arg_kind x = Some KInt) ->
  exists l h, union_int lo hi others = Ok (l, h) /\ (l <= lo)%Z /\ (hi <= h)%Z /\
      representable l /\ representable h /\
      (forall x b, In x others -> arg_bounds x = Ok b -> contains_bounds (BInt l h) b = true) /\
      (forall z, contains_bounds z (BInt lo hi) = true ->
         (forall x b, In x others -> arg_bounds x = Ok b -> contains_bounds z b = true) ->
         contains_bounds z (BInt l h) = true).
Proof.
  intros others; induction others as [|x r IH]; intros lo hi L Rl Rh G; cbn [union_int].
  - exists lo, hi. split; auto. split; [lia|]. split; [lia|]. repeat split; try apply Rl; try apply Rh; auto.
  - destruct (G x) as [Gx Kx]; [now left|].
    destruct (arg_bounds_good x Gx) as (b & E & Gb & K & A). rewrite E; cbn [bind].
    rewrite K in Kx. destruct b as [|lo' hi'| | |]; try discriminate.
    destruct Gb as (L' & Rl' & Rh').
    set (lo2 := (if lo' <? lo then lo' else lo)%Z). set (hi2 := (if hi <? hi' then hi' else hi)%Z).
    assert (B1 : (lo2 <= lo /\ lo2 <= lo')%Z /\ (lo2 = lo \/ lo2 = lo')).
    { unfold lo2. destruct (lo' <? lo)%Z eqn:Q; split; auto; lia. }
    assert (B2 : (hi <= hi2 /\ hi' <= hi2)%Z /\ (hi2 = hi \/ hi2 = hi')).
    { unfold hi2. destruct (hi <? hi')%Z eqn:Q; split; auto; lia. }
    clearbody lo2 hi2. destruct B1 as [B11 B12], B2 as [B21 B22].
    destruct (IH lo2 hi2) as (l & h & U & I1 & I2 & R1 & R2 & I3 & I4).
    + lia.
    + destruct B12 as [->| ->]; auto.
    + destruct B22 as [->| ->]; auto.
    + intros; apply G; now right.
    + exists l, h. split; auto. split; [lia|]. split; [lia|]. split; [auto|]. split; [auto|]. split.
      * intros y b [<-|Y] Eb.
        -- rewrite E in Eb; injection Eb as <-. cbn. lia.
        -- eapply I3; eauto.
      * intros z Cz Az. apply I4.
        -- pose proof (Az x _ (or_introl eq_refl) E) as Cx. destruct z; cbn in *; try discriminate.
           destruct B12 as [->| ->], B22 as [->| ->]; lia.
        -- intros y b Y. apply Az. now right.
Qed.

Lemma union_set_lub : forall others cs k, (k = KCat \/ k = KComp) ->
  (forall x, In x others -> good_arg x /\ arg_kind x = Some k) ->
  exists c, union_set cs others = Ok c /\
    forall s, In s c <-> In s cs \/ exists x cs', In x others /\
       (arg_bounds x = Ok (BCat cs') \/ arg_bounds x = Ok (BComp cs')) /\ In s cs'.
Proof.
  intros others; induction others as [|x r IH]; intros cs k Hk G; cbn [union_set].
  - exists cs. split; auto. intros s. split; auto. intros [H|(x & cs' & [] & _)]; auto.
  - destruct (G x) as [Gx Kx]; [now left|].
    destruct (arg_bounds_good x Gx) as (b & E & Gb & K & A). rewrite E; cbn [bind].
    rewrite K in Kx. injection Kx as Kx.
    assert (X : exists cs', (b = BCat cs' \/ b = BComp cs')).
    { destruct b; cbn in Kx; destruct Hk; subst; try discriminate; eauto. }
    destruct X as [cs' X].
    destruct (IH (cs ++ cs') k Hk) as (c & U & I); [intros; apply G; now right|].
    exists c. split; [destruct X as [-> | ->]; auto|]. intros s. rewrite I, in_app_iff. split.
    + intros [[H|H]|(y & cs2 & Y & EY & S)]; auto.
      * right. exists x, cs'. split; [now left|]. split; auto. destruct X as [-> | ->]; auto.
      * right. exists y, cs2. split; [now right|]. auto.
    + intros [H|(y & cs2 & [<-|Y] & EY & S)]; auto.
      * left; right. destruct X as [-> | ->]; destruct EY as [EY|EY]; rewrite E in EY; inv EY; auto.
      * right. exists y, cs2. auto.
Qed.

Lemma arg_has_kind_spec : forall k x, arg_has_kind k x = true <-> arg_kind x = Some k.
Proof.
  intros k [|b|v|]; cbn; try (split; discriminate).
  - destruct k, (bounds_kind b); cbn; split; congruence.
  - destruct k, (value_kind v); cbn; split; congruence.
Qed.

Lemma forallb_kind : forall k l, forallb (arg_has_kind k) l = true <-> forall x, In x l -> arg_kind x = Some k.
Proof.
  intros k l. rewrite forallb_forall. split; intros H x I; apply arg_has_kind_spec; auto.
Qed.


Lemma arg_dim_bounds : forall x b, good_arg x -> arg_bounds x = Ok b -> arg_dim x = arg_dim (ABounds b).
Proof.
  intros [|b0|v|] b G E; cbn in E, G; try discriminate.
  - injection E as ->. reflexivity.
  - destruct (to_bounds_good v G) as (b' & E' & Gb & K & _). rewrite E in E'. injection E' as <-.
    destruct v as [x u|lo hi u|x sd u|z|lo hi|[c|]|[p|]|q|[f|]|s|s]; cbn in E |- *;
      try (apply new_real_inv in E as (? & ? & _ & _ & _ & ->); reflexivity);
      try (injection E as <-; reflexivity); try discriminate;
      destruct b; try discriminate; reflexivity.
Qed.

Lemma union_lub : forall self others, good_bounds self -> Forall good_arg others ->
  Forall (comparable self) others ->
  exists b, union self others = Ok b /\ good_bounds b /\
    contains_bounds b self = true /\
    (forall x y, In x others -> arg_bounds x = Ok y -> contains_bounds b y = true) /\
    (forall z, good_bounds z -> contains_bounds z self = true ->
       (forall x y, In x others -> arg_bounds x = Ok y -> contains_bounds z y = true) ->
       contains_bounds z b = true).
Proof.
  intros self others G GA C. rewrite Forall_forall in GA, C.
  assert (K : forallb (arg_has_kind (bounds_kind self)) others = true).
  { apply forallb_kind. intros x I. apply C in I as [I _]. auto. }
  unfold union. rewrite K.
  assert (GK : forall x, In x others -> good_arg x /\ arg_kind x = Some (bounds_kind self)).
  { intros x I. split; [auto|]. now apply C. }
  destruct self as [lo hi u|lo hi|cs|cs|]; cbn [bounds_kind] in GK.
  - destruct G as [L U]. pose proof (union_real_lub others lo hi u U L GK) as H.
    destruct (union_real lo hi u others) as [[l h]|e].
    + destruct H as (A & B & M & N). cbn [bind].
      rewrite (new_real_ok (PyFloat l) (PyFloat h) u l h) by (auto; lra).
      exists (BReal l h u). split; auto. split; [split; auto; lra|]. split; [|split; auto].
      apply contains_real; auto. split; auto. split; apply (base_le u); auto.
    + exfalso. destruct H as [_ (x & I & D)]. apply D. apply C in I as [_ I]. exact I.
  - destruct G as (L & Rl & Rh). destruct (union_int_lub others lo hi L Rl Rh GK) as (l & h & E & A & B & R1 & R2 & M & N).
    rewrite E. cbn [bind]. rewrite new_int_ok by (auto; lia).
    exists (BInt l h). split; auto. split; [repeat split; auto; try apply R1; try apply R2; lia|].
    split; [cbn; lia|]. split; auto.
  - destruct (union_set_lub others cs KCat (or_introl eq_refl) GK) as (c & E & I). rewrite E. cbn [bind].
    exists (BCat c). split; auto. split; [exact Logic.I|]. split; [|split].
    + cbn. apply subset_incl. intros s S. apply I. auto.
    + intros x y X Y. destruct (GK x X) as [Gx Kx]. destruct (arg_bounds_good x Gx) as (b & E2 & _ & K2 & _).
      rewrite Y in E2; injection E2 as <-. rewrite K2 in Kx. destruct y; try discriminate. cbn.
      apply subset_incl. intros s S. apply I. right. exists x, cs0. auto.
    + intros z Gz Cz Az. destruct z as [|?|zc| |]; try discriminate. cbn in *. apply subset_incl in Cz. apply subset_incl.
      intros s S. apply I in S as [S|(x & cs' & X & Y & S)]; auto.
      destruct Y as [Y|Y]; specialize (Az _ _ X Y); [|discriminate]. apply subset_incl in Az. auto.
  - destruct (union_set_lub others cs KComp (or_intror eq_refl) GK) as (c & E & I). rewrite E. cbn [bind].
    exists (BComp c). split; auto. split; [exact Logic.I|]. split; [|split].
    + cbn. apply subset_incl. intros s S. apply I. auto.
    + intros x y X Y. destruct (GK x X) as [Gx Kx]. destruct (arg_bounds_good x Gx) as (b & E2 & _ & K2 & _).
      rewrite Y in E2; injection E2 as <-. rewrite K2 in Kx. destruct y; try discriminate. cbn.
      apply subset_incl. intros s S. apply I. right. exists x, cs0. auto.
    + intros z Gz Cz Az. destruct z as [|?| |zc|]; try discriminate. cbn in *. apply subset_incl in Cz. apply subset_incl.
      intros s S. apply I in S as [S|(x & cs' & X & Y & S)]; auto.
      destruct Y as [Y|Y]; specialize (Az _ _ X Y); [discriminate|]. apply subset_incl in Az. auto.
  - exists BMol. repeat split; auto. intros x y X Y. destruct (GK x X) as [Gx Kx].
    destruct (arg_bounds_good x Gx) as (b & E2 & _ & K2 & _).
    rewrite Y in E2; injection E2 as <-. rewrite K2 in Kx. destruct y; try discriminate. reflexivity.
Qed.

Lemma union_incompatible : forall lo hi u others, good_bounds (BReal lo hi u) -> Forall good_arg others ->
  Forall (fun x => arg_kind x = Some KReal) others -> Exists (fun x => arg_dim x <> Some (udim u)) others ->
  union (BReal lo hi u) others = Err IncompatibleUnitsError.
Proof.
  intros lo hi u others [L U] GA K X. rewrite Forall_forall in GA, K.
  unfold union. replace (forallb _ others) with true by (symmetry; apply forallb_kind; auto).
  assert (GK : forall x, In x others -> good_arg x /\ arg_kind x = Some KReal) by (intros; split; auto).
  pose proof (union_real_lub others lo hi u U L GK) as H.
  destruct (union_real lo hi u others) as [[l h]|e]; [|destruct H as [-> _]; auto].
  exfalso. apply Exists_exists in X as (x & I & D). destruct H as (_ & _ & M & _).
  destruct (arg_bounds_good x) as (b & E & Gb & Kb & _); auto. pose proof (M x b I E) as Cb.
  pose proof (arg_dim_bounds x b (GA x I) E) as Dd.
  pose proof (contains_bounds_kind _ _ Cb). destruct b as [lo' hi' u'| | | |]; try discriminate.
  destruct Gb as [_ U']. apply contains_real in Cb as [Cb _]; auto. apply D. rewrite Dd. cbn. congruence.
Qed.

Lemma union_wrong_kind : forall self others, Exists (fun x => arg_kind x <> Some (bounds_kind self)) others ->
  union self others = Err TypeError.
Proof.
  intros self others X. unfold union. destruct (forallb _ _) eqn:F; auto.
  exfalso. apply Exists_exists in X as (x & I & D). apply D. eapply forallb_kind; eauto.
Qed.

Lemma update_union : forall self others, good_bounds self -> self <> BMol ->
  match union self others with
  | Ok b => good_bounds b -> contains_bounds b self = true -> bounds_kind b = bounds_kind self ->
            (match self, b with BReal lo hi u, BReal l h u' => u' = u | _, _ => True end) ->
            update self others = (b, None)
  | Err e => update self others = (self, Some e)
  end.
Proof.
  intros self others G N. unfold update. destruct self as [lo hi u|lo hi|cs|cs|]; [| | | |congruence].
  - destruct (union (BReal lo hi u) others) as [b|e]; auto. intros Gb C K E.
    destruct b as [l h u'| | | |]; try discriminate. subst u'. destruct G as [L U], Gb as [L' U'].
    apply contains_real in C as (_ & A & B); auto. apply base_le_inv in A, B; auto.
    unfold set_rlo, set_rhi, finite_checked; cbn.
    assert (Q1 : Qle_bool l hi = true) by (apply Qle_bool_iff; lra). rewrite Q1; cbn.
    assert (Q2 : Qle_bool l h = true) by (apply Qle_bool_iff; lra). rewrite Q2. reflexivity.
  - destruct (union (BInt lo hi) others) as [b|e]; auto. intros Gb C K E.
    destruct b as [|l h| | |]; try discriminate. destruct G as (L & Rl & Rh), Gb as (L' & Rl' & Rh').
    apply int_checked_iff in Rl', Rh'. unfold set_ilo, set_ihi. rewrite Rl'. cbn [ihi]. cbn in C.
    destruct (hi <? l)%Z eqn:Q1; [lia|]. rewrite Rh'. cbn [ilo]. destruct (h <? l)%Z eqn:Q2; [lia|]. reflexivity.
  - destruct (union (BCat cs) others); auto.
  - destruct (union (BComp cs) others); auto.
Qed.

Lemma union_real_unit : forall lo hi u others b, union (BReal lo hi u) others = Ok b -> exists l h, b = BReal l h u.
Proof.
  intros lo hi u others b. unfold union. destruct (forallb _ _); [|discriminate].
  destruct (union_real lo hi u others) as [[l h]|]; cbn [bind]; [|discriminate].
  intros H. apply new_real_inv in H as (q & r & _ & _ & _ & ->). eauto.
Qed.

(** ** Histories for C05 *)

Lemma new_int_inv : forall x y b, new_int x y = Ok b -> exists l h, b = BInt l h /\ (l <= h)%Z /\
  int_checked x = Ok l /\ int_checked y = Ok h.
Proof.
  intros x y b. unfold new_int, init_int, set_ilo, set_ihi.
  destruct (int_checked x) as [l|] eqn:X; [|discriminate]. cbn [ihi].
  destruct (int_checked y) as [h|] eqn:Y; [|discriminate]. cbn [ilo].
  destruct (h <? l)%Z eqn:E; [discriminate|]. cbn. intros H; injection H as <-. exists l, h.
  repeat split; auto; lia.
Qed.

Lemma union_not_inverted : forall self others b, union self others = Ok b -> not_inverted b.
Proof.
  intros self others b. unfold union. destruct (forallb _ _); [|discriminate].
  destruct self.
  - destruct (union_real lo hi u others) as [[l h]|]; cbn [bind]; [|discriminate].
    intros H. apply new_real_inv in H as (q & r & _ & _ & L & ->). exact L.
  - destruct (union_int lo hi others) as [[l h]|]; cbn [bind]; [|discriminate].
    intros H. apply new_int_inv in H as (q & r & -> & L & _). exact L.
  - destruct (union_set cs others); cbn [bind]; [|discriminate]. intros H; inv H; exact I.
  - destruct (union_set cs others); cbn [bind]; [|discriminate]. intros H; inv H; exact I.
  - intros H; inv H; exact I.
Qed.

(** The union of integer bounds is never refused by the setters. *)
Lemma union_int_wider : forall others lo hi l h, union_int lo hi others = Ok (l, h) -> (l <= lo /\ hi <= h)%Z.
Proof.
  intros others; induction others as [|x r IH]; intros lo hi l h; cbn [union_int].
  - intros H; inv H; lia.
  - destruct (arg_bounds x) as [[]|]; cbn [bind]; try discriminate. intros H. apply IH in H.
    destruct (lo0 <? lo)%Z eqn:A, (hi <? hi0)%Z eqn:B; lia.
Qed.

Lemma union_real_wider : forall others lo hi u l h, union_real lo hi u others = Ok (l, h) -> l <= lo /\ hi <= h.
Proof.
  intros others; induction others as [|x r IH]; intros lo hi u l h; cbn [union_real].
  - intros H; inv H; lra.
  - destruct (arg_bounds x) as [[]|]; cbn [bind]; try discriminate.
    destruct (convert_bounds lo0 hi0 u0 u) as [[l1 h1]|]; [|discriminate]. intros H. apply IH in H.
    destruct (Qle_bool lo l1) eqn:A, (Qle_bool h1 hi) eqn:B; rewrite ?Qle_bool_iff in *;
      repeat match goal with H : Qle_bool _ _ = false |- _ => apply Qle_bool_false in H end; lra.
Qed.

Lemma update_cases : forall self others, not_inverted self ->
  match update self others with
  | (b, None) => self = BMol \/ union self others = Ok b
  | (b, Some e) => b = self /\ union self others = Err e
  end.
Proof.
  intros self others N. unfold update. destruct self as [lo hi u|lo hi|cs|cs|]; auto.
  - unfold union. destruct (forallb _ _); auto.
    destruct (union_real lo hi u others) as [[l h]|] eqn:E; cbn [bind]; auto.
    apply union_real_wider in E as [A B]. cbn in N.
    rewrite (new_real_ok (PyFloat l) (PyFloat h) u l h) by (auto; lra).
    unfold set_rlo, set_rhi, finite_checked; cbn.
    assert (Q1 : Qle_bool l hi = true) by (apply Qle_bool_iff; lra). rewrite Q1; cbn.
    assert (Q2 : Qle_bool l h = true) by (apply Qle_bool_iff; lra). rewrite Q2. auto.
  - unfold union. destruct (forallb _ _); auto.
    destruct (union_int lo hi others) as [[l h]|] eqn:E; cbn [bind]; auto.
    apply union_int_wider in E. cbn in N. destruct (new_int (PyInt l) (PyInt h)) as [b|e] eqn:F; auto.
    apply new_int_inv in F as (l' & h' & -> & _ & X & Y).
    assert (l' = l) by (unfold int_checked in X; destruct (_ <? _)%Z; [|discriminate];
      destruct (float_exact l); congruence).
    assert (h' = h) by (unfold int_checked in Y; destruct (_ <? _)%Z; [|discriminate];
      destruct (float_exact h); congruence).
    subst. unfold set_ilo, set_ihi. rewrite X. cbn [ihi]. destruct (hi <? l)%Z eqn:Q1; [lia|].
    rewrite Y. cbn [ilo]. destruct (h <? l)%Z eqn:Q2; [lia|]. auto.
  - destruct (union (BCat cs) others); auto.
  - destruct (union (BComp cs) others); auto.
Qed.

Lemma bstep_ok : forall b o b' e, not_inverted b -> bstep b o = (b', e) ->
  not_inverted b' /\ (e <> None -> b' = b).
Proof.
  intros b o b' e N. destruct o as [x|x|v|others]; unfold bstep.
  - destruct b as [lo hi u|lo hi|cs|cs|]; try (intros H; inv H; auto; fail).
    + destruct (set_rlo _ x) as [s r] eqn:E. pose proof (fun K => set_rlo_ok _ _ _ _ K E) as OF. specialize (OF N). destruct OF as [O F].
      unfold set_rlo in E. destruct (finite_checked x); cbn [rhi] in E.
      * destruct (Qle_bool a hi); inv E; cbn; intros H; inv H; split; auto; congruence.
      * inv E; cbn; intros H; inv H; split; auto; congruence.
    + destruct (set_ilo _ x) as [s r] eqn:E. pose proof (fun K => set_ilo_ok _ _ _ _ K E) as OF. specialize (OF N). destruct OF as [O F].
      unfold set_ilo in E. destruct (int_checked x); cbn [ihi] in E.
      * destruct (hi <? a)%Z; inv E; cbn; intros H; inv H; split; auto; congruence.
      * inv E; cbn; intros H; inv H; split; auto; congruence.
  - destruct b as [lo hi u|lo hi|cs|cs|]; try (intros H; inv H; auto; fail).
    + destruct (set_rhi _ x) as [s r] eqn:E. pose proof (fun K => set_rhi_ok _ _ _ _ K E) as OF. specialize (OF N). destruct OF as [O F].
      unfold set_rhi in E. destruct (finite_checked x); cbn [rlo] in E.
      * destruct (Qle_bool lo a); inv E; cbn; intros H; inv H; split; auto; congruence.
      * inv E; cbn; intros H; inv H; split; auto; congruence.
    + destruct (set_ihi _ x) as [s r] eqn:E. pose proof (fun K => set_ihi_ok _ _ _ _ K E) as OF. specialize (OF N). destruct OF as [O F].
      unfold set_ihi in E. destruct (int_checked x); cbn [ilo] in E.
      * destruct (a <? lo)%Z; inv E; cbn; intros H; inv H; split; auto; congruence.
      * inv E; cbn; intros H; inv H; split; auto; congruence.
  - destruct b as [lo hi u|lo hi|cs|cs|]; try (intros H; inv H; auto; fail).
    destruct v; cbn; intros H; inv H; split; auto; congruence.
  - replace (match b with BReal _ _ _ | _ => update b others end) with (update b others) by (destruct b; auto).
    intros H. pose proof (update_cases b others N) as C. rewrite H in C. destruct e.
    + destruct C as [-> _]. auto.
    + split; [|congruence]. destruct C as [->|C].
      * cbn in H. inv H. exact I.
      * eapply union_not_inverted; eauto.
Qed.

Lemma brun_ok : forall ops b, not_inverted b -> not_inverted (brun b ops).
Proof.
  intros ops; induction ops as [|o r IH]; intros b N; cbn; auto.
  apply IH. destruct (bstep b o) as [b' e] eqn:E. eapply bstep_ok; eauto.
Qed.
