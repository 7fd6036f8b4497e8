(** Conversion of integers to floats keeps their order with floats. *)
From Coq Require Import String List Bool ZArith QArith Qabs Qpower Lia Lqa.
From Verif Require Import Base PyStr BoundsModel ValuesModel DictModel DictSpec.
Import ListNotations.
Open Scope Z_scope.

Lemma pow2_pos : forall k, 0 <= k -> 0 < 2 ^ k.
Proof. intros. apply Z.pow_pos_nonneg; lia. Qed.

(** The grid of a large number. *)
Section Grid.
  Variables a k : Z.
  Hypothesis A : 2 ^ 53 <= a.
  Hypothesis K : k = Z.log2 a - 52.
  Lemma k_pos : 1 <= k.
  Proof. assert (53 <= Z.log2 a); [|lia]. apply Z.log2_le_pow2; lia. Qed.
  Lemma a_range : 2 ^ 52 * 2 ^ k <= a < 2 ^ 53 * 2 ^ k.
  Proof.
    pose proof k_pos. destruct (Z.log2_spec a) as [L H0]; [lia|]. rewrite <- !Z.pow_add_r by lia.
    replace (52 + k) with (Z.log2 a) by lia. replace (53 + k) with (Z.succ (Z.log2 a)) by lia. lia.
  Qed.
  Definition down := a / 2 ^ k.
  Definition rest := a mod 2 ^ k.
  Definition near := if (rest <? 2 ^ (k - 1)) || ((rest =? 2 ^ (k - 1)) && Z.even down) then down else down + 1.
  Lemma down_range : 2 ^ 52 <= down < 2 ^ 53.
  Proof.
    pose proof a_range. pose proof k_pos. pose proof (pow2_pos k). unfold down. split.
    - apply Z.div_le_lower_bound; lia.
    - apply Z.div_lt_upper_bound; lia.
  Qed.
  Lemma split_a : a = down * 2 ^ k + rest /\ 0 <= rest < 2 ^ k.
  Proof.
    pose proof k_pos. pose proof (pow2_pos k). unfold down, rest. pose proof (Z.div_mod a (2 ^ k)). pose proof (Z.mod_pos_bound a (2 ^ k)). lia.
  Qed.
  Lemma near_cases : near = down \/ (near = down + 1 /\ 0 < rest).
  Proof.
    unfold near. destruct ((rest <? 2 ^ (k - 1)) || _) eqn:E; [now left|]. right. split; auto. apply orb_false_iff in E. destruct E as [E _].
    apply Z.ltb_ge in E. pose proof k_pos. pose proof (pow2_pos (k - 1)). lia.
  Qed.
  Lemma on_grid : forall m e, k <= e -> m * 2 ^ e = m * 2 ^ (e - k) * 2 ^ k.
  Proof. intros m e E. pose proof k_pos. rewrite <- Z.mul_assoc, <- Z.pow_add_r by lia. f_equal. f_equal. lia. Qed.
  Lemma near_below : forall m e, 0 <= e -> Z.abs m < 2 ^ 53 -> m * 2 ^ e <= a -> m * 2 ^ e <= near * 2 ^ k.
  Proof.
    intros m e E M L. pose proof k_pos. pose proof down_range. destruct split_a as [S R]. pose proof (pow2_pos k).
    assert (m * 2 ^ e <= down * 2 ^ k); [|destruct near_cases as [-> | [-> _]]; nia].
    destruct (Z.le_gt_cases k e).
    - rewrite (on_grid m e) in L |- * by auto. set (w := m * 2 ^ (e - k)) in *. assert (w < down + 1) by (apply (Z.mul_lt_mono_pos_r (2 ^ k)); lia). apply Z.mul_le_mono_nonneg_r; lia.
    - assert (2 * 2 ^ e <= 2 ^ k). { replace (2 * 2 ^ e) with (2 ^ (e + 1)) by (rewrite Z.pow_add_r by lia; lia). apply Z.pow_le_mono_r; lia. }
      pose proof (pow2_pos e E). change (2 ^ 53) with (2 * 2 ^ 52) in M. nia.
  Qed.
  Lemma near_above : forall m e, 0 <= e -> Z.abs m < 2 ^ 53 -> a <= m * 2 ^ e -> near * 2 ^ k <= m * 2 ^ e.
  Proof.
    intros m e E M L. pose proof k_pos. pose proof down_range. destruct split_a as [S R]. pose proof (pow2_pos k).
    destruct (Z.le_gt_cases k e).
    - rewrite (on_grid m e) in L |- * by auto. set (w := m * 2 ^ (e - k)) in *. apply Z.mul_le_mono_nonneg_r; [lia|]. assert (down <= w) by (apply (Z.mul_le_mono_pos_r _ _ (2 ^ k)); lia).
      destruct near_cases as [-> | [-> P]]; [lia|]. assert (down < w) by (apply (Z.mul_lt_mono_pos_r (2 ^ k)); lia). lia.
    - assert (2 * 2 ^ e <= 2 ^ k). { replace (2 * 2 ^ e) with (2 ^ (e + 1)) by (rewrite Z.pow_add_r by lia; lia). apply Z.pow_le_mono_r; lia. }
      pose proof (pow2_pos e E). change (2 ^ 53) with (2 * 2 ^ 52) in M. nia.
  Qed.
End Grid.

Lemma round53_eq : forall z, round53 z =
  if (Z.abs z <? 2 ^ 53) then z else Z.sgn z * (near (Z.abs z) (Z.log2 (Z.abs z) - 52) * 2 ^ (Z.log2 (Z.abs z) - 52)).
Proof. reflexivity. Qed.
Lemma round53_opp : forall z, round53 (- z) = - round53 z.
Proof. intros z. rewrite !round53_eq, Z.abs_opp, Z.sgn_opp. destruct (Z.abs z <? 2 ^ 53); lia. Qed.

(** As an integer with 53 significant bits. *)
Lemma float_cases : forall q, is_float q ->
  (exists m e, 0 <= e /\ Z.abs m < 2 ^ 53 /\ (q == inject_Z (m * 2 ^ e))%Q) \/ (Qabs q < inject_Z (2 ^ 53))%Q.
Proof.
  intros q (m & e & M & Q & _). destruct (Z.le_gt_cases 0 e) as [E|E].
  - left. exists m, e. split; auto. split; auto. rewrite Q, inject_Z_mult. apply Qmult_comp; [reflexivity|]. now rewrite Zpower_Qpower.
  - right. rewrite Q, Qabs_Qmult. rewrite (Qabs_pos (2 ^ e)) by (apply Qpower_pos; discriminate).
    assert (P : (0 < 2 ^ (- e))%Q) by (apply Qpower_0_lt; reflexivity).
    assert (R : (2 ^ e == / 2 ^ (- e))%Q) by (rewrite <- Qpower_opp; now rewrite Z.opp_involutive). rewrite R.
    apply Qlt_shift_div_r; auto. change (Qabs (inject_Z m)) with (inject_Z (Z.abs m)).
    apply Qlt_le_trans with (inject_Z (2 ^ 53)); [now rewrite <- Zlt_Qlt|].
    assert (O : (1 <= 2 ^ (- e))%Q). { rewrite <- (Zpower_Qpower 2 (- e)) by lia. change 1%Q with (inject_Z 1). rewrite <- Zle_Qle. pose proof (pow2_pos (- e)). lia. }
    apply Qle_trans with (inject_Z (2 ^ 53) * 1)%Q; [rewrite Qmult_1_r; apply Qle_refl|]. apply Qmult_le_l; auto. reflexivity.
Qed.

Lemma round53_above : forall z q, is_float q -> (inject_Z z <= q)%Q -> (inject_Z (round53 z) <= q)%Q.
Proof.
  intros z q F L. rewrite round53_eq. destruct (Z.ltb_spec (Z.abs z) (2 ^ 53)) as [B|B]; auto.
  set (k := Z.log2 (Z.abs z) - 52). set (n := near (Z.abs z) k).
  destruct (float_cases q F) as [(m & e & E & M & Q)|Q].
  - rewrite Q in *. rewrite <- Zle_Qle in *. destruct (Z.lt_trichotomy z 0) as [N|[->|P]]; [|cbn in B; lia|].
    + rewrite Z.sgn_neg by auto. assert (- m * 2 ^ e <= n * 2 ^ k); [|lia]. apply near_below; auto; lia.
    + rewrite Z.sgn_pos by auto. assert (n * 2 ^ k <= m * 2 ^ e); [|lia]. apply near_above; auto; lia.
  - destruct (Z.lt_trichotomy z 0) as [N|[->|P]]; [|cbn in B; lia|].
    + rewrite Z.sgn_neg by auto. pose proof (down_range (Z.abs z) k B eq_refl). pose proof (k_pos (Z.abs z) k B eq_refl). destruct (near_cases (Z.abs z) k B eq_refl) as [D|[D _]]; fold n in D;
      (assert (X : -1 * (n * 2 ^ k) <= - 2 ^ 53) by
         (assert (2 * 1 <= 2 ^ k) by (change (2 * 1) with (2 ^ 1); apply Z.pow_le_mono_r; lia); rewrite D; change (2 ^ 53) with (2 ^ 52 * 2); nia);
       rewrite Zle_Qle in X; apply Qle_trans with (inject_Z (- 2 ^ 53)); auto; apply Qlt_le_weak; rewrite inject_Z_opp; apply Qabs_Qlt_condition in Q; apply Q).
    + exfalso. apply Qabs_Qlt_condition in Q. destruct Q as [_ Q]. apply (Qle_lt_trans _ _ _ L) in Q. rewrite <- Zlt_Qlt in Q. lia.
Qed.
Lemma is_float_opp : forall q, is_float q -> is_float (- q).
Proof.
  intros q (m & e & M & Q & B). exists (- m), e. split; [now rewrite Z.abs_opp|]. split; [rewrite Q, inject_Z_opp; ring|now rewrite Qabs_opp].
Qed.
Lemma round53_below : forall z q, is_float q -> (q <= inject_Z z)%Q -> (q <= inject_Z (round53 z))%Q.
Proof.
  intros z q F L. apply Qopp_le_compat in L. rewrite <- inject_Z_opp in L. apply round53_above in L; [|now apply is_float_opp].
  rewrite round53_opp, inject_Z_opp in L. apply Qopp_le_compat in L. now rewrite !Qopp_involutive in L.
Qed.

Lemma float_int : forall m e, 0 <= e -> Z.abs m < 2 ^ 53 -> Z.abs (m * 2 ^ e) < 2 ^ 1024 -> is_float (inject_Z (m * 2 ^ e)).
Proof.
  intros m e E M B. exists m, e. split; auto. split.
  - rewrite inject_Z_mult. apply Qmult_comp; [reflexivity|]. now rewrite Zpower_Qpower.
  - change (Qabs (inject_Z (m * 2 ^ e))) with (inject_Z (Z.abs (m * 2 ^ e))). now rewrite <- Zlt_Qlt.
Qed.
Lemma round53_float : forall z, Z.abs (round53 z) < 2 ^ 1024 -> is_float (inject_Z (round53 z)).
Proof.
  intros z. rewrite round53_eq. destruct (Z.ltb_spec (Z.abs z) (2 ^ 53)) as [B|B]; intros L.
  - rewrite <- (Z.mul_1_r z). change 1 with (2 ^ 0). apply float_int; lia.
  - set (k := Z.log2 (Z.abs z) - 52) in *. set (n := near (Z.abs z) k) in *.
    pose proof (down_range (Z.abs z) k B eq_refl) as D. pose proof (k_pos (Z.abs z) k B eq_refl) as K.
    assert (N : n < 2 ^ 53 \/ n = 2 ^ 53) by (destruct (near_cases (Z.abs z) k B eq_refl) as [X|[X _]]; fold n in X; lia).
    assert (G : 0 < n) by (destruct (near_cases (Z.abs z) k B eq_refl) as [X|[X _]]; fold n in X; lia).
    assert (Sg : Z.sgn z = 1 \/ Z.sgn z = -1) by (destruct z; cbn; auto; exfalso; cbn in B; lia).
    destruct N as [N|N].
    + rewrite Z.mul_assoc in *. apply float_int; auto; lia.
    + replace (Z.sgn z * (n * 2 ^ k)) with (Z.sgn z * 2 ^ 52 * 2 ^ (k + 1)) in * by (rewrite N; rewrite Z.pow_add_r by lia; ring).
      apply float_int; auto; lia.
Qed.

(** Integers that are floats. *)
Lemma float_exact_int : forall z, is_float (inject_Z z) -> float_exact z = true /\ Z.abs z < 2 ^ 1024.
Proof.
  intros z F. pose proof F as (m0 & e0 & _ & _ & B). change (Qabs (inject_Z z)) with (inject_Z (Z.abs z)) in B. rewrite <- Zlt_Qlt in B. split; auto.
  unfold float_exact. destruct (Z.ltb_spec (Z.abs z) (2 ^ 53)) as [L|L]; auto.
  destruct (float_cases _ F) as [(m & e & E & M & Q)|Q].
  - assert (Qz : z = m * 2 ^ e) by now apply (proj1 (inject_Z_injective _ _)). clear Q. subst z. apply Z.eqb_eq. set (a := Z.abs (m * 2 ^ e)) in *.
    pose proof (k_pos a _ L eq_refl) as K. set (k := Z.log2 a - 52) in *. pose proof (a_range a k L eq_refl) as R.
    assert (k <= e).
    { destruct (Z.le_gt_cases k e); auto. exfalso.
      assert (2 * 2 ^ e <= 2 ^ k). { replace (2 * 2 ^ e) with (2 ^ (e + 1)) by (rewrite Z.pow_add_r by lia; lia). apply Z.pow_le_mono_r; lia. }
      pose proof (pow2_pos e E). unfold a in R. rewrite Z.abs_mul, (Z.abs_eq (2 ^ e)) in R by lia. change (2 ^ 53) with (2 * 2 ^ 52) in M. nia. }
    unfold a. rewrite Z.abs_mul, (Z.abs_eq (2 ^ e)) by (pose proof (pow2_pos e E); lia). replace e with ((e - k) + k) by lia. rewrite Z.pow_add_r by lia. rewrite Z.mul_assoc. apply Z.mod_mul. pose proof (pow2_pos k). lia.
  - change (Qabs (inject_Z z)) with (inject_Z (Z.abs z)) in Q. rewrite <- Zlt_Qlt in Q. lia.
Qed.
Lemma round53_exact : forall z, float_exact z = true -> round53 z = z.
Proof.
  intros z. unfold float_exact. rewrite round53_eq. destruct (Z.ltb_spec (Z.abs z) (2 ^ 53)) as [L|L]; auto. intros H. apply Z.eqb_eq in H.
  set (k := Z.log2 (Z.abs z) - 52) in *. destruct (split_a (Z.abs z) k L eq_refl) as [S _]. destruct (near_cases (Z.abs z) k L eq_refl) as [D|[_ P]]; [|unfold rest in P; lia].
  rewrite D. unfold rest in S. rewrite H, Z.add_0_r in S. rewrite <- S. lia.
Qed.
Lemma float_is_int : forall q, is_float q -> Z.eqb (Zpos (Qden (Qred q))) 1 = true ->
  (q == inject_Z (Qnum (Qred q)))%Q /\ is_float (inject_Z (Qnum (Qred q))).
Proof.
  intros q F H. assert (E : (q == inject_Z (Qnum (Qred q)))%Q).
  { rewrite <- (Qred_correct q) at 1. destruct (Qred q) as [n d]. cbn in *. destruct d; try discriminate. reflexivity. }
  split; auto. destruct F as (m & e & M & Q & B). exists m, e. split; auto. split; [now rewrite <- E|now rewrite <- E].
Qed.
