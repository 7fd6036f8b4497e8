(** float(z) is the nearest double, ties to even, and raises exactly from 2^1024 - 2^970 on. *)
From Coq Require Import String List Bool ZArith QArith Qabs Qpower Lia Lqa.
From Verif Require Import Base PyStr BoundsModel BoundsProofs ValuesModel DictModel DictSpec DictFloat DictFullSpec.
Import ListNotations.
Open Scope Z_scope.

(** No double lies between two neighbours on the grid. *)
Lemma between_grid : forall a k p, 2 ^ 53 <= a -> k = Z.log2 a - 52 -> is_float p ->
  (p <= inject_Z (down a k * 2 ^ k))%Q \/ (inject_Z ((down a k + 1) * 2 ^ k) <= p)%Q.
Proof.
  intros a k p A K F. pose proof (k_pos a k A K). pose proof (down_range a k A K). pose proof (pow2_pos k).
  destruct (float_cases p F) as [(m & e & E & M & Q)|Q].
  - rewrite Q, <- !Zle_Qle. destruct (Z.le_gt_cases k e).
    + rewrite (on_grid a k A K m e) by auto. set (w := m * 2 ^ (e - k)). destruct (Z.le_gt_cases w (down a k)); [left|right]; apply Z.mul_le_mono_nonneg_r; lia.
    + left. assert (2 * 2 ^ e <= 2 ^ k). { replace (2 * 2 ^ e) with (2 ^ (e + 1)) by (rewrite Z.pow_add_r by lia; lia). apply Z.pow_le_mono_r; lia. }
      pose proof (pow2_pos e E). change (2 ^ 53) with (2 * 2 ^ 52) in M. nia.
  - left. apply Qabs_Qlt_condition in Q. apply Qlt_le_weak. eapply Qlt_le_trans; [apply Q|]. rewrite <- Zle_Qle.
    assert (2 <= 2 ^ k) by (change 2 with (2 ^ 1) at 1; apply Z.pow_le_mono_r; lia). change (2 ^ 53) with (2 ^ 52 * 2). nia.
Qed.

Definition beats (z q p : Q) : Prop := (Qabs (z - q) < Qabs (z - p))%Q \/ ((Qabs (z - q) == Qabs (z - p))%Q /\ even_float q).
Lemma even_int : forall m e, Z.abs m < 2 ^ 52 -> 0 <= e -> even_float (inject_Z (m * 2 ^ e)).
Proof. intros m e M E. exists m, e. split; auto. rewrite inject_Z_mult. apply Qmult_comp; [reflexivity|]. now rewrite Zpower_Qpower. Qed.
Lemma even_half : forall n k, Z.even n = true -> 0 <= k -> 2 ^ 52 <= n <= 2 ^ 53 -> even_float (inject_Z (n * 2 ^ k)).
Proof.
  intros n k N K R. apply Z.even_spec in N. destruct N as [h ->]. 
  destruct (Z.lt_ge_cases h (2 ^ 52)) as [L|L].
  - replace (2 * h * 2 ^ k) with (h * 2 ^ (k + 1)) by (rewrite Z.pow_add_r by lia; ring). apply even_int; lia.
  - assert (h = 2 ^ 52) by lia. subst h. replace (2 * 2 ^ 52 * 2 ^ k) with (1 * 2 ^ (k + 53)) by (rewrite Z.pow_add_r by lia; ring). apply even_int; lia.
Qed.
Lemma even_float_opp : forall q, even_float q -> even_float (- q).
Proof. intros q (m & e & M & Q). exists (- m), e. split; [lia|]. rewrite Q, inject_Z_opp. ring. Qed.

Lemma near_beats : forall a k p, 2 ^ 53 <= a -> k = Z.log2 a - 52 -> is_float p -> ~ (p == inject_Z (near a k * 2 ^ k))%Q ->
  beats (inject_Z a) (inject_Z (near a k * 2 ^ k)) p.
Proof.
  intros a k p A K F N. pose proof (between_grid a k p A K F) as G. pose proof (k_pos a k A K). pose proof (down_range a k A K) as D. destruct (split_a a k A K) as [S R].
  pose proof (pow2_pos (k - 1)) as H0. assert (P2 : 2 ^ k = 2 * 2 ^ (k - 1)) by (replace k with (1 + (k - 1)) at 1 by lia; now rewrite Z.pow_add_r by lia).
  unfold near in *. set (h := 2 ^ (k - 1)) in *. set (d := down a k) in *. set (r := rest a k) in *.
  assert (Dd : inject_Z a == inject_Z (d * 2 ^ k) + inject_Z r) by (rewrite <- inject_Z_plus; now rewrite S at 1).
  assert (Du : inject_Z ((d + 1) * 2 ^ k) == inject_Z (d * 2 ^ k) + inject_Z (2 ^ k)) by (rewrite <- inject_Z_plus; apply inject_Z_injective; ring).
  assert (Hk : inject_Z (2 ^ k) == 2 * inject_Z h) by (rewrite P2, inject_Z_mult; reflexivity).
  assert (R0 : (0 <= inject_Z r)%Q) by (change 0%Q with (inject_Z 0); rewrite <- Zle_Qle; lia).
  assert (R1 : (inject_Z r < 2 * inject_Z h)%Q) by (rewrite <- Hk, <- Zlt_Qlt; lia).
  destruct ((r <? h) || ((r =? h) && Z.even d)) eqn:C.
  - assert (L : r <= h). { apply orb_true_iff in C as [C|C]; [apply Z.ltb_lt in C; lia|]. apply andb_true_iff in C as [C _]. apply Z.eqb_eq in C. lia. }
    assert (LQ : (inject_Z r <= inject_Z h)%Q) by now rewrite <- Zle_Qle.
    assert (X : (Qabs (inject_Z a - inject_Z (d * 2 ^ k)) == inject_Z r)%Q) by (rewrite Dd; setoid_replace (inject_Z (d * 2 ^ k) + inject_Z r - inject_Z (d * 2 ^ k))%Q with (inject_Z r) by ring; now apply Qabs_pos).
    unfold beats. rewrite X. destruct G as [G|G].
    + left. apply Qle_lteq in G. destruct G as [G|G]; [|contradiction]. rewrite Qabs_pos by lra. lra.
    + rewrite Qabs_neg by lra. apply orb_true_iff in C as [C|C].
      * apply Z.ltb_lt in C. rewrite Zlt_Qlt in C. left. lra.
      * apply andb_true_iff in C as [C E]. apply Z.eqb_eq in C. assert (CQ : inject_Z r == inject_Z h) by now rewrite C.
        apply Qle_lteq in G. destruct G as [G|G]; [left; lra|]. right. split; [lra|]. apply even_half; auto; lia.
  - apply orb_false_iff in C as [C1 C2]. apply Z.ltb_ge in C1.
    assert (LQ : (inject_Z h <= inject_Z r)%Q) by now rewrite <- Zle_Qle.
    assert (X : (Qabs (inject_Z a - inject_Z ((d + 1) * 2 ^ k)) == 2 * inject_Z h - inject_Z r)%Q) by (rewrite Qabs_neg by lra; lra).
    unfold beats. rewrite X. destruct G as [G|G].
    + rewrite Qabs_pos by lra. destruct (Z.eqb_spec r h) as [E|E].
      * cbn [andb] in C2. assert (EQ : inject_Z r == inject_Z h) by now rewrite E. apply Qle_lteq in G. destruct G as [G|G]; [left; lra|]. right. split; [lra|].
        apply even_half; [rewrite Z.even_add, C2; reflexivity|lia|lia].
      * assert (h < r) by lia. rewrite Zlt_Qlt in H1. left. lra.
    + left. apply Qle_lteq in G. destruct G as [G|G]; [|symmetry in G; contradiction]. rewrite Qabs_neg by lra. lra.
Qed.

Lemma round53_rounds : forall z, Z.abs (round53 z) < 2 ^ 1024 -> rounds_to z (inject_Z (round53 z)).
Proof.
  intros z B. split; [now apply round53_float|]. intros p F N. clear B. rewrite round53_eq in *. change (beats (inject_Z z) (inject_Z (if Z.abs z <? 2 ^ 53 then z else Z.sgn z * (near (Z.abs z) (Z.log2 (Z.abs z) - 52) * 2 ^ (Z.log2 (Z.abs z) - 52)))) p).
  destruct (Z.ltb_spec (Z.abs z) (2 ^ 53)) as [L|L].
  - left. setoid_replace (inject_Z z - inject_Z z)%Q with 0%Q by ring. change (Qabs 0) with 0%Q. 
    destruct (Qlt_le_dec 0 (Qabs (inject_Z z - p))) as [G|G]; auto. exfalso. apply N.
    apply Qabs_Qle_condition in G. lra.
  - set (k := Z.log2 (Z.abs z) - 52) in *. destruct (Z.lt_trichotomy z 0) as [S|[->|S]]; [|cbn in L; lia|].
    + rewrite Z.sgn_neg in * by auto.
      assert (W : beats (inject_Z (Z.abs z)) (inject_Z (near (Z.abs z) k * 2 ^ k)) (- p)).
      { apply near_beats; auto; [now apply is_float_opp|]. intros X. apply N. replace (-1 * (near (Z.abs z) k * 2 ^ k)) with (- (near (Z.abs z) k * 2 ^ k)) by ring. rewrite inject_Z_opp, <- X. ring. }
      replace (-1 * (near (Z.abs z) k * 2 ^ k)) with (- (near (Z.abs z) k * 2 ^ k)) by ring. set (n := near (Z.abs z) k * 2 ^ k) in *.
      rewrite Z.abs_neq, inject_Z_opp in W by lia. unfold beats in *. rewrite inject_Z_opp.
      rewrite <- (Qabs_opp (inject_Z z - - inject_Z n)), <- (Qabs_opp (inject_Z z - p)).
      setoid_replace (- (inject_Z z - - inject_Z n))%Q with (- inject_Z z - inject_Z n)%Q by ring. setoid_replace (- (inject_Z z - p))%Q with (- inject_Z z - - p)%Q by ring.
      destruct W as [W|[W E]]; [now left|]. right. split; auto. now apply even_float_opp.
    + rewrite Z.sgn_pos, Z.mul_1_l in * by auto. revert L N. unfold k. rewrite (Z.abs_eq z) by lia. intros L N. apply near_beats; auto.
Qed.

Lemma near_large : forall a k, 2 ^ 53 <= a -> k = Z.log2 a - 52 -> (2 ^ 1024 <= near a k * 2 ^ k <-> 2 ^ 1024 - 2 ^ 970 <= a).
Proof.
  intros a k A K. pose proof (k_pos a k A K). pose proof (down_range a k A K) as D. destruct (split_a a k A K) as [S R].
  assert (P1 : (2 ^ 1024 = 2 ^ 53 * (2 * 2 ^ 970))%Z) by reflexivity. assert (P0 : 0 < 2 ^ 970) by reflexivity. 
  destruct (Z.lt_trichotomy k 971) as [L|[E|L]].
  - assert (X : 2 ^ k <= 2 ^ 970) by (apply Z.pow_le_mono_r; lia). pose proof (pow2_pos k). rewrite P1.
    revert X P0 H0 R S D. destruct (near_cases a k A K) as [-> | [-> _]]; generalize (2 ^ 970), (2 ^ k); change (2 ^ 53) with 9007199254740992; intros; split; nia.
  - assert (P2 : 2 ^ k = 2 * 2 ^ 970) by (rewrite E; reflexivity). assert (P3 : 2 ^ (k - 1) = 2 ^ 970) by (rewrite E; reflexivity).
    unfold near. rewrite P3, P2 in *. rewrite P1 at 1. rewrite P1. revert P0 R S D. generalize (2 ^ 970). intros h P0 R S D. set (d := down a k) in *. set (r := rest a k) in *.
    destruct ((r <? h) || ((r =? h) && Z.even d)) eqn:C.
    + split; [nia|]. intros G. exfalso. assert (d = 2 ^ 53 - 1) by (change (2 ^ 53) with 9007199254740992 in *; nia). assert (h <= r) by (subst d; change (2 ^ 53) with 9007199254740992 in *; nia).
      apply orb_true_iff in C as [C|C]; [apply Z.ltb_lt in C; lia|]. apply andb_true_iff in C as [_ C]. rewrite H0 in C. discriminate C.
    + apply orb_false_iff in C as [C1 C2]. apply Z.ltb_ge in C1. change (2 ^ 53) with 9007199254740992 in *. split; intros G.
      2:{ destruct (Z.le_gt_cases 9007199254740992 (d + 1)) as [Y|Y]; [apply Z.mul_le_mono_nonneg_r; lia|]. exfalso.
          assert ((d + 1) * (2 * h) <= 9007199254740991 * (2 * h)) by (apply Z.mul_le_mono_nonneg_r; lia). lia. }
      assert (9007199254740992 <= d + 1) by nia. nia.
  - assert (X : 2 * (2 * 2 ^ 970) <= 2 ^ k) by (replace (2 * (2 * 2 ^ 970)) with (2 ^ 972) by reflexivity; apply Z.pow_le_mono_r; lia). rewrite P1.
    revert X P0 R S D. destruct (near_cases a k A K) as [-> | [-> _]]; generalize (2 ^ 970), (2 ^ k); change (2 ^ 53) with 9007199254740992; change (2 ^ 52) with 4503599627370496; intros; split; nia.
Qed.
Lemma round53_large : forall z, Z.abs (round53 z) < 2 ^ 1024 <-> Z.abs z < 2 ^ 1024 - 2 ^ 970.
Proof.
  intros z. rewrite round53_eq. destruct (Z.ltb_spec (Z.abs z) (2 ^ 53)) as [L|L].
  - split; intros _; (eapply Z.lt_trans; [exact L|reflexivity]).
  - set (k := Z.log2 (Z.abs z) - 52). pose proof (near_large (Z.abs z) k L eq_refl) as N.
    assert (Q : Z.abs (Z.sgn z * (near (Z.abs z) k * 2 ^ k)) = near (Z.abs z) k * 2 ^ k).
    { rewrite Z.abs_mul. replace (Z.abs (Z.sgn z)) with 1 by (destruct z; cbn; auto; cbn in L; lia). rewrite Z.mul_1_l. apply Z.abs_eq.
      pose proof (k_pos (Z.abs z) k L eq_refl). pose proof (pow2_pos k). pose proof (down_range (Z.abs z) k L eq_refl). destruct (near_cases (Z.abs z) k L eq_refl) as [-> | [-> _]]; nia. }
    rewrite Q. rewrite !Z.lt_nge, N. reflexivity.
Qed.
