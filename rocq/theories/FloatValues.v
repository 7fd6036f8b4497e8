(** C59: continuous values and categorical distributions over doubles; the rounding of integers. *)
From Coq Require Import String List Bool ZArith Reals Lia Lra.
From Flocq Require Import Core IEEE754.BinarySingleNaN Sterbenz.
From Verif Require Import Base FloatModel FloatSpec FloatProofs FloatProperties.
From Verif Require DictModel.
Import ListNotations.
Open Scope R_scope.

(** ** Values *)

(** A uniform value whose ends are doubles has bounds with exactly these ends. *)
Theorem float_uniform_bounds : forall parse x y u t v, parse u = Ok t -> parse t = Ok t -> finite x -> finite y ->
  make_uniform parse (NFlo x) (NFlo y) (Some u) = Ok v -> exists b, to_bounds parse v = Ok b /\ spans b (value x) (value y) t /\ value x <= value y.
Proof.
  intros parse x y u t v Pu Pt Fx Fy. unfold make_uniform. rewrite Pu. cbn [bind].
  destruct (le (NFlo x) (NFlo y)) eqn:L; [|discriminate]. intros E. injection E as <-.
  apply (le_true _ _ (value x) (value y)) in L; try now constructor.
  assert (St : forall z, finite z -> stored (NFlo z) (value z)).
  { intros z F. exists (value z). split; [now constructor|]. unfold value. split; [now rewrite rnd_double | apply value_small]. }
  cbn [to_bounds]. apply (float_make_bounds parse (NFlo x) (NFlo y) (value y) (value x) (value y) t t); auto. now constructor.
Qed.
Print Assumptions float_uniform_bounds.

(** A value that is one integer has bounds exactly if the integer is not rounded upwards: the lower
    bound is rounded before the upper bound is compared with it. *)
Theorem float_integer_value : forall parse z std u, parse u = Ok u -> Rabs (rnd (IZR z)) < limit ->
  (rnd (IZR z) <= IZR z -> exists b, to_bounds parse (CNormal (NInt z) std u) = Ok b /\ spans b (rnd (IZR z)) (rnd (IZR z)) u)
  /\ (IZR z < rnd (IZR z) -> to_bounds parse (CNormal (NInt z) std u) = Err ValueError).
Proof.
  intros parse z std u Pu L. assert (St : stored (NInt z) (rnd (IZR z))) by (exists (IZR z); repeat split; auto; constructor).
  destruct (float_make_bounds parse (NInt z) (NInt z) (IZR z) (rnd (IZR z)) (rnd (IZR z)) u u Pu St (sf_int z) St) as [A B]. cbn [to_bounds].
  split; intros H; [destruct (A H) as (b & E & Sp & _); eauto | auto].
Qed.
Print Assumptions float_integer_value.

(** ** Distributions *)

Lemma one_value : B2R one = 1 /\ finite one.
Proof.
  assert (F : finite one) by (vm_compute; reflexivity). split; [|exact F]. rewrite (parts_ok one F).
  replace (parts one) with (4503599627370496, -52)%Z by (vm_compute; reflexivity). cbn [fst snd].
  change (IZR 4503599627370496) with (IZR (2 ^ 52)). change 2%Z with (radix_val radix2). rewrite IZR_Zpower by lia.
  rewrite <- bpow_plus. reflexivity.
Qed.
Lemma tolerance_value : B2R tolerance = 4835703278458517 * bpow radix2 (-82) /\ finite tolerance.
Proof.
  assert (F : finite tolerance) by (vm_compute; reflexivity). split; [|exact F]. rewrite (parts_ok tolerance F).
  replace (parts tolerance) with (4835703278458517, -82)%Z by (vm_compute; reflexivity). reflexivity.
Qed.
(** The tolerance is 1e-9, as near as doubles come. *)
Lemma tolerance_small : 0 < B2R tolerance < / 4.
Proof.
  destruct tolerance_value as [-> _]. cbn [bpow]. change (Z.pow_pos radix2 82) with 4835703278458516698824704%Z. lra.
Qed.

Lemma ext_abs : forall x : double, is_nan x = false -> ext (Babs x) = Rabs (ext x) /\ is_nan (Babs x) = false.
Proof.
  intros [s|s| |s m e B] N; try discriminate; (split; [|reflexivity]); assert (P := limit_pos).
  - cbn. now rewrite Rabs_R0.
  - destruct s; cbn [ext Babs]; [rewrite Rabs_Ropp|]; rewrite Rabs_pos_eq; lra.
  - apply (B2R_Babs 53 1024 (B754_finite s m e B)).
Qed.

Lemma near_one : forall z : double, finite z -> Rabs (rnd (B2R z - 1)) <= B2R tolerance <-> Rabs (B2R z - 1) <= B2R tolerance.
Proof.
  intros z F. destruct tolerance_value as [_ Ft]. destruct tolerance_small as [Tp Ts]. destruct one_value as [V1 F1]. split; intros H.
  - destruct (Rle_or_lt (/ 2) (B2R z)) as [A|A]; [destruct (Rle_or_lt (B2R z) 2) as [B|B]|].
    + assert (G : generic_format radix2 (FLT_exp (-1074) 53) (B2R z - B2R one)).
      { apply sterbenz.
        - apply FLT_exp_valid; reflexivity.
        - apply FLT_exp_monotone.
        - apply (generic_format_B2R 53 1024 z).
        - apply (generic_format_B2R 53 1024 one).
        - rewrite V1. lra. }
      rewrite V1 in G. now rewrite (rnd_format _ G) in H.
    + exfalso. assert (X : 1 <= rnd (B2R z - 1)). { rewrite <- V1 at 1. rewrite <- (rnd_double one). apply rnd_le. rewrite V1. lra. }
      rewrite Rabs_pos_eq in H by lra. lra.
    + exfalso. assert (X : rnd (B2R z - 1) <= - (/ 2)).
      { assert (Q : generic_format radix2 (FLT_exp (-1074) 53) (/ 2)).
        { change (/ 2) with (bpow radix2 (-1)). apply generic_format_bpow. vm_compute. discriminate. }
        rewrite <- (rnd_format _ Q), <- rnd_opp. apply rnd_le. lra. }
      rewrite Rabs_left1 in H by lra. lra.
  - rewrite rnd_abs, <- (rnd_double tolerance). now apply rnd_le.
Qed.

Lemma normalised_sum : forall l, is_nan (sum l) = false ->
  normalised l = true <-> finite (sum l) /\ Rabs (B2R (sum l) - 1) <= B2R tolerance.
Proof.
  intros l N. destruct one_value as [V1 F1]. destruct tolerance_value as [_ Ft]. destruct tolerance_small as [Tp Ts]. unfold normalised.
  destruct (is_finite (sum l)) eqn:F.
  - destruct (sub_outcome (sum l) one F F1) as [Ns Es]. rewrite V1 in Es. destruct (ext_abs _ Ns) as [Ea Na].
    assert (G := gt_ext (Babs (fsub (sum l) one)) tolerance Na (finite_not_nan _ Ft)). rewrite Ea, Es, (ext_finite tolerance) in G by auto.
    rewrite <- (near_one (sum l) F).
    assert (C : Rabs (clamp (rnd (B2R (sum l) - 1))) <= B2R tolerance <-> Rabs (rnd (B2R (sum l) - 1)) <= B2R tolerance).
    { unfold clamp. destruct (Rlt_bool_spec (Rabs (rnd (B2R (sum l) - 1))) limit) as [A|A]; [tauto|].
      assert (P := limit_pos). assert (V := value_small tolerance). rewrite Rabs_pos_eq in V by lra.
      destruct (Rlt_bool (rnd (B2R (sum l) - 1)) 0); [rewrite Rabs_Ropp|]; rewrite Rabs_pos_eq by lra; lra. }
    rewrite <- C. destruct (gt (NFlo (Babs (fsub (sum l) one))) (NFlo tolerance)) eqn:E; cbn [negb].
    + split; [discriminate|]. intros [_ H]. assert (X := proj1 G eq_refl). lra.
    + split; auto. intros _. split; auto. apply Rnot_lt_le. intros X. apply G in X. discriminate.
  - split; [|intros [X _]; unfold finite in X; congruence]. destruct (sum l) as [|s| |]; discriminate.
Qed.

(** Adding non-negative numbers: either the total is clearly above one, or it is off by at most 2^-51
    per number. *)
Lemma add_error : forall x y, finite x -> finite y -> 0 <= B2R x -> 0 <= B2R y -> B2R x + B2R y <= 2 ->
  finite (fadd x y) /\ 0 <= B2R (fadd x y) /\ Rabs (B2R (fadd x y) - (B2R x + B2R y)) <= bpow radix2 (-51).
Proof.
  intros x y Fx Fy Px Py L. assert (O := add_outcome x y Fx Fy). assert (E := rnd_error (B2R x + B2R y)).
  assert (P : 0 <= rnd (B2R x + B2R y)) by (rewrite <- rnd_0; apply rnd_le; lra).
  assert (D : slack (B2R x + B2R y) <= bpow radix2 (-51)).
  { unfold slack. rewrite Rabs_pos_eq by lra.
    assert (A : (B2R x + B2R y) * bpow radix2 (-53) <= 2 * bpow radix2 (-53)) by (apply Rmult_le_compat_r; [apply bpow_ge_0 | auto]).
    assert (B : bpow radix2 (-1075) <= bpow radix2 (-53)) by (apply bpow_le; lia).
    assert (C : bpow radix2 (-51) = 4 * bpow radix2 (-53)) by (change 4 with (bpow radix2 2); now rewrite <- bpow_plus).
    assert (Q := bpow_gt_0 radix2 (-53)). lra. }
  assert (S : rnd (B2R x + B2R y) < limit).
  { apply Rabs_le_inv in E. assert (bpow radix2 (-51) <= bpow radix2 0) by (apply bpow_le; lia). change (bpow radix2 0) with 1 in H.
    assert (bpow radix2 2 <= limit) by (apply bpow_le; lia). change (bpow radix2 2) with 4 in H0. lra. }
  destruct (outcome_finite _ _ O) as [F V]; [rewrite Rabs_pos_eq; lra|]. rewrite V. repeat split; auto. lra.
Qed.

Lemma stays_large : forall l acc, Forall (fun x => finite x /\ 0 <= value x) l -> is_nan acc = false -> 3 / 2 <= ext acc ->
  is_nan (fold_left fadd l acc) = false /\ 3 / 2 <= ext (fold_left fadd l acc).
Proof.
  induction l as [|x l IH]; intros acc Al N L; [now split|]. apply Forall_cons_iff in Al as [[Fx Px] Al]. cbn [fold_left].
  destruct (step_grows (Plus x) Fx acc N) as [N' _]. cbn [do_step] in N'. apply IH; auto.
  destruct (is_finite acc) eqn:F.
  - destruct (add_outcome acc x F Fx) as [_ E]. rewrite E. rewrite ext_finite in L by auto.
    assert (A := value_small acc). rewrite <- (clamp_small (B2R acc)) in L by auto.
    eapply Rle_trans; [exact L|]. apply clamp_le. rewrite <- (rnd_double acc) at 1. apply rnd_le. unfold value in Px. lra.
  - destruct acc as [|s| |]; try discriminate. destruct x as [|s'| |]; try discriminate; exact L.
Qed.

Lemma rnd_74 : rnd (7 / 4) = 7 / 4.
Proof.
  assert (V : B2R (nearest 7 (-2)) = 7 / 4).
  { rewrite parts_ok by (vm_compute; reflexivity). replace (parts (nearest 7 (-2))) with (7881299347898368, -52)%Z by (vm_compute; reflexivity).
    cbn [fst snd bpow]. change (Z.pow_pos radix2 52) with 4503599627370496%Z. lra. }
  rewrite <- V. apply rnd_double.
Qed.
Lemma sum_cases : forall l acc, Forall (fun x => finite x /\ 0 <= value x) l -> finite acc -> 0 <= B2R acc ->
  let n := INR (length l) in let d := bpow radix2 (-51) in let z := fold_left fadd l acc in
  (is_nan z = false /\ 3 / 2 <= ext z /\ 7 / 4 <= B2R acc + total l + n * d)
  \/ (finite z /\ Rabs (B2R z - (B2R acc + total l)) <= n * d).
Proof.
  induction l as [|x l IH]; intros acc Al Fa Pa; cbv zeta.
  { right. split; auto. cbn [fold_left total fold_right length INR]. rewrite Rplus_0_r, Rminus_diag_eq, Rabs_R0 by auto. lra. }
  apply Forall_cons_iff in Al as [[Fx Px] Al]. change (fold_left fadd (x :: l) acc) with (fold_left fadd l (fadd acc x)).
  change (total (x :: l)) with (value x + total l). change (length (x :: l)) with (S (length l)). rewrite S_INR. unfold value in *.
  assert (D := bpow_gt_0 radix2 (-51)). assert (Nn := pos_INR (length l)).
  assert (T : 0 <= total l). { clear - Al. induction Al as [|y r [_ Py] _ IH]; [apply Rle_refl|]. change (total (y :: r)) with (B2R y + total r). lra. }
  assert (Nd : 0 <= INR (length l) * bpow radix2 (-51)) by (apply Rmult_le_pos; lra).
  destruct (Rle_or_lt (7 / 4) (B2R acc + B2R x)) as [L|L].
  - left. destruct (add_outcome acc x Fa Fx) as [N E].
    assert (G : 3 / 2 <= ext (fadd acc x)).
    { rewrite E. apply rnd_le in L. rewrite rnd_74 in L. apply clamp_le in L. rewrite clamp_small in L; [lra|].
      rewrite Rabs_pos_eq by lra. assert (bpow radix2 1 <= limit) by (apply bpow_le; lia). change (bpow radix2 1) with 2 in H. lra. }
    destruct (stays_large l (fadd acc x) Al N G) as [N' G']. repeat split; auto. lra.
  - destruct (add_error acc x Fa Fx Pa Px ltac:(lra)) as (F & P & E). apply Rabs_le_inv in E.
    destruct (IH (fadd acc x) Al F P) as [(N & G & H)|(Fz & H)].
    + left. repeat split; auto. lra.
    + right. split; auto. apply Rabs_le_inv in H. apply Rabs_le. lra.
Qed.

(** For probabilities that are not negative: accepted if the exact total is one within the tolerance
    less 2^-51 per category, and only if it is one within the tolerance plus as much. *)
Theorem float_probabilities : forall l, Forall (fun x => finite x /\ 0 <= value x) l ->
  let error := INR (length l) * bpow radix2 (-51) in
  (Rabs (total l - 1) <= value tolerance - error -> normalised l = true)
  /\ (normalised l = true -> Rabs (total l - 1) <= value tolerance + error).
Proof.
  intros l Al. cbv zeta. assert (Z : finite zero) by reflexivity. destruct tolerance_small as [Tp Ts]. unfold value in *.
  assert (N0 : B2R zero = 0) by reflexivity.
  assert (D := bpow_gt_0 radix2 (-51)). assert (Nn := pos_INR (length l)). assert (Nd : 0 <= INR (length l) * bpow radix2 (-51)) by (apply Rmult_le_pos; lra).
  destruct (sum_cases l zero Al Z ltac:(rewrite N0; lra)) as [(N & G & H)|(F & H)]; fold (sum l) in *; rewrite N0, Rplus_0_l in H.
  - split.
    + intros A. apply Rabs_le_inv in A. exfalso. lra.
    + intros A. apply (normalised_sum l N) in A as [F A]. exfalso. rewrite ext_finite in G by auto. apply Rabs_le_inv in A. lra.
  - assert (N := finite_not_nan _ F). apply Rabs_le_inv in H. split; intros A.
    + apply (normalised_sum l N). split; auto. apply Rabs_le_inv in A. apply Rabs_le. lra.
    + apply (normalised_sum l N) in A as [_ A]. apply Rabs_le_inv in A. apply Rabs_le. lra.
Qed.
Print Assumptions float_probabilities.

(** In particular up to two million probabilities with total one are accepted. *)
Theorem float_total_one : forall l, Forall (fun x => finite x /\ 0 <= value x) l -> (length l <= 2 ^ 21)%nat -> total l = 1 -> normalised l = true.
Proof.
  intros l Al Le T. apply (float_probabilities l Al). rewrite T, Rminus_diag_eq, Rabs_R0 by auto. unfold value.
  assert (L : INR (length l) <= bpow radix2 21).
  { replace (bpow radix2 21) with (INR (2 ^ 21)); [now apply le_INR|]. rewrite pow_INR. cbn [bpow]. change (Z.pow_pos radix2 21) with 2097152%Z. cbn [pow INR]. lra. }
  assert (A : INR (length l) * bpow radix2 (-51) <= bpow radix2 21 * bpow radix2 (-51)) by (apply Rmult_le_compat_r; [apply bpow_ge_0 | auto]).
  rewrite <- bpow_plus in A. change (21 + -51)%Z with (-30)%Z in A. destruct tolerance_value as [-> _].
  assert (B : bpow radix2 (-30) <= 4835703278458517 * bpow radix2 (-82)).
  { change (bpow radix2 (-30)) with (bpow radix2 (52 + -82)). rewrite bpow_plus. apply Rmult_le_compat_r; [apply bpow_ge_0|].
    cbn [bpow]. change (Z.pow_pos radix2 52) with 4503599627370496%Z. lra. }
  lra.
Qed.
Print Assumptions float_total_one.

(** ** Integers *)

(** The rounding of integers that the models over rationals use is that of doubles. *)
Theorem round53_nearest : forall z, IZR (DictModel.round53 z) = rnd (IZR z).
Proof.
  assert (Pos : forall a, (0 <= a)%Z -> IZR (DictModel.round53 a) = rnd (IZR a)).
  { intros a P. unfold DictModel.round53. rewrite (Z.abs_eq a P). destruct (Z.ltb_spec a (2 ^ 53)) as [L|L].
    - symmetry. apply rnd_format. replace (IZR a) with (F2R (Float radix2 a 0)) by (unfold F2R; cbn [Fnum Fexp bpow]; ring).
      apply generic_format_FLT. apply (FLT_spec radix2 (-1074) 53 _ (Float radix2 a 0)); auto; cbn [Fnum Fexp]; [|lia].
      rewrite Z.abs_eq by lia. exact L.
    - set (k := (Z.log2 a - 52)%Z). assert (Ha : (0 < a)%Z) by lia. assert (Lg := Z.log2_spec a Ha).
      assert (K : (1 <= k)%Z). { unfold k. assert (Z.log2 (2 ^ 53) <= Z.log2 a)%Z by now apply Z.log2_le_mono. rewrite Z.log2_pow2 in H; lia. }
      assert (Mg : mag radix2 (IZR a) = (Z.log2 a + 1)%Z :> Z).
      { apply mag_unique_pos. rewrite <- !IZR_Zpower by lia. change (radix_val radix2) with 2%Z. replace (Z.log2 a + 1 - 1)%Z with (Z.log2 a) by ring.
        replace (Z.log2 a + 1)%Z with (Z.succ (Z.log2 a)) by ring. split; [apply IZR_le | apply IZR_lt]; lia. }
      assert (Ce : cexp radix2 (FLT_exp (-1074) 53) (IZR a) = k) by (unfold cexp, FLT_exp; rewrite Mg; unfold k; lia).
      assert (P2 : (0 < 2 ^ k)%Z) by (apply Z.pow_pos_nonneg; lia).
      assert (P2r : bpow radix2 k = IZR (2 ^ k)) by (rewrite <- IZR_Zpower by lia; reflexivity).
      assert (P2p : 0 < IZR (2 ^ k)) by now apply IZR_lt.
      assert (Half : (2 ^ k = 2 * 2 ^ (k - 1))%Z) by (rewrite <- Z.pow_succ_r by lia; f_equal; lia).
      unfold rnd, round, F2R. rewrite Ce. cbn [Fnum Fexp]. unfold scaled_mantissa. rewrite Ce, bpow_opp, P2r.
      replace (Z.sgn a) with 1%Z by (symmetry; now apply Z.sgn_pos). rewrite Z.mul_1_l, mult_IZR. f_equal. f_equal.
      assert (Fl : Zfloor (IZR a * / IZR (2 ^ k)) = (a / 2 ^ k)%Z) by (apply Zfloor_div; lia).
      assert (Md := Z.div_mod a (2 ^ k) ltac:(lia)). assert (Mb := Z.mod_pos_bound a (2 ^ k) P2).
      assert (Fr : IZR a * / IZR (2 ^ k) - IZR (a / 2 ^ k) = IZR (a mod 2 ^ k) / IZR (2 ^ k)).
      { rewrite Md at 1. rewrite plus_IZR, mult_IZR. field. lra. }
      unfold Znearest. rewrite Fl, Fr.
      assert (Cmp : Rcompare (IZR (a mod 2 ^ k) / IZR (2 ^ k)) (/ 2) = (a mod 2 ^ k ?= 2 ^ (k - 1))%Z).
      { rewrite <- (Rcompare_mult_r (IZR (2 ^ k))) by auto. replace (IZR (a mod 2 ^ k) / IZR (2 ^ k) * IZR (2 ^ k)) with (IZR (a mod 2 ^ k)) by (field; lra).
        replace (/ 2 * IZR (2 ^ k)) with (IZR (2 ^ (k - 1))) by (rewrite Half, mult_IZR; field). apply Rcompare_IZR. }
      rewrite Cmp.
      assert (Ceil : (a mod 2 ^ k <> 0)%Z -> Zceil (IZR a * / IZR (2 ^ k)) = (a / 2 ^ k + 1)%Z).
      { intros N. rewrite Zceil_floor_neq; [now rewrite Fl|]. rewrite Fl. intros X. rewrite <- X, Rminus_diag_eq in Fr by auto.
        apply N. apply eq_IZR. symmetry in Fr. apply Rmult_integral in Fr as [Y|Y]; auto. exfalso. revert Y. apply Rinv_neq_0_compat. lra. }
      destruct (Z.ltb_spec (a mod 2 ^ k) (2 ^ (k - 1))) as [A|A]; cbn [orb].
      + now rewrite (proj2 (Z.compare_lt_iff _ _) A).
      + assert (Pk : (0 < 2 ^ (k - 1))%Z) by (apply Z.pow_pos_nonneg; lia).
        destruct (Z.eqb_spec (a mod 2 ^ k) (2 ^ (k - 1))) as [B|B]; cbn [andb].
        * rewrite B, Z.compare_refl. destruct (Z.even (a / 2 ^ k)); cbn [negb]; auto. symmetry. apply Ceil. lia.
        * rewrite (proj2 (Z.compare_gt_iff _ _)) by lia. symmetry. apply Ceil. lia. }
  assert (Odd : forall z, DictModel.round53 (- z) = (- DictModel.round53 z)%Z).
  { intros z. unfold DictModel.round53. rewrite Z.abs_opp, Z.sgn_opp. destruct (Z.abs z <? 2 ^ 53)%Z; auto. cbv zeta. lia. }
  intros z. destruct (Z.le_ge_cases 0 z) as [P|N]; [now apply Pos|].
  assert (X := Pos (- z)%Z ltac:(lia)). rewrite Odd, !opp_IZR, rnd_opp in X. lra.
Qed.
Print Assumptions round53_nearest.

(** So a double can hold an integer exactly if the models over rationals say so. *)
Theorem float_of_integer : forall z, is_finite (nearest z 0) = (Z.abs (DictModel.round53 z) <? 2 ^ 1024)%Z
  /\ (is_finite (nearest z 0) = true -> value (nearest z 0) = IZR (DictModel.round53 z)).
Proof.
  intros z. assert (O := nearest_outcome z 0). cbn [bpow] in O. rewrite Rmult_1_r in O. rewrite round53_nearest.
  assert (L : Rabs (rnd (IZR z)) < limit <-> (Z.abs (DictModel.round53 z) < 2 ^ 1024)%Z).
  { rewrite <- round53_nearest, <- abs_IZR. unfold limit. rewrite <- IZR_Zpower by lia. change (radix_val radix2) with 2%Z. split; [apply lt_IZR | apply IZR_lt]. }
  destruct (Z.ltb_spec (Z.abs (DictModel.round53 z)) (2 ^ 1024)) as [A|A].
  - apply L in A. now destruct (outcome_finite _ _ O A).
  - assert (B : limit <= Rabs (rnd (IZR z))) by (apply Rnot_lt_le; intros X; apply L in X; lia).
    rewrite (outcome_infinite _ _ O B). split; auto. discriminate.
Qed.
Print Assumptions float_of_integer.

(** ** Concrete cases *)

(** Metres and centimetres, as pint converts them: by the doubles 100.0 and 0.01. *)
Definition metric (u v : string) : option (list step) :=
  (if (u =? "meter") && (v =? "centimeter") then Some [Times (nearest 100 0)]
   else if (u =? "centimeter") && (v =? "meter") then Some [Times (fdiv one (nearest 100 0))]
   else None)%string.
Definition plain (u : string) : res string := Ok u.
Definition rb (lo hi : double) (u : string) : rbounds := mkRB (Some lo) (Some hi) u.

(** The hypotheses of the theorems about conversions hold of it. *)
Lemma metric_proper : forall u v l, metric u v = Some l -> Forall proper l.
Proof.
  assert (P : forall x : double, is_finite x = true -> (0 < fst (parts x))%Z -> proper (Times x)).
  { intros x F L. split; auto. unfold value. rewrite (parts_ok x F). apply Rmult_lt_0_compat; [now apply IZR_lt | apply bpow_gt_0]. }
  assert (A : proper (Times (nearest 100 0))) by (apply P; vm_compute; reflexivity).
  assert (B : proper (Times (fdiv one (nearest 100 0)))) by (apply P; vm_compute; reflexivity).
  intros u v. assert (Q : match metric u v with Some l => Forall proper l | None => True end).
  { unfold metric. destruct ((u =? "meter") && (v =? "centimeter"))%string; [repeat constructor; apply A|].
    destruct ((u =? "centimeter") && (v =? "meter"))%string; [repeat constructor; apply B | exact I]. }
  intros l E. now rewrite E in Q.
Qed.

(** 0 to 29 cm joined to 0 m: the union is 0 to 0.29 m, which does not contain 0 to 29 cm, because
    0.29 * 100.0 is 28.999999999999996. *)
Theorem float_union_contains_refuted :
  let a := rb zero zero "meter" in let b := rb zero (nearest 29 0) "centimeter" in
  (sound a /\ sound b)
  /\ exists c, union metric plain a [b] = Ok c /\ contains metric c b = Ok false /\ contains metric b c = Ok true.
Proof.
  cbv zeta. split.
  - split; [exists 0, 0, "meter"%string | exists 0, (value (nearest 29 0)), "centimeter"%string].
    + split; [|lra]. exists zero, zero. repeat split.
    + split; [exists zero, (nearest 29 0); repeat split|]. unfold value. rewrite parts_ok by reflexivity.
      apply Rmult_le_pos; [apply IZR_le; vm_compute; discriminate | apply bpow_ge_0].
  - assert (H : match union metric plain (rb zero zero "meter") [rb zero (nearest 29 0) "centimeter"] with
                | Ok c => contains metric c (rb zero (nearest 29 0) "centimeter") = Ok false /\ contains metric (rb zero (nearest 29 0) "centimeter") c = Ok true
                | Err _ => False
                end) by (vm_compute; split; reflexivity).
    destruct (union metric plain (rb zero zero "meter") [rb zero (nearest 29 0) "centimeter"]) as [c|]; [eauto | contradiction].
Qed.
(** Nor do bounds written 0 to 0.29 m contain 0 to 29 cm; the other way round they do. *)
Theorem float_written_refuted :
  contains metric (rb zero (fdiv (nearest 29 0) (nearest 100 0)) "meter") (rb zero (nearest 29 0) "centimeter") = Ok false
  /\ contains metric (rb zero (nearest 29 0) "centimeter") (rb zero (fdiv (nearest 29 0) (nearest 100 0)) "meter") = Ok true.
Proof. split; vm_compute; reflexivity. Qed.
(** The integer 2^53 + 3 as mean of a normal value, or as both ends of a uniform one: the value is
    made, but every check of it against bounds raises. *)
Theorem float_large_integer_refuted :
  let n := NInt 9007199254740995 in
  make_uniform plain n n (Some ""%string) = Ok (CUniform n n "") /\ to_bounds plain (CUniform n n "") = Err ValueError
  /\ forall std, to_bounds plain (CNormal n std "") = Err ValueError.
Proof. cbv zeta. split; [vm_compute; reflexivity|]. split; [|intros std]; vm_compute; reflexivity. Qed.
(** The order of the categories decides: 1e16, 1, -1e16 are refused, 1e16, -1e16, 1 accepted. *)
Theorem float_order_refuted :
  let big := nearest (10 ^ 16) 0 in let small := nearest (- 10 ^ 16) 0 in
  normalised [big; one; small] = false /\ normalised [big; small; one] = true.
Proof. split; vm_compute; reflexivity. Qed.
(** A NaN among the probabilities is accepted, a missing or infinite total is not. *)
Example float_odd_totals : normalised [B754_nan; one] = true /\ normalised [] = false /\ normalised [B754_infinity false; one] = false
  /\ normalised [nearest 5 (-1); nearest 1 0; nearest (-5) (-1)] = true.
Proof. repeat split; vm_compute; reflexivity. Qed.

(** Ten times 0.1 is accepted although the doubles add up to 0.9999999999999999. *)
Example float_ten_tenths : let tenth := fdiv one (nearest 10 0) in
  normalised (repeat tenth 10) = true /\ lt (NFlo (sum (repeat tenth 10))) (NFlo one) = true /\ Forall (fun x => finite x /\ 0 <= value x) (repeat tenth 10).
Proof.
  cbv zeta. split; [vm_compute; reflexivity|]. split; [vm_compute; reflexivity|]. apply Forall_forall. intros x H. apply repeat_spec in H. subst x.
  split; [vm_compute; reflexivity|]. unfold value. rewrite parts_ok by (vm_compute; reflexivity).
  apply Rmult_le_pos; [apply IZR_le; vm_compute; discriminate | apply bpow_ge_0].
Qed.
(** Assignments: integers beyond 2^53 are compared as they are and stored rounded. *)
Example float_setters :
  let b := rb zero (nearest 9007199254740994 0) "" in
  set_lower b (Some (NInt 9007199254740995)) = Err ValueError
  /\ match set_lower b (Some (NInt 9007199254740993)) with
     | Ok (mkRB (Some l) _ _) => compare (NFlo l) (NInt 9007199254740992) = Some Eq
     | _ => False
     end
  /\ set_upper b (Some (NInt (2 ^ 1024))) = Err OverflowError /\ set_upper b (Some (NFlo B754_nan)) = Err ValueError.
Proof.
  cbv zeta. split; [vm_compute; reflexivity|]. split; [|split]; vm_compute; reflexivity.
Qed.
(** The factor from centimetres to metres is close to one hundredth, as the theorem on ratios asks. *)
Example float_ratio_ex : exists k, metric "centimeter" "meter" = Some [Times k] /\ Rabs (value k - / 100) <= / 100 * bpow radix2 (-53).
Proof.
  exists (fdiv one (nearest 100 0)). split; [reflexivity|]. unfold value. rewrite parts_ok by (vm_compute; reflexivity).
  replace (parts (fdiv one (nearest 100 0))) with (5764607523034235, -59)%Z by (vm_compute; reflexivity). cbn [fst snd bpow].
  change (Z.pow_pos radix2 59) with 576460752303423488%Z. change (Z.pow_pos radix2 53) with 9007199254740992%Z. apply Rabs_le. lra.
Qed.
