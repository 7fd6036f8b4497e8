(** Doubles and reals. *)
From Coq Require Import String List Bool ZArith Reals Lia Lra.
From Flocq Require Import Core IEEE754.BinarySingleNaN Relative Sterbenz.
From Verif Require Import Base FloatModel FloatSpec.
Import ListNotations.
Open Scope R_scope.

(** ** Rounding *)

Lemma rnd_le : forall x y, x <= y -> rnd x <= rnd y.
Proof. intros. apply round_le; auto; [apply FLT_exp_valid; reflexivity | typeclasses eauto]. Qed.
Lemma rnd_format : forall x, generic_format radix2 (FLT_exp (-1074) 53) x -> rnd x = x.
Proof. intros. apply round_generic; auto. typeclasses eauto. Qed.
Lemma rnd_double : forall x : double, rnd (B2R x) = B2R x.
Proof. intros. apply rnd_format. apply (generic_format_B2R 53 1024 x). Qed.
Lemma rnd_0 : rnd 0 = 0.
Proof. apply round_0. typeclasses eauto. Qed.
Lemma rnd_opp : forall x, rnd (- x) = - rnd x.
Proof. intros. apply round_NE_opp. Qed.
Lemma rnd_abs : forall x, Rabs (rnd x) = rnd (Rabs x).
Proof.
  intros x. unfold Rabs at 2. destruct (Rcase_abs x).
  - rewrite rnd_opp. apply Rabs_left1. rewrite <- rnd_0. apply rnd_le. lra.
  - apply Rabs_right. apply Rle_ge. rewrite <- rnd_0. apply rnd_le. lra.
Qed.
Lemma rnd_error : forall x, Rabs (rnd x - x) <= slack x.
Proof.
  intros x. unfold slack.
  destruct (error_N_FLT radix2 (-1074) 53 eq_refl (fun z => negb (Z.even z)) x) as (eps & eta & He & Ht & _ & E).
  unfold rnd. rewrite E. replace (x * (1 + eps) + eta - x) with (x * eps + eta) by ring.
  eapply Rle_trans; [apply Rabs_triang|]. apply Rplus_le_compat.
  - rewrite Rabs_mult. apply Rmult_le_compat_l; [apply Rabs_pos|]. eapply Rle_trans; [exact He|].
    change (/ 2) with (bpow radix2 (-1)). rewrite <- bpow_plus. apply bpow_le. lia.
  - eapply Rle_trans; [exact Ht|]. change (/ 2) with (bpow radix2 (-1)). rewrite <- bpow_plus. apply bpow_le. lia.
Qed.

(** ** The order of doubles, with the infinities at the ends *)

Definition ext (x : double) : R :=
  match x with B754_infinity s => if s then - limit else limit | _ => B2R x end.
Definition clamp (r : R) : R := if Rlt_bool (Rabs r) limit then r else if Rlt_bool r 0 then - limit else limit.

Lemma limit_pos : 0 < limit.
Proof. apply bpow_gt_0. Qed.
Lemma ext_finite : forall x, finite x -> ext x = B2R x.
Proof. intros [ | | | ] F; try reflexivity; discriminate. Qed.
Lemma value_small : forall x : double, Rabs (B2R x) < limit.
Proof. intros x. apply (abs_B2R_lt_emax 53 1024 x). Qed.
Lemma ext_bound : forall x, - limit <= ext x <= limit.
Proof.
  intros x. assert (L := limit_pos). assert (A := value_small x). apply Rabs_def2 in A.
  destruct x as [s|[]| |s m e B]; cbn [ext]; lra.
Qed.
Lemma finite_ext : forall x, is_nan x = false -> Rabs (ext x) < limit -> finite x.
Proof.
  intros [s|s| |s m e B] N A; try reflexivity; try discriminate. exfalso.
  assert (L := limit_pos). destruct s; cbn [ext] in A; [rewrite Rabs_Ropp in A|]; rewrite Rabs_pos_eq in A; lra.
Qed.
Lemma finite_not_nan : forall x, finite x -> is_nan x = false.
Proof. intros [ | | | ] F; auto; discriminate. Qed.

Lemma compare_ext : forall x y, is_nan x = false -> is_nan y = false -> compare (NFlo x) (NFlo y) = Some (Rcompare (ext x) (ext y)).
Proof.
  intros x y Nx Ny. cbn [compare].
  destruct (is_finite x) eqn:Fx, (is_finite y) eqn:Fy.
  - rewrite Bcompare_correct, !ext_finite; auto.
  - destruct y as [|s| |]; try discriminate. assert (A := value_small x). apply Rabs_def2 in A. rewrite (ext_finite x) by auto.
    destruct s; cbn [ext]; [rewrite Rcompare_Gt by lra | rewrite Rcompare_Lt by lra]; destruct x; try discriminate; reflexivity.
  - destruct x as [|s| |]; try discriminate. assert (A := value_small y). apply Rabs_def2 in A. rewrite (ext_finite y) by auto.
    destruct s; cbn [ext]; [rewrite Rcompare_Lt by lra | rewrite Rcompare_Gt by lra]; destruct y; try discriminate; reflexivity.
  - destruct x as [|s| |], y as [|s'| |]; try discriminate. assert (L := limit_pos).
    destruct s, s'; cbn [ext]; [rewrite Rcompare_Eq | rewrite Rcompare_Lt | rewrite Rcompare_Gt | rewrite Rcompare_Eq]; try lra; reflexivity.
Qed.

Lemma F2R_IZR : forall m e, F2R (Float radix2 m e) = IZR m * bpow radix2 e.
Proof. reflexivity. Qed.

Lemma compare_parts_ok : forall a b, compare_parts a b = Rcompare (IZR (fst a) * bpow radix2 (snd a)) (IZR (fst b) * bpow radix2 (snd b)).
Proof.
  intros [m e] [m' e']. unfold compare_parts. cbn [fst snd]. set (e0 := Z.min e e').
  assert (X : forall m e, (e0 <= e)%Z -> IZR m * bpow radix2 e = IZR (m * 2 ^ (e - e0)) * bpow radix2 e0).
  { intros m0 e1 L. rewrite mult_IZR. change 2%Z with (radix_val radix2). rewrite IZR_Zpower by lia.
    rewrite Rmult_assoc, <- bpow_plus. f_equal. f_equal. lia. }
  rewrite (X m), (X m') by lia. rewrite Rcompare_mult_r by apply bpow_gt_0. now rewrite Rcompare_IZR.
Qed.

Lemma parts_ok : forall x : double, finite x -> B2R x = IZR (fst (parts x)) * bpow radix2 (snd (parts x)).
Proof. intros [s|s| |s m e B] F; try discriminate; cbn; [ring|]. destruct s; reflexivity. Qed.

(** Comparing numbers compares what they stand for. *)
Lemma compare_exact : forall a b x y, stands_for a x -> stands_for b y -> compare a b = Some (Rcompare x y).
Proof.
  intros a b x y A B. destruct A as [z|d F], B as [z'|d' F'].
  - cbn [compare]. now rewrite Rcompare_IZR.
  - assert (P := parts_ok d' F'). unfold value. cbn [compare].
    destruct d' as [s|s| |s m e Bd]; try discriminate F'; rewrite compare_parts_ok, P; f_equal; f_equal; cbn [fst snd bpow]; ring.
  - assert (P := parts_ok d F). unfold value. cbn [compare].
    destruct d as [s|s| |s m e Bd]; try discriminate F; rewrite compare_parts_ok, P; f_equal; f_equal; cbn [fst snd bpow]; ring.
  - cbn [compare]. now rewrite Bcompare_correct.
Qed.

Lemma gt_true : forall a b x y, stands_for a x -> stands_for b y -> gt a b = true <-> y < x.
Proof. intros a b x y A B. unfold gt. rewrite (compare_exact a b x y A B). destruct (Rcompare_spec x y); split; auto; try discriminate; lra. Qed.
Lemma lt_true : forall a b x y, stands_for a x -> stands_for b y -> lt a b = true <-> x < y.
Proof. intros a b x y A B. unfold lt. rewrite (compare_exact a b x y A B). destruct (Rcompare_spec x y); split; auto; try discriminate; lra. Qed.
Lemma le_true : forall a b x y, stands_for a x -> stands_for b y -> le a b = true <-> x <= y.
Proof. intros a b x y A B. unfold le. rewrite (compare_exact a b x y A B). destruct (Rcompare_spec x y); split; auto; try discriminate; lra. Qed.
Lemma gt_ext : forall x y, is_nan x = false -> is_nan y = false -> gt (NFlo x) (NFlo y) = true <-> ext y < ext x.
Proof. intros. unfold gt. rewrite compare_ext by auto. destruct (Rcompare_spec (ext x) (ext y)); split; auto; try discriminate; lra. Qed.
Lemma lt_ext : forall x y, is_nan x = false -> is_nan y = false -> lt (NFlo x) (NFlo y) = true <-> ext x < ext y.
Proof. intros. unfold lt. rewrite compare_ext by auto. destruct (Rcompare_spec (ext x) (ext y)); split; auto; try discriminate; lra. Qed.
Lemma ge_ext : forall x y, is_nan x = false -> is_nan y = false -> ge (NFlo x) (NFlo y) = true <-> ext y <= ext x.
Proof. intros. unfold ge. rewrite compare_ext by auto. destruct (Rcompare_spec (ext x) (ext y)); split; auto; try discriminate; lra. Qed.
Lemma le_ext : forall x y, is_nan x = false -> is_nan y = false -> le (NFlo x) (NFlo y) = true <-> ext x <= ext y.
Proof. intros. unfold le. rewrite compare_ext by auto. destruct (Rcompare_spec (ext x) (ext y)); split; auto; try discriminate; lra. Qed.

(** ** Operations *)

Lemma clamp_le : forall x y, x <= y -> clamp x <= clamp y.
Proof.
  intros x y L. assert (P := limit_pos). unfold clamp.
  destruct (Rlt_bool_spec (Rabs x) limit) as [A|A]; [apply Rabs_def2 in A|];
  (destruct (Rlt_bool_spec (Rabs y) limit) as [B|B]; [apply Rabs_def2 in B|]); auto.
  - destruct (Rlt_bool_spec y 0); [|lra]. exfalso. rewrite Rabs_left1 in B by lra. lra.
  - destruct (Rlt_bool_spec x 0); [lra|]. exfalso. rewrite Rabs_pos_eq in A by lra. lra.
  - destruct (Rlt_bool_spec x 0), (Rlt_bool_spec y 0); lra.
Qed.
Lemma clamp_small : forall x, Rabs x < limit -> clamp x = x.
Proof. intros. unfold clamp. now rewrite Rlt_bool_true. Qed.
Lemma clamp_bound : forall x, - limit <= clamp x <= limit.
Proof.
  intros x. assert (P := limit_pos). unfold clamp. destruct (Rlt_bool_spec (Rabs x) limit) as [A|A]; [apply Rabs_def2 in A; lra|].
  destruct (Rlt_bool x 0); lra.
Qed.

Definition outcome (z : double) (r : R) : Prop := is_nan z = false /\ ext z = clamp (rnd r).

Lemma overflow_sign : forall (z : double) s, B2SF z = binary_overflow 53 1024 mode_NE s -> z = B754_infinity s.
Proof. intros [t|t| |t m e B] s E; cbn in E; try discriminate. congruence. Qed.

Lemma outcome_of : forall (z : double) r s,
  (if Rlt_bool (Rabs (rnd r)) limit then B2R z = rnd r /\ is_finite z = true else B2SF z = binary_overflow 53 1024 mode_NE s) ->
  (r < 0 -> s = true) -> (0 < r -> s = false) -> outcome z r.
Proof.
  intros z r s H A B. unfold outcome, clamp. destruct (Rlt_bool_spec (Rabs (rnd r)) limit) as [L|L].
  - destruct H as [E F]. split; [now apply finite_not_nan | now rewrite ext_finite].
  - apply overflow_sign in H. subst z. split; [reflexivity|]. assert (P := limit_pos).
    destruct (Rlt_bool_spec (rnd r) 0) as [N|N].
    + rewrite A; [reflexivity|]. apply Rnot_le_lt. intros C. apply rnd_le in C. rewrite rnd_0 in C. lra.
    + rewrite B; [reflexivity|]. apply Rnot_le_lt. intros C. apply rnd_le in C. rewrite rnd_0 in C.
      rewrite Rabs_pos_eq in L by lra. lra.
Qed.

Lemma sign_neg : forall x : double, B2R x < 0 -> Bsign x = true.
Proof.
  intros [s|s| |[] m e B] H; cbn in *; auto; try lra. exfalso.
  assert (0 < F2R (Float radix2 (Zpos m) e)) by (apply F2R_gt_0; reflexivity). lra.
Qed.
Lemma sign_pos : forall x : double, 0 < B2R x -> Bsign x = false.
Proof.
  intros [s|s| |[] m e B] H; cbn in *; auto; try lra. exfalso.
  assert (F2R (Float radix2 (Zneg m) e) < 0) by (apply F2R_lt_0; reflexivity). lra.
Qed.

Lemma mul_outcome : forall x k, finite x -> finite k -> 0 < value k -> outcome (fmul x k) (B2R x * B2R k).
Proof.
  intros x k Fx Fk P. unfold value in P.
  assert (H := Bmult_correct 53 1024 prec53 prec53_emax mode_NE x k).
  apply (outcome_of _ _ (xorb (Bsign x) (Bsign k))).
  - change (round radix2 (SpecFloat.fexp 53 1024) (round_mode mode_NE) (B2R x * B2R k)) with (rnd (B2R x * B2R k)) in H.
    change (bpow radix2 1024) with limit in H. unfold fmul.
    destruct (Rlt_bool (Rabs (rnd (B2R x * B2R k))) limit); [|exact H].
    destruct H as (E & F & _). rewrite Fx, Fk in F. now split.
  - intros N. rewrite (sign_pos k P), (sign_neg x); [reflexivity|].
    apply Rnot_le_lt. intros C. assert (0 <= B2R x * B2R k) by (apply Rmult_le_pos; lra). lra.
  - intros N. rewrite (sign_pos k P), (sign_pos x); [reflexivity|].
    apply Rnot_le_lt. intros C. assert (B2R x * B2R k <= 0) by (apply Rmult_le_0_r || (rewrite <- (Rmult_0_l (B2R k)); apply Rmult_le_compat_r; lra)). lra.
Qed.

Lemma div_outcome : forall x k, finite x -> finite k -> 0 < value k -> outcome (fdiv x k) (B2R x / B2R k).
Proof.
  intros x k Fx Fk P. unfold value in P.
  assert (H := Bdiv_correct 53 1024 prec53 prec53_emax mode_NE x k ltac:(lra)).
  assert (I : 0 < / B2R k) by now apply Rinv_0_lt_compat.
  apply (outcome_of _ _ (xorb (Bsign x) (Bsign k))).
  - change (round radix2 (SpecFloat.fexp 53 1024) (round_mode mode_NE) (B2R x / B2R k)) with (rnd (B2R x / B2R k)) in H.
    change (bpow radix2 1024) with limit in H. unfold fdiv.
    destruct (Rlt_bool (Rabs (rnd (B2R x / B2R k))) limit); [|exact H].
    destruct H as (E & F & _). rewrite Fx in F. now split.
  - intros N. rewrite (sign_pos k P), (sign_neg x); [reflexivity|].
    apply Rnot_le_lt. intros C. assert (0 <= B2R x / B2R k) by (apply Rmult_le_pos; lra). lra.
  - intros N. rewrite (sign_pos k P), (sign_pos x); [reflexivity|].
    apply Rnot_le_lt. intros C. assert (B2R x / B2R k <= 0) by (rewrite <- (Rmult_0_l (/ B2R k)); apply Rmult_le_compat_r; lra). lra.
Qed.

Lemma add_outcome : forall x k, finite x -> finite k -> outcome (fadd x k) (B2R x + B2R k).
Proof.
  intros x k Fx Fk.
  assert (H := Bplus_correct 53 1024 prec53 prec53_emax mode_NE x k Fx Fk).
  change (round radix2 (SpecFloat.fexp 53 1024) (round_mode mode_NE) (B2R x + B2R k)) with (rnd (B2R x + B2R k)) in H.
  change (bpow radix2 1024) with limit in H. unfold fadd.
  destruct (Rlt_bool (Rabs (rnd (B2R x + B2R k))) limit) eqn:L.
  - destruct H as (E & F & _). split; [now apply finite_not_nan|]. rewrite ext_finite by auto. unfold clamp. now rewrite L.
  - destruct H as (E & G). apply (outcome_of _ _ (Bsign x)); [now rewrite L| |].
    + intros N. destruct (Rlt_or_le (B2R x) 0); [now apply sign_neg|]. rewrite G. apply sign_neg. lra.
    + intros N. destruct (Rlt_or_le 0 (B2R x)); [now apply sign_pos|]. rewrite G. apply sign_pos. lra.
Qed.
Lemma sub_outcome : forall x k, finite x -> finite k -> outcome (fsub x k) (B2R x - B2R k).
Proof.
  intros x k Fx Fk.
  assert (H := Bminus_correct 53 1024 prec53 prec53_emax mode_NE x k Fx Fk).
  change (round radix2 (SpecFloat.fexp 53 1024) (round_mode mode_NE) (B2R x - B2R k)) with (rnd (B2R x - B2R k)) in H.
  change (bpow radix2 1024) with limit in H. unfold fsub.
  destruct (Rlt_bool (Rabs (rnd (B2R x - B2R k))) limit) eqn:L.
  - destruct H as (E & F & _). split; [now apply finite_not_nan|]. rewrite ext_finite by auto. unfold clamp. now rewrite L.
  - destruct H as (E & G). apply (outcome_of _ _ (Bsign x)); [now rewrite L| |].
    + intros N. destruct (Rlt_or_le (B2R x) 0); [now apply sign_neg|]. rewrite G, sign_pos; auto. lra.
    + intros N. destruct (Rlt_or_le 0 (B2R x)); [now apply sign_pos|]. rewrite G, sign_neg; auto. lra.
Qed.

Definition grows (f : double -> double) : Prop :=
  forall x, is_nan x = false -> is_nan (f x) = false /\ forall y, is_nan y = false -> ext x <= ext y -> ext (f x) <= ext (f y).

Lemma step_grows : forall s, proper s -> grows (fun x => do_step x s).
Proof.
  intros s P.
  (* what the step computes on finite numbers and on the infinities *)
  assert (X : exists g : R -> R, (forall a b, a <= b -> g a <= g b) /\ (forall x, finite x -> outcome (do_step x s) (g (B2R x)))
              /\ forall b, do_step (B754_infinity b) s = B754_infinity b).
  { destruct s as [k|k|k|k]; cbn [proper do_step] in *.
    - destruct P as [F P]. exists (fun r => r * B2R k). split; [|split].
      + intros. apply Rmult_le_compat_r; auto. unfold value in P. lra.
      + intros. now apply mul_outcome.
      + intros b. assert (S := sign_pos k P). destruct k as [|s| |s m e B]; try discriminate F.
        { unfold value in P. cbn in P. lra. } cbn in S. subst s. cbn. now rewrite xorb_false_r.
    - exists (fun r => r + B2R k). split; [|split].
      + intros. lra.
      + intros. now apply add_outcome.
      + intros b. destruct k as [|s| |s m e B]; try discriminate P; reflexivity.
    - exists (fun r => r - B2R k). split; [|split].
      + intros. lra.
      + intros. now apply sub_outcome.
      + intros b. destruct k as [|s| |s m e B]; try discriminate P; reflexivity.
    - destruct P as [F P]. exists (fun r => r / B2R k). split; [|split].
      + intros. apply Rmult_le_compat_r; auto. unfold value in P. apply Rlt_le. now apply Rinv_0_lt_compat.
      + intros. now apply div_outcome.
      + intros b. assert (S := sign_pos k P). destruct k as [|s| |s m e B]; try discriminate F.
        { unfold value in P. cbn in P. lra. } cbn in S. subst s. cbn. now rewrite xorb_false_r. }
  destruct X as (g & M & O & I). intros x N.
  assert (T : is_nan (do_step x s) = false).
  { destruct (is_finite x) eqn:F; [now apply O|]. destruct x; try discriminate. now rewrite I. }
  split; auto. intros y Ny L.
  assert (Bx := ext_bound (do_step x s)). assert (By := ext_bound (do_step y s)).
  destruct (is_finite x) eqn:Fx, (is_finite y) eqn:Fy.
  - rewrite (proj2 (O x Fx)), (proj2 (O y Fy)). apply clamp_le, rnd_le, M. rewrite !ext_finite in L; auto.
  - destruct y as [|b| |]; try discriminate. rewrite I in *. destruct b; cbn [ext] in *; [|lra].
    exfalso. rewrite ext_finite in L by auto. assert (A := value_small x). apply Rabs_def2 in A. lra.
  - destruct x as [|b| |]; try discriminate. rewrite I in *. destruct b; cbn [ext] in *; [lra|].
    exfalso. rewrite (ext_finite y) in L by auto. assert (A := value_small y). apply Rabs_def2 in A. lra.
  - destruct x as [|b| |]; try discriminate. destruct y as [|b'| |]; try discriminate. now rewrite !I.
Qed.

Lemma steps_grow : forall l, Forall proper l -> grows (fun x => do_steps x l).
Proof.
  induction l as [|s l IH]; intros P; [intros x N; now split|]. apply Forall_cons_iff in P as [P Pl].
  intros x N. unfold do_steps. cbn [fold_left]. destruct (step_grows s P x N) as [N1 M1]. destruct (IH Pl (do_step x s) N1) as [N2 M2].
  split; auto. intros y Ny L. apply M2; [|now apply M1]. now apply (step_grows s P y).
Qed.

(** ** float(x) *)

Lemma nearest_outcome : forall m e, outcome (nearest m e) (IZR m * bpow radix2 e).
Proof.
  intros m e. assert (H := binary_normalize_correct 53 1024 prec53 prec53_emax mode_NE m e false). cbv zeta in H.
  change (round radix2 (SpecFloat.fexp 53 1024) (round_mode mode_NE) (F2R (Float radix2 m e))) with (rnd (IZR m * bpow radix2 e)) in H.
  change (bpow radix2 1024) with limit in H. change (F2R (Float radix2 m e)) with (IZR m * bpow radix2 e) in H.
  apply (outcome_of _ _ (Rlt_bool (IZR m * bpow radix2 e) 0)).
  - unfold nearest. destruct (Rlt_bool (Rabs (rnd (IZR m * bpow radix2 e))) limit); [|exact H]. now destruct H as (A & B & _).
  - intros. now apply Rlt_bool_true.
  - intros. apply Rlt_bool_false. lra.
Qed.

Lemma outcome_finite : forall z r, outcome z r -> Rabs (rnd r) < limit -> finite z /\ B2R z = rnd r.
Proof.
  intros z r [N E] L. rewrite clamp_small in E by auto. assert (F : finite z) by (apply finite_ext; auto; now rewrite E).
  split; auto. now rewrite <- ext_finite, E.
Qed.
Lemma outcome_infinite : forall z r, outcome z r -> limit <= Rabs (rnd r) -> is_finite z = false.
Proof.
  intros z r [N E] L. destruct (is_finite z) eqn:F; auto. exfalso. rewrite ext_finite in E by auto. assert (A := value_small z). rewrite E in A.
  unfold clamp in A. rewrite Rlt_bool_false in A by auto. assert (P := limit_pos). destruct (Rlt_bool (rnd r) 0); [rewrite Rabs_Ropp in A|]; rewrite Rabs_pos_eq in A; lra.
Qed.

Lemma to_float_ok : forall n x, to_float n = Ok x -> is_finite x = true -> stored n (B2R x) /\ finite x.
Proof.
  intros n x E F. split; auto. destruct n as [z|y]; cbn [to_float] in E.
  - destruct (is_finite (nearest z 0)) eqn:G; [|discriminate]. injection E as <-. exists (IZR z). split; [constructor|].
    assert (O := nearest_outcome z 0). cbn [bpow] in O. rewrite Rmult_1_r in O. split; [|apply value_small].
    destruct (Rlt_or_le (Rabs (rnd (IZR z))) limit) as [L|L]; [now apply (outcome_finite _ _ O)|].
    apply (outcome_infinite _ _ O) in L. congruence.
  - injection E as ->. exists (B2R x). split; [now constructor|]. split; [now rewrite rnd_double | apply value_small].
Qed.

(** What isfinite and float do with a number. *)
Lemma to_float_cases : forall n,
  (exists x r, to_float n = Ok x /\ isfinite n = Ok true /\ finite x /\ B2R x = r /\ stored n r)
  \/ ((forall r, ~ stored n r) /\ (isfinite n = Ok false \/ isfinite n = Err OverflowError)).
Proof.
  intros n. unfold isfinite. destruct (to_float n) as [x|e] eqn:E; cbn [bind].
  - destruct (is_finite x) eqn:F.
    + left. exists x, (B2R x). assert (A := to_float_ok n x E F). tauto.
    + right. split; auto. intros r (v & S & _). destruct n as [z|y]; cbn [to_float] in E.
      * destruct (is_finite (nearest z 0)) eqn:G; [|discriminate]. congruence.
      * inversion S; subst. injection E as ->. unfold finite in *. congruence.
  - right. destruct n as [z|y]; cbn [to_float] in E; [|discriminate]. destruct (is_finite (nearest z 0)) eqn:G; [discriminate|]. injection E as <-.
    split; auto. intros r (v & S & -> & L). inversion S; subst. assert (O := nearest_outcome z 0). cbn [bpow] in O. rewrite Rmult_1_r in O.
    apply (outcome_finite _ _ O) in L as [F _]. unfold finite in F. congruence.
Qed.

Lemma stored_unique : forall n r r', stored n r -> stored n r' -> r = r'.
Proof. intros n r r' (e & S & -> & _) (e' & S' & -> & _). destruct S; inversion S'; now subst. Qed.
Lemma stored_stands : forall n r, stored n r -> exists e, stands_for n e /\ r = rnd e.
Proof. intros n r (e & S & E & _). eauto. Qed.
