(** Proofs for C62. *)
From Coq Require Import String Ascii List Bool ZArith QArith Lia.
From Verif Require Import Base BaseFacts JtextModel JtextSpec.
Import ListNotations.
Open Scope list_scope.
Open Scope Z_scope.

(** ** Characters *)
Lemma is_ws_iff : forall c, is_ws c = true <-> blank c.
Proof. intros c. unfold is_ws, blank. rewrite !orb_true_iff, !Z.eqb_eq. tauto. Qed.
Lemma is_digit_iff : forall c, is_digit c = true <-> digit c.
Proof. intros c. unfold is_digit, digit. rewrite andb_true_iff, !Z.leb_le. tauto. Qed.
Lemma is_high_iff : forall c, is_high c = true <-> high c.
Proof. intros c. unfold is_high, high. rewrite andb_true_iff, !Z.leb_le. tauto. Qed.
Lemma is_low_iff : forall c, is_low c = true <-> low c.
Proof. intros c. unfold is_low, low. rewrite andb_true_iff, !Z.leb_le. tauto. Qed.

Lemma hex_value_iff : forall c d, hex_value c = Some d <-> hexadecimal c d.
Proof.
  intros c d. unfold hex_value. split.
  - destruct ((48 <=? c) && (c <=? 57)) eqn:E1.
    { apply andb_true_iff in E1. rewrite !Z.leb_le in E1. intros H. inversion H; subst.
      replace c with (48 + (c - 48)) at 1 by lia. constructor. lia. }
    destruct ((65 <=? c) && (c <=? 70)) eqn:E2.
    { apply andb_true_iff in E2. rewrite !Z.leb_le in E2. intros H. inversion H; subst.
      replace c with (65 + ((c - 55) - 10)) at 1 by lia. apply hex_upper. lia. }
    destruct ((97 <=? c) && (c <=? 102)) eqn:E3; [|discriminate].
    apply andb_true_iff in E3. rewrite !Z.leb_le in E3. intros H. inversion H; subst.
    replace c with (97 + ((c - 87) - 10)) at 1 by lia. apply hex_lower. lia.
  - intros H. inversion H as [x Hx E|x Hx E|x Hx E]; subst.
    + replace ((48 <=? 48 + d) && (48 + d <=? 57)) with true; [f_equal; lia|].
      symmetry. apply andb_true_iff. rewrite !Z.leb_le. lia.
    + replace ((48 <=? 65 + (d - 10)) && (65 + (d - 10) <=? 57)) with false.
      2: { symmetry. apply andb_false_iff. rewrite !Z.leb_gt. lia. }
      replace ((65 <=? 65 + (d - 10)) && (65 + (d - 10) <=? 70)) with true; [f_equal; lia|].
      symmetry. apply andb_true_iff. rewrite !Z.leb_le. lia.
    + replace ((48 <=? 97 + (d - 10)) && (97 + (d - 10) <=? 57)) with false.
      2: { symmetry. apply andb_false_iff. rewrite !Z.leb_gt. lia. }
      replace ((65 <=? 97 + (d - 10)) && (97 + (d - 10) <=? 70)) with false.
      2: { symmetry. apply andb_false_iff. rewrite !Z.leb_gt. lia. }
      replace ((97 <=? 97 + (d - 10)) && (97 + (d - 10) <=? 102)) with true; [f_equal; lia|].
      symmetry. apply andb_true_iff. rewrite !Z.leb_le. lia.
Qed.

Lemma hex4_iff : forall a b c d u, hex4_value a b c d = Some u <-> escape [92; 117; a; b; c; d] u.
Proof.
  intros a b c d u. unfold hex4_value. split.
  - destruct (hex_value a) eqn:A; [|discriminate]. destruct (hex_value b) eqn:B; [|discriminate].
    destruct (hex_value c) eqn:C; [|discriminate]. destruct (hex_value d) eqn:D; [|discriminate].
    intros H. inversion H; subst. constructor; apply hex_value_iff; assumption.
  - intros H. inversion H as [? ? ? ? a' b' c' d' A B C D]; subst.
    apply hex_value_iff in A, B, C, D. rewrite A, B, C, D. reflexivity.
Qed.

Lemma escape_shape : forall x u, escape x u -> exists a b c d, x = [92; 117; a; b; c; d].
Proof. intros x u H. inversion H; subst. eauto 6. Qed.
Lemma escape_fun : forall x u v, escape x u -> escape x v -> u = v.
Proof.
  intros x u v H H'. destruct (escape_shape _ _ H) as (a & b & c & d & ->).
  apply hex4_iff in H, H'. congruence.
Qed.

Lemma unescape_iff : forall e c, unescape e = Some c <-> In (e, c) short.
Proof.
  intros e c. unfold unescape, short. split.
  - repeat match goal with |- context [?a =? ?b] => destruct (Z.eqb_spec a b); subst end; intros H; inversion H; subst; cbn; tauto.
  - intros H. cbn in H. repeat destruct H as [H | H]; inversion H; subst; reflexivity.
Qed.
Lemma unescape_not_u : forall c, unescape 117 = Some c -> False.
Proof. intros c H. discriminate. Qed.

(** ** Blanks *)
Lemma skip_split : forall t, exists w, t = w ++ skip_ws t /\ blanks w.
Proof.
  induction t as [|c r IH]; [exists []; split; [reflexivity|constructor]|].
  cbn. destruct (is_ws c) eqn:E.
  - destruct IH as (w & A & B). exists (c :: w). split; [cbn; congruence|]. constructor; [apply is_ws_iff; exact E|exact B].
  - exists []. split; [reflexivity|constructor].
Qed.
Lemma skip_app : forall w t, blanks w -> skip_ws (w ++ t) = skip_ws t.
Proof. induction 1 as [|c w H _ IH]; [reflexivity|]. cbn. apply is_ws_iff in H. rewrite H. exact IH. Qed.
Lemma skip_all : forall w, blanks w -> skip_ws w = [].
Proof. intros w H. rewrite <- (app_nil_r w). rewrite skip_app by exact H. reflexivity. Qed.
Lemma skip_id : forall c t, is_ws c = false -> skip_ws (c :: t) = c :: t.
Proof. intros c t H. cbn. rewrite H. reflexivity. Qed.

(** ** Strings *)
Lemma scan_string_sound : forall n t s r, (length t <= n)%nat -> scan_string t = Some (s, r) ->
  exists b, t = b ++ 34 :: r /\ chars b s.
Proof.
  induction n as [|n IH]; intros t s r L H; (destruct t as [|c t]; [discriminate|]); [cbn in L; lia|].
  cbn [length] in L.
  cbn [scan_string] in H. destruct (Z.eqb_spec c 34) as [->|N34].
  { inversion H; subst. exists []. split; [reflexivity|constructor]. }
  destruct (Z.eqb_spec c 92) as [->|N92].
  - destruct t as [|e r1]; [discriminate|]. cbn [length] in L.
    destruct (Z.eqb_spec e 117) as [->|Nu].
    + destruct r1 as [|a [|b [|c [|d r2]]]]; try discriminate. cbn [length] in L.
      destruct (hex4_value a b c d) as [u|] eqn:U; [|discriminate]. apply hex4_iff in U.
      assert (P : forall x r3, (length r3 <= n)%nat -> push x (scan_string r3) = Some (s, r) ->
                    exists b s', r3 = b ++ 34 :: r /\ chars b s' /\ s = x :: s').
      { intros x r3 L3 H3. unfold push in H3. destruct (scan_string r3) as [[s' r']|] eqn:S3; [|discriminate].
        inversion H3; subst. destruct (IH _ _ _ L3 S3) as (b3 & A & B). eauto. }
      assert (Unit : push u (scan_string r2) = Some (s, r) ->
                ~ (high u /\ exists y v t', escape y v /\ low v /\ r2 = y ++ t') ->
                exists b0, 92 :: 117 :: a :: b :: c :: d :: r2 = b0 ++ 34 :: r /\ chars b0 s).
      { intros H2 Nn. destruct (P u r2 ltac:(lia) H2) as (b2 & s' & A & B & ->).
        exists ([92; 117; a; b; c; d] ++ b2). split; [cbn; congruence|].
        apply ch_unit; [exact U| |exact B].
        intros (Hh & y & v & t' & Ey & Lv & Et). apply Nn. split; [exact Hh|].
        exists y, v, (t' ++ 34 :: r). split; [exact Ey|]. split; [exact Lv|]. rewrite A, Et, <- app_assoc. reflexivity. }
      assert (Short : (length r2 < 6)%nat -> ~ (high u /\ exists y v t', escape y v /\ low v /\ r2 = y ++ t')).
      { intros L6 (_ & y & v & t' & Ey & _ & Et). destruct (escape_shape _ _ Ey) as (p & q & x & z & ->).
        rewrite Et in L6. cbn in L6. lia. }
      destruct r2 as [|x [|y [|a' [|b' [|c' [|d' r3]]]]]]; try (apply (Unit H); apply Short; cbn; lia).
      destruct (is_high u && (x =? 92) && (y =? 117)) eqn:E.
      * apply andb_true_iff in E. destruct E as [E Ey]. apply andb_true_iff in E. destruct E as [Eh Ex].
        apply Z.eqb_eq in Ex, Ey. subst x y. apply is_high_iff in Eh.
        destruct (hex4_value a' b' c' d') as [v|] eqn:V; [|discriminate]. apply hex4_iff in V.
        destruct (is_low v) eqn:Lv.
        -- apply is_low_iff in Lv. cbn [length] in L. destruct (P (combine u v) r3 ltac:(lia) H) as (b3 & s' & A & B & ->).
           exists ([92; 117; a; b; c; d] ++ [92; 117; a'; b'; c'; d'] ++ b3). split; [cbn; congruence|].
           change (combine u v) with (pair u v). apply ch_pair; assumption.
        -- apply (Unit H). intros (_ & y & v' & t' & Ey & Lv' & Et).
           destruct (escape_shape _ _ Ey) as (p & q & x & z & ->). cbn in Et. inversion Et; subst.
           rewrite (escape_fun _ _ _ V Ey) in Lv. apply is_low_iff in Lv'. congruence.
      * apply (Unit H). intros (Hh & y' & v' & t' & Ey & Lv' & Et).
        destruct (escape_shape _ _ Ey) as (p & q & x' & z & ->). cbn in Et. inversion Et; subst.
        apply is_high_iff in Hh. rewrite Hh in E. discriminate.
    + destruct (unescape e) as [c|] eqn:E; [|discriminate].
      unfold push in H. destruct (scan_string r1) as [[s' r']|] eqn:S1; [|discriminate]. inversion H; subst.
      destruct (IH r1 _ _ ltac:(lia) S1) as (b & A & B). exists (92 :: e :: b). split; [cbn; congruence|].
      apply ch_short; [apply unescape_iff; exact E|exact B].
  - destruct (Z.ltb_spec c 32) as [|G]; [discriminate|].
    unfold push in H. destruct (scan_string t) as [[s' r']|] eqn:S1; [|discriminate]. inversion H; subst.
    destruct (IH t _ _ ltac:(lia) S1) as (b & A & B). exists (c :: b). split; [cbn; congruence|].
    apply ch_plain; assumption.
Qed.

Lemma chars_u : forall t s, chars (92 :: 117 :: t) s -> exists y v t', escape y v /\ 92 :: 117 :: t = y ++ t'.
Proof.
  intros t s H. inversion H as [|c t0 s0 H1 H2 H3 H4|e c t0 s0 H1 H2|x y u v t0 s0 H1 H2 H3 H4 H5|x u t0 s0 H1 H2 H3]; subst.
  - congruence.
  - apply unescape_iff in H1. discriminate.
  - exists x, u, (y ++ t0). split; [exact H1|congruence].
  - exists x, u, t0. split; [exact H1|congruence].
Qed.
Lemma chars_lone : forall s, ~ chars [92] s.
Proof.
  intros s H. inversion H as [|c t0 s0 H1 H2 H3 H4|e c t0 s0 H1 H2|x y u v t0 s0 H1 H2 H3 H4 H5|x u t0 s0 H1 H2 H3]; subst; try congruence.
  - destruct (escape_shape _ _ H1) as (p & q & x' & z & ->). discriminate.
  - destruct (escape_shape _ _ H1) as (p & q & x' & z & ->). discriminate.
Qed.

Lemma scan_string_complete : forall b s r, chars b s -> scan_string (b ++ 34 :: r) = Some (s, r).
Proof.
  intros b s r H. induction H as [|c t s G N34 N92 H IH|e c t s E H IH|x y u v t s X Y Hu Hv H IH|x u t s X Nn H IH].
  - reflexivity.
  - cbn. rewrite (proj2 (Z.eqb_neq c 34) N34), (proj2 (Z.eqb_neq c 92) N92), (proj2 (Z.ltb_ge c 32) G), IH. reflexivity.
  - assert (Ne : e <> 117) by (intros ->; apply unescape_iff in E; discriminate).
    apply unescape_iff in E. cbn. rewrite (proj2 (Z.eqb_neq e 117) Ne), E, IH. reflexivity.
  - destruct (escape_shape _ _ X) as (a & b & c & d & ->). destruct (escape_shape _ _ Y) as (a' & b' & c' & d' & ->).
    apply hex4_iff in X, Y. apply is_high_iff in Hu. apply is_low_iff in Hv.
    cbn [app scan_string]. change (92 =? 34) with false. change (92 =? 92) with true. change (117 =? 117) with true.
    cbv iota. rewrite X, Hu. cbn [andb]. rewrite Y, Hv. rewrite IH. reflexivity.
  - destruct (escape_shape _ _ X) as (a & b & c & d & ->). apply hex4_iff in X.
    cbn [app scan_string]. change (92 =? 34) with false. change (92 =? 92) with true. change (117 =? 117) with true.
    cbv iota. rewrite X. set (r2 := t ++ 34 :: r) in *.
    assert (K : forall x y a' b' c' d' r3, r2 = x :: y :: a' :: b' :: c' :: d' :: r3 ->
        is_high u && (x =? 92) && (y =? 117) = true -> exists v, hex4_value a' b' c' d' = Some v /\ is_low v = false).
    { intros x y a' b' c' d' r3 Er E.
      apply andb_true_iff in E. destruct E as [E Ey]. apply andb_true_iff in E. destruct E as [Eh Ex].
      apply Z.eqb_eq in Ex, Ey. subst x y. apply is_high_iff in Eh. unfold r2 in Er.
      destruct t as [|t0 [|t1 t2]]; cbn in Er; inversion Er; subst.
      destruct (chars_u _ _ H) as (y & v & t' & Ey & Et). destruct (escape_shape _ _ Ey) as (p & q & x & z & ->).
      cbn in Et. inversion Et; subst. match goal with E : _ ++ 34 :: r = _ |- _ => cbn in E; inversion E; subst end.
      exists v. split; [apply hex4_iff; exact Ey|]. destruct (is_low v) eqn:Lv; [|reflexivity].
      exfalso. apply Nn. split; [exact Eh|]. exists [92; 117; a'; b'; c'; d'], v, t'. split; [exact Ey|]. split; [apply is_low_iff; exact Lv|reflexivity]. }
    destruct r2 as [|x [|y [|a' [|b' [|c' [|d' r3]]]]]]; try (rewrite IH; reflexivity).
    destruct (is_high u && (x =? 92) && (y =? 117)) eqn:E; [|rewrite IH; reflexivity].
    destruct (K _ _ _ _ _ _ _ eq_refl E) as (v & -> & ->). rewrite IH. reflexivity.
Qed.

(** ** Numbers *)
Definition no_digit (t : text) : Prop := match t with c :: _ => is_digit c = false | [] => True end.
Definition follow (t : text) : Prop := match t with c :: _ => blank c \/ c = 44 \/ c = 93 \/ c = 125 | [] => True end.

Lemma span_sound : forall t d r, span_digits t = (d, r) -> t = d ++ r /\ Forall digit d /\ no_digit r.
Proof.
  induction t as [|c t IH]; intros d r H; cbn in H.
  - inversion H; subst. repeat split; constructor.
  - destruct (is_digit c) eqn:E.
    + destruct (span_digits t) as [d' x]. inversion H; subst. destruct (IH _ _ eq_refl) as (A & B & C).
      split; [cbn; congruence|]. split; [constructor; [apply is_digit_iff; exact E|exact B]|exact C].
    + inversion H; subst. repeat split; [constructor|exact E].
Qed.
Lemma span_complete : forall d r, Forall digit d -> no_digit r -> span_digits (d ++ r) = (d, r).
Proof.
  intros d r H N. induction H as [|c d Hc _ IH].
  - cbn. destruct r as [|c r]; [reflexivity|]. cbn in *. rewrite N. reflexivity.
  - cbn. apply is_digit_iff in Hc. rewrite Hc, IH. reflexivity.
Qed.
Lemma follow_no_digit : forall t, follow t -> no_digit t.
Proof.
  intros [|c t] H; [exact I|]. cbn in *. unfold is_digit, blank in *.
  repeat destruct H as [H | H]; subst; reflexivity.
Qed.

Lemma scan_whole_sound : forall t w r, scan_whole t = Some (w, r) -> t = w ++ r /\ whole w.
Proof.
  intros [|c t] w r H; [discriminate|]. cbn in H. destruct (Z.eqb_spec c 48) as [->|N].
  - inversion H; subst. split; [reflexivity|left; reflexivity].
  - destruct (is_digit c) eqn:E; [|discriminate]. destruct (span_digits t) as [d x] eqn:D. inversion H; subst.
    destruct (span_sound _ _ _ D) as (A & B & _). apply is_digit_iff in E. unfold digit in E.
    split; [cbn; congruence|]. right. exists c, d. repeat split; try lia. exact B.
Qed.
Lemma scan_whole_complete : forall w r, whole w -> no_digit r -> scan_whole (w ++ r) = Some (w, r).
Proof.
  intros w r [-> | (c & d & -> & R & D)] N; [reflexivity|].
  cbn. rewrite (proj2 (Z.eqb_neq c 48)) by lia.
  assert (E : is_digit c = true) by (apply is_digit_iff; unfold digit; lia). rewrite E.
  rewrite span_complete by assumption. reflexivity.
Qed.
Lemma scan_fraction_sound : forall t f r, scan_fraction t = (f, r) -> t = f ++ r /\ fraction f.
Proof.
  intros [|c t] f r H; cbn in H; [inversion H; subst; split; [reflexivity|left; reflexivity]|].
  destruct (Z.eqb_spec c 46) as [->|N].
  - destruct (span_digits t) as [[|d0 d] x] eqn:D; inversion H; subst; (split; [|]).
    + reflexivity. + left; reflexivity.
    + destruct (span_sound _ _ _ D) as (A & _). cbn. rewrite A. reflexivity.
    + right. destruct (span_sound _ _ _ D) as (_ & B & _). exists (d0 :: d). repeat split; [discriminate|exact B].
  - inversion H; subst. split; [reflexivity|left; reflexivity].
Qed.
Lemma scan_fraction_complete : forall f r, fraction f -> no_digit r -> (f = [] -> match r with c :: _ => c <> 46 | [] => True end) ->
  scan_fraction (f ++ r) = (f, r).
Proof.
  intros f r [-> | (d & -> & Nd & D)] N Hn.
  - cbn. destruct r as [|c r]; [reflexivity|]. specialize (Hn eq_refl). cbn. rewrite (proj2 (Z.eqb_neq c 46) Hn). reflexivity.
  - cbn. rewrite span_complete by assumption. destruct d; [congruence|reflexivity].
Qed.
Lemma scan_exponent_sound : forall t e r, scan_exponent t = (e, r) -> t = e ++ r /\ exponent e.
Proof.
  intros [|c t] e r H; cbn in H; [inversion H; subst; split; [reflexivity|left; reflexivity]|].
  destruct ((c =? 101) || (c =? 69)) eqn:E; [|inversion H; subst; split; [reflexivity|left; reflexivity]].
  apply orb_true_iff in E. rewrite !Z.eqb_eq in E.
  destruct t as [|s t]; [inversion H; subst; split; [reflexivity|left; reflexivity]|].
  destruct ((s =? 43) || (s =? 45)) eqn:Es.
  - apply orb_true_iff in Es. rewrite !Z.eqb_eq in Es.
    destruct (span_digits t) as [[|d0 d] x] eqn:D; inversion H; subst.
    + split; [reflexivity|left; reflexivity].
    + destruct (span_sound _ _ _ D) as (A & B & _). split; [cbn; rewrite A; reflexivity|].
      right. exists c, [s], (d0 :: d). repeat split; [exact E| |discriminate|exact B].
      destruct Es; subst; tauto.
  - destruct (span_digits (s :: t)) as [[|d0 d] x] eqn:D; inversion H; subst.
    + split; [reflexivity|left; reflexivity].
    + destruct (span_sound _ _ _ D) as (A & B & _). split; [cbn; rewrite A; reflexivity|].
      right. exists c, [], (d0 :: d). repeat split; [exact E|tauto|discriminate|exact B].
Qed.
Lemma scan_exponent_follow : forall r, follow r -> scan_exponent r = ([], r).
Proof.
  intros [|c r] H; [reflexivity|]. cbn in H. unfold blank in H. repeat destruct H as [H | H]; subst; reflexivity.
Qed.
Lemma scan_exponent_complete : forall e r, exponent e -> follow r -> scan_exponent (e ++ r) = (e, r).
Proof.
  intros e r [-> | (c & s & d & -> & E & S0 & Nd & D)] F; [exact (scan_exponent_follow _ F)|].
  pose proof (follow_no_digit _ F) as N.
  cbn [app scan_exponent]. assert (Ec : (c =? 101) || (c =? 69) = true) by (apply orb_true_iff; rewrite !Z.eqb_eq; exact E).
  rewrite Ec. destruct d as [|d0 d]; [congruence|].
  assert (K : span_digits ((d0 :: d) ++ r) = (d0 :: d, r)) by (apply span_complete; assumption).
  destruct S0 as [-> | [-> | ->]].
  - cbn [app] in *. assert (E0 : (d0 =? 43) || (d0 =? 45) = false).
    { inversion D as [|? ? D0 ?]; subst. unfold digit in D0. apply orb_false_iff. rewrite !Z.eqb_neq. lia. }
    rewrite E0, K. reflexivity.
  - cbn [app] in *. change ((43 =? 43) || (43 =? 45)) with true. rewrite K. reflexivity.
  - cbn [app] in *. change ((45 =? 43) || (45 =? 45)) with true. rewrite K. reflexivity.
Qed.

Lemma whole_head : forall w, whole w -> exists c r, w = c :: r /\ digit c.
Proof. intros w [-> | (c & r & -> & R & _)]; eexists _, _; (split; [reflexivity|]); unfold digit; lia. Qed.

Section Read.
  Variable read_float : text -> Q.
  Local Notation scan_number := (scan_number read_float).
  Local Notation value := (value read_float).

  Lemma scan_number_sound : forall t v r, scan_number t = Some (v, r) -> exists p, t = p ++ r /\ value p v.
  Proof.
    intros t v r H. unfold JtextModel.scan_number in H. destruct (sign_of t) as [s t1] eqn:Es.
    assert (S0 : t = s ++ t1 /\ (s = [] \/ s = [45])).
    { destruct t as [|c t]; cbn in Es; [inversion Es; subst; tauto|]. destruct (Z.eqb_spec c 45) as [->|]; inversion Es; subst; tauto. }
    destruct S0 as [-> S0].
    destruct (scan_whole t1) as [[w t2]|] eqn:W; [|discriminate]. apply scan_whole_sound in W. destruct W as [-> W].
    destruct (scan_fraction t2) as [f t3] eqn:F. apply scan_fraction_sound in F. destruct F as [-> F].
    destruct (scan_exponent t3) as [e t4] eqn:E. apply scan_exponent_sound in E. destruct E as [-> E].
    assert (I0 : integer (s ++ w) (match s with [] => decimal w | _ => - decimal w end)).
    { destruct S0 as [-> | ->]; constructor; exact W. }
    destruct (f ++ e) as [|x l] eqn:Fe.
    - apply app_eq_nil in Fe. destruct Fe as [-> ->]. inversion H; subst. exists (s ++ w). split; [cbn; rewrite <- app_assoc; reflexivity|].
      constructor. exact I0.
    - rewrite <- Fe in *. replace (s ++ w ++ f ++ e) with ((s ++ w) ++ f ++ e) in H by (rewrite <- app_assoc; reflexivity). inversion H; subst. exists ((s ++ w) ++ f ++ e).
      split; [rewrite <- !app_assoc; reflexivity|]. constructor.
      exists (s ++ w), (match s with [] => decimal w | _ => - decimal w end), f, e.
      split; [reflexivity|]. split; [exact I0|]. split; [exact F|]. split; [exact E|]. rewrite Fe. discriminate.
  Qed.

  Lemma number_split : forall w z r, integer w z -> exists s u, w = s ++ u /\ whole u /\ (s = [] \/ s = [45]) /\ sign_of (w ++ r) = (s, u ++ r) /\
    z = match s with [] => decimal u | _ => - decimal u end.
  Proof.
    intros w z r H. inversion H as [t W|t W]; subst.
    - exists [], w. split; [reflexivity|]. split; [exact W|]. split; [tauto|]. split; [|reflexivity].
      destruct (whole_head _ W) as (c & x & -> & D). cbn. unfold digit in D. rewrite (proj2 (Z.eqb_neq c 45)) by lia. reflexivity.
    - exists [45], t. repeat split; try assumption. tauto.
  Qed.
  Lemma fe_no_digit : forall f e r, fraction f -> exponent e -> follow r -> no_digit (f ++ e ++ r) /\ no_digit (e ++ r) /\ match e ++ r with c :: _ => c <> 46 | [] => True end.
  Proof.
    intros f e r F E R.
    assert (A : no_digit (e ++ r) /\ match e ++ r with c :: _ => c <> 46 | [] => True end).
    { destruct E as [-> | (c & s & d & -> & E & _)].
      - split; [apply follow_no_digit; exact R|]. cbn. destruct r as [|c r]; [exact I|]. cbn in R. unfold blank in R. lia.
      - cbn. split; [|lia]. unfold is_digit. destruct E; subst; reflexivity. }
    split; [|exact A]. destruct F as [-> | (d & -> & _)]; [exact (proj1 A)|reflexivity].
  Qed.
  Lemma scan_int_complete : forall w z r, integer w z -> follow r -> scan_number (w ++ r) = Some (TInt z, r).
  Proof.
    intros w z r H R. destruct (number_split w z r H) as (s & u & -> & W & S0 & Es & ->).
    unfold JtextModel.scan_number. rewrite Es. rewrite scan_whole_complete by (try exact W; apply follow_no_digit; exact R).
    destruct (fe_no_digit [] [] r ltac:(left; reflexivity) ltac:(left; reflexivity) R) as (_ & N & D). cbn in N, D.
    pose proof (scan_fraction_complete [] r ltac:(left; reflexivity) N (fun _ => D)) as F. cbn in F. rewrite F.
    rewrite scan_exponent_follow by exact R. reflexivity.
  Qed.
  Lemma scan_float_complete : forall t r, floating t -> follow r -> scan_number (t ++ r) = Some (TFloat (read_float t), r).
  Proof.
    intros t r (w & z & f & e & -> & H & F & E & Ne) R. rewrite <- !app_assoc.
    destruct (number_split w z (f ++ e ++ r) H) as (s & u & -> & W & S0 & Es & _).
    destruct (fe_no_digit f e r F E R) as (N1 & N2 & D).
    unfold JtextModel.scan_number. rewrite Es. rewrite scan_whole_complete by assumption.
    rewrite scan_fraction_complete by (try assumption; intros _; exact D).
    rewrite scan_exponent_complete by assumption.
    destruct (f ++ e) eqn:Fe; [congruence|]. rewrite <- Fe. rewrite <- app_assoc. reflexivity.
  Qed.

  (** ** Values *)
  Local Notation scan := (scan read_float).
  Local Notation scan_elements := (scan_elements read_float).
  Local Notation scan_members := (scan_members read_float).
  Local Notation scan_rest := (scan_rest read_float).

  Lemma scan_eq : forall m t, scan (S m) t =
        match t with
        | [] => None
        | c :: r =>
            if c =? 34 then match scan_string r with Some (s, r') => Some (TStr s, r') | None => None end
            else if c =? 123 then
              match skip_ws r with
              | q :: r1 => if q =? 125 then Some (TObj [], r1)
                           else match scan_members m (q :: r1) with Some (l, r') => Some (TObj l, r') | None => None end
              | [] => None
              end
            else if c =? 91 then
              match skip_ws r with
              | q :: r1 => if q =? 93 then Some (TArr [], r1)
                           else match scan_elements m (q :: r1) with Some (l, r') => Some (TArr l, r') | None => None end
              | [] => None
              end
            else scan_rest t
        end.
  Proof. reflexivity. Qed.
  Lemma scan_elements_eq : forall m t, scan_elements (S m) t =
        match scan m t with
        | None => None
        | Some (v, r) =>
            match skip_ws r with
            | q :: r1 => if q =? 93 then Some ([v], r1)
                         else if q =? 44 then match scan_elements m (skip_ws r1) with Some (l, r') => Some (v :: l, r') | None => None end
                         else None
            | [] => None
            end
        end.
  Proof. reflexivity. Qed.
  Lemma scan_members_eq : forall m t, scan_members (S m) t =
        match t with
        | [] => None
        | c :: r =>
            if c =? 34 then
              match scan_string r with
              | None => None
              | Some (key, r1) =>
                  match skip_ws r1 with
                  | [] => None
                  | d :: r2 =>
                      if d =? 58 then
                        match scan m (skip_ws r2) with
                        | None => None
                        | Some (v, r3) =>
                            match skip_ws r3 with
                            | q :: r4 => if q =? 125 then Some ([(key, v)], r4)
                                         else if q =? 44 then match scan_members m (skip_ws r4) with Some (l, r') => Some ((key, v) :: l, r') | None => None end
                                         else None
                            | [] => None
                            end
                        end
                      else None
                  end
              end
            else None
        end.
  Proof. reflexivity. Qed.
  Lemma strip_sound : forall p t r, strip p t = Some r -> t = p ++ r.
  Proof.
    induction p as [|a p IH]; intros t r H; cbn in H; [inversion H; reflexivity|].
    destruct t as [|b t]; [discriminate|]. destruct (Z.eqb_spec a b) as [->|]; [|discriminate]. cbn. f_equal. apply IH. exact H.
  Qed.
  Lemma scan_rest_sound : forall t v r, scan_rest t = Some (v, r) -> exists p, t = p ++ r /\ value p v.
  Proof.
    intros t v r H. unfold JtextModel.scan_rest in H.
    destruct (strip (lit "null") t) as [x|] eqn:E1; [apply strip_sound in E1; inversion H; subst; eexists; split; [reflexivity|constructor]|].
    destruct (strip (lit "true") t) as [x|] eqn:E2; [apply strip_sound in E2; inversion H; subst; eexists; split; [reflexivity|constructor]|].
    destruct (strip (lit "false") t) as [x|] eqn:E3; [apply strip_sound in E3; inversion H; subst; eexists; split; [reflexivity|constructor]|].
    destruct (scan_number t) as [x|] eqn:E4; [inversion H; subst; apply scan_number_sound; exact E4|].
    destruct (strip (lit "NaN") t) as [x|] eqn:E5; [apply strip_sound in E5; inversion H; subst; eexists; split; [reflexivity|constructor]|].
    destruct (strip (lit "Infinity") t) as [x|] eqn:E6; [apply strip_sound in E6; inversion H; subst; eexists; split; [reflexivity|constructor]|].
    destruct (strip (lit "-Infinity") t) as [x|] eqn:E7; [apply strip_sound in E7; inversion H; subst; eexists; split; [reflexivity|constructor]|].
    discriminate.
  Qed.

  Lemma scan_sound : forall n,
    (forall t v r, scan n t = Some (v, r) -> exists p, t = p ++ r /\ value p v) /\
    (forall t l r, scan_elements n t = Some (l, r) -> exists p, t = p ++ 93 :: r /\ elements read_float p l) /\
    (forall t l r, scan_members n t = Some (l, r) -> exists p, t = p ++ 125 :: r /\ members read_float p l).
  Proof.
    induction n as [|n (IHs & IHe & IHm)]; [repeat split; discriminate|]. repeat split.
    - intros [|c t] v r H; [discriminate|]. rewrite ?scan_eq, ?scan_elements_eq, ?scan_members_eq in H.
      destruct (Z.eqb_spec c 34) as [->|].
      { destruct (scan_string t) as [[s r']|] eqn:S1; [|discriminate]. inversion H; subst.
        destruct (scan_string_sound _ _ _ _ (le_n _) S1) as (b & -> & C). exists (34 :: b ++ [34]).
        split; [cbn; rewrite <- app_assoc; reflexivity|constructor; exact C]. }
      destruct (Z.eqb_spec c 123) as [->|].
      { destruct (skip_split t) as (w & Et & Bw). destruct (skip_ws t) as [|q r1]; [discriminate|]. subst t.
        destruct (Z.eqb_spec q 125) as [->|].
        - inversion H; subst. exists (123 :: w ++ [125]). split; [cbn; rewrite <- app_assoc; reflexivity|constructor; exact Bw].
        - destruct (scan_members n (q :: r1)) as [[l r']|] eqn:M; [|discriminate]. inversion H; subst.
          destruct (IHm _ _ _ M) as (p & -> & Hm). exists (123 :: w ++ p ++ [125]).
          split; [cbn; rewrite <- !app_assoc; reflexivity|constructor; assumption]. }
      destruct (Z.eqb_spec c 91) as [->|].
      { destruct (skip_split t) as (w & Et & Bw). destruct (skip_ws t) as [|q r1]; [discriminate|]. subst t.
        destruct (Z.eqb_spec q 93) as [->|].
        - inversion H; subst. exists (91 :: w ++ [93]). split; [cbn; rewrite <- app_assoc; reflexivity|constructor; exact Bw].
        - destruct (scan_elements n (q :: r1)) as [[l r']|] eqn:M; [|discriminate]. inversion H; subst.
          destruct (IHe _ _ _ M) as (p & -> & Hm). exists (91 :: w ++ p ++ [93]).
          split; [cbn; rewrite <- !app_assoc; reflexivity|constructor; assumption]. }
      apply scan_rest_sound. exact H.
    - intros t l r H. rewrite ?scan_eq, ?scan_elements_eq, ?scan_members_eq in H. destruct (scan n t) as [[v r0]|] eqn:E; [|discriminate].
      destruct (IHs _ _ _ E) as (p & -> & V). destruct (skip_split r0) as (w & Er & Bw). destruct (skip_ws r0) as [|q r1]; [discriminate|]. subst r0.
      destruct (Z.eqb_spec q 93) as [->|].
      { inversion H; subst. exists (p ++ w). split; [rewrite <- app_assoc; reflexivity|constructor; assumption]. }
      destruct (Z.eqb_spec q 44) as [->|]; [|discriminate].
      destruct (skip_split r1) as (w' & Er & Bw'). destruct (scan_elements n (skip_ws r1)) as [[l' r']|] eqn:M; [|discriminate].
      destruct (IHe _ _ _ M) as (p' & Es & Hm). inversion H; subst. rewrite Es in Er. subst r1.
      exists (p ++ w ++ 44 :: w' ++ p'). split; [rewrite <- !app_assoc; cbn; rewrite <- !app_assoc; reflexivity|constructor; assumption].
    - intros [|c t] l r H; [discriminate|]. rewrite ?scan_eq, ?scan_elements_eq, ?scan_members_eq in H.
      destruct (Z.eqb_spec c 34) as [->|]; [|discriminate].
      destruct (scan_string t) as [[key r1]|] eqn:S1; [|discriminate].
      destruct (scan_string_sound _ _ _ _ (le_n _) S1) as (k & -> & C).
      destruct (skip_split r1) as (w & Er1 & Bw). destruct (skip_ws r1) as [|d r2]; [discriminate|].
      destruct (Z.eqb_spec d 58) as [->|]; [|discriminate].
      destruct (skip_split r2) as (w' & Er2 & Bw').
      destruct (scan n (skip_ws r2)) as [[v r3]|] eqn:E; [|discriminate]. destruct (IHs _ _ _ E) as (p & Ep & V).
      destruct (skip_split r3) as (w2 & Er3 & Bw2). destruct (skip_ws r3) as [|q r4]; [discriminate|].
      destruct (Z.eqb_spec q 125) as [->|].
      { inversion H; subst. exists (34 :: k ++ 34 :: w ++ 58 :: w' ++ p ++ w2). split; [|constructor; assumption].
        rewrite Er2, Ep. cbn. repeat (rewrite <- app_assoc; cbn). reflexivity. }
      destruct (Z.eqb_spec q 44) as [->|]; [|discriminate].
      destruct (skip_split r4) as (w3 & Er4 & Bw3). destruct (scan_members n (skip_ws r4)) as [[l' r']|] eqn:M; [|discriminate].
      destruct (IHm _ _ _ M) as (p' & Es & Hm). inversion H; subst.
      exists (34 :: k ++ 34 :: w ++ 58 :: w' ++ p ++ w2 ++ 44 :: w3 ++ p'). split; [|constructor; assumption].
      rewrite Er2, Ep, Er4, Es. cbn. repeat (rewrite <- app_assoc; cbn). reflexivity.
  Qed.

  Scheme value_mut := Minimality for JtextSpec.value Sort Prop
    with elements_mut := Minimality for JtextSpec.elements Sort Prop
    with members_mut := Minimality for JtextSpec.members Sort Prop.
  Combined Scheme value_all from value_mut, elements_mut, members_mut.

  (** A value does not begin with a blank or with one of the marks. *)
  Definition opens (t : text) : Prop := match t with c :: _ => is_ws c = false /\ c <> 93 /\ c <> 125 /\ c <> 44 | [] => False end.
  Lemma integer_opens : forall t z, integer t z -> exists c r, t = c :: r /\ (digit c \/ c = 45).
  Proof.
    intros t z H. inversion H as [u W|u W]; subst; [|eexists _, _; split; [reflexivity|tauto]].
    destruct (whole_head _ W) as (c & r & -> & D). eexists _, _; split; [reflexivity|tauto].
  Qed.
  Lemma digit_opens : forall c r, digit c \/ c = 45 -> opens (c :: r).
  Proof.
    intros c r H. cbn. unfold digit in H. split; [|lia]. destruct (is_ws c) eqn:E; [|reflexivity]. apply is_ws_iff in E. unfold blank in E. lia.
  Qed.
  Lemma value_opens : forall t v, value t v -> opens t.
  Proof.
    intros t v H. inversion H; subst; try (cbn; repeat split; (reflexivity || lia)).
    - match goal with H : integer _ _ |- _ => destruct (integer_opens _ _ H) as (c & r & -> & D) end. apply digit_opens. exact D.
    - match goal with H : floating _ |- _ => destruct H as (w & z & f & e & -> & I0 & _) end.
      destruct (integer_opens _ _ I0) as (c & r & -> & D). apply digit_opens. exact D.
  Qed.
  Lemma opens_skip : forall t r, opens t -> skip_ws (t ++ r) = t ++ r.
  Proof. intros [|c t] r H; [destruct H|]. destruct H as [H _]. apply skip_id. exact H. Qed.

  Lemma scan_numeral : forall n t c r x, t = c :: r -> (digit c \/ c = 45) -> scan_number t = Some x -> scan (S n) t = Some x.
  Proof.
    intros n t c r x -> D H. rewrite ?scan_eq, ?scan_elements_eq, ?scan_members_eq. unfold digit in D.
    rewrite (proj2 (Z.eqb_neq c 34)), (proj2 (Z.eqb_neq c 123)), (proj2 (Z.eqb_neq c 91)) by lia.
    unfold JtextModel.scan_rest. rewrite H.
    assert (N : forall p0 p, p0 <> c -> strip (p0 :: p) (c :: r) = None).
    { intros p0 p Np. cbn. rewrite (proj2 (Z.eqb_neq p0 c) Np). reflexivity. }
    change (lit "null") with (110 :: lit "ull"). change (lit "true") with (116 :: lit "rue"). change (lit "false") with (102 :: lit "alse").
    rewrite !N by lia. reflexivity.
  Qed.

  Lemma follow_blanks : forall w c r, blanks w -> c = 44 \/ c = 93 \/ c = 125 -> follow (w ++ c :: r).
  Proof. intros w c r B H. destruct B as [|b w B _]; cbn; tauto. Qed.
  Lemma follow_blanks_end : forall w, blanks w -> follow w.
  Proof. intros w B. destruct B as [|b w B _]; cbn; tauto. Qed.

  Lemma scan_complete :
    (forall t v, value t v -> forall n r, (2 * length t <= n)%nat -> follow r -> scan n (t ++ r) = Some (v, r)) /\
    (forall t l, elements read_float t l -> (forall n r, (2 * length t + 1 <= n)%nat -> scan_elements n (t ++ 93 :: r) = Some (l, r)) /\ opens t) /\
    (forall t l, members read_float t l -> (forall n r, (2 * length t + 1 <= n)%nat -> scan_members n (t ++ 125 :: r) = Some (l, r)) /\ opens t).
  Proof.
    apply (value_all read_float
      (fun t v => forall n r, (2 * length t <= n)%nat -> follow r -> scan n (t ++ r) = Some (v, r))
      (fun t l => (forall n r, (2 * length t + 1 <= n)%nat -> scan_elements n (t ++ 93 :: r) = Some (l, r)) /\ opens t)
      (fun t l => (forall n r, (2 * length t + 1 <= n)%nat -> scan_members n (t ++ 125 :: r) = Some (l, r)) /\ opens t)).
    - intros [|n] r L F; [cbn in L; lia|reflexivity].
    - intros [|n] r L F; [cbn in L; lia|reflexivity].
    - intros [|n] r L F; [cbn in L; lia|reflexivity].
    - intros [|n] r L F; [cbn in L; lia|reflexivity].
    - intros [|n] r L F; [cbn in L; lia|reflexivity].
    - intros [|n] r L F; [cbn in L; lia|reflexivity].
    - intros t z H n r L F. destruct (integer_opens _ _ H) as (c & x & Et & D). pose proof (scan_int_complete t z r H F) as K.
      subst t. destruct n as [|n]; [cbn in L; lia|]. apply (scan_numeral n _ c (x ++ r)); [reflexivity|exact D|exact K].
    - intros t H n r L F. pose proof (scan_float_complete t r H F) as K. destruct H as (w & z & f & e & -> & I0 & _).
      destruct (integer_opens _ _ I0) as (c & x & -> & D). destruct n as [|n]; [cbn in L; lia|].
      apply (scan_numeral n _ c ((x ++ f ++ e) ++ r)); [reflexivity|exact D|exact K].
    - intros t s H n r L F. destruct n as [|n]; [cbn in L; lia|]. cbn [app]. rewrite ?scan_eq, ?scan_elements_eq, ?scan_members_eq. change (34 =? 34) with true. cbv iota.
      rewrite <- app_assoc. cbn [app]. rewrite (scan_string_complete _ _ _ H). reflexivity.
    - intros w B n r L F. destruct n as [|n]; [cbn in L; lia|]. cbn [app]. rewrite ?scan_eq, ?scan_elements_eq, ?scan_members_eq.
      change (91 =? 34) with false. change (91 =? 123) with false. change (91 =? 91) with true. cbv iota.
      rewrite <- app_assoc. rewrite skip_app by exact B. reflexivity.
    - intros w t l B _ (IH & O) n r L F. destruct n as [|n]; [cbn in L; lia|]. cbn [app]. rewrite ?scan_eq, ?scan_elements_eq, ?scan_members_eq.
      change (91 =? 34) with false. change (91 =? 123) with false. change (91 =? 91) with true. cbv iota.
      rewrite <- !app_assoc. rewrite skip_app by exact B. rewrite opens_skip by exact O.
      assert (K : scan_elements n (t ++ [93] ++ r) = Some (l, r)).
      { apply IH. cbn [length] in L. rewrite !app_length in L. cbn [length] in L. lia. }
      destruct t as [|q t]; [destruct O|]. cbn [app] in *. destruct O as (_ & O & _). rewrite (proj2 (Z.eqb_neq q 93) O), K. reflexivity.
    - intros w B n r L F. destruct n as [|n]; [cbn in L; lia|]. cbn [app]. rewrite ?scan_eq, ?scan_elements_eq, ?scan_members_eq.
      change (123 =? 34) with false. change (123 =? 123) with true. cbv iota.
      rewrite <- app_assoc. rewrite skip_app by exact B. reflexivity.
    - intros w t l B _ (IH & O) n r L F. destruct n as [|n]; [cbn in L; lia|]. cbn [app]. rewrite ?scan_eq, ?scan_elements_eq, ?scan_members_eq.
      change (123 =? 34) with false. change (123 =? 123) with true. cbv iota.
      rewrite <- !app_assoc. rewrite skip_app by exact B. rewrite opens_skip by exact O.
      assert (K : scan_members n (t ++ [125] ++ r) = Some (l, r)).
      { apply IH. cbn [length] in L. rewrite !app_length in L. cbn [length] in L. lia. }
      destruct t as [|q t]; [destruct O|]. cbn [app] in *. destruct O as (_ & _ & O & _). rewrite (proj2 (Z.eqb_neq q 125) O), K. reflexivity.
    - intros t v w V IH B. split; [|pose proof (value_opens _ _ V); destruct t; [contradiction|assumption]].
      intros n r L. rewrite app_length in L. destruct n as [|n]; [lia|]. rewrite ?scan_eq, ?scan_elements_eq, ?scan_members_eq. rewrite <- app_assoc.
      rewrite IH; [|lia|apply follow_blanks; [exact B|tauto]]. rewrite skip_app by exact B. reflexivity.
    - intros t v w w' t' l V IH B B' _ (IHe & O). split; [|pose proof (value_opens _ _ V); destruct t; [contradiction|assumption]].
      intros n r L. rewrite !app_length in L. cbn [length] in L. rewrite app_length in L. destruct n as [|n]; [lia|].
      rewrite ?scan_eq, ?scan_elements_eq, ?scan_members_eq. repeat (rewrite <- app_assoc; cbn [app]).
      rewrite IH; [|lia|apply follow_blanks; [exact B|tauto]]. rewrite skip_app by exact B.
      cbn [skip_ws]. change (is_ws 44) with false. cbv iota. change (44 =? 93) with false. change (44 =? 44) with true. cbv iota.
      rewrite skip_app by exact B'. rewrite opens_skip by exact O. rewrite IHe by lia. reflexivity.
    - intros k key w w' t v w2 C B B' V IH B2. split; [|cbn; repeat split; lia].
      intros n r L. cbn [length] in L. rewrite !app_length in L. cbn [length] in L. rewrite !app_length in L. cbn [length] in L. rewrite !app_length in L.
      destruct n as [|n]; [lia|]. cbn [app]. rewrite ?scan_eq, ?scan_elements_eq, ?scan_members_eq. change (34 =? 34) with true. cbv iota.
      repeat (rewrite <- app_assoc; cbn [app]). rewrite (scan_string_complete _ _ _ C). rewrite skip_app by exact B.
      cbn [skip_ws]. change (is_ws 58) with false. cbv iota. change (58 =? 58) with true. cbv iota.
      rewrite skip_app by exact B'. rewrite opens_skip by (exact (value_opens _ _ V)).
      rewrite IH; [|lia|apply follow_blanks; [exact B2|tauto]]. rewrite skip_app by exact B2. reflexivity.
    - intros k key w w' t v w2 w3 t' l C B B' V IH B2 B3 _ (IHm & O). split; [|cbn; repeat split; lia].
      intros n r L. cbn [length] in L. repeat (rewrite !app_length in L; cbn [length] in L).
      destruct n as [|n]; [lia|]. cbn [app]. rewrite ?scan_eq, ?scan_elements_eq, ?scan_members_eq. change (34 =? 34) with true. cbv iota.
      repeat (rewrite <- app_assoc; cbn [app]). rewrite (scan_string_complete _ _ _ C). rewrite skip_app by exact B.
      cbn [skip_ws]. change (is_ws 58) with false. cbv iota. change (58 =? 58) with true. cbv iota.
      rewrite skip_app by exact B'. rewrite opens_skip by (exact (value_opens _ _ V)).
      rewrite IH; [|lia|apply follow_blanks; [exact B2|tauto]]. rewrite skip_app by exact B2.
      cbn [skip_ws]. change (is_ws 44) with false. cbv iota. change (44 =? 125) with false. change (44 =? 44) with true. cbv iota.
      rewrite skip_app by exact B3. rewrite opens_skip by exact O. rewrite IHm by lia. reflexivity.
  Qed.

  Theorem parse_iff : forall t v, parse read_float t = Ok v <-> document read_float t v.
  Proof.
    intros t v. unfold parse, document. split.
    - destruct (skip_split t) as (w & Et & B). destruct (scan _ (skip_ws t)) as [[v' r]|] eqn:E; [|discriminate].
      destruct (proj1 (scan_sound _) _ _ _ E) as (p & Ep & V). destruct (skip_split r) as (w' & Er & B').
      destruct (skip_ws r); [|discriminate]. intros H. inversion H; subst v'. exists w, p, w'. rewrite app_nil_r in Er. subst r.
      repeat split; try assumption. congruence.
    - intros (w & x & w' & -> & B & B' & V). rewrite skip_app by exact B. rewrite opens_skip by (exact (value_opens _ _ V)).
      rewrite (proj1 scan_complete _ _ V); [|rewrite !app_length; lia|apply follow_blanks_end; exact B'].
      rewrite skip_all by exact B'. reflexivity.
  Qed.
  Theorem parse_err : forall t e, parse read_float t = Err e -> e = ValueError.
  Proof. intros t e. unfold parse. repeat break_match; congruence. Qed.
End Read.

(** ** Writing *)
Lemma hex_digit_ok : forall d, 0 <= d <= 15 -> hexadecimal (JtextModel.hex_digit d) d.
Proof.
  intros d H. unfold JtextModel.hex_digit. destruct (Z.ltb_spec d 10).
  - constructor. lia.
  - replace (87 + d) with (97 + (d - 10)) by lia. apply hex_lower. lia.
Qed.
Lemma u_escape_ok : forall n, 0 <= n < 65536 -> escape (u_escape n) n.
Proof.
  intros n H. unfold u_escape, hex4.
  pose proof (Z.mod_pos_bound (n / 4096) 16 ltac:(lia)). pose proof (Z.mod_pos_bound (n / 256) 16 ltac:(lia)).
  pose proof (Z.mod_pos_bound (n / 16) 16 ltac:(lia)). pose proof (Z.mod_pos_bound n 16 ltac:(lia)).
  assert (E : n = 4096 * (n / 4096 mod 16) + 256 * (n / 256 mod 16) + 16 * (n / 16 mod 16) + n mod 16).
  { Z.to_euclidean_division_equations. lia. }
  rewrite E at 5. constructor; apply hex_digit_ok; lia.
Qed.
Lemma short_escape_ok : forall c e, short_escape c = Some e -> In (e, c) short.
Proof.
  intros c e. unfold short_escape, short.
  repeat match goal with |- context [?a =? ?b] => destruct (Z.eqb_spec a b); subst end; intros H; inversion H; subst; cbn; tauto.
Qed.
Lemma short_escape_none : forall c, short_escape c = None -> c <> 34 /\ c <> 92.
Proof.
  intros c. unfold short_escape.
  repeat match goal with |- context [?a =? ?b] => destruct (Z.eqb_spec a b); subst end; intros H; try discriminate; lia.
Qed.
Definition low_escape (t : text) : Prop := exists y v t', escape y v /\ low v /\ t = y ++ t'.

Lemma write_char_chars : forall a c t s, 0 <= c < 1114112 -> chars t s -> ~ (a = true /\ high c /\ low_escape t) ->
  chars (write_char a c ++ t) (c :: s).
Proof.
  intros a c t s R C N. unfold write_char. destruct (short_escape c) as [e|] eqn:E.
  { cbn. apply ch_short; [apply short_escape_ok; exact E|exact C]. }
  apply short_escape_none in E. destruct (Z.ltb_spec c 32).
  { apply ch_unit; [apply u_escape_ok; lia| |exact C]. intros (Hh & _). unfold high in Hh. lia. }
  destruct (a && (126 <? c)) eqn:A.
  - apply andb_true_iff in A. destruct A as [-> A]. destruct (Z.ltb_spec c 65536).
    + apply ch_unit; [apply u_escape_ok; lia| |exact C]. intros (Hh & L). apply N. repeat split; try assumption; unfold high in Hh; lia.
    + cbv zeta. rewrite <- app_assoc.
      assert (B1 : 0 <= (c - 65536) / 1024 < 1024) by (Z.to_euclidean_division_equations; lia).
      assert (B2 : 0 <= (c - 65536) mod 1024 < 1024) by (apply Z.mod_pos_bound; lia).
      rewrite (Z.mod_small _ _ B1).
      assert (Ec : c = pair (55296 + (c - 65536) / 1024) (56320 + (c - 65536) mod 1024)).
      { unfold pair. pose proof (Z.div_mod (c - 65536) 1024 ltac:(lia)). lia. }
      rewrite Ec at 3. apply ch_pair; try exact C; try (apply u_escape_ok; lia); unfold high, low; lia.
  - cbn. apply ch_plain; [lia|tauto|tauto|exact C].
Qed.

(** Only a low surrogate is written so that it begins with the escape of one. *)
Lemma low_escape_written : forall a s, code_points s -> low_escape (flat_map (write_char a) s) -> exists c s', s = c :: s' /\ low c.
Proof.
  intros a [|c s] R (y & v & t' & Ey & L & E).
  { destruct (escape_shape _ _ Ey) as (p & q & x & z & ->). discriminate. }
  exists c, s. split; [reflexivity|]. inversion R as [|? ? Rc _]; subst. cbn [flat_map] in E. revert E. generalize (flat_map (write_char a) s). intros w0 E.
  assert (U : forall n w, 0 <= n < 65536 -> u_escape n ++ w = y ++ t' -> low n).
  { intros n w Rn En. pose proof (u_escape_ok n Rn) as K. destruct (escape_shape _ _ Ey) as (p & q & x & z & ->).
    unfold u_escape, hex4 in En, K. cbn [app] in En. inversion En; subst. rewrite (escape_fun _ _ _ K Ey). exact L. }
  unfold write_char in E. destruct (short_escape c) as [e|] eqn:Es.
  { apply short_escape_ok in Es. destruct (escape_shape _ _ Ey) as (p & q & x & z & ->). cbn [app] in E. inversion E; subst.
    apply unescape_iff in Es. discriminate. }
  apply short_escape_none in Es. destruct (Z.ltb_spec c 32).
  { apply (U c _ ltac:(lia) E). }
  destruct (a && (126 <? c)) eqn:A.
  - destruct (Z.ltb_spec c 65536); [apply (U c _ ltac:(lia) E)|]. cbv zeta in E. rewrite <- app_assoc in E. exfalso.
    assert (B1 : 0 <= (c - 65536) / 1024 < 1024) by (Z.to_euclidean_division_equations; lia).
    rewrite (Z.mod_small _ _ B1) in E. apply U in E; [|lia]. unfold low in E. lia.
  - exfalso. destruct (escape_shape _ _ Ey) as (p & q & x & z & ->). cbn [app] in E. inversion E; subst. tauto.
Qed.

Lemma write_false : forall s, code_points s -> chars (flat_map (write_char false) s) s.
Proof.
  induction s as [|c s IH]; intros R; [constructor|]. inversion R; subst. cbn [flat_map].
  apply write_char_chars; [assumption|apply IH; assumption|]. intros (H & _). discriminate.
Qed.
Lemma write_true : forall n s, (length s <= n)%nat -> code_points s -> chars (flat_map (write_char true) s) (merge s).
Proof.
  induction n as [|n IH]; intros s L R; (destruct s as [|u s]; [constructor|]); [cbn in L; lia|].
  cbn [length] in L. inversion R as [|? ? Ru Rs]; subst. cbn [flat_map merge].
  destruct s as [|v r].
  { apply write_char_chars; [exact Ru|constructor|]. intros (_ & _ & H). apply low_escape_written with (a := true) (s := []) in H; [|constructor].
    destruct H as (? & ? & ? & _). discriminate. }
  destruct ((55296 <=? u) && (u <=? 56319) && (56320 <=? v) && (v <=? 57343)) eqn:E.
  - rewrite !andb_true_iff, !Z.leb_le in E. destruct E as (((E1 & E2) & E3) & E4). inversion Rs as [|? ? Rv Rr]; subst.
    assert (W : forall c, 55296 <= c <= 57343 -> write_char true c = u_escape c).
    { intros c B. unfold write_char, short_escape.
      rewrite !(proj2 (Z.eqb_neq c _)) by lia. rewrite (proj2 (Z.ltb_ge c 32)) by lia. rewrite (proj2 (Z.ltb_lt 126 c)) by lia.
      rewrite (proj2 (Z.ltb_lt c 65536)) by lia. reflexivity. }
    cbn [flat_map]. rewrite !W by lia. cbn [length] in L.
    apply ch_pair; [apply u_escape_ok; lia|apply u_escape_ok; lia|unfold high; lia|unfold low; lia|apply IH; [lia|exact Rr]].
  - apply write_char_chars; [exact Ru|apply IH; [cbn in *; lia|exact Rs]|].
    intros (_ & Hh & H). apply low_escape_written in H; [|exact Rs]. destruct H as (c & s' & Es & Lc). inversion Es; subst.
    unfold high, low in *. rewrite !andb_false_iff, !Z.leb_gt in E. lia.
Qed.
Definition back (o : options) (s : text) : text := if o_ascii o then merge s else s.
Lemma write_string_chars : forall o s, code_points s -> chars (flat_map (write_char (o_ascii o)) s) (back o s).
Proof. intros o s R. unfold back. destruct (o_ascii o); [apply (write_true (length s)); [lia|exact R]|apply write_false; exact R]. Qed.

(** ** Integers *)
Lemma decimal_snoc : forall d c, decimal_value (d ++ [c]) = 10 * decimal_value d + (c - 48).
Proof. intros d c. unfold decimal_value. rewrite fold_left_app. reflexivity. Qed.
Lemma digits_ok : forall n z acc, 0 <= z <= Z.of_nat n -> exists ds, digits n z acc = ds ++ acc /\ whole ds /\ decimal_value ds = z.
Proof.
  induction n as [|n IH]; intros z acc R.
  - assert (z = 0) by lia. subst. exists [48]. repeat split. left. reflexivity.
  - cbn [digits]. pose proof (Z.mod_pos_bound z 10 ltac:(lia)) as M. destruct (Z.eqb_spec (z / 10) 0) as [E|E].
    + exists [48 + z mod 10]. split; [reflexivity|].
      assert (Ez : z mod 10 = z) by (pose proof (Z.div_mod z 10 ltac:(lia)); lia). rewrite Ez. split; [|unfold decimal_value; cbn [fold_left]; lia].
      destruct (Z.eq_dec z 0) as [->|]; [left; reflexivity|]. right. exists (48 + z), []. repeat split; try lia. constructor.
    + destruct (IH (z / 10) ((48 + z mod 10) :: acc)) as (ds & A & W & D); [Z.to_euclidean_division_equations; lia|].
      rewrite A. exists (ds ++ [48 + z mod 10]). split; [rewrite <- app_assoc; reflexivity|]. split.
      * right. destruct W as [-> | (c & r & -> & Rc & Dr)].
        { unfold decimal_value in D. cbn in D. lia. }
        exists c, (r ++ [48 + z mod 10]). split; [reflexivity|]. split; [exact Rc|]. apply Forall_app. split; [exact Dr|].
        constructor; [unfold digit; lia|constructor].
      * rewrite decimal_snoc, D. pose proof (Z.div_mod z 10 ltac:(lia)). lia.
Qed.
Lemma write_int_ok : forall z, integer (write_int z) z.
Proof.
  intros z. unfold write_int. destruct (Z.ltb_spec z 0).
  - destruct (digits_ok (Z.to_nat (- z)) (- z) []) as (ds & A & W & D); [lia|]. rewrite A, app_nil_r.
    replace z with (- decimal_value ds) by lia. constructor. exact W.
  - destruct (digits_ok (Z.to_nat z) z []) as (ds & A & W & D); [lia|]. rewrite A, app_nil_r.
    replace z with (decimal_value ds) by lia. constructor. exact W.
Qed.

Lemma blanks_newline : forall o n, proper o -> blanks (newline o n).
Proof.
  intros o n (_ & _ & H). unfold newline. destruct (o_indent o) as [i|]; [|constructor]. specialize (H i eq_refl).
  constructor; [unfold blank; tauto|]. induction n as [|n IH]; [constructor|]. cbn. apply Forall_app. tauto.
Qed.

Section Print.
  Variable show_float : Q -> text.
  Variable read_float : text -> Q.
  Local Notation value := (value read_float).
  Local Notation write := (write show_float).

  Lemma elements_join : forall a b w (f : jt -> text) (g : jt -> jt) l, blanks a -> blanks b -> blanks w -> l <> [] ->
    (forall x, In x l -> value (f x) (g x)) -> elements read_float (join (a ++ 44 :: b) (map f l) ++ w) (map g l).
  Proof.
    intros a b w f g l Ba Bb Bw Ne H. induction l as [|x l IH]; [congruence|]. destruct l as [|y l].
    - cbn. constructor; [apply H; left; reflexivity|exact Bw].
    - change (join (a ++ 44 :: b) (map f (x :: y :: l))) with (f x ++ (a ++ 44 :: b) ++ join (a ++ 44 :: b) (map f (y :: l))).
      repeat (rewrite <- app_assoc; cbn [app]). change (map g (x :: y :: l)) with (g x :: map g (y :: l)).
      apply e_more; [apply H; left; reflexivity|exact Ba|exact Bb|]. apply IH; [discriminate|]. intros z Hz. apply H. right. exact Hz.
  Qed.
  Lemma members_join : forall a b w ka kb (ks : text -> text) (kg : text -> text) (f : jt -> text) (g : jt -> jt) l,
    blanks a -> blanks b -> blanks w -> blanks ka -> blanks kb -> l <> [] ->
    (forall k x, In (k, x) l -> chars (ks k) (kg k) /\ value (f x) (g x)) ->
    members read_float (join (a ++ 44 :: b) (map (fun p => (34 :: ks (fst p) ++ [34]) ++ (ka ++ 58 :: kb) ++ f (snd p)) l) ++ w) (map (fun p => (kg (fst p), g (snd p))) l).
  Proof.
    intros a b w ka kb ks kg f g l Ba Bb Bw Bka Bkb Ne H. induction l as [|[k x] l IH]; [congruence|].
    destruct (H k x (or_introl eq_refl)) as (C & V). destruct l as [|y l].
    - cbn [map join fst snd]. repeat (rewrite <- app_assoc; cbn [app]). apply m_last; assumption.
    - set (F := fun p : text * jt => (34 :: ks (fst p) ++ [34]) ++ (ka ++ 58 :: kb) ++ f (snd p)) in *.
      change (join (a ++ 44 :: b) (map F ((k, x) :: y :: l))) with (F (k, x) ++ (a ++ 44 :: b) ++ join (a ++ 44 :: b) (map F (y :: l))).
      change (map (fun p : text * jt => (kg (fst p), g (snd p))) ((k, x) :: y :: l)) with ((kg k, g x) :: map (fun p => (kg (fst p), g (snd p))) (y :: l)).
      unfold F at 1. cbn [fst snd]. repeat (rewrite <- app_assoc; cbn [app]).
      apply m_more; try assumption. apply IH; [discriminate|]. intros k' z Hz. apply H. right. exact Hz.
  Qed.

  Lemma write_value : forall o, proper o -> forall t, tree_of code_points (shown show_float read_float) t -> forall n, value (write o n t) (read_back o t).
  Proof.
    intros o Po t H. induction H as [|b|z|q Fq|x|s Ps|l _ IH|l Pk _ IH]; intros n.
    - unfold read_back. destruct (o_ascii o); constructor.
    - unfold read_back. destruct (o_ascii o), b; constructor.
    - unfold read_back. destruct (o_ascii o); constructor; apply write_int_ok.
    - destruct Fq as (A & B). cbn. rewrite <- B at 2. replace (read_back o (TFloat (read_float (show_float q)))) with (TFloat (read_float (show_float q))); [constructor; exact A|].
      unfold read_back. destruct (o_ascii o); reflexivity.
    - unfold read_back. destruct (o_ascii o), x; constructor.
    - replace (read_back o (TStr s)) with (TStr (back o s)); [|unfold read_back, back; destruct (o_ascii o); reflexivity].
      cbn. unfold write_string. constructor. apply write_string_chars. exact Ps.
    - assert (E : read_back o (TArr l) = TArr (map (read_back o) l)).
      { unfold read_back. destruct (o_ascii o); cbn; [reflexivity|rewrite map_id; reflexivity]. }
      rewrite E. destruct l as [|x l]; [exact (v_array0 read_float [] ltac:(constructor))|].
      change (write o n (TArr (x :: l))) with (91 :: newline o (S n) ++ join (o_item o ++ newline o (S n)) (map (write o (S n)) (x :: l)) ++ newline o n ++ [93]).
      pose proof Po as ((a & b & Ei & Ba & Bb) & _ & _). rewrite Ei.
      rewrite (app_assoc (join _ _)). apply v_array; [apply blanks_newline; exact Po|]. rewrite <- app_assoc. cbn [app].
      apply elements_join; [exact Ba| |apply blanks_newline; exact Po|discriminate|intros y Hy; apply IH; exact Hy].
      apply Forall_app. split; [exact Bb|apply blanks_newline; exact Po].
    - assert (E : read_back o (TObj l) = TObj (map (fun p => (back o (fst p), read_back o (snd p))) l)).
      { unfold read_back, back. destruct (o_ascii o); cbn; [reflexivity|]. f_equal. rewrite <- (map_id l) at 1. apply map_ext. intros [k y]. reflexivity. }
      rewrite E. destruct l as [|x l]; [exact (v_object0 read_float [] ltac:(constructor))|].
      change (write o n (TObj (x :: l))) with (123 :: newline o (S n) ++
        join (o_item o ++ newline o (S n)) (map (fun p => write_string o (fst p) ++ o_key o ++ write o (S n) (snd p)) (x :: l)) ++ newline o n ++ [125]).
      pose proof Po as ((a & b & Ei & Ba & Bb) & (ka & kb & Ek & Bka & Bkb) & _). rewrite Ei, Ek.
      rewrite (app_assoc (join _ _)). apply v_object; [apply blanks_newline; exact Po|]. rewrite <- app_assoc. cbn [app]. unfold write_string.
      apply (members_join a (b ++ newline o (S n)) (newline o n) ka kb (flat_map (write_char (o_ascii o))) (back o) (write o (S n)) (read_back o)); try assumption.
      + apply Forall_app. split; [exact Bb|apply blanks_newline; exact Po].
      + apply blanks_newline; exact Po.
      + discriminate.
      + intros k y Hy. split; [apply write_string_chars; exact (Pk _ _ Hy)|apply (IH _ _ Hy)].
  Qed.

  Theorem print_parse : forall o t, proper o -> tree_of code_points (shown show_float read_float) t ->
    parse read_float (print show_float o t) = Ok (read_back o t).
  Proof.
    intros o t Po H. apply (proj2 (parse_iff read_float _ _)). unfold document. exists [], (print show_float o t), []. rewrite app_nil_r. split; [reflexivity|].
    split; [constructor|]. split; [constructor|]. apply write_value; assumption.
  Qed.
End Print.

(** ** What comes back *)
Lemma unsplit_tail : forall c s, unsplit (c :: s) -> unsplit s.
Proof. intros c s H a u v b E. apply (H (c :: a) u v b). cbn. congruence. Qed.
Lemma merge_unsplit : forall s, unsplit s -> merge s = s.
Proof.
  induction s as [|u s IH]; intros H; [reflexivity|]. cbn [merge]. destruct s as [|v r]; [reflexivity|].
  destruct ((55296 <=? u) && (u <=? 56319) && (56320 <=? v) && (v <=? 57343)) eqn:E.
  - rewrite !andb_true_iff, !Z.leb_le in E. exfalso. apply (H [] u v r eq_refl). unfold high, low. lia.
  - f_equal. apply IH. exact (unsplit_tail _ _ H).
Qed.
Lemma merge_length : forall n s, (length s <= n)%nat -> (length (merge s) <= length s)%nat.
Proof.
  induction n as [|n IH]; intros s L; (destruct s as [|u s]; [apply le_n|]); [cbn in L; lia|].
  cbn [merge]. destruct s as [|v r]; [apply le_n|]. cbn [length] in L.
  break_match; cbn [length].
  - specialize (IH r ltac:(lia)). lia.
  - specialize (IH (v :: r) ltac:(cbn; lia)). cbn [length] in IH. lia.
Qed.
Lemma merge_fixed : forall s, merge s = s -> unsplit s.
Proof.
  induction s as [|u s IH]; intros E a x y b Es (Hx & Hy).
  { destruct a; discriminate. }
  cbn [merge] in E. destruct s as [|v r].
  { destruct a as [|? [|? ?]]; discriminate. }
  destruct ((55296 <=? u) && (u <=? 56319) && (56320 <=? v) && (v <=? 57343)) eqn:B.
  - apply (f_equal (@length Z)) in E. cbn [length] in E. pose proof (merge_length (length r) r (le_n _)). lia.
  - destruct a as [|c a].
    + cbn in Es. inversion Es; subst. unfold high, low in *. rewrite !andb_false_iff, !Z.leb_gt in B. lia.
    + cbn in Es. inversion Es as [[E1 E2]]. assert (M : merge (v :: r) = v :: r) by congruence. apply (IH M a x y b E2). split; assumption.
Qed.
Lemma tree_of_all : forall (P : text -> Prop) (F : Q -> Prop) t, (forall s, P s) -> (forall q, F q) -> tree_of P F t.
Proof.
  intros P F. fix IH 1. intros t HP HF. destruct t as [|b|z|q|x|s|l|l]; [apply to_null|apply to_bool|apply to_int|apply to_float, HF|apply to_special|apply to_str, HP| |].
  - constructor. induction l as [|y l IHl]; intros x H; [destruct H|]. destruct H as [<-|H]; [apply IH; assumption|exact (IHl x H)].
  - constructor; [intros; apply HP|]. induction l as [|[k' y] l IHl]; intros k x H; [destruct H|].
    destruct H as [E|H]; [injection E as _ <-; apply IH; assumption|exact (IHl k x H)].
Qed.
Lemma map_fixed : forall {A} (f : A -> A) l, map f l = l -> forall x, In x l -> f x = x.
Proof. intros A f. induction l as [|y l IH]; intros E x H; [destruct H|]. cbn in E. injection E as E1 E2. destruct H as [<-|H]; [exact E1|exact (IH E2 x H)]. Qed.
Lemma fixed_map : forall {A} (f : A -> A) l, (forall x, In x l -> f x = x) -> map f l = l.
Proof. intros A f l H. rewrite <- (map_id l) at 2. apply map_ext_in. exact H. Qed.
Lemma merge_tree_fixed : forall t, merge_tree t = t <-> tree_of unsplit (fun _ => True) t.
Proof.
  intros t. split.
  - pose proof (tree_of_all (fun _ => True) (fun _ => True) t (fun _ => I) (fun _ => I)) as T.
    induction T as [|b|z|q Fq|x|s Ps|l _ IH|l Pk _ IH]; intros E; try (constructor; auto; fail).
    + constructor. apply merge_fixed. cbn in E. congruence.
    + constructor. cbn in E. injection E as E1. intros x Hx. apply IH; [exact Hx|]. exact (map_fixed _ _ E1 x Hx).
    + cbn in E. injection E as E1. constructor.
      * intros k x Hx. pose proof (map_fixed _ _ E1 _ Hx) as K. cbn in K. apply merge_fixed. congruence.
      * intros k x Hx. apply (IH _ _ Hx). pose proof (map_fixed _ _ E1 _ Hx) as K. cbn in K. congruence.
  - intros T. induction T as [|b|z|q Fq|x|s Ps|l _ IH|l Pk _ IH]; try reflexivity; cbn; f_equal.
    + apply merge_unsplit. exact Ps.
    + apply fixed_map. exact IH.
    + apply fixed_map. intros [k x] Hx. cbn. rewrite (merge_unsplit _ (Pk _ _ Hx)), (IH _ _ Hx). reflexivity.
Qed.
Lemma read_back_fixed : forall o t, read_back o t = t <-> (o_ascii o = true -> tree_of unsplit (fun _ => True) t).
Proof.
  intros o t. unfold read_back. destruct (o_ascii o).
  - rewrite merge_tree_fixed. tauto.
  - split; [discriminate|reflexivity].
Qed.

(** ** Only ASCII *)
Definition ascii_text (t : text) : Prop := Forall (fun c => 32 <= c <= 126 \/ blank c) t.
Ltac asc := repeat (apply Forall_cons; [left; lia|]); apply Forall_nil.
Lemma ascii_app : forall a b, ascii_text a -> ascii_text b -> ascii_text (a ++ b).
Proof. intros a b A B. apply Forall_app. split; assumption. Qed.
Lemma ascii_digits : forall t, Forall digit t -> ascii_text t.
Proof. intros t H. eapply Forall_impl; [|exact H]. intros c D. unfold digit in D. lia. Qed.
Lemma ascii_blanks : forall t, blanks t -> ascii_text t.
Proof. intros t H. eapply Forall_impl; [|exact H]. intros c D. right. exact D. Qed.
Lemma ascii_integer : forall t z, integer t z -> ascii_text t.
Proof.
  assert (W : forall t, whole t -> ascii_text t).
  { intros t [-> | (c & r & -> & R & D)]; [constructor; [lia|constructor]|]. constructor; [lia|apply ascii_digits; exact D]. }
  intros t z H. inversion H as [u U|u U]; subst; [apply W; exact U|]. constructor; [lia|apply W; exact U].
Qed.
Lemma ascii_floating : forall t, floating t -> ascii_text t.
Proof.
  intros t (w & z & f & e & -> & I0 & F & E & _). apply ascii_app; [exact (ascii_integer _ _ I0)|]. apply ascii_app.
  - destruct F as [-> | (d & -> & _ & D)]; [constructor|]. constructor; [lia|apply ascii_digits; exact D].
  - destruct E as [-> | (c & s & d & -> & Hc & Hs & _ & D)]; [constructor|]. constructor; [lia|]. apply ascii_app; [|apply ascii_digits; exact D].
    destruct Hs as [-> | [-> | ->]]; asc.
Qed.
Lemma ascii_u_escape : forall n, ascii_text (u_escape n).
Proof.
  intros n. unfold u_escape, hex4.
  assert (K : forall m, 32 <= JtextModel.hex_digit (m mod 16) <= 126 \/ blank (JtextModel.hex_digit (m mod 16))).
  { intros m. pose proof (Z.mod_pos_bound m 16 ltac:(lia)). unfold JtextModel.hex_digit. destruct (Z.ltb_spec (m mod 16) 10); lia. }
  repeat (constructor; [try lia; apply K|]). constructor.
Qed.
Lemma ascii_write_char : forall c, 0 <= c -> ascii_text (write_char true c).
Proof.
  intros c R. unfold write_char. destruct (short_escape c) as [e|] eqn:E.
  { apply short_escape_ok in E. cbn in E. repeat destruct E as [E | E]; try (inversion E; subst; asc). }
  destruct (Z.ltb_spec c 32); [apply ascii_u_escape|]. destruct (Z.ltb_spec 126 c); cbn [andb]; [|constructor; [lia|constructor]].
  destruct (c <? 65536); [apply ascii_u_escape|]. cbv zeta. apply ascii_app; apply ascii_u_escape.
Qed.
Lemma ascii_write_string : forall o s, o_ascii o = true -> code_points s -> ascii_text (write_string o s).
Proof.
  intros o s A R. unfold write_string. rewrite A. constructor; [lia|]. apply ascii_app; [|asc].
  induction R as [|c s Hc _ IH]; [constructor|]. cbn [flat_map]. apply ascii_app; [apply ascii_write_char; lia|exact IH].
Qed.
Lemma ascii_join : forall sep l, ascii_text sep -> Forall ascii_text l -> ascii_text (join sep l).
Proof.
  intros sep l A H. induction H as [|x l Hx Hl IH]; [constructor|]. cbn. destruct l as [|y l]; [exact Hx|].
  apply ascii_app; [exact Hx|]. apply ascii_app; [exact A|exact IH].
Qed.
Lemma ascii_print : forall show_float o t, o_ascii o = true -> proper o -> tree_of code_points (fun q => floating (show_float q)) t ->
  forall n, ascii_text (write show_float o n t).
Proof.
  intros show_float o t A Po H.
  assert (Sep : forall n, ascii_text (o_item o ++ newline o n)).
  { intros n. pose proof Po as ((a & b & -> & Ba & Bb) & _). apply ascii_app; [|apply ascii_blanks, blanks_newline; exact Po].
    apply ascii_app; [apply ascii_blanks; exact Ba|]. constructor; [lia|apply ascii_blanks; exact Bb]. }
  assert (Key : ascii_text (o_key o)).
  { pose proof Po as (_ & (a & b & -> & Ba & Bb) & _). apply ascii_app; [apply ascii_blanks; exact Ba|]. constructor; [lia|apply ascii_blanks; exact Bb]. }
  assert (Nl : forall n, ascii_text (newline o n)) by (intros n; apply ascii_blanks, blanks_newline; exact Po).
  induction H as [|b|z|q Fq|x|s Ps|l _ IH|l Pk _ IH]; intros n.
  - cbn. asc.
  - destruct b; cbn; asc.
  - cbn. exact (ascii_integer _ _ (write_int_ok z)).
  - cbn. apply ascii_floating. exact Fq.
  - destruct x; cbn; asc.
  - cbn. apply ascii_write_string; assumption.
  - destruct l as [|x l]; [cbn; asc|].
    change (write show_float o n (TArr (x :: l))) with (91 :: newline o (S n) ++ join (o_item o ++ newline o (S n)) (map (write show_float o (S n)) (x :: l)) ++ newline o n ++ [93]).
    constructor; [lia|]. apply ascii_app; [apply Nl|]. apply ascii_app; [|apply ascii_app; [apply Nl|asc]].
    apply ascii_join; [apply Sep|]. apply Forall_map. apply Forall_forall. intros y Hy. apply IH. exact Hy.
  - destruct l as [|x l]; [cbn; asc|].
    change (write show_float o n (TObj (x :: l))) with (123 :: newline o (S n) ++
        join (o_item o ++ newline o (S n)) (map (fun p => write_string o (fst p) ++ o_key o ++ write show_float o (S n) (snd p)) (x :: l)) ++ newline o n ++ [125]).
    constructor; [lia|]. apply ascii_app; [apply Nl|]. apply ascii_app; [|apply ascii_app; [apply Nl|asc]].
    apply ascii_join; [apply Sep|]. apply Forall_map. apply Forall_forall. intros [k y] Hy. cbn [fst snd].
    apply ascii_app; [apply ascii_write_string; [exact A|exact (Pk _ _ Hy)]|]. apply ascii_app; [exact Key|apply (IH _ _ Hy)].
Qed.
