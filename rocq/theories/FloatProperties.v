(** C59: real bounds and distributions with the numbers Python has. *)
From Coq Require Import String List Bool ZArith Reals Lia Lra.
From Flocq Require Import Core IEEE754.BinarySingleNaN.
From Verif Require Import Base FloatModel FloatSpec FloatProofs.
Import ListNotations.
Open Scope R_scope.

(** ** Assignments *)

Section Setters.
  Variables (b : rbounds) (lo hi : R) (u : string).
  Hypothesis Sp : spans b lo hi u.

  (** The lower bound is taken exactly if the number is one a double can hold after rounding and, before
      rounding, not above the upper bound. What is stored is the rounded number; nothing else changes. *)
  Lemma set_lower_cases : forall v,
    (exists n e l b', v = Some n /\ stands_for n e /\ stored n l /\ e <= hi /\ set_lower b v = Ok b' /\ spans b' l hi u /\ l <= hi)
    \/ ((exists x, set_lower b v = Err x) /\ forall n e l, v = Some n -> stands_for n e -> stored n l -> hi < e).
  Proof.
    intros [n|]; [|right; split; [now exists ValueError | discriminate]].
    destruct Sp as (xl & xh & -> & Fl & Fh & <- & <-). unfold set_lower. cbn [rb_upper rb_lower rb_units].
    destruct (to_float_cases n) as [(x & r & T & I & F & <- & St)|(No & [I|I])]; rewrite I; cbn [bind negb].
    - destruct (stored_stands _ _ St) as (e & S1 & E).
      destruct (gt n (NFlo xh)) eqn:G.
      + apply (gt_true n (NFlo xh) e (value xh)) in G; auto; [|now constructor].
        right. split; [now exists ValueError|]. intros n' e' l X S' _. injection X as <-. now replace e' with e by (destruct S1; inversion S'; now subst).
      + left. assert (L : e <= value xh).
        { apply Rnot_lt_le. intros C. apply (gt_true n (NFlo xh) e (value xh)) in C; auto; [congruence | now constructor]. }
        exists n, e, (B2R x), (mkRB (Some x) (Some xh) u). rewrite T. cbn [bind]. repeat (split; auto).
        * exists x, xh. repeat (split; auto).
        * rewrite E. unfold value. rewrite <- (rnd_double xh). now apply rnd_le.
    - right. split; [now exists ValueError|]. intros n' e' l X _ St. injection X as <-. now apply No in St.
    - right. split; [now exists OverflowError|]. intros n' e' l X _ St. injection X as <-. now apply No in St.
  Qed.

  Lemma set_upper_cases : forall v,
    (exists n e h b', v = Some n /\ stands_for n e /\ stored n h /\ lo <= e /\ set_upper b v = Ok b' /\ spans b' lo h u /\ lo <= h)
    \/ ((exists x, set_upper b v = Err x) /\ forall n e h, v = Some n -> stands_for n e -> stored n h -> e < lo).
  Proof.
    intros [n|]; [|right; split; [now exists ValueError | discriminate]].
    destruct Sp as (xl & xh & -> & Fl & Fh & <- & <-). unfold set_upper. cbn [rb_upper rb_lower rb_units].
    destruct (to_float_cases n) as [(x & r & T & I & F & <- & St)|(No & [I|I])]; rewrite I; cbn [bind negb].
    - destruct (stored_stands _ _ St) as (e & S1 & E).
      destruct (lt n (NFlo xl)) eqn:G.
      + apply (lt_true n (NFlo xl) e (value xl)) in G; auto; [|now constructor].
        right. split; [now exists ValueError|]. intros n' e' l X S' _. injection X as <-. now replace e' with e by (destruct S1; inversion S'; now subst).
      + left. assert (L : value xl <= e).
        { apply Rnot_lt_le. intros C. apply (lt_true n (NFlo xl) e (value xl)) in C; auto; [congruence | now constructor]. }
        exists n, e, (B2R x), (mkRB (Some xl) (Some x) u). rewrite T. cbn [bind]. repeat (split; auto).
        * exists xl, x. repeat (split; auto).
        * rewrite E. unfold value. rewrite <- (rnd_double xl). now apply rnd_le.
    - right. split; [now exists ValueError|]. intros n' e' l X _ St. injection X as <-. now apply No in St.
    - right. split; [now exists OverflowError|]. intros n' e' l X _ St. injection X as <-. now apply No in St.
  Qed.
End Setters.

(** Assigning a lower or upper bound, for every number: what is stored, or that it is refused. *)
Theorem float_set_lower : forall b lo hi u n e l, spans b lo hi u -> stands_for n e -> stored n l ->
  (e <= hi -> exists b', set_lower b (Some n) = Ok b' /\ spans b' l hi u /\ l <= hi)
  /\ (hi < e -> exists x, set_lower b (Some n) = Err x).
Proof.
  intros b lo hi u n e l Sp S1 St. destruct (set_lower_cases b lo hi u Sp (Some n)) as [(n' & e' & l' & b' & X & S' & St' & L & E & Sp' & L')|(Er & No)].
  - injection X as <-. assert (e' = e) by (destruct S1; inversion S'; now subst). subst e'. assert (l' = l) by eauto using stored_unique. subst l'.
    split; [eauto | intros; lra].
  - split; auto. intros L. specialize (No n e l eq_refl S1 St). lra.
Qed.
Print Assumptions float_set_lower.
Theorem float_set_upper : forall b lo hi u n e h, spans b lo hi u -> stands_for n e -> stored n h ->
  (lo <= e -> exists b', set_upper b (Some n) = Ok b' /\ spans b' lo h u /\ lo <= h)
  /\ (e < lo -> exists x, set_upper b (Some n) = Err x).
Proof.
  intros b lo hi u n e h Sp S1 St. destruct (set_upper_cases b lo hi u Sp (Some n)) as [(n' & e' & l' & b' & X & S' & St' & L & E & Sp' & L')|(Er & No)].
  - injection X as <-. assert (e' = e) by (destruct S1; inversion S'; now subst). subst e'. assert (l' = h) by eauto using stored_unique. subst l'.
    split; [eauto | intros; lra].
  - split; auto. intros L. specialize (No n e h eq_refl S1 St). lra.
Qed.
Print Assumptions float_set_upper.

(** Making bounds. *)
Lemma make_bounds_cases : forall parse lo hi u b, make_bounds parse lo hi u = Ok b ->
  exists nl nh eh l h u0 t, lo = Some nl /\ hi = Some nh /\ u = Some u0 /\ parse u0 = Ok t /\ stored nl l /\ stands_for nh eh /\ stored nh h
    /\ l <= eh /\ spans b l h t /\ l <= h.
Proof.
  intros parse lo hi u b. unfold make_bounds, set_units. destruct u as [u0|]; [|discriminate].
  destruct (parse u0) as [t|] eqn:P; cbn [bind rb_lower rb_upper]; [|discriminate].
  destruct lo as [nl|]; [|discriminate]. unfold set_lower at 1. cbn [rb_upper rb_units].
  destruct (to_float_cases nl) as [(x & r & T & I & F & <- & St)|(No & [I|I])]; rewrite I; cbn [bind negb]; try discriminate.
  rewrite T. cbn [bind]. destruct hi as [nh|]; [|discriminate]. unfold set_upper. cbn [rb_upper rb_lower rb_units].
  destruct (to_float_cases nh) as [(y & r & T' & I' & F' & <- & St')|(No & [I'|I'])]; rewrite I'; cbn [bind negb]; try discriminate.
  destruct (stored_stands _ _ St') as (e & S1 & E).
  destruct (lt nh (NFlo x)) eqn:G; [discriminate|]. rewrite T'. cbn [bind]. intros X. injection X as <-.
  assert (L : B2R x <= e).
  { apply Rnot_lt_le. intros C. apply (lt_true nh (NFlo x) e (value x)) in C; auto; [congruence | now constructor]. }
  exists nl, nh, e, (B2R x), (B2R y), u0, t. repeat (split; auto).
  - exists x, y. repeat (split; auto).
  - rewrite E, <- (rnd_double x). now apply rnd_le.
Qed.

Theorem float_make_bounds : forall parse nl nh eh l h u t, parse u = Ok t -> stored nl l -> stands_for nh eh -> stored nh h ->
  (l <= eh -> exists b, make_bounds parse (Some nl) (Some nh) (Some u) = Ok b /\ spans b l h t /\ l <= h)
  /\ (eh < l -> make_bounds parse (Some nl) (Some nh) (Some u) = Err ValueError).
Proof.
  intros parse nl nh eh l h u t P Sl Sh St. unfold make_bounds, set_units. rewrite P. cbn [bind rb_lower rb_upper].
  unfold set_lower at 1 2. cbn [rb_upper rb_units].
  destruct (to_float_cases nl) as [(x & r & T & I & F & <- & Sx)|(No & _)]; [|now apply No in Sl].
  rewrite I. cbn [bind negb]. rewrite T. cbn [bind].
  assert (X : B2R x = l) by eauto using stored_unique. subst l.
  unfold set_upper. cbn [rb_upper rb_lower rb_units].
  destruct (to_float_cases nh) as [(y & r & T' & I' & F' & <- & Sy)|(No & _)]; [|now apply No in St].
  assert (X : B2R y = h) by eauto using stored_unique. subst h.
  rewrite I'. cbn [bind negb]. assert (Q := lt_true nh (NFlo x) eh (value x) Sh (sf_float x F)). unfold value in Q.
  split; intros L.
  - destruct (lt nh (NFlo x)) eqn:G; [assert (Q' := proj1 Q eq_refl); lra|]. rewrite T'. cbn [bind]. eexists. split; [reflexivity|].
    split; [exists x, y; repeat (split; auto)|].
    destruct (stored_stands _ _ St) as (e & S1 & E). assert (e = eh) by (destruct S1; inversion Sh; now subst). subst e.
    rewrite E, <- (rnd_double x). now apply rnd_le.
  - apply Q in L. now rewrite L.
Qed.
Print Assumptions float_make_bounds.

(** ** Never inverted *)

Definition sound (b : rbounds) : Prop := exists lo hi u, spans b lo hi u /\ lo <= hi.

Lemma lower_keeps : forall b v, sound b -> sound (fst (after b (set_lower b v))).
Proof.
  intros b v (lo & hi & u & Sp & L). destruct (set_lower_cases b lo hi u Sp v) as [(n & e & l & b' & _ & _ & _ & _ & E & Sp' & L')|((x & E) & _)]; rewrite E; cbn.
  - now exists l, hi, u.
  - now exists lo, hi, u.
Qed.
Lemma upper_keeps : forall b v, sound b -> sound (fst (after b (set_upper b v))).
Proof.
  intros b v (lo & hi & u & Sp & L). destruct (set_upper_cases b lo hi u Sp v) as [(n & e & l & b' & _ & _ & _ & _ & E & Sp' & L')|((x & E) & _)]; rewrite E; cbn.
  - now exists lo, l, u.
  - now exists lo, hi, u.
Qed.
Lemma units_keeps : forall parse b v, sound b -> sound (fst (after b (set_units parse b v))).
Proof.
  intros parse b v (lo & hi & u & Sp & L). assert (So : sound b) by now exists lo, hi, u.
  destruct v as [v|]; cbn [set_units after fst]; auto. destruct (parse v) as [t|]; cbn [bind after fst]; auto.
  destruct Sp as (xl & xh & -> & Fl & Fh & <- & <-). exists (value xl), (value xh), t. split; auto. exists xl, xh. repeat (split; auto).
Qed.

(** Whatever is assigned, accepted or refused, and whatever updates are made: both ends are finite and
    the lower one is not above the upper one. *)
Theorem float_never_inverted : forall conversion parse lo hi u b ops, make_bounds parse lo hi u = Ok b ->
  sound (fold_left (do_op conversion parse) ops b).
Proof.
  intros conversion parse lo hi u b ops M. apply make_bounds_cases in M as (nl & nh & eh & l & h & u0 & t & _ & _ & _ & _ & _ & _ & _ & _ & Sp & L).
  assert (So : sound b) by now exists l, h, t. clear - So. revert b So. induction ops as [|o ops IH]; intros b So; auto.
  apply IH. destruct o as [v|v|v|others]; cbn [do_op].
  - now apply lower_keeps.
  - now apply upper_keeps.
  - now apply units_keeps.
  - unfold update. destruct (union conversion parse b others) as [r|e]; auto.
    assert (K1 := lower_keeps b (option_map NFlo (rb_lower r)) So).
    destruct (after b (set_lower b (option_map NFlo (rb_lower r)))) as [a1 [e|]]; auto.
    assert (K2 := upper_keeps a1 (option_map NFlo (rb_upper r)) K1).
    destruct (after a1 (set_upper a1 (option_map NFlo (rb_upper r)))) as [a2 [e|]]; auto. now apply units_keeps.
Qed.
Print Assumptions float_never_inverted.

(** ** contains *)

Section Conversion.
  Variable conversion : string -> string -> option (list step).
  Hypothesis Proper : forall u v l, conversion u v = Some l -> Forall proper l.

  (** What a bound becomes in another unit. *)
  Definition converted (x : double) (u v : string) (y : double) : Prop :=
    (u = v /\ y = x) \/ exists l, u <> v /\ conversion u v = Some l /\ y = do_steps x l.
  Definition incompatible (u v : string) : Prop := u <> v /\ conversion u v = None.

  Lemma convert_cases : forall u v, incompatible u v /\ (forall x, convert_units conversion x u v = Err IncompatibleUnitsError)
    \/ exists f, grows f /\ forall x, convert_units conversion x u v = Ok (f x) /\ converted x u v (f x).
  Proof.
    intros u v. unfold convert_units. destruct (String.eqb_spec u v) as [E|E].
    - right. exists (fun x => x). split; [intros x N; auto|]. intros x. split; auto. now left.
    - destruct (conversion u v) as [l|] eqn:C.
      + right. exists (fun x => do_steps x l). split; [now apply steps_grow, (Proper u v)|]. intros x. split; auto. right. eauto.
      + left. split; [now split | auto].
  Qed.
  Lemma converted_unique : forall x u v y y', converted x u v y -> converted x u v y' -> y = y'.
  Proof. intros x u v y y' [[E ->]|(l & E & C & ->)] [[E' ->]|(l' & E' & C' & ->)]; congruence. Qed.
  Lemma converted_exists : forall u v, ~ incompatible u v -> forall x, exists y, converted x u v y.
  Proof. intros u v N x. destruct (convert_cases u v) as [[I _]|(f & _ & F)]; [contradiction|]. exists (f x). apply F. Qed.
  Lemma converted_le : forall u v x y x' y', finite x -> finite y -> value x <= value y -> converted x u v x' -> converted y u v y' ->
    is_nan x' = false /\ is_nan y' = false /\ ext x' <= ext y'.
  Proof.
    intros u v x y x' y' Fx Fy L Cx Cy. destruct (convert_cases u v) as [[[I I'] _]|(f & G & F)].
    - destruct Cx as [[E _]|(l & _ & C & _)]; congruence.
    - replace x' with (f x) by (eapply converted_unique; [apply F | eauto]). replace y' with (f y) by (eapply converted_unique; [apply F | eauto]).
      destruct (G x) as [Nx M]; [now apply finite_not_nan|]. destruct (G y) as [Ny _]; [now apply finite_not_nan|].
      repeat split; auto. apply M; [now apply finite_not_nan|]. now rewrite !ext_finite.
  Qed.

  Lemma contains_cases : forall l h u l' h' u', finite l -> finite h -> finite l' -> finite h' ->
    (incompatible u u' /\ contains conversion (mkRB (Some l) (Some h) u) (mkRB (Some l') (Some h') u') = Ok false)
    \/ exists cl ch, converted l u u' cl /\ converted h u u' ch /\ is_nan cl = false /\ is_nan ch = false
       /\ contains conversion (mkRB (Some l) (Some h) u) (mkRB (Some l') (Some h') u') = Ok (ge (NFlo l') (NFlo cl) && le (NFlo h') (NFlo ch)).
  Proof.
    intros l h u l' h' u' F1 F2 F3 F4. unfold contains, convert_bounds. cbn [rb_lower rb_upper rb_units].
    destruct (convert_cases u u') as [[I C]|(f & G & F)].
    - left. split; auto. now rewrite C.
    - right. exists (f l), (f h). destruct (F l) as [-> Cl], (F h) as [-> Ch]. cbn [bind]. repeat split; auto.
      + apply G. now apply finite_not_nan.
      + apply G. now apply finite_not_nan.
  Qed.

  (** It never raises. *)
  Theorem float_contains_total : forall a b lo hi u lo' hi' u', spans a lo hi u -> spans b lo' hi' u' ->
    exists t, contains conversion a b = Ok t /\ (incompatible u u' -> t = false).
  Proof.
    intros a b lo hi u lo' hi' u' (l & h & -> & Fl & Fh & _ & _) (l' & h' & -> & Fl' & Fh' & _ & _).
    destruct (contains_cases l h u l' h' u' Fl Fh Fl' Fh') as [[I E]|(cl & ch & Cl & Ch & _ & _ & E)]; eexists; (split; [exact E|]); auto.
    intros [I I']. exfalso. destruct Cl as [[X _]|(s & _ & X & _)]; congruence.
  Qed.

  (** In the same units it is exactly inclusion. *)
  Theorem float_contains_same : forall a b lo hi lo' hi' u, spans a lo hi u -> spans b lo' hi' u ->
    contains conversion a b = Ok true <-> lo <= lo' /\ hi' <= hi.
  Proof.
    intros a b lo hi lo' hi' u (l & h & -> & Fl & Fh & <- & <-) (l' & h' & -> & Fl' & Fh' & <- & <-).
    destruct (contains_cases l h u l' h' u Fl Fh Fl' Fh') as [[[I _] _]|(cl & ch & [[_ ->]|(s & X & _)] & [[_ ->]|(s' & X' & _)] & N1 & N2 & ->)]; try congruence.
    unfold value. rewrite <- (ext_finite l), <- (ext_finite l'), <- (ext_finite h), <- (ext_finite h') by auto.
    rewrite <- ge_ext, <- le_ext by auto using finite_not_nan.
    destruct (ge (NFlo l') (NFlo l)), (le (NFlo h') (NFlo h)); cbn; intuition congruence.
  Qed.

  (** With a conversion: bigger bounds contain more, smaller ones are contained in more. *)
  Theorem float_contains_mono : forall a b a2 b2 lo hi lo2 hi2 u lo' hi' lo2' hi2' u',
    spans a lo hi u -> spans a2 lo2 hi2 u -> lo2 <= lo -> hi <= hi2 ->
    spans b lo' hi' u' -> spans b2 lo2' hi2' u' -> lo' <= lo2' -> hi2' <= hi' ->
    contains conversion a b = Ok true -> contains conversion a2 b2 = Ok true.
  Proof.
    intros a b a2 b2 lo hi lo2 hi2 u lo' hi' lo2' hi2' u' (l & h & -> & Fl & Fh & <- & <-) (l2 & h2 & -> & Fl2 & Fh2 & <- & <-) L1 L2
      (l' & h' & -> & Fl' & Fh' & <- & <-) (l2' & h2' & -> & Fl2' & Fh2' & <- & <-) L3 L4 T.
    destruct (contains_cases l h u l' h' u' Fl Fh Fl' Fh') as [[I E]|(cl & ch & Cl & Ch & N1 & N2 & E)]; [rewrite E in T; discriminate|].
    rewrite E in T. injection T as T. apply andb_prop in T as [T1 T2].
    destruct (contains_cases l2 h2 u l2' h2' u' Fl2 Fh2 Fl2' Fh2') as [[[I I'] E']|(cl2 & ch2 & Cl2 & Ch2 & N3 & N4 & ->)].
    { destruct Cl as [[X _]|(s & _ & X & _)]; congruence. }
    apply ge_ext in T1; auto using finite_not_nan. apply le_ext in T2; auto using finite_not_nan.
    destruct (converted_le u u' l2 l cl2 cl Fl2 Fl L1 Cl2 Cl) as (_ & _ & M1). destruct (converted_le u u' h h2 ch ch2 Fh Fh2 L2 Ch Ch2) as (_ & _ & M2).
    rewrite (ext_finite l') in T1 by auto. rewrite (ext_finite h') in T2 by auto.
    f_equal. apply andb_true_intro. unfold value in *. split.
    - apply ge_ext; auto using finite_not_nan. rewrite (ext_finite l2') by auto. lra.
    - apply le_ext; auto using finite_not_nan. rewrite (ext_finite h2') by auto. lra.
  Qed.

  (** Units that differ by a factor: exactly the bounds inside the rounded ones are contained. *)
  Lemma scaled_iff : forall a b lo hi u lo' hi' u' k, spans a lo hi u -> spans b lo' hi' u' -> u <> u' -> conversion u u' = Some [Times k] ->
    contains conversion a b = Ok true <-> rnd (lo * value k) <= lo' /\ hi' <= rnd (hi * value k).
  Proof.
    intros a b lo hi u lo' hi' u' k (l & h & -> & Fl & Fh & <- & <-) (l' & h' & -> & Fl' & Fh' & <- & <-) D C.
    assert (P := Proper u u' _ C). apply Forall_inv in P as [Fk Pk].
    destruct (contains_cases l h u l' h' u' Fl Fh Fl' Fh') as [[[I I'] _]|(cl & ch & [[X _]|(s & _ & C1 & ->)] & [[X' _]|(s' & _ & C2 & ->)] & N1 & N2 & ->)]; try congruence.
    rewrite C in C1, C2. injection C1 as <-. injection C2 as <-. cbn [do_steps fold_left do_step] in *. unfold do_steps in *. cbn [fold_left do_step] in *.
    assert (Ol := mul_outcome l k Fl Fk Pk). assert (Oh := mul_outcome h k Fh Fk Pk).
    assert (Sl := value_small l'). assert (Sh := value_small h'). apply Rabs_def2 in Sl. apply Rabs_def2 in Sh.
    assert (Q1 := ge_ext l' (fmul l k) (finite_not_nan _ Fl') N1). assert (Q2 := le_ext h' (fmul h k) (finite_not_nan _ Fh') N2).
    rewrite (ext_finite l'), (proj2 Ol) in Q1 by auto. rewrite (ext_finite h'), (proj2 Oh) in Q2 by auto.
    assert (A1 : clamp (rnd (B2R l * B2R k)) <= B2R l' <-> rnd (B2R l * B2R k) <= B2R l').
    { assert (Pl := limit_pos). unfold clamp. destruct (Rlt_bool_spec (Rabs (rnd (B2R l * B2R k))) limit) as [A|A]; [tauto|].
      destruct (Rlt_bool_spec (rnd (B2R l * B2R k)) 0) as [Z|Z].
      - rewrite Rabs_left in A by auto. split; lra.
      - rewrite Rabs_pos_eq in A by auto. split; lra. }
    assert (A2 : B2R h' <= clamp (rnd (B2R h * B2R k)) <-> B2R h' <= rnd (B2R h * B2R k)).
    { assert (Pl := limit_pos). unfold clamp. destruct (Rlt_bool_spec (Rabs (rnd (B2R h * B2R k))) limit) as [A|A]; [tauto|].
      destruct (Rlt_bool_spec (rnd (B2R h * B2R k)) 0) as [Z|Z].
      - rewrite Rabs_left in A by auto. split; lra.
      - rewrite Rabs_pos_eq in A by auto. split; lra. }
    unfold value. rewrite <- A1, <- A2, <- Q1, <- Q2.
    destruct (ge (NFlo l') (NFlo (fmul l k))), (le (NFlo h') (NFlo (fmul h k))); cbn; intuition congruence.
  Qed.

  (** What lies inside, with the factor pint uses, is contained; what is contained lies inside up to
      half a unit in the last place of the converted bounds. *)
  Theorem float_contains_scaled : forall a b lo hi u lo' hi' u' k, spans a lo hi u -> spans b lo' hi' u' -> u <> u' -> conversion u u' = Some [Times k] ->
    (lo * value k <= lo' -> hi' <= hi * value k -> contains conversion a b = Ok true)
    /\ (contains conversion a b = Ok true -> lo * value k - slack (lo * value k) <= lo' /\ hi' <= hi * value k + slack (hi * value k)).
  Proof.
    intros a b lo hi u lo' hi' u' k Sa Sb D C. rewrite (scaled_iff a b lo hi u lo' hi' u' k Sa Sb D C). split.
    - intros L1 L2. destruct Sb as (l' & h' & -> & Fl' & Fh' & <- & <-). unfold value in *.
      rewrite <- (rnd_double l'), <- (rnd_double h'). split; now apply rnd_le.
    - intros [L1 L2]. assert (E1 := rnd_error (lo * value k)). assert (E2 := rnd_error (hi * value k)).
      apply Rabs_le_inv in E1. apply Rabs_le_inv in E2. lra.
  Qed.

  (** The same with the true ratio of the units, which the factor only approximates. *)
  Definition margin (r : R) : R := Rabs r * bpow radix2 (-51) + bpow radix2 (-1075).
  Lemma margin_ok : forall r k x, 0 < r -> Rabs (k - r) <= r * bpow radix2 (-53) -> Rabs (rnd (x * k) - x * r) <= margin (x * r).
  Proof.
    intros r k x P K. assert (E := rnd_error (x * k)). unfold slack in E. unfold margin.
    assert (B := bpow_gt_0 radix2 (-53)).
    assert (B53 : bpow radix2 (-53) <= 1) by (change 1 with (bpow radix2 0); apply bpow_le; lia).
    assert (B51 : bpow radix2 (-51) = 4 * bpow radix2 (-53)).
    { change 4 with (bpow radix2 2). rewrite <- bpow_plus. f_equal. }
    replace (rnd (x * k) - x * r) with ((rnd (x * k) - x * k) + x * (k - r)) by ring.
    eapply Rle_trans; [apply Rabs_triang|]. rewrite (Rabs_mult x (k - r)), (Rabs_mult x r), (Rabs_pos_eq r) by lra.
    rewrite (Rabs_mult x k) in E. assert (X := Rabs_pos x).
    assert (Kb : Rabs k <= 2 * r).
    { replace k with ((k - r) + r) by ring. eapply Rle_trans; [apply Rabs_triang|]. rewrite (Rabs_pos_eq r) by lra.
      assert (r * bpow radix2 (-53) <= r * 1) by (apply Rmult_le_compat_l; lra). lra. }
    assert (A1 : Rabs x * Rabs k * bpow radix2 (-53) <= Rabs x * (2 * r) * bpow radix2 (-53)).
    { apply Rmult_le_compat_r; [lra|]. now apply Rmult_le_compat_l. }
    assert (A2 : Rabs x * Rabs (k - r) <= Rabs x * (r * bpow radix2 (-53))) by now apply Rmult_le_compat_l.
    rewrite B51.
    assert (P0 : 0 <= Rabs x * r * bpow radix2 (-53)) by (apply Rmult_le_pos; [apply Rmult_le_pos|]; lra).
    lra.
  Qed.
  Theorem float_contains_ratio : forall a b lo hi u lo' hi' u' k r, spans a lo hi u -> spans b lo' hi' u' -> u <> u' -> conversion u u' = Some [Times k] ->
    0 < r -> Rabs (value k - r) <= r * bpow radix2 (-53) ->
    (lo * r + margin (lo * r) <= lo' -> hi' <= hi * r - margin (hi * r) -> contains conversion a b = Ok true)
    /\ (contains conversion a b = Ok true -> lo * r - margin (lo * r) <= lo' /\ hi' <= hi * r + margin (hi * r)).
  Proof.
    intros a b lo hi u lo' hi' u' k r Sa Sb D C P K. rewrite (scaled_iff a b lo hi u lo' hi' u' k Sa Sb D C).
    assert (M1 := margin_ok r (value k) lo P K). assert (M2 := margin_ok r (value k) hi P K).
    apply Rabs_le_inv in M1. apply Rabs_le_inv in M2. split; intros; lra.
  Qed.

  (** ** union and update *)

  Variable parse : string -> res string.

  (** [y] is an end of one of the bounds, in the units [u]. *)
  Definition lower_in (u : string) (b : rbounds) (y : double) : Prop := exists x, rb_lower b = Some x /\ converted x (rb_units b) u y.
  Definition upper_in (u : string) (b : rbounds) (y : double) : Prop := exists x, rb_upper b = Some x /\ converted x (rb_units b) u y.

  Lemma union_loop_cases : forall u others lower upper, is_nan lower = false -> is_nan upper = false -> Forall sound others ->
    (exists b, In b others /\ incompatible (rb_units b) u /\ union_loop conversion u lower upper others = Err IncompatibleUnitsError)
    \/ exists lo hi, union_loop conversion u lower upper others = Ok (lo, hi) /\ is_nan lo = false /\ is_nan hi = false
       /\ (forall b, In b others -> ~ incompatible (rb_units b) u)
       /\ ext lo <= ext lower /\ (forall b y, In b others -> lower_in u b y -> ext lo <= ext y)
       /\ (lo = lower \/ exists b, In b others /\ lower_in u b lo)
       /\ ext upper <= ext hi /\ (forall b y, In b others -> upper_in u b y -> ext y <= ext hi)
       /\ (hi = upper \/ exists b, In b others /\ upper_in u b hi).
  Proof.
    intros u others. induction others as [|b r IH]; intros lower upper N1 N2 So.
    { right. exists lower, upper. split; [reflexivity|]. split; auto. split; auto. split; [intros b []|]. split; [lra|]. split; [intros b y []|].
      split; auto. split; [lra|]. split; [intros b y [] | auto]. }
    apply Forall_cons_iff in So as [(lo0 & hi0 & v & (l & h & -> & Fl & Fh & _ & _) & _) So]. cbn [union_loop].
    unfold convert_bounds. cbn [rb_lower rb_upper rb_units].
    destruct (convert_cases v u) as [[I C]|(f & G & F)].
    { left. exists (mkRB (Some l) (Some h) v). cbn [rb_units]. rewrite !C. cbn [bind]. repeat split; auto using in_eq; apply I. }
    destruct (F l) as [-> Cl], (F h) as [-> Ch]. cbn [bind].
    assert (Nl : is_nan (f l) = false) by (apply G; now apply finite_not_nan). assert (Nh : is_nan (f h) = false) by (apply G; now apply finite_not_nan).
    set (lower' := if lt (NFlo (f l)) (NFlo lower) then f l else lower). set (upper' := if gt (NFlo (f h)) (NFlo upper) then f h else upper).
    assert (Hl : is_nan lower' = false /\ ext lower' <= ext lower /\ ext lower' <= ext (f l) /\ (lower' = lower \/ lower' = f l)).
    { unfold lower'. destruct (lt (NFlo (f l)) (NFlo lower)) eqn:E.
      - apply lt_ext in E; auto. repeat split; auto; lra.
      - repeat split; auto; try lra. apply Rnot_lt_le. intros X. apply lt_ext in X; auto. congruence. }
    assert (Hu : is_nan upper' = false /\ ext upper <= ext upper' /\ ext (f h) <= ext upper' /\ (upper' = upper \/ upper' = f h)).
    { unfold upper'. destruct (gt (NFlo (f h)) (NFlo upper)) eqn:E.
      - apply gt_ext in E; auto. repeat split; auto; lra.
      - repeat split; auto; try lra. apply Rnot_lt_le. intros X. apply gt_ext in X; auto. congruence. }
    clearbody lower' upper'. destruct Hl as (Nl' & L1 & L2 & L3), Hu as (Nu' & U1 & U2 & U3).
    destruct (IH lower' upper' Nl' Nu' So) as [(b & Ib & Inc & E)|(lo & hi & E & Q1 & Q2 & Q3 & Q4 & Q5 & Q6 & Q7 & Q8 & Q9)].
    - left. exists b. auto using in_cons.
    - right. exists lo, hi. split; auto. split; auto. split; auto.
      split. { intros b [<-|Ib]; auto. cbn [rb_units]. intros [X Y]. destruct Cl as [[X' _]|(s & _ & X' & _)]; congruence. }
      split; [lra|]. split.
      { intros b y [<-|Ib] Hy; [|eauto]. destruct Hy as (x & Ex & Cx). cbn [rb_lower rb_units] in *. injection Ex as <-.
        rewrite (converted_unique _ _ _ _ _ Cx Cl). lra. }
      split.
      { destruct Q6 as [->|(b & Ib & Hb)]; [|right; eauto using in_cons]. destruct L3 as [-> | ->]; auto. right. eexists. split; [now left|]. exists l. now split. }
      split; [lra|]. split.
      { intros b y [<-|Ib] Hy; [|eauto]. destruct Hy as (x & Ex & Cx). cbn [rb_upper rb_units] in *. injection Ex as <-.
        rewrite (converted_unique _ _ _ _ _ Cx Ch). lra. }
      { destruct Q9 as [->|(b & Ib & Hb)]; [|right; eauto using in_cons]. destruct U3 as [-> | ->]; auto. right. eexists. split; [now left|]. exists h. now split. }
  Qed.

  Lemma set_lower_float : forall x b, finite x -> (forall h, rb_upper b = Some h -> finite h /\ value x <= value h) ->
    set_lower b (Some (NFlo x)) = Ok (mkRB (Some x) (rb_upper b) (rb_units b)).
  Proof.
    intros x b F H. unfold set_lower, isfinite. cbn [to_float bind]. rewrite F. cbn [negb].
    destruct (rb_upper b) as [h|]; auto. destruct (H h eq_refl) as [Fh L].
    destruct (gt (NFlo x) (NFlo h)) eqn:G; auto. apply (gt_true _ _ (value x) (value h)) in G; [lra | now constructor | now constructor].
  Qed.
  Lemma set_upper_float : forall x b, finite x -> (forall l, rb_lower b = Some l -> finite l /\ value l <= value x) ->
    set_upper b (Some (NFlo x)) = Ok (mkRB (rb_lower b) (Some x) (rb_units b)).
  Proof.
    intros x b F H. unfold set_upper, isfinite. cbn [to_float bind]. rewrite F. cbn [negb].
    destruct (rb_lower b) as [h|]; auto. destruct (H h eq_refl) as [Fh L].
    destruct (lt (NFlo x) (NFlo h)) eqn:G; auto. apply (lt_true _ _ (value x) (value h)) in G; [lra | now constructor | now constructor].
  Qed.

  (** The union is the bounds themselves, widened exactly as far as the other bounds reach in their
      units. It raises if a unit does not fit, and if a converted bound is too large for a double. *)
  Theorem float_union_outcome : forall a others lo hi u, spans a lo hi u -> lo <= hi -> parse u = Ok u -> Forall sound others ->
    match union conversion parse a others with
    | Ok c => (forall b, In b others -> ~ incompatible (rb_units b) u)
        /\ exists lo' hi', spans c lo' hi' u /\ lo' <= lo /\ hi <= hi'
        /\ (forall b y, In b others -> lower_in u b y -> finite y /\ lo' <= value y) /\ (forall b y, In b others -> upper_in u b y -> finite y /\ value y <= hi')
        /\ (lo' = lo \/ exists b y, In b others /\ lower_in u b y /\ lo' = value y) /\ (hi' = hi \/ exists b y, In b others /\ upper_in u b y /\ hi' = value y)
    | Err IncompatibleUnitsError => exists b, In b others /\ incompatible (rb_units b) u
    | Err ValueError => (forall b, In b others -> ~ incompatible (rb_units b) u) /\ exists b y, In b others /\ (lower_in u b y \/ upper_in u b y) /\ ~ finite y
    | Err _ => False
    end.
  Proof.
    intros a others lo hi u (l & h & -> & Fl & Fh & <- & <-) L Pu So. unfold union. cbn [rb_lower rb_upper rb_units].
    destruct (union_loop_cases u others l h (finite_not_nan _ Fl) (finite_not_nan _ Fh) So) as [(b & Ib & I & E)|(l1 & h1 & E & N1 & N2 & Q3 & Q4 & Q5 & Q6 & Q7 & Q8 & Q9)];
      rewrite E; cbn [bind fst snd]; [eauto|].
    rewrite (ext_finite l) in Q4 by auto. rewrite (ext_finite h) in Q7 by auto. unfold value in L.
    assert (Order : forall b x y, In b others -> lower_in u b x -> upper_in u b y -> is_nan x = false /\ is_nan y = false /\ ext x <= ext y).
    { intros b x y Ib (xl & El & Cl) (xh & Eh & Ch). rewrite Forall_forall in So. destruct (So b Ib) as (bl & bh & v & (ql & qh & -> & G1 & G2 & <- & <-) & Lb).
      cbn [rb_lower rb_upper rb_units] in *. injection El as <-. injection Eh as <-. now apply (converted_le v u ql qh). }
    assert (Both : forall b, In b others -> exists x y, lower_in u b x /\ upper_in u b y).
    { intros b Ib. rewrite Forall_forall in So. destruct (So b Ib) as (bl & bh & v & (ql & qh & -> & G1 & G2 & <- & <-) & Lb).
      assert (Q := Q3 _ Ib). cbn [rb_units] in Q. destruct (converted_exists v u Q ql) as [x Cx]. destruct (converted_exists v u Q qh) as [y Cy].
      exists x, y. split; [exists ql | exists qh]; now split. }
    unfold make_bounds, set_units. rewrite Pu. cbn [bind rb_lower rb_upper].
    destruct (is_finite l1) eqn:F1.
    - rewrite set_lower_float by (auto; discriminate). cbn [bind rb_lower rb_upper rb_units].
      destruct (is_finite h1) eqn:F2.
      + assert (Lh : B2R l1 <= B2R h1) by (rewrite (ext_finite l1) in Q4 by auto; rewrite (ext_finite h1) in Q7 by auto; lra).
        rewrite set_upper_float; auto; [|intros ? X; injection X as <-; now split]. cbn [rb_lower rb_upper rb_units].
        split; auto. exists (B2R l1), (B2R h1). rewrite (ext_finite l1) in * by auto. rewrite (ext_finite h1) in * by auto.
        assert (S1 := value_small l1). assert (S2 := value_small h1). apply Rabs_def2 in S1. apply Rabs_def2 in S2.
        split; [exists l1, h1; repeat (split; auto)|]. split; auto. split; auto.
        assert (Fy : forall b x y, In b others -> lower_in u b x -> upper_in u b y -> finite x /\ finite y).
        { intros b x y Ib Hx Hy. destruct (Order b x y Ib Hx Hy) as (Nx & Ny & Lxy). assert (A := Q5 b x Ib Hx). assert (B := Q8 b y Ib Hy).
          split; apply finite_ext; auto; apply Rabs_def1; lra. }
        split. { intros b y Ib Hy. destruct (Both b Ib) as (x & y' & Hx & Hy'). assert (F : finite y) by now apply (Fy b y y'). split; auto.
                 assert (A := Q5 b y Ib Hy). now rewrite (ext_finite y) in A. }
        split. { intros b y Ib Hy. destruct (Both b Ib) as (x & y' & Hx & Hy'). assert (F : finite y) by now apply (Fy b x y). split; auto.
                 assert (A := Q8 b y Ib Hy). now rewrite (ext_finite y) in A. }
        split; [destruct Q6 as [->|(b & Ib & Hb)] | destruct Q9 as [->|(b & Ib & Hb)]]; auto; right; eauto 6.
      + unfold set_upper, isfinite. cbn [to_float bind]. rewrite F2. cbn [negb]. split; auto.
        destruct Q9 as [->|(b & Ib & Hb)]; [unfold finite in Fh; congruence|]. exists b, h1. unfold finite. rewrite F2. auto.
    - unfold set_lower, isfinite. cbn [to_float bind]. rewrite F1. cbn [negb bind]. split; auto.
      destruct Q6 as [->|(b & Ib & Hb)]; [unfold finite in Fl; congruence|]. exists b, l1. unfold finite. rewrite F1. auto.
  Qed.

  (** update has the same outcome, and changes nothing if the union raises. *)
  Theorem float_update_agrees : forall a others lo hi u, spans a lo hi u -> lo <= hi -> parse u = Ok u -> Forall sound others ->
    update conversion parse a others = match union conversion parse a others with Ok c => (c, None) | Err e => (a, Some e) end.
  Proof.
    intros a others lo hi u Sp L Pu So. assert (O := float_union_outcome a others lo hi u Sp L Pu So). unfold update.
    destruct (union conversion parse a others) as [c|e]; auto.
    destruct O as (_ & lo' & hi' & (l1 & h1 & -> & F1 & F2 & <- & <-) & L1 & L2 & _). destruct Sp as (l & h & -> & Fl & Fh & <- & <-).
    cbn [rb_lower rb_upper rb_units option_map].
    rewrite set_lower_float; auto; [|intros ? X; injection X as <-; split; auto; lra]. cbn [after rb_lower rb_upper rb_units].
    rewrite set_upper_float; auto; [|intros ? X; injection X as <-; split; auto; lra]. cbn [after rb_lower rb_upper rb_units].
    cbn [set_units]. rewrite Pu. reflexivity.
  Qed.

  (** With all bounds in the same units the union is exact: the least bounds that contain all. *)
  Theorem float_union_least : forall a others lo hi u c, spans a lo hi u -> lo <= hi -> parse u = Ok u -> Forall sound others ->
    Forall (fun b => rb_units b = u) others -> union conversion parse a others = Ok c ->
    Forall (fun b => contains conversion c b = Ok true) (a :: others)
    /\ forall d lo2 hi2, spans d lo2 hi2 u -> Forall (fun b => contains conversion d b = Ok true) (a :: others) -> contains conversion d c = Ok true.
  Proof.
    intros a others lo hi u c Sp L Pu So Un E. assert (O := float_union_outcome a others lo hi u Sp L Pu So). rewrite E in O.
    destruct O as (_ & lo' & hi' & Sc & L1 & L2 & Q1 & Q2 & Q3 & Q4).
    assert (Ends : forall b, In b others -> exists bl bh, spans b (value bl) (value bh) u /\ lower_in u b bl /\ upper_in u b bh).
    { intros b Ib. rewrite Forall_forall in So, Un. destruct (So b Ib) as (bl & bh & v & (ql & qh & -> & G1 & G2 & <- & <-) & Lb).
      assert (v = u) by now apply (Un _ Ib). subst v. exists ql, qh. split; [exists ql, qh; repeat (split; auto)|].
      split; [exists ql | exists qh]; (split; [reflexivity|]); left; auto. }
    assert (Uniq : forall b x y, lower_in u b x -> lower_in u b y -> x = y).
    { intros b x y (x0 & Ex & Cx) (y0 & Ey & Cy). assert (x0 = y0) by congruence. subst. eauto using converted_unique. }
    assert (Uniq' : forall b x y, upper_in u b x -> upper_in u b y -> x = y).
    { intros b x y (x0 & Ex & Cx) (y0 & Ey & Cy). assert (x0 = y0) by congruence. subst. eauto using converted_unique. }
    split.
    - apply Forall_cons; [now apply (float_contains_same c a lo' hi' lo hi u)|]. apply Forall_forall. intros b Ib.
      destruct (Ends b Ib) as (bl & bh & Sb & H1 & H2). apply (float_contains_same c b lo' hi' _ _ u Sc Sb).
      split; [now apply (Q1 b) | now apply (Q2 b)].
    - intros d lo2 hi2 Sd Al. apply Forall_cons_iff in Al as [Ca Co]. rewrite Forall_forall in Co.
      apply (float_contains_same d a lo2 hi2 lo hi u Sd Sp) in Ca. apply (float_contains_same d c lo2 hi2 lo' hi' u Sd Sc).
      split.
      + destruct Q3 as [->|(b & y & Ib & Hy & ->)]; [lra|]. destruct (Ends b Ib) as (bl & bh & Sb & H1 & H2).
        assert (X := Co b Ib). apply (float_contains_same d b lo2 hi2 _ _ u Sd Sb) in X. rewrite (Uniq b y bl); auto. lra.
      + destruct Q4 as [->|(b & y & Ib & Hy & ->)]; [lra|]. destruct (Ends b Ib) as (bl & bh & Sb & H1 & H2).
        assert (X := Co b Ib). apply (float_contains_same d b lo2 hi2 _ _ u Sd Sb) in X. rewrite (Uniq' b y bh); auto. lra.
  Qed.
End Conversion.
Print Assumptions float_contains_total.
Print Assumptions float_contains_same.
Print Assumptions float_contains_mono.
Print Assumptions float_contains_scaled.
Print Assumptions float_contains_ratio.
Print Assumptions float_union_outcome.
Print Assumptions float_update_agrees.
Print Assumptions float_union_least.
