(** Proofs for C51. *)
From Coq Require Import String List Bool ZArith QArith Lia Lqa.
From Verif Require Import Base BaseFacts BoundsModel BoundsSpec BoundsProofs BoundsFullSpec.
Import ListNotations.
Open Scope list_scope.

Lemma refused_checked : forall z e, refused_integer z e <-> int_checked (PyInt z) = Err e.
Proof.
  intros z e. unfold int_checked. destruct (Z.abs z <? 2 ^ 1024 - 2 ^ 970)%Z eqn:A.
  - apply Z.ltb_lt in A. destruct (float_exact z) eqn:F.
    + split; [|discriminate]. intros [H|H N]; [exfalso; apply (Z.lt_irrefl (Z.abs z)); eapply Z.lt_le_trans; eauto|]. exfalso. apply N. now apply float_exact_iff.
    + split.
      * intros [H|H N]; auto. exfalso; apply (Z.lt_irrefl (Z.abs z)); eapply Z.lt_le_trans; eauto.
      * intros [= <-]. constructor; auto. rewrite <- float_exact_iff. congruence.
  - apply Z.ltb_ge in A. split; [|intros [= <-]; now constructor].
    intros [H|H N]; auto. exfalso; apply (Z.lt_irrefl (Z.abs z)); eapply Z.lt_le_trans; eauto.
Qed.
Lemma checked_cases : forall z, (representable z /\ int_checked (PyInt z) = Ok z) \/ exists e, refused_integer z e /\ int_checked (PyInt z) = Err e.
Proof.
  intros z. destruct (int_checked (PyInt z)) as [z'|e] eqn:E.
  - left. assert (z' = z). { unfold int_checked in E. destruct (Z.abs z <? 2 ^ 1024 - 2 ^ 970)%Z; [|discriminate]. destruct (float_exact z); [|discriminate]. now injection E. }
    subst z'. split; auto. now apply int_checked_iff.
  - right. exists e. split; auto. now apply refused_checked.
Qed.

Lemma new_real_cases : forall x y u,
  (exists a b, num_value x = Some a /\ num_value y = Some b /\ a <= b /\ new_real x y u = Ok (BReal a b u))
  \/ ((num_value x = None \/ num_value y = None \/ exists a b, num_value x = Some a /\ num_value y = Some b /\ b < a) /\ new_real x y u = Err ValueError).
Proof.
  intros x y u. unfold new_real, init_real, set_rlo, set_rhi, finite_checked. cbn.
  destruct (num_value x) as [a|]; cbn; [|right; auto]. destruct (num_value y) as [b|]; cbn; [|right; auto].
  destruct (Qle_bool a b) eqn:L; cbn.
  - left. exists a, b. apply Qle_bool_iff in L. auto.
  - right. split; auto. right. right. exists a, b. repeat split; auto. now apply Qle_bool_false.
Qed.

(** Asking a value for its bounds succeeds, with the value's points, or raises for lack of content. *)
Lemma to_bounds_cases : forall v, value_unit v ->
  (good_value v /\ forall e, ~ no_content v e) \/ (~ good_value v /\ exists e, no_content v e /\ to_bounds v = Err e /\ forall e', no_content v e' -> e' = e).
Proof.
  intros v U. destruct v as [x u|x y u|x s u|z|l h|[c|]|[p|]|q|[f|]|s|s]; cbn [value_unit] in U; cbn [good_value];
    try (left; split; [auto; discriminate|]; intros e N; inversion N; fail).
  - destruct (new_real_cases x x u) as [(a & b & X & Y & L & E)|[N E]].
    + left. split; [eauto|]. intros e N. inversion N; congruence.
    + right. assert (num_value x = None) by (destruct N as [N|[N|(a & b & A & B & C)]]; auto; rewrite A in B; injection B as <-; exfalso; lra).
      split; [intros [[q Q] _]; congruence|]. exists ValueError. split; [now constructor|]. split; [exact E|]. intros e' N'; inversion N'; auto.
  - destruct (new_real_cases x y u) as [(a & b & X & Y & L & E)|[N E]].
    + left. split; [eauto 6|]. intros e N. inversion N as [| |? ? ? [H|H]|? ? ? a' b' H1 H2 H3| | | | | | |]; subst; try congruence. rewrite X in H1. rewrite Y in H2. injection H1 as <-. injection H2 as <-. lra.
    + right. split.
      * intros [(a & b & X & Y & L) _]. destruct N as [N|[N|(a' & b' & A & B & C)]]; try congruence. rewrite X in A. rewrite Y in B. injection A as <-. injection B as <-. lra.
      * exists ValueError. split; [|split; [exact E | intros e' N'; inversion N'; auto]].
        destruct N as [N|[N|(a' & b' & A & B & C)]]; [apply nc_uniform_number; auto | apply nc_uniform_number; auto | eapply nc_uniform_order; eauto].
  - destruct (new_real_cases x x u) as [(a & b & X & Y & L & E)|[N E]].
    + left. split; [eauto|]. intros e N. inversion N; congruence.
    + right. assert (num_value x = None) by (destruct N as [N|[N|(a & b & A & B & C)]]; auto; rewrite A in B; injection B as <-; exfalso; lra).
      split; [intros [[q Q] _]; congruence|]. exists ValueError. split; [now constructor|]. split; [exact E|]. intros e' N'; inversion N'; auto.
  - destruct (checked_cases z) as [[R E]|(e & R & E)].
    + left. split; auto. intros e N. inversion N as [| | | |? ? H| | | | | |]; subst. apply refused_checked in H. congruence.
    + right. split; [intros X; apply int_checked_iff in X; congruence|]. exists e. split; [now constructor|]. split.
      * cbn [to_bounds]. unfold new_int, init_int, set_ilo. rewrite E. reflexivity.
      * intros e' N. inversion N as [| | | |? ? H| | | | | |]; subst. apply refused_checked in H. congruence.
  - destruct (checked_cases l) as [[R E]|(e & R & E)].
    2:{ right. split; [intros (_ & X & _); apply int_checked_iff in X; congruence|]. exists e. split; [now constructor|]. split.
        - cbn [to_bounds]. unfold new_int, init_int, set_ilo. rewrite E. reflexivity.
        - intros e' N. inversion N as [| | | | |? ? ? H|? ? ? H1 H2|? ? H1 H2| | |]; subst; [apply refused_checked in H; congruence| |]; apply int_checked_iff in H1; congruence. }
    destruct (checked_cases h) as [[R2 E2]|(e & R2 & E2)].
    2:{ right. split; [intros (_ & _ & X); apply int_checked_iff in X; congruence|]. exists e. split; [now constructor|]. split.
        - cbn [to_bounds]. unfold new_int, init_int, set_ilo, set_ihi. rewrite E. cbn [ihi]. rewrite E2. reflexivity.
        - intros e' N. inversion N as [| | | | |? ? ? H|? ? ? H1 H2|? ? H1 H2| | |]; subst; [apply refused_checked in H; congruence| apply refused_checked in H2; congruence |]; apply int_checked_iff in H2; congruence. }
    destruct (Z.lt_ge_cases h l) as [L|L].
    + right. split; [intros (X & _); lia|]. exists ValueError. split; [now constructor|]. split.
      * cbn [to_bounds]. unfold new_int, init_int, set_ilo, set_ihi. rewrite E. cbn [ihi]. rewrite E2. cbn [ilo]. apply Z.ltb_lt in L. now rewrite L.
      * intros e' N. inversion N as [| | | | |? ? ? H|? ? ? H1 H2|? ? H1 H2| | |]; subst; auto; [apply refused_checked in H; congruence | apply refused_checked in H2; congruence].
    + left. split; auto. intros e N. inversion N as [| | | | |? ? ? H|? ? ? H1 H2|? ? H1 H2| | |]; subst; [apply refused_checked in H; congruence| apply refused_checked in H2; congruence | lia].
  - right. split; [congruence|]. exists ValueError. repeat split; [constructor|]. intros e' N; now inversion N.
  - right. split; [congruence|]. exists TypeError. repeat split; [constructor|]. intros e' N; now inversion N.
  - right. split; [congruence|]. exists TypeError. repeat split; [constructor|]. intros e' N; now inversion N.
Qed.

(** An argument of the right kind: fine, or at fault. *)
Lemma arg_cases : forall self x, arg_ok x -> arg_kind x = Some (bounds_kind self) ->
  (good_arg x /\ comparable self x) \/ (exists v e, x = AValue v /\ no_content v e /\ to_bounds v = Err e) \/ (good_arg x /\ arg_dim x <> arg_dim (ABounds self)).
Proof.
  intros self x O K.
  assert (D : arg_dim x = arg_dim (ABounds self) \/ arg_dim x <> arg_dim (ABounds self)).
  { destruct (arg_dim x), (arg_dim (ABounds self)); try (right; congruence); auto. destruct (list_eq_dec Z.eq_dec l l0); [left | right]; congruence. }
  assert (G : good_arg x \/ exists v e, x = AValue v /\ no_content v e /\ to_bounds v = Err e).
  { destruct x as [|b|v|]; try discriminate; auto. destruct (to_bounds_cases v O) as [[G _]|(_ & e & N & E & _)]; [left; auto | right; eauto]. }
  unfold comparable. destruct G as [G|G]; auto. destruct D; auto.
Qed.

Lemma union_real_fault : forall others lo hi u self, arg_dim (ABounds self) = Some (udim u) -> good_unit u ->
  (forall x, In x others -> arg_ok x /\ arg_kind x = Some KReal) -> bounds_kind self = KReal ->
  Forall (fun x => good_arg x /\ comparable self x) others \/ exists e, first_fault self others e /\ union_real lo hi u others = Err e.
Proof.
  induction others as [|x r IH]; intros lo hi u self D U A Ks; [left; constructor|].
  destruct (A x (or_introl eq_refl)) as [O K]. rewrite <- Ks in K. destruct (arg_cases self x O K) as [[G C]|[(v & e & -> & N & E)|[G Nd]]].
  - destruct (arg_bounds_good x G) as (b & Eb & Gb & Kb & _). rewrite K in Kb. injection Kb as Kb. rewrite Ks in Kb. destruct b as [lo' hi' u'| | | |]; try discriminate.
    assert (Du : udim u' = udim u).
    { destruct C as [_ C]. rewrite D in C. destruct x as [|b|v|]; cbn in Eb; try discriminate; [injection Eb as ->; cbn in C; congruence|].
      destruct v as [q0 u0|q1 q2 u0|q0 s0 u0|z|l h|[c|]|[p|]|q|[f|]|s|s]; cbn in C, Eb; try discriminate;
        apply new_real_inv in Eb as (? & ? & _ & _ & _ & X); injection X as _ _ ->; congruence. }
    cbn [union_real]. rewrite Eb. cbn [bind]. unfold convert_bounds.
    destruct (convert_ok lo' u' u Du) as [l ->]. destruct (convert_ok hi' u' u Du) as [h ->].
    destruct (IH (if Qle_bool lo l then lo else l) (if Qle_bool h hi then hi else h) u self D U) as [F|(e & F & E)]; auto.
    + intros y I. apply A. now right.
    + right. exists e. split; auto. now apply first_later.
  - right. exists e. split; [now apply first_here, fault_content|]. cbn [union_real]. cbn [arg_bounds]. now rewrite E.
  - right. exists IncompatibleUnitsError. split; [now apply first_here, fault_dimension|].
    destruct (arg_bounds_good x G) as (b & Eb & Gb & Kb & _). rewrite K in Kb. injection Kb as Kb. rewrite Ks in Kb. destruct b as [lo' hi' u'| | | |]; try discriminate.
    assert (Du : udim u' <> udim u).
    { intros X. apply Nd. rewrite D. destruct x as [|b|v|]; cbn in Eb; try discriminate; [injection Eb as ->; cbn; congruence|].
      rewrite Ks in K. destruct v as [q0 u0|q1 q2 u0|q0 s0 u0|z|l h|[c|]|[p|]|q|[f|]|s|s]; cbn in K; try discriminate; cbn in Eb |- *;
        apply new_real_inv in Eb as (? & ? & _ & _ & _ & Y); injection Y as _ _ ->; congruence. }
    cbn [union_real]. rewrite Eb. cbn [bind]. unfold convert_bounds. now rewrite (convert_err lo' u' u Du).
Qed.
Lemma arg_no_dim : forall self x, arg_kind x = Some (bounds_kind self) -> bounds_kind self <> KReal -> arg_dim x = arg_dim (ABounds self).
Proof. intros self x K N. destruct x as [|b|v|]; try discriminate; [destruct b, self; cbn in *; congruence | destruct v, self; cbn in *; congruence]. Qed.
Lemma union_int_fault : forall others lo hi self, bounds_kind self = KInt ->
  (forall x, In x others -> arg_ok x /\ arg_kind x = Some KInt) ->
  Forall (fun x => good_arg x /\ comparable self x) others \/ exists e, first_fault self others e /\ union_int lo hi others = Err e.
Proof.
  induction others as [|x r IH]; intros lo hi self Ks A; [left; constructor|].
  destruct (A x (or_introl eq_refl)) as [O K]. rewrite <- Ks in K. destruct (arg_cases self x O K) as [[G C]|[(v & e & -> & N & E)|[G Nd]]].
  - destruct (arg_bounds_good x G) as (b & Eb & Gb & Kb & _). rewrite K in Kb. injection Kb as Kb. rewrite Ks in Kb. destruct b as [|lo' hi'| | |]; try discriminate.
    cbn [union_int]. rewrite Eb. cbn [bind].
    destruct (IH (if lo' <? lo then lo' else lo)%Z (if hi <? hi' then hi' else hi)%Z self Ks) as [F|(e & F & E)]; auto.
    + intros y I. apply A. now right.
    + right. exists e. split; auto. now apply first_later.
  - right. exists e. split; [now apply first_here, fault_content|]. cbn [union_int arg_bounds]. now rewrite E.
  - exfalso. apply Nd. apply arg_no_dim; congruence.
Qed.
Lemma union_set_fault : forall others cs self, bounds_kind self = KCat \/ bounds_kind self = KComp ->
  (forall x, In x others -> arg_ok x /\ arg_kind x = Some (bounds_kind self)) ->
  Forall (fun x => good_arg x /\ comparable self x) others \/ exists e, first_fault self others e /\ union_set cs others = Err e.
Proof.
  induction others as [|x r IH]; intros cs self Ks A; [left; constructor|].
  destruct (A x (or_introl eq_refl)) as [O K]. destruct (arg_cases self x O K) as [[G C]|[(v & e & -> & N & E)|[G Nd]]].
  - destruct (arg_bounds_good x G) as (b & Eb & Gb & Kb & _). rewrite K in Kb. injection Kb as Kb.
    assert (X : exists cs', b = BCat cs' \/ b = BComp cs') by (destruct b; cbn in Kb; destruct Ks; try congruence; eauto). destruct X as [cs' X].
    destruct (IH (cs ++ cs') self Ks) as [F|(e & F & E)]; auto.
    + intros y I. apply A. now right.
    + right. exists e. split; [now apply first_later|]. cbn [union_set]. rewrite Eb. cbn [bind]. destruct X as [-> | ->]; exact E.
  - right. exists e. split; [now apply first_here, fault_content|]. cbn [union_set arg_bounds]. now rewrite E.
  - exfalso. apply Nd. apply arg_no_dim; auto. destruct Ks; congruence.
Qed.

Lemma mol_fine : forall others self, bounds_kind self = KMol -> (forall x, In x others -> arg_ok x /\ arg_kind x = Some KMol) ->
  Forall (fun x => good_arg x /\ comparable self x) others.
Proof.
  intros others self Ks A. apply Forall_forall. intros x I. destruct (A x I) as [O K]. rewrite <- Ks in K.
  destruct (arg_cases self x O K) as [?|[(v & e & -> & N & _)|[_ Nd]]]; auto.
  - exfalso. rewrite Ks in K. cbn in K. destruct N; discriminate.
  - exfalso. apply Nd. apply arg_no_dim; congruence.
Qed.

Lemma union_cases : forall self others, good_bounds self -> Forall arg_ok others ->
  Exists (fun x => arg_kind x <> Some (bounds_kind self)) others
  \/ Forall (fun x => arg_kind x = Some (bounds_kind self)) others
     /\ (Forall (fun x => good_arg x /\ comparable self x) others \/ exists e, first_fault self others e /\ union self others = Err e).
Proof.
  intros self others G O. destruct (forallb (arg_has_kind (bounds_kind self)) others) eqn:K.
  - right. assert (K' := K). rewrite forallb_kind in K'. rewrite Forall_forall in O. split; [now apply Forall_forall|].
    unfold union. rewrite K. destruct self as [lo hi u|lo hi|cs|cs|].
    + destruct G as [_ U]. destruct (union_real_fault others lo hi u (BReal lo hi u) eq_refl U) as [F|(e & F & E)]; auto. right. exists e. split; auto. now rewrite E.
    + destruct (union_int_fault others lo hi (BInt lo hi) eq_refl) as [F|(e & F & E)]; auto. right. exists e. split; auto. now rewrite E.
    + destruct (union_set_fault others cs (BCat cs) (or_introl eq_refl)) as [F|(e & F & E)]; auto. right. exists e. split; auto. now rewrite E.
    + destruct (union_set_fault others cs (BComp cs) (or_intror eq_refl)) as [F|(e & F & E)]; auto. right. exists e. split; auto. now rewrite E.
    + left. apply mol_fine; auto.
  - left. apply Exists_exists. clear O.
    induction others as [|x r IH]; [discriminate|]. cbn in K. apply andb_false_iff in K as [K|K].
    + exists x. split; [now left|]. rewrite <- arg_has_kind_spec. congruence.
    + destruct (IH K) as (y & I & Y). exists y. split; auto. now right.
Qed.
