(** C51: contains, union and update for every argument, failures included. *)
From Coq Require Import String List Bool ZArith QArith Lia Lqa.
From Verif Require Import Base BaseFacts BoundsModel BoundsSpec BoundsProofs BoundsProperties BoundsFullSpec BoundsFullProofs.
Import ListNotations.
Open Scope list_scope.

(** A value either has all its content or lacks it in exactly one way. *)
Theorem content_or_not : forall v, value_unit v ->
  (good_value v <-> forall e, ~ no_content v e) /\ (forall e e', no_content v e -> no_content v e' -> e = e').
Proof.
  intros v U. destruct (to_bounds_cases v U) as [[G N]|(G & e & N & _ & X)].
  - split; [tauto|]. intros e e' A. now destruct (N e).
  - split; [split; [contradiction | intros F; now destruct (F e)]|]. intros a b A B. rewrite (X _ A), (X _ B). auto.
Qed.

(** contains answers inclusion; it raises exactly for objects that are neither bounds nor values and
    for values without content. *)
Theorem contains_outcome : forall a x, good_bounds a -> arg_ok x ->
  match contains a x with
  | Ok r => (x = ANone /\ r = false) \/ (good_arg x /\ (r = true <-> arg_inside x a))
  | Err e => (x = AOther /\ e = TypeError) \/ exists v, x = AValue v /\ no_content v e
  end.
Proof.
  intros a x G O. destruct x as [|b|v|]; [left; auto | | |left; auto].
  - destruct (contains_arg_iff a (ABounds b) G O) as (r & -> & I). right. auto.
  - destruct (to_bounds_cases v O) as [[Gv _]|(_ & e & N & E & _)].
    + destruct (contains_arg_iff a (AValue v) G Gv) as (r & -> & I). right. auto.
    + cbn [contains]. rewrite E. cbn [bind]. right. eauto.
Qed.
Theorem contains_raises_no_content : forall a v e, value_unit v -> no_content v e -> contains a (AValue v) = Err e.
Proof.
  intros a v e U N. destruct (to_bounds_cases v U) as [[_ G]|(_ & e' & _ & E & X)]; [now destruct (G e)|].
  cbn [contains]. rewrite E. cbn [bind]. now rewrite (X _ N).
Qed.

(** union: TypeError if any argument is of another kind; otherwise the first fault is raised;
    otherwise the least upper bound. *)
Theorem union_outcome : forall self others, good_bounds self -> Forall arg_ok others ->
  match union self others with
  | Err e => (Exists (fun x => arg_kind x <> Some (bounds_kind self)) others /\ e = TypeError)
      \/ (Forall (fun x => arg_kind x = Some (bounds_kind self)) others /\ first_fault self others e)
  | Ok b => Forall (fun x => good_arg x /\ comparable self x) others /\
      good_bounds b /\ inside self b /\ Forall (fun x => arg_inside x b) others /\
      (forall z, good_bounds z -> inside self z -> Forall (fun x => arg_inside x z) others -> inside b z)
  end.
Proof.
  intros self others G O. destruct (union_cases self others G O) as [W|[K [F|(e & F & ->)]]].
  - rewrite (union_other_kind _ _ W). auto.
  - assert (GA : Forall good_arg others) by (eapply Forall_impl; [|exact F]; cbn beta; intros ? [? ?]; assumption).
    assert (C : Forall (comparable self) others) by (eapply Forall_impl; [|exact F]; cbn beta; intros ? [? ?]; assumption).
    destruct (union_least_upper_bound self others G GA C) as (b & -> & R). auto.
  - auto.
Qed.

(** The first fault is unique and excludes success: the three outcomes exclude one another. *)
Theorem union_fault_decides : forall self others e, good_bounds self -> Forall arg_ok others ->
  Forall (fun x => arg_kind x = Some (bounds_kind self)) others -> first_fault self others e -> union self others = Err e.
Proof.
  assert (ND : forall self x, arg_ok x -> good_arg x -> comparable self x -> forall e, ~ fault self x e).
  { intros self x O G [_ C] e A. inversion A as [v e' N|x' Gx D]; subst; [|auto]. destruct (to_bounds_cases v O) as [[_ X]|[X _]]; [now apply (X e)|auto]. }
  assert (U1 : forall self x e e', arg_ok x -> fault self x e -> fault self x e' -> e = e').
  { intros self x e e' O A B. destruct A as [v e N|x G D].
    - inversion B as [v' e2 N2|x2 G2 D2]; subst; [eapply content_or_not; eauto|]. destruct (to_bounds_cases v O) as [[_ X]|[X _]]; [now destruct (X e)|contradiction].
    - inversion B as [v' e2 N2|x2 G2 D2]; subst; auto. destruct (to_bounds_cases v' O) as [[_ X]|[X _]]; [now destruct (X e')|contradiction]. }
  intros self others e G O K F. destruct (union_cases self others G O) as [W|[_ [F2|(e' & F2 & E)]]].
  - exfalso. apply Exists_exists in W as (x & I & X). rewrite Forall_forall in K. auto.
  - exfalso. clear K. induction F as [x r e Fx|x r e Gx Cx F IH].
    + apply Forall_inv in F2 as [A B]. apply Forall_inv in O. eapply ND; eauto.
    + apply Forall_inv_tail in F2, O. auto.
  - rewrite E. f_equal. clear E K G. induction F as [x r e Fx|x r e Gx Cx F IH].
    + apply Forall_inv in O. inversion F2 as [? ? ? H|? ? ? H1 H2 H3]; subst; [symmetry; eapply U1; eauto|]. now destruct (ND self x O H1 H2 e).
    + inversion F2 as [? ? ? H|? ? ? H1 H2 H3]; subst; [apply Forall_inv in O; now destruct (ND self x O Gx Cx e')|]. apply Forall_inv_tail in O. auto.
Qed.

(** update becomes the union or raises the same and changes nothing; for molecular structures it does
    nothing at all. *)
Theorem update_outcome : forall self others, good_bounds self ->
  update self others =
    match bounds_kind self with
    | KMol => (self, None)
    | _ => match union self others with Ok b => (b, None) | Err e => (self, Some e) end
    end.
Proof.
  intros self others G. assert (N : not_inverted self) by (destruct self; cbn in *; tauto).
  pose proof (update_cases self others N) as C. destruct self as [lo hi u|lo hi|cs|cs|]; try reflexivity; cbn [bounds_kind];
    (destruct (update _ others) as [b [e|]]; [destruct C as [-> ->]; reflexivity | destruct C as [C|C]; [discriminate | now rewrite C]]).
Qed.

Example outcome_ex :
  let m := BReal 0 1 metre in
  union m [AValue (VNominalReal (PyInt 2) metre); AValue (VNominalReal PyNaN inch); ABounds (BReal 0 1 kelvin)] = Err ValueError /\
  union m [ABounds (BReal 0 1 kelvin); AValue (VNominalReal PyNaN inch)] = Err IncompatibleUnitsError /\
  union m [AValue (VNominalReal PyNaN inch); ABounds (BInt 0 1)] = Err TypeError /\
  contains (BInt 0 1) (AValue (VUniformInteger 3 2)) = Err ValueError /\
  contains (BCat []) (AValue (VNominalInteger (2 ^ 1024 - 2 ^ 970))) = Err OverflowError /\
  contains BMol (AValue (VEmpiricalFormula None)) = Err TypeError /\
  first_fault m [AValue (VNominalReal (PyInt 2) metre); AValue (VNominalReal PyNaN inch); ABounds (BReal 0 1 kelvin)] ValueError /\
  Forall arg_ok [AValue (VNominalReal (PyInt 2) metre); AValue (VNominalReal PyNaN inch); ABounds (BReal 0 1 kelvin)].
Proof.
  cbn zeta. repeat match goal with |- _ = _ /\ _ => split; [vm_compute; reflexivity|] end. split.
  - apply first_later; [split; [exists 2; reflexivity | reflexivity] | split; reflexivity|]. apply first_here, fault_content, nc_nominal_real. reflexivity.
  - repeat constructor; try reflexivity. unfold Qle; cbn; lia.
Qed.

Print Assumptions content_or_not.
Print Assumptions contains_outcome.
Print Assumptions contains_raises_no_content.
Print Assumptions union_outcome.
Print Assumptions union_fault_decides.
Print Assumptions update_outcome.
