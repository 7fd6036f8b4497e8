(** C05-C09: theorems about bounds and values. *)
From Coq Require Import String Ascii List Bool ZArith QArith Lia Lqa.
From Verif Require Import Base BaseFacts PyStr BoundsModel BoundsSpec BoundsProofs.
Import ListNotations.
Open Scope list_scope.

(** ** C05 *)

(** From any construction, through any history, the endpoints stay in order. *)
Theorem bounds_never_inverted : forall b ops,
  (exists x y u, new_real x y u = Ok b) \/ (exists x y, new_int x y = Ok b) -> not_inverted (brun b ops).
Proof.
  intros b ops H. apply brun_ok. destruct H as [(x & y & u & H)|(x & y & H)].
  - apply new_real_inv in H as (q & r & _ & _ & L & ->). exact L.
  - apply new_int_inv in H as (q & r & -> & L & _). exact L.
Qed.

(** A raising assignment or update changes nothing. *)
Theorem bounds_rejected_unchanged : forall b ops o b' e,
  (exists x y u, new_real x y u = Ok b) \/ (exists x y, new_int x y = Ok b) ->
  bstep (brun b ops) o = (b', Some e) -> b' = brun b ops.
Proof.
  intros b ops o b' e H E. pose proof (bounds_never_inverted b ops H) as N.
  apply (bstep_ok _ _ _ _ N) in E as [_ E]. apply E; discriminate.
Qed.

(** An accepted construction keeps the numbers it was given. *)
Theorem new_bounds_exact : forall x y,
  (forall u b, new_real x y u = Ok b ->
     exists q r, num_value x = Some q /\ num_value y = Some r /\ b = BReal q r u) /\
  (forall b, new_int x y = Ok b -> exists l h q r, b = BInt l h /\
     num_value x = Some q /\ num_value y = Some r /\ q == inject_Z l /\ r == inject_Z h).
Proof.
  intros x y. split.
  - intros u b H. apply new_real_inv in H as (q & r & X & Y & _ & ->). eauto.
  - intros b H. apply new_int_inv in H as (l & h & -> & _ & X & Y).
    apply int_checked_val in X as (q & X & Q), Y as (r & Y & R). exists l, h, q, r. auto.
Qed.

(** Integer endpoints are refused exactly when a double cannot hold them: this is stricter than
    "any integer" (finding). *)
Theorem integer_bounds_accept : forall l h,
  (exists b, new_int (PyInt l) (PyInt h) = Ok b) <-> (l <= h)%Z /\ representable l /\ representable h.
Proof.
  intros l h. split.
  - intros [b H]. apply new_int_inv in H as (l' & h' & -> & L & X & Y).
    assert (l' = l) by (unfold int_checked in X; destruct (_ <? _)%Z; [|discriminate];
      destruct (float_exact l); congruence).
    assert (h' = h) by (unfold int_checked in Y; destruct (_ <? _)%Z; [|discriminate];
      destruct (float_exact h); congruence).
    subst. repeat split; auto; apply int_checked_iff; auto.
  - intros (L & A & B). exists (BInt l h). now apply new_int_ok.
Qed.
Theorem integer_bounds_any_refuted : exists l h, (l <= h)%Z /\ new_int (PyInt l) (PyInt h) = Err ValueError.
Proof. exists 0%Z, (2 ^ 53 + 1)%Z. split; [lia|]. vm_compute. reflexivity. Qed.

(** A rejected category assignment does change the bounds (finding). *)
Theorem categories_rejected_unchanged_refuted : exists old x new e,
  set_categories old x = (new, Some e) /\ new <> old.
Proof.
  exists [OStr "a"], (SCollection [OStr "b"; ONotStr]), [OStr "b"; ONotStr], ValueError. split; [reflexivity|discriminate].
Qed.

Definition kelvin := mkUnit [0; 1]%Z 1 0.
Definition celsius := mkUnit [0; 1]%Z 1 (27315 # 100).
Definition metre := mkUnit [1; 0]%Z 1 0.
Definition inch := mkUnit [1; 0]%Z (254 # 10000) 0.

Example c05_case : new_real (PyInt 0) (PyFloat (5 # 2)) inch = Ok (BReal 0 (5 # 2) inch) /\
  brun (BReal 0 (5 # 2) inch) [OSetLo (PyInt 7); OSetHi (PyInt 3); OSetLo PyNaN; OSetUnits (Some metre);
     OUpdate [AValue (VNominalReal (PyInt (-1)) metre)]] = BReal (-1) 3 metre.
Proof. split; vm_compute; reflexivity. Qed.

(** ** C06 *)
Theorem contains_iff_inclusion : forall a b, good_bounds a -> good_bounds b ->
  exists r, contains a (ABounds b) = Ok r /\ (r = true <-> inside b a).
Proof.
  intros a b Ga Gb. destruct (contains_arg_iff a (ABounds b) Ga Gb) as (r & E & I). exists r. split; auto.
  rewrite I. unfold inside. cbn. split; intros [A B]; split; auto; congruence.
Qed.

Theorem contains_other_kind : forall a b, bounds_kind a <> bounds_kind b -> contains a (ABounds b) = Ok false.
Proof.
  intros a b K. cbn. destruct (contains_bounds a b) eqn:E; auto. apply contains_bounds_kind in E. congruence.
Qed.

Theorem contains_none_other : forall a, contains a ANone = Ok false /\ contains a AOther = Err TypeError.
Proof. auto. Qed.

Theorem contains_preorder : forall a b c, good_bounds a -> good_bounds b -> good_bounds c ->
  contains a (ABounds a) = Ok true /\
  (contains a (ABounds b) = Ok true -> contains b (ABounds c) = Ok true -> contains a (ABounds c) = Ok true) /\
  (contains a (ABounds b) = Ok true -> contains b (ABounds a) = Ok true -> forall p, admits a p <-> admits b p).
Proof.
  intros a b c Ga Gb Gc. cbn. split; [f_equal; now apply contains_refl|]. split.
  - intros H1 H2. injection H1 as H1. injection H2 as H2. f_equal. exact (contains_trans a b c Ga Gb Gc H1 H2).
  - intros H1 H2. injection H1 as H1. injection H2 as H2. intros p. split.
    + exact (proj1 (contains_bounds_iff b a Gb Ga (contains_bounds_kind _ _ H2)) H2 p).
    + exact (proj1 (contains_bounds_iff a b Ga Gb (contains_bounds_kind _ _ H1)) H1 p).
Qed.

Example c06_case : contains (BReal 0 1 metre) (ABounds (BReal 1 39 inch)) = Ok true /\
  contains (BReal 0 1 metre) (ABounds (BReal 1 40 inch)) = Ok false /\
  contains (BReal 0 1 metre) (ABounds (BReal 0 1 kelvin)) = Ok false /\ good_bounds (BReal 1 39 inch).
Proof. repeat split; vm_compute; congruence. Qed.

(** Units with a negative scale ("-1 m"): the answer is wrong (finding). *)
Theorem contains_negative_scale_refuted : exists a b, not_inverted a /\ not_inverted b /\ inside b a /\
  contains a (ABounds b) = Ok false.
Proof.
  exists (BReal (-1) 0 (mkUnit [1]%Z (-1) 0)), (BReal 0 1 (mkUnit [1]%Z 1 0)).
  split; [cbn; lra|]. split; [cbn; lra|]. split; [|vm_compute; reflexivity].
  split; auto. intros [d m| | | |]; cbn; try tauto. intros (x & L & H & D & M). exists (- x).
  unfold is_quantity in *. cbn in *. repeat split; auto; lra.
Qed.

(** ** C07 *)
Lemma args_inside_iff : forall b others, good_bounds b -> Forall good_arg others ->
  (Forall (fun x => arg_inside x b) others <->
   forall x y, In x others -> arg_bounds x = Ok y -> contains_bounds b y = true).
Proof.
  intros b others Gb GA. rewrite Forall_forall in *. split.
  - intros H x y I E. destruct (H x I) as [K P]. destruct (arg_bounds_good x (GA x I)) as (y' & E' & Gy & Ky & A).
    rewrite E in E'; injection E' as <-. apply contains_bounds_iff; auto; [congruence|]. intros p Hp. now apply P, A.
  - intros H x I. destruct (arg_bounds_good x (GA x I)) as (y & E & Gy & Ky & A).
    pose proof (H x y I E) as C. pose proof (contains_bounds_kind _ _ C) as K. split; [congruence|].
    intros p Hp. apply (proj1 (contains_bounds_iff b y Gb Gy K) C). now apply A.
Qed.

Theorem union_least_upper_bound : forall self others, good_bounds self -> Forall good_arg others ->
  Forall (comparable self) others ->
  exists b, union self others = Ok b /\ good_bounds b /\
    inside self b /\ Forall (fun x => arg_inside x b) others /\
    (forall z, good_bounds z -> inside self z -> Forall (fun x => arg_inside x z) others -> inside b z).
Proof.
  intros self others G GA C. destruct (union_lub self others G GA C) as (b & E & Gb & S & O & L).
  exists b. split; auto. split; auto. pose proof (contains_bounds_kind _ _ S) as K.
  split; [split; [congruence | exact (proj1 (contains_bounds_iff b self Gb G K) S)]|].
  split; [now apply args_inside_iff|].
  intros z Gz [Kz Iz] Az.
  assert (H : contains_bounds z b = true).
  { apply L; auto.
    - apply contains_bounds_iff; auto.
    - now apply args_inside_iff. }
  split; [congruence|]. apply contains_bounds_iff; auto. congruence.
Qed.

Theorem union_order_irrelevant : forall self l1 l2 b1 b2, good_bounds self ->
  Forall good_arg l1 -> Forall (comparable self) l1 -> Forall good_arg l2 -> Forall (comparable self) l2 ->
  (forall x, In x l1 <-> In x l2) -> union self l1 = Ok b1 -> union self l2 = Ok b2 ->
  bounds_kind b1 = bounds_kind b2 /\ forall p, admits b1 p <-> admits b2 p.
Proof.
  intros self l1 l2 b1 b2 G G1 C1 G2 C2 S E1 E2.
  destruct (union_least_upper_bound self l1 G G1 C1) as (b & E & Gb & I & A & L). rewrite E1 in E; injection E as <-.
  destruct (union_least_upper_bound self l2 G G2 C2) as (b & E & Gb' & I' & A' & L'). rewrite E2 in E; injection E as <-.
  rewrite Forall_forall in A, A'.
  destruct (L b2) as [K X]; auto; [rewrite Forall_forall; intros x Ix; apply A'; now apply S|].
  destruct (L' b1) as [_ Y]; auto; [rewrite Forall_forall; intros x Ix; apply A; now apply S|].
  split; auto. intros p; split; auto.
Qed.

Theorem union_other_kind : forall self others,
  Exists (fun x => arg_kind x <> Some (bounds_kind self)) others -> union self others = Err TypeError.
Proof. apply union_wrong_kind. Qed.

(** update: the union on success; on failure nothing changes. *)
Theorem update_agrees_with_union : forall self others, not_inverted self ->
  Forall (fun x => arg_kind x = Some (bounds_kind self)) others ->
  match union self others with
  | Ok b => update self others = (b, None)
  | Err e => update self others = (self, Some e)
  end.
Proof.
  intros self others N K. pose proof (update_cases self others N) as C.
  destruct (update self others) as [b [e|]] eqn:U.
  - destruct C as [-> ->]. auto.
  - destruct C as [->| ->]; auto. unfold union.
    replace (forallb _ others) with true by (symmetry; apply forallb_kind; now rewrite <- Forall_forall).
    cbn in U. congruence.
Qed.

(** With an argument of another kind, every class but MolecularStructureBounds raises (finding). *)
Theorem update_molecular_refuted : exists self others e,
  union self others = Err e /\ update self others = (self, None).
Proof. exists BMol, [ABounds (BInt 0 1)], TypeError. split; reflexivity. Qed.

Example c07_case : union (BReal 0 1 metre) [ABounds (BReal (-10) 20 inch); AValue (VUniformReal (PyInt 0) (PyInt 2) metre)]
  = Ok (BReal ((-10 * (254 # 10000) + 0 - 0) / 1) 2 metre) /\
  Forall good_arg [ABounds (BReal (-10) 20 inch); AValue (VUniformReal (PyInt 0) (PyInt 2) metre)] /\
  Forall (comparable (BReal 0 1 metre)) [ABounds (BReal (-10) 20 inch); AValue (VUniformReal (PyInt 0) (PyInt 2) metre)].
Proof.
  split; [vm_compute; reflexivity|]. split.
  - constructor; [split; [lra|reflexivity]|]. constructor; [|constructor]. split; [|reflexivity].
    exists 0, 2. repeat split. unfold Qle; cbn; lia.
  - repeat constructor.
Qed.

(** ** C08. Missing: values whose content is None (see the refutation) and integers a double cannot
    hold, for which contains raises. *)
Theorem contains_value_partial : forall a v, good_bounds a -> good_value v ->
  exists r, contains a (AValue v) = Ok r /\
    (r = true <-> value_kind v = bounds_kind a /\ forall p, takes v p -> admits a p).
Proof.
  intros a v Ga Gv. destruct (contains_arg_iff a (AValue v) Ga Gv) as (r & E & I). exists r. split; auto.
  rewrite I. cbn. split; intros [A B]; split; auto; congruence.
Qed.

Theorem contains_value_refuted : exists a v e, good_bounds a /\ value_kind v = bounds_kind a /\
  (forall p, takes v p -> admits a p) /\ contains a (AValue v) = Err e.
Proof.
  exists (BCat ["x"]), (VNominalCategorical None), ValueError. repeat split; auto. intros p []. 
Qed.

(** The elements used for a formula's components are exactly its element tokens (also C32). *)
Theorem formula_components : forall f t, exists cs, to_bounds (VEmpiricalFormula (Some f)) = Ok (BComp cs) /\
  (In t cs <-> element_token f t).
Proof. intros f t. exists (elements f). split; auto. apply elements_In. Qed.

Example c08_case : contains (BComp ["C"; "Na"; "H"]) (AValue (VEmpiricalFormula (Some "C2H5Na"))) = Ok true /\
  contains (BComp ["C"; "N"; "H"]) (AValue (VEmpiricalFormula (Some "C2H5Na"))) = Ok false.
Proof. split; vm_compute; reflexivity. Qed.

(** ** C09 *)
Theorem reexpressed_bounds_equal : forall lo hi u v lo' hi', good_bounds (BReal lo hi u) -> good_unit v ->
  convert_bounds lo hi u v = Some (lo', hi') ->
  good_bounds (BReal lo' hi' v) /\ (forall p, admits (BReal lo hi u) p <-> admits (BReal lo' hi' v) p) /\
  (forall a, good_bounds a ->
     contains a (ABounds (BReal lo hi u)) = contains a (ABounds (BReal lo' hi' v)) /\
     contains (BReal lo hi u) (ABounds a) = contains (BReal lo' hi' v) (ABounds a)).
Proof.
  intros lo hi u v lo' hi' [L U] V E. unfold convert_bounds in E.
  destruct (convert lo u v) as [l|] eqn:E1; [|discriminate]. destruct (convert hi u v) as [h|] eqn:E2; [|discriminate].
  injection E as -> ->. apply base_convert in E1 as [D E1]; auto. apply base_convert in E2 as [_ E2]; auto.
  assert (G' : good_bounds (BReal lo' hi' v)).
  { split; auto. apply (base_le_inv v); auto. rewrite E1, E2. now apply base_le. }
  assert (P : forall p, admits (BReal lo hi u) p <-> admits (BReal lo' hi' v) p).
  { intros [d m| | | |]; try reflexivity. rewrite !admits_real by auto. rewrite D, E1, E2. reflexivity. }
  split; auto. split; auto. intros a Ga.
  assert (X : forall x y : bool, (x = true <-> y = true) -> x = y) by (intros [] []; intuition congruence).
  split; cbn; f_equal; apply X; clear X.
  - destruct a as [al ah au| | | |]; cbn [contains_bounds]; try reflexivity.
    change (contains_bounds (BReal al ah au) (BReal lo hi u) = true <-> contains_bounds (BReal al ah au) (BReal lo' hi' v) = true).
    rewrite !contains_bounds_iff by (auto; split; auto). split; intros H p Hp; apply H; now apply P.
  - destruct a as [al ah au| | | |]; cbn [contains_bounds]; try reflexivity.
    change (contains_bounds (BReal lo hi u) (BReal al ah au) = true <-> contains_bounds (BReal lo' hi' v) (BReal al ah au) = true).
    rewrite !contains_bounds_iff by (auto; split; auto). split; intros H p Hp; apply P; auto.
Qed.

Theorem union_unit_independent : forall self self' others others', 
  good_bounds self -> good_bounds self' -> Forall good_arg others -> Forall good_arg others' ->
  Forall (comparable self) others -> Forall (comparable self') others' ->
  (forall p, admits self p <-> admits self' p) -> bounds_kind self = bounds_kind self' ->
  Forall2 (fun x y => arg_kind x = arg_kind y /\ forall p, arg_point x p <-> arg_point y p) others others' ->
  exists b b', union self others = Ok b /\ union self' others' = Ok b' /\
    bounds_kind b = bounds_kind b' /\ forall p, admits b p <-> admits b' p.
Proof.
  intros s s' l l' G G' GA GA' C C' P K F.
  destruct (union_least_upper_bound s l G GA C) as (b & E & Gb & I & A & L).
  destruct (union_least_upper_bound s' l' G' GA' C') as (b' & E' & Gb' & I' & A' & L').
  exists b, b'. split; auto. split; auto.
  assert (X : inside b b').
  { apply L; auto.
    - destruct I' as [K' I']. split; [congruence|]. intros p Hp. apply I'. now apply P.
    - clear - F A'. induction F as [|x y l l' [Kx Px] F IH]; constructor.
      + apply Forall_inv in A' as [K A]. split; [congruence|]. intros p Hp. apply A. now apply Px.
      + apply IH. now apply Forall_inv_tail in A'. }
  assert (Y : inside b' b).
  { apply L'; auto.
    - destruct I as [K' I]. split; [congruence|]. intros p Hp. apply I. now apply P.
    - clear - F A. induction F as [|x y l l' [Kx Px] F IH]; constructor.
      + apply Forall_inv in A as [K A]. split; [congruence|]. intros p Hp. apply A. now apply Px.
      + apply IH. now apply Forall_inv_tail in A. }
  split; [apply X|]. intros p. split; [apply X | apply Y].
Qed.

(** Different dimensions (in particular dimensionless against anything else). *)
Theorem different_dimension : forall lo hi u lo' hi' v others, udim u <> udim v ->
  contains (BReal lo hi u) (ABounds (BReal lo' hi' v)) = Ok false /\
  (good_bounds (BReal lo hi u) -> Forall good_arg others -> Forall (fun x => arg_kind x = Some KReal) others ->
   In (ABounds (BReal lo' hi' v)) others -> union (BReal lo hi u) others = Err IncompatibleUnitsError).
Proof.
  intros lo hi u lo' hi' v others D. split.
  - cbn. unfold convert_bounds. now rewrite convert_err.
  - intros G GA K I. apply union_incompatible; auto. apply Exists_exists. exists (ABounds (BReal lo' hi' v)).
    split; auto. cbn. congruence.
Qed.

Example c09_case : convert_bounds 0 100 celsius kelvin = Some ((0 * 1 + (27315 # 100) - 0) / 1, (100 * 1 + (27315 # 100) - 0) / 1)
  /\ good_bounds (BReal 0 100 celsius) /\ good_unit kelvin /\
  contains (BReal 273 374 kelvin) (ABounds (BReal 0 100 celsius)) = Ok true /\
  contains (BReal 274 374 kelvin) (ABounds (BReal 0 100 celsius)) = Ok false.
Proof. repeat split; vm_compute; congruence. Qed.

Print Assumptions bounds_never_inverted.
Print Assumptions bounds_rejected_unchanged.
Print Assumptions new_bounds_exact.
Print Assumptions integer_bounds_accept.
Print Assumptions integer_bounds_any_refuted.
Print Assumptions categories_rejected_unchanged_refuted.
Print Assumptions contains_iff_inclusion.
Print Assumptions contains_other_kind.
Print Assumptions contains_preorder.
Print Assumptions contains_negative_scale_refuted.
Print Assumptions union_least_upper_bound.
Print Assumptions union_order_irrelevant.
Print Assumptions union_other_kind.
Print Assumptions update_agrees_with_union.
Print Assumptions update_molecular_refuted.
Print Assumptions contains_value_partial.
Print Assumptions contains_value_refuted.
Print Assumptions formula_components.
Print Assumptions reexpressed_bounds_equal.
Print Assumptions union_unit_independent.
Print Assumptions different_dimension.

Print Assumptions contains_none_other.
