(** Specification for C51: which arguments make bounds raise, and what. *)
From Coq Require Import String List Bool ZArith QArith.
From Verif Require Import Base BoundsModel BoundsSpec.
Import ListNotations.
Open Scope list_scope.

(** An integer the class refuses: too large for a double, or not equal to any. *)
Inductive refused_integer (z : Z) : exn -> Prop :=
| too_large : (2 ^ 1024 - 2 ^ 970 <= Z.abs z)%Z -> refused_integer z OverflowError
| not_exact : (Z.abs z < 2 ^ 1024 - 2 ^ 970)%Z -> ~ (exists m e, z = m * 2 ^ e /\ Z.abs m < 2 ^ 53 /\ 0 <= e)%Z -> refused_integer z ValueError.

(** Values without content, and what asking for their bounds raises. *)
Inductive no_content : value -> exn -> Prop :=
| nc_nominal_real : forall x u, num_value x = None -> no_content (VNominalReal x u) ValueError
| nc_normal_real : forall x s u, num_value x = None -> no_content (VNormalReal x s u) ValueError
| nc_uniform_number : forall x y u, num_value x = None \/ num_value y = None -> no_content (VUniformReal x y u) ValueError
| nc_uniform_order : forall x y u a b, num_value x = Some a -> num_value y = Some b -> b < a -> no_content (VUniformReal x y u) ValueError
| nc_nominal_integer : forall z e, refused_integer z e -> no_content (VNominalInteger z) e
| nc_uniform_lower : forall l h e, refused_integer l e -> no_content (VUniformInteger l h) e
| nc_uniform_upper : forall l h e, representable l -> refused_integer h e -> no_content (VUniformInteger l h) e
| nc_integer_order : forall l h, representable l -> representable h -> (h < l)%Z -> no_content (VUniformInteger l h) ValueError
| nc_category : no_content (VNominalCategorical None) ValueError
| nc_categories : no_content (VDiscreteCategorical None) TypeError
| nc_formula : no_content (VEmpiricalFormula None) TypeError.

(** Units as pint defines them: positive scales. *)
Definition value_unit (v : value) : Prop :=
  match v with VNominalReal _ u | VUniformReal _ _ u | VNormalReal _ _ u => good_unit u | _ => True end.
Definition arg_ok (x : carg) : Prop :=
  match x with ABounds b => good_bounds b | AValue v => value_unit v | _ => True end.

(** What is wrong with one further argument of a union, if its kind is right: a value without
    content, or a quantity of another dimension. *)
Inductive fault (self : bounds) : carg -> exn -> Prop :=
| fault_content : forall v e, no_content v e -> fault self (AValue v) e
| fault_dimension : forall x, good_arg x -> arg_dim x <> arg_dim (ABounds self) -> fault self x IncompatibleUnitsError.

(** The first argument with a fault decides. *)
Inductive first_fault (self : bounds) : list carg -> exn -> Prop :=
| first_here : forall x r e, fault self x e -> first_fault self (x :: r) e
| first_later : forall x r e, good_arg x -> comparable self x -> first_fault self r e -> first_fault self (x :: r) e.
