(** Specification for C05-C09: what bounds admit and what values may take, as sets of points. *)
From Coq Require Import String Ascii List Bool ZArith QArith.
From Verif Require Import Base PyStr BoundsModel.
Import ListNotations.
Open Scope list_scope.

(** A point: a physical quantity (dimension and magnitude in base units), an integer, a category, a
    composition (the names of its components) or a molecular structure. *)
Inductive point : Type :=
| PQuantity (d : list Z) (m : Q)
| PInteger (z : Z)
| PCategory (c : string)
| PComposition (components : list string)
| PStructure (s : string).

(** The quantity "x u". *)
Definition is_quantity (x : Q) (u : uunit) (d : list Z) (m : Q) : Prop :=
  d = udim u /\ m == x * uscale u + uoff u.

Definition admits (b : bounds) (p : point) : Prop :=
  match b, p with
  | BReal lo hi u, PQuantity d m => exists x, lo <= x /\ x <= hi /\ is_quantity x u d m
  | BInt lo hi, PInteger z => (lo <= z <= hi)%Z
  | BCat cs, PCategory c => In c cs
  | BComp cs, PComposition l => incl l cs
  | BMol, PStructure _ => True
  | _, _ => False
  end.

(** What an uncertain value may take. A normal distribution is represented by its mean (the code
    treats it as truncated). *)
Definition element_token (s t : string) : Prop :=
  exists pre c ls post, s = (pre ++ t ++ post)%string /\ t = String c ls /\ is_upper c = true /\
    (forall i d, String.get i ls = Some d -> is_lower d = true) /\
    (forall d, String.get 0 post = Some d -> is_lower d = false).

Definition takes (v : value) (p : point) : Prop :=
  match v, p with
  | VNominalReal x u, PQuantity d m => exists q, num_value x = Some q /\ is_quantity q u d m
  | VNormalReal x _ u, PQuantity d m => exists q, num_value x = Some q /\ is_quantity q u d m
  | VUniformReal lo hi u, PQuantity d m =>
      exists l h q, num_value lo = Some l /\ num_value hi = Some h /\ l <= q <= h /\ is_quantity q u d m
  | VNominalInteger z, PInteger z' => z' = z
  | VUniformInteger lo hi, PInteger z => (lo <= z <= hi)%Z
  | VNominalCategorical (Some c), PCategory c' => c' = c
  | VDiscreteCategorical (Some p), PCategory c => exists w, In (c, w) p
  | VNominalComposition q, PComposition l => forall c, In c l -> exists w, In (c, w) q
  | VEmpiricalFormula (Some f), PComposition l => forall c, In c l -> element_token f c
  | VInChI _, PStructure _ => True
  | VSmiles _, PStructure _ => True
  | _, _ => False
  end.

(** Integers that a double represents exactly (the class refuses others). *)
Definition representable (z : Z) : Prop :=
  (exists m e, z = m * 2 ^ e /\ Z.abs m < 2 ^ 53 /\ 0 <= e)%Z /\ (Z.abs z < 2 ^ 1024)%Z.

(** Bounds as the constructors leave them; units with a positive scale. *)
Definition good_unit (u : uunit) : Prop := 0 < uscale u.
Definition good_bounds (b : bounds) : Prop :=
  match b with
  | BReal lo hi u => lo <= hi /\ good_unit u
  | BInt lo hi => (lo <= hi)%Z /\ representable lo /\ representable hi
  | _ => True
  end.

(** Values with all their information present. *)
Definition good_value (v : value) : Prop :=
  match v with
  | VNominalReal x u => (exists q, num_value x = Some q) /\ good_unit u
  | VNormalReal x _ u => (exists q, num_value x = Some q) /\ good_unit u
  | VUniformReal lo hi u => (exists l h, num_value lo = Some l /\ num_value hi = Some h /\ l <= h) /\ good_unit u
  | VNominalInteger z => representable z
  | VUniformInteger lo hi => (lo <= hi)%Z /\ representable lo /\ representable hi
  | VNominalCategorical c => c <> None
  | VDiscreteCategorical p => p <> None
  | VEmpiricalFormula f => f <> None
  | _ => True
  end.

Definition good_arg (x : carg) : Prop :=
  match x with ABounds b => good_bounds b | AValue v => good_value v | _ => False end.

(** The points of an argument, whichever of bounds and value it is. *)
Definition arg_point (x : carg) (p : point) : Prop :=
  match x with ABounds b => admits b p | AValue v => takes v p | _ => False end.

Definition arg_kind (x : carg) : option kind :=
  match x with ABounds b => Some (bounds_kind b) | AValue v => Some (value_kind v) | _ => None end.

(** Real bounds of one dimension; other kinds are always comparable. *)
Definition arg_dim (x : carg) : option (list Z) :=
  match x with
  | ABounds (BReal _ _ u) | AValue (VNominalReal _ u) | AValue (VUniformReal _ _ u)
  | AValue (VNormalReal _ _ u) => Some (udim u)
  | _ => None
  end.

(** Comparable: same kind and, for reals, same dimension. *)
Definition comparable (self : bounds) (x : carg) : Prop :=
  arg_kind x = Some (bounds_kind self) /\ arg_dim x = arg_dim (ABounds self).

Definition not_inverted (b : bounds) : Prop :=
  match b with BReal lo hi _ => lo <= hi | BInt lo hi => (lo <= hi)%Z | _ => True end.

(** [b] is inside [a]: same kind and every point of [b] is one of [a]. *)
Definition inside (b a : bounds) : Prop :=
  bounds_kind b = bounds_kind a /\ forall p, admits b p -> admits a p.
Definition arg_inside (x : carg) (a : bounds) : Prop :=
  arg_kind x = Some (bounds_kind a) /\ forall p, arg_point x p -> admits a p.
