(** Specification for C38. *)
From Coq Require Import String List Bool ZArith QArith Qabs.
From Verif Require Import Base PyStr BoundsModel ValuesModel DictModel.
Import ListNotations.
Open Scope string_scope.
Open Scope list_scope.

(** A double: 53 bits and an exponent. *)
Definition is_float (q : Q) : Prop :=
  exists m e, (Z.abs m < 2 ^ 53)%Z /\ q == inject_Z m * Qpower 2 e /\ Qabs q < inject_Z (2 ^ 1024).
(** An argument that is a float is one Python can have. *)
Definition real_float (v : dv) : Prop := match v with DFloat (Fin q) => is_float q | _ => True end.

(** Two entries of dictionaries that Python takes for equal: the same object (or the same contents), or equal numbers. *)
Definition same (v w : dv) : Prop :=
  v = w \/ exists x y p q, num v = Some x /\ num w = Some y /\ num_value x = Some p /\ num_value y = Some q /\ p == q.

Section Spec.
  Variable units : string -> res string.
  Variable check : dv -> dv -> option exn.

  (** [x == y] (dict_serializable.py:200-209): dictionaries with the same keys and equal entries. *)
  Definition equals (c : cls) (s t : vars) : Prop :=
    exists d e, as_dict units check c s = Ok d /\ as_dict units check c t = Ok e /\
      forall k, match get k d, get k e with
                | Some v, Some w => same v w
                | None, None => True
                | _, _ => False
                end.
  (** from_dict(as_dict(x)) is an object equal to x. *)
  Definition round_trips (c : cls) (s : vars) : Prop :=
    exists d t, as_dict units check c s = Ok d /\ from_dict units check c d = Ok t /\ equals c s t.

  (** An object of class c: constructed with some arguments, then assigned to. *)
  Definition object (c : cls) (s : vars) : Prop :=
    exists kw s0 ops, Forall (fun p => real_float (snd p)) kw /\ call units check c kw = Ok s0 /\
      Forall (fun p => In (fst p) (map fst (sig c)) /\ real_float (snd p)) ops /\ s = history units check c s0 ops.
  Definition new_object (c : cls) (s : vars) : Prop :=
    exists kw, Forall (fun p => real_float (snd p)) kw /\ call units check c kw = Ok s.

  Definition reads (c : cls) (s : vars) (k : string) (v : dv) : Prop := getattr units check c k s = Ok v.

  (** A unit is shown as a text that is shown as itself. *)
  Definition settled_unit (c : cls) (s : vars) (k : string) : Prop :=
    forall u, reads c s k (DStr u) -> units u = Ok u.
  Definition all_strings (c : cls) (s : vars) (k : string) : Prop :=
    forall l, reads c s k (DSet l) -> forallb is_str l = true.
  (** The template still accepts the value. *)
  Definition accepted (c : cls) (s : vars) : Prop :=
    forall k n v, reads c s "template" (DEntity k n) -> reads c s "value" v -> v <> DNone -> check (DEntity k n) v = None.

  (** What an object must be for the constructor to take its own fields. *)
  Definition still_valid (c : cls) (s : vars) : Prop :=
    match c with
    | RealBounds => settled_unit c s "default_units"
    | NormalReal => settled_unit c s "units"
    | NominalReal => settled_unit c s "units" /\
        forall n, reads c s "nominal" n -> match n with
                                           | DFloat _ => True
                                           | DInt z => float_exact z = true /\ (Z.abs z < 2 ^ 1024)%Z
                                           | _ => False
                                           end
    | UniformReal => settled_unit c s "units" /\
        forall lo hi, reads c s "lower_bound" lo -> reads c s "upper_bound" hi -> py_le lo hi = Ok true
    | CategoricalBounds => all_strings c s "categories"
    | CompositionBounds => all_strings c s "components"
    | AProperty | ACondition | AParameter => accepted c s
    | _ => True
    end.
End Spec.
