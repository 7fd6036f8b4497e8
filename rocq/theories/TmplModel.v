(** The remaining form of argument for the attribute template lists of object templates. *)
From Coq Require Import String List Bool.
From Verif Require Import Base BoundsModel VlModel ValidationModel.
Import ListNotations.
Open Scope list_scope.

(** has_property_templates.py:60-67 (and has_condition_templates.py:60-67, has_parameter_templates.py:60-67) with an
    iterable that can be passed through once only, such as a generator: [any] uses it up unless it meets bounds; then
    the iterable itself becomes the only element. *)
Definition set_entries_once (k : akind) (l : list hval) : res (vlist hval hty unit) :=
  let go a := fst (validate_list hval hty unit h_instance a (h_types k) (Some h_trigger) tt) in
  if existsb is_bounds l then go (AIter (Reusable [HOther])) else go (AIter (OneShot [])).
