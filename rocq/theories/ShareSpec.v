(** Specification for C61: what is checked when, and for how long it holds. *)
From Coq Require Import String List Bool ZArith QArith.
From Verif Require Import Base BoundsModel BoundsSpec BoundsFullSpec VlModel ValidationModel ValidationSpec ValidFullSpec ShareModel.
Import ListNotations.
Open Scope list_scope.

(** The value of an attribute has content and is inside the bounds of its template, as both are now. *)
Definition agrees (w : world) (a : ref) : Prop :=
  forall v t, c_value (w_attrs w a) = Some v -> c_template (w_attrs w a) = Some (TObj t) ->
    good_value (w_values w v) /\ fits (w_values w v) (w_bounds w (c_bounds (w_templates w t))).
(** The template of object [o], as it is now, has nothing against attribute [a], as it is now (C53). *)
Definition passes (same : tref -> tref -> bool) (k : akind) (w : world) (o a : ref) : Prop :=
  object_verdict same k FATAL (read_entries w o) (read_attr w a) Accept.

(** The operation changes the attribute, its value, its template or the bounds of that. *)
Definition changes_attr (w : world) (a : ref) (x : sop) : Prop :=
  match x with
  | SAttrName a' _ | SAttrValue a' _ | SAttrTemplate a' _ => a' = a
  | SValue v _ => c_value (w_attrs w a) = Some v
  | STemplateBounds t _ | STemplateName t _ => c_template (w_attrs w a) = Some (TObj t)
  | SBounds b _ => exists t, c_template (w_attrs w a) = Some (TObj t) /\ c_bounds (w_templates w t) = b
  | _ => False
  end.
(** The operation gives the object another template, or changes its template, a template in that, or bounds used there. *)
Definition changes_rules (w : world) (o : ref) (x : sop) : Prop :=
  match x with
  | SObjectTemplate o' _ => o' = o
  | SEntries ot _ => c_otemplate (w_objects w o) = Some ot
  | STemplateBounds t _ | STemplateName t _ => exists ot r, c_otemplate (w_objects w o) = Some ot /\ In (TObj t, r) (w_entries w ot)
  | SBounds b _ => exists ot e, c_otemplate (w_objects w o) = Some ot /\ In e (w_entries w ot) /\
      (snd e = Some b \/ exists t, fst e = TObj t /\ c_bounds (w_templates w t) = b)
  | _ => False
  end.
(** The operation puts [a] into the list of [o]; it does so unchecked. *)
Definition supplies (x : sop) (o a : ref) : Prop :=
  match x with
  | SList o' y => o' = o /\ In a (supplied y)
  | SAssign o' y => o' = o /\ In a (arg_supplied y)
  | _ => False
  end.
Definition unchecked (x : sop) : Prop := match x with SList _ (OIadd _) => True | _ => False end.
(** Assignments to attributes and everything done to objects and lists, but no change to a value, to bounds, to the
    bounds of a template, or of the level. *)
Definition settled (x : sop) : Prop :=
  match x with SBounds _ _ | SValue _ _ | STemplateBounds _ _ | SLevel _ => False | _ => True end.

(** Bounds as their constructors leave them, values with usable units. *)
Definition sound (w : world) : Prop := (forall b, good_bounds (w_bounds w b)) /\ (forall v, BoundsFullSpec.value_unit (w_values w v)).
Definition sound_op (x : sop) : Prop :=
  match x with SBounds _ b => good_bounds b | SValue _ v => BoundsFullSpec.value_unit v | _ => True end.

(** Two worlds that differ in nothing but messages. *)
Definition same_world (w w' : world) : Prop :=
  (forall r, w_bounds w' r = w_bounds w r) /\ (forall r, w_values w' r = w_values w r) /\ (forall r, w_templates w' r = w_templates w r) /\
  (forall r, w_attrs w' r = w_attrs w r) /\ (forall r, w_entries w' r = w_entries w r) /\ (forall r, w_objects w' r = w_objects w r) /\ w_level w' = w_level w.
