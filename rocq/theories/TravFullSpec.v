(** What a traversal that calls a function on each entity should do. *)
From Coq Require Import String List Bool.
From Verif Require Import Base GraphModel EqSpec TravSpec.
Import ListNotations.
Open Scope list_scope.

Section Calls.
  Variable St : Type.
  (** A call on an entity: the state it leaves, and the exception if it raises. *)
  Variable func : oid -> St -> St * option exn.

  (** Calling the function on the entities of a list one after the other, from the first state to
      the second: either every call returns, or the last one raises. *)
  Inductive calls : list oid -> St -> St -> option exn -> Prop :=
  | c_none : forall st, calls [] st st None
  | c_raise : forall o st st' e, func o st = (st', Some e) -> calls [o] st st' (Some e)
  | c_next : forall o l st st1 st2 x, func o st = (st1, None) -> calls l st1 st2 x -> calls (o :: l) st st2 x.
End Calls.

(** Two graphs with the same entities, of the same classes and with the same field values. *)
Definition same_fields (h h' : heap) : Prop :=
  forall o, option_map (fun e => (e_kind e, e_fields e)) (hget h o) = option_map (fun e => (e_kind e, e_fields e)) (hget h' o).

(** The function does not change fields: it may change uids and its own state. *)
Definition keeps_fields {A} (func : oid -> heap * A -> (heap * A) * option exn) : Prop :=
  forall o st, same_fields (fst st) (fst (fst (func o st))).

Section Order.
  Variable h : heap.
  Variable keep : ekind -> string -> bool.
  Variable obj : pv.

  (** [w] lies in the object itself or in a field of one of the entities of [l]. *)
  Definition found_from (l : list oid) (w : pv) : Prop :=
    within w obj
    \/ exists p e f v, In p l /\ hget h p = Some e /\ In (f, v) (e_fields e) /\ keep (e_kind e) f = true /\ within w v.

  (** No entity occurs twice, and each lies in the object or in a field of an earlier one. *)
  Definition in_order_found (l : list oid) : Prop :=
    forall a o b, l = a ++ o :: b -> ~ In o a /\ found_from a (PRef o).
End Order.
