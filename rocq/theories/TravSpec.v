(** What graph traversals should visit. *)
From Coq Require Import String List Bool.
From Verif Require Import Base GraphModel EqSpec.
Import ListNotations.
Open Scope list_scope.

(** [w] is [v] or lies in it, at any depth, without entering entities. *)
Inductive within : pv -> pv -> Prop :=
| w_self : forall v, within v v
| w_list : forall w v l, In v l -> within w v -> within w (PList l)
| w_tuple : forall w v l, In v l -> within w v -> within w (PTuple l)
| w_dict : forall w k v l, In (k, v) l -> within w v -> within w (PDict l)
| w_obj : forall w k v t l, In (k, v) l -> within w v -> within w (PObj t l).

Section Reach.
  Variable h : heap.
  Variable keep : ekind -> string -> bool.
  Variable obj : pv.

  (** The entities in [obj], those in their fields (if kept), and so on. *)
  Inductive reach : oid -> Prop :=
  | r_obj : forall o, mentions obj o -> reach o
  | r_field : forall o e f v o', reach o -> hget h o = Some e -> In (f, v) (e_fields e) -> keep (e_kind e) f = true ->
      mentions v o' -> reach o'.

  (** The values met on the way. *)
  Inductive met : pv -> Prop :=
  | m_obj : forall w, within w obj -> met w
  | m_field : forall o e f v w, reach o -> hget h o = Some e -> In (f, v) (e_fields e) -> keep (e_kind e) f = true ->
      within w v -> met w.
End Reach.

(** A value that Python can hash: no list or dictionary in it except within objects. *)
Inductive can_hash : pv -> Prop :=
| h_none : can_hash PNone
| h_atom : forall a, can_hash (PAtom a)
| h_link : forall s i, can_hash (PLink s i)
| h_ref : forall o, can_hash (PRef o)
| h_obj : forall t l, can_hash (PObj t l)
| h_tuple : forall l, Forall can_hash l -> can_hash (PTuple l).

Definition everything : ekind -> string -> bool := fun _ _ => true.

(** The read-only sides of two-sided references, which a one-directional traversal leaves out. *)
Definition read_only (k : ekind) (f : string) : Prop :=
  (k = KMatR /\ f = "measurements"%string)
  \/ ((k = KProcR \/ k = KProcS) /\ (f = "output_material"%string \/ f = "ingredients"%string)).

(** No tuple met on the way contains a list or a dictionary. *)
Definition hashable_tuples (h : heap) (keep : ekind -> string -> bool) (obj : pv) : Prop :=
  forall l, met h keep obj (PTuple l) -> can_hash (PTuple l).
