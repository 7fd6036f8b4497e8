(** What assigning to a two-sided reference should do, in every state and with every value. *)
From Coq Require Import String List Bool Arith.
From Verif Require Import Base GraphModel GraphSpec.
Import ListNotations.
Open Scope string_scope.
Open Scope list_scope.

(** [x.f] is [p], an object of class [pk]. *)
Definition holds (h : heap) (x : oid) (f : string) (pk : ekind) (p : oid) : Prop := fval h x f = PRef p /\ kind_at h p = Some pk.

(** [h'] has the objects of [h], with their classes and uids; only the attributes in [changed] may differ. *)
Definition same_but (h h' : heap) (changed : oid -> string -> Prop) : Prop :=
  length h' = length h /\ (forall o, kind_at h' o = kind_at h o)
  /\ (forall o, option_map e_uids (hget h' o) = option_map e_uids (hget h o))
  /\ forall o f, ~ changed o f -> fval h' o f = fval h o f.

(** Assigning [v] to the process of a material [m]: the process held before, if any, loses its
    output, also if the assignment is then rejected; if it is accepted, the two name each other. *)
Record process_effect (h : heap) (m : oid) (pk : ekind) (v : pv) (accepted : bool) (h' : heap) : Prop := {
  pe_process : accepted = true -> fval h' m "process" = v;
  pe_new : forall p, accepted = true -> v = PRef p -> fval h' p "output_material" = PRef m;
  pe_old : forall q, holds h m "process" pk q -> accepted = false \/ v <> PRef q -> fval h' q "output_material" = PNone;
  pe_rest : same_but h h' (fun o f =>
    (accepted = true /\ o = m /\ f = "process")
    \/ (f = "output_material" /\ ((accepted = true /\ v = PRef o) \/ holds h m "process" pk o))) }.

(** [l'] is [l] without its first element that satisfies [P]. *)
Definition without_first (P : pv -> Prop) (l l' : list pv) : Prop :=
  exists a y b, l = a ++ y :: b /\ P y /\ (forall z, In z a -> ~ P z) /\ l' = a ++ b.

(** What [list.remove(x)] takes for [x]. *)
Definition taken_for (eq : heap -> pv -> oid -> bool) (h : heap) (x : oid) (y : pv) : Prop := y = PRef x \/ eq h y x = true.

(** [x] refers to an object whose list has nothing that could be taken for [x]. *)
Definition lost (eq : heap -> pv -> oid -> bool) (h : heap) (x : oid) (cf : string) (pk : ekind) (lf : string) : Prop :=
  exists p l, holds h x cf pk p /\ fval h p lf = PList l /\ forall y, In y l -> ~ taken_for eq h x y.

(** Assigning [v] to the reference [cf] of [x]: the list of the object referred to before loses one
    item, also if the assignment is then rejected; if it is accepted, [x] is put at the end of the
    list of the object assigned. *)
Record list_effect (eq : heap -> pv -> oid -> bool) (h : heap) (x : oid) (cf : string) (pk : ekind) (lf : string) (v : pv)
    (accepted : bool) (h' : heap) : Prop := {
  le_ref : accepted = true -> fval h' x cf = v;
  le_old : forall p l, holds h x cf pk p -> fval h p lf = PList l -> exists l', without_first (taken_for eq h x) l l'
    /\ (accepted = true -> v = PRef p -> fval h' p lf = PList (l' ++ [PRef x]))
    /\ (accepted = false \/ v <> PRef p -> fval h' p lf = PList l');
  le_new : forall p l, accepted = true -> v = PRef p -> ~ holds h x cf pk p -> fval h p lf = PList l -> fval h' p lf = PList (l ++ [PRef x]);
  le_rest : same_but h h' (fun o f =>
    (accepted = true /\ o = x /\ f = cf)
    \/ (f = lf /\ ((accepted = true /\ v = PRef o) \/ holds h x cf pk o))) }.

(** The objects of class [ck] whose [cf] is [p]. *)
Definition refers_to (h : heap) (ck : ekind) (cf : string) (p : oid) (x : oid) : bool :=
  match kind_at h x with
  | Some k => if ekind_eq_dec k ck then match fval h x cf with PRef q => Nat.eqb q p | _ => false end else false
  | None => false
  end.
Definition referring (h : heap) (ck : ekind) (cf : string) (p : oid) : list oid := filter (refers_to h ck cf p) (seq 0 (length h)).

(** Nothing else in the list of [p] compares equal to [x]. *)
Definition unlike (eq : heap -> pv -> oid -> bool) (x p : oid) (lf : string) (h : heap) : Prop :=
  forall l y, fval h p lf = PList l -> In y l -> y <> PRef x -> eq h y x = false.
