(** What runs should show of their specs, and what references may hold. *)
From Coq Require Import String List Bool.
From Verif Require Import Base GraphModel GraphSpec ViewModel.
Import ListNotations.
Open Scope string_scope.
Open Scope list_scope.

(** Nothing, a link, or an object of class [pk]. *)
Definition admissible (h : heap) (pk : ekind) (v : pv) : Prop :=
  v = PNone \/ (exists s i, v = PLink s i) \/ (exists p, v = PRef p /\ kind_at h p = Some pk).

Definition references_typed (h : heap) : Prop :=
  forall o k f pk, kind_at h o = Some k -> asked_kind k f pk -> admissible h pk (fval h o f).

(** What the read-only side of a relation may hold. *)
Definition outputs_typed (h : heap) : Prop :=
  forall mk pk p, couple mk pk -> kind_at h p = Some pk ->
    fval h p "output_material" = PNone \/ exists m, fval h p "output_material" = PRef m /\ kind_at h m = Some mk.

Definition members_typed (h : heap) : Prop :=
  forall ck cf pk lf p, listed ck cf pk lf -> kind_at h p = Some pk ->
    exists xs, fval h p lf = PList (map PRef xs) /\ forall x, In x xs -> kind_at h x = Some ck.

Definition text (v : pv) : Prop := exists s, v = PAtom (AStr s).
Definition texts (v : pv) : Prop := exists l, v = PList (map (fun s => PAtom (AStr s)) l).

(** [i] is an ingredient run and its spec is the object [s]. *)
Definition realises (h : heap) (i s : oid) : Prop := kind_at h i = Some KIngR /\ fval h i "spec" = PRef s.
(** [i] is an ingredient run whose spec is no object (None or a link). *)
Definition on_its_own (h : heap) (i : oid) : Prop := kind_at h i = Some KIngR /\ forall s, fval h i "spec" <> PRef s.

(** Which template class goes with which class of runs. *)
Definition template_class (k t : ekind) : Prop :=
  In (k, t) [(KMatR, KMatT); (KProcR, KProcT); (KMeasR, KMeasT); (KMatS, KMatT); (KProcS, KProcT); (KMeasS, KMeasT)].

Section Histories.
  Variable eq : heap -> pv -> oid -> bool.

  Definition reachable (h : heap) : Prop := exists ops, h = nrun eq [] ops.

  (** [P] holds of every state a history passes through, the last one included. *)
  Fixpoint always (P : heap -> Prop) (h : heap) (ops : list nop) : Prop :=
    match ops with
    | [] => P h
    | op :: r => P h /\ always P (fst (nstep eq h op)) r
    end.
End Histories.
