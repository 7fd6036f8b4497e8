(** What the two-sided references of the object graph should satisfy. *)
From Coq Require Import String List Bool Arith.
From Verif Require Import Base GraphModel.
Import ListNotations.
Open Scope string_scope.
Open Scope list_scope.

(** The two material/process couples: runs with runs, specs with specs. *)
Definition couple (mk pk : ekind) : Prop := (mk = KMatR /\ pk = KProcR) \/ (mk = KMatS /\ pk = KProcS).

(** The three list-backed relations: (class, its reference field, class referred to, its list). *)
Definition listed (ck : ekind) (cf : string) (pk : ekind) (lf : string) : Prop :=
  (ck, cf, pk, lf) = (KMeasR, "material", KMatR, "measurements")
  \/ (ck, cf, pk, lf) = (KIngR, "process", KProcR, "ingredients")
  \/ (ck, cf, pk, lf) = (KIngS, "process", KProcS, "ingredients").

(** [m.process is p] exactly when [p.output_material is m]. *)
Definition processes_agree (h : heap) : Prop :=
  forall mk pk m p, couple mk pk ->
    (kind_at h m = Some mk /\ fval h m "process" = PRef p)
    <-> (kind_at h p = Some pk /\ fval h p "output_material" = PRef m).

(** Half of it: what a process names as its output indeed names the process. *)
Definition outputs_agree (h : heap) : Prop :=
  forall mk pk m p, couple mk pk ->
    kind_at h p = Some pk -> fval h p "output_material" = PRef m ->
    kind_at h m = Some mk /\ fval h m "process" = PRef p.

(** Each list holds exactly the objects that refer to its owner, each once. *)
Definition lists_mirror (h : heap) : Prop :=
  forall ck cf pk lf, listed ck cf pk lf ->
    (forall p, kind_at h p = Some pk ->
       exists xs, fval h p lf = PList (map PRef xs) /\ NoDup xs /\
         forall x, In x xs <-> (kind_at h x = Some ck /\ fval h x cf = PRef p))
    /\ (forall x p, kind_at h x = Some ck -> fval h x cf = PRef p -> kind_at h p = Some pk).

(** The value [v] has the type that field [f] of [o] asks for: None, a link, or an object of
    the right class. *)
Definition asked_kind (k : ekind) (f : string) (pk : ekind) : Prop :=
  In (k, f, pk)
    [ (KMatR, "process", KProcR); (KMatR, "spec", KMatS); (KMatS, "process", KProcS); (KMatS, "template", KMatT)
    ; (KMeasR, "material", KMatR); (KMeasR, "spec", KMeasS); (KMeasS, "template", KMeasT)
    ; (KIngR, "process", KProcR); (KIngR, "material", KMatR); (KIngR, "spec", KIngS)
    ; (KIngS, "process", KProcS); (KIngS, "material", KMatS)
    ; (KProcR, "spec", KProcS); (KProcS, "template", KProcT) ].

Definition well_typed (h : heap) (o : oid) (f : string) (v : pv) : Prop :=
  exists k pk, kind_at h o = Some k /\ asked_kind k f pk /\
    (v = PNone \/ (exists s i, v = PLink s i) \/ (exists p, v = PRef p /\ kind_at h p = Some pk)).

(** [o.f] currently holds an object (rather than None or a link). *)
Definition attached (h : heap) (o : oid) (f : string) : Prop := exists p, fval h o f = PRef p.

(** The fields with a list or an output reference on the other side. *)
Definition two_sided (k : ekind) (f : string) : Prop :=
  (f = "process" /\ (k = KMatR \/ k = KMatS \/ k = KIngR \/ k = KIngS)) \/ (f = "material" /\ k = KMeasR).

(** No process is assigned to a second material while a first one holds it. *)
Definition not_stolen (h : heap) (op : gop) : Prop :=
  forall m p mk m', op = GSet m "process" (PRef p) -> kind_at h m = Some mk -> (mk = KMatR \/ mk = KMatS) ->
    fval h p "output_material" = PRef m' -> m' = m.

(** A wrongly typed value is not assigned to a two-sided field that holds an object. *)
Definition no_reject (h : heap) (op : gop) : Prop :=
  forall o f v k, op = GSet o f v -> kind_at h o = Some k -> two_sided k f -> attached h o f -> well_typed h o f v.

(** When an object moves away from a list, no other member of that list compares equal to it. *)
Definition no_twin (eq : heap -> pv -> oid -> bool) (h : heap) (op : gop) : Prop :=
  forall x cf v ck pk lf p l y, op = GSet x cf v -> kind_at h x = Some ck -> listed ck cf pk lf ->
    fval h x cf = PRef p -> fval h p lf = PList l -> In y l -> y <> PRef x -> eq h y x = false.

Section Histories.
  Variable eq : heap -> pv -> oid -> bool.
  (** A condition on every step of a history. *)
  Fixpoint throughout (P : heap -> gop -> Prop) (h : heap) (ops : list gop) : Prop :=
    match ops with
    | [] => True
    | op :: r => P h op /\ throughout P (fst (gstep eq h op)) r
    end.
End Histories.
