(** Specification for C10-C14. *)
From Coq Require Import String List Bool ZArith QArith.
From Verif Require Import Base BoundsModel BoundsSpec VlModel ValidationModel.
Import ListNotations.
Open Scope list_scope.

(** The value is inside the bounds: same kind, and everything it may be is admitted. *)
Definition fits (v : value) (b : bounds) : Prop :=
  value_kind v = bounds_kind b /\ forall p, takes v p -> admits b p.

(** ** C10 *)
Definition respects (a : attr) : Prop :=
  forall v t, a_value a = Some v -> a_template a = Some (RTmpl t) -> fits v (t_bounds t).

(** Values with all their information, templates with bounds as constructors leave them. *)
Definition good_varg (x : varg) : Prop := match x with VVal v => good_value v | _ => True end.
Definition good_targ (x : targ) : Prop := match x with TRef (RTmpl t) => good_bounds (t_bounds t) | _ => True end.
Definition good_aop (o : aop) : Prop :=
  match o with ASetValue x => good_varg x | ASetTemplate x => good_targ x end.
Definition good_attr (a : attr) : Prop :=
  (forall v, a_value a = Some v -> good_value v) /\
  (forall t, a_template a = Some (RTmpl t) -> good_bounds (t_bounds t)).

(** An assignment of the right type: a value or None; a template of this kind, a link or None. *)
Definition well_typed (k : akind) (o : aop) : Prop :=
  match o with
  | ASetValue VOther | ASetTemplate TOther => False
  | ASetTemplate (TRef (RTmpl t)) => t_kind t = k
  | _ => True
  end.
(** What the attribute should be afterwards. *)
Definition assigned (o : aop) (a : attr) : attr :=
  match o with
  | ASetValue (VVal v) => mkAttr (a_name a) (Some v) (a_template a)
  | ASetValue _ => mkAttr (a_name a) None (a_template a)
  | ASetTemplate (TRef t) => mkAttr (a_name a) (a_value a) (Some t)
  | ASetTemplate _ => mkAttr (a_name a) (a_value a) None
  end.
(** A value supplied while the template is only a link. *)
Definition unresolved (a : attr) (o : aop) : Prop :=
  exists v s i, o = ASetValue (VVal v) /\ a_template a = Some (RLink s i).

(** ** C11 *)
Section C11.
  Variable same : tref -> tref -> bool.
  Variable k : akind.

  (** Entry [e] is about attribute [a]: same template or, for an attribute without template, a
      template with the attribute's name. *)
  Definition about (a : attr) (e : entry) : Prop :=
    match a_template a with
    | Some t => same t (fst e) = true
    | None => exists t, fst e = RTmpl t /\ t_name t = a_name a
    end.
  (** The entry that counts is the first such. *)
  Definition first_about (es : list entry) (a : attr) (e : entry) : Prop :=
    exists pre post, es = pre ++ e :: post /\ about a e /\ Forall (fun e' => ~ about a e') pre.
  (** The bounds it imposes: the recorded range or else the template's own. *)
  Inductive imposes : entry -> bounds -> Prop :=
  | im_range : forall r b, imposes (r, Some b) b
  | im_own : forall t, t_kind t = k -> imposes (RTmpl t, None) (t_bounds t).

  Definition admitted (es : list entry) (a : attr) : Prop :=
    forall e b, first_about es a e -> imposes e b -> exists v, a_value a = Some v /\ fits v b.

  Definition mentioned (es : list entry) (a : attr) : Prop := exists e, In e es /\ about a e.

  (** Entries are about template objects (as when the template was not read from a file with
      unresolved links). *)
  Definition resolved (es : list entry) : Prop := forall s i b, ~ In (RLink s i, b) es.
  Definition good_entries (es : list entry) : Prop :=
    forall e b, In e es -> imposes e b -> good_bounds b.
  Definition complete (a : attr) : Prop := forall v, a_value a = Some v -> good_value v.
End C11.

(** The elements an operation tries to add. *)
Definition supplied {A} (o : op A) : list A :=
  match o with
  | OSetitem _ x | OAppend x | OInsert _ x => [x]
  | OExtend (Some (Reusable l)) | OExtend (Some (OneShot l)) => l
  | OIadd l => l
  | _ => []
  end.
Definition arg_supplied {A} (x : arg A) : list A :=
  match x with AScalar a => [a] | AIter (Reusable l) | AIter (OneShot l) => l | _ => [] end.
Definition oop_supplied (o : oop) : list attr :=
  match o with LList o => supplied o | LAssign x => arg_supplied x | _ => [] end.
(** Everything but [+=], which no typed list checks (vl_iadd_refuted). *)
Definition no_iadd {A} (o : op A) : Prop := match o with OIadd _ => False | _ => True end.
Definition oop_no_iadd (o : oop) : Prop := match o with LList o => no_iadd o | _ => True end.
(** The failures every list has: a missing index, a non-iterable. *)
Definition list_failure {A} (e : exn) (o : op A) : Prop :=
  match o with
  | OSetitem _ _ | ODelitem _ => e = IndexError
  | OExtend None => e = TypeError
  | _ => False
  end.

(** ** C12 *)
(** The (template, range) pair an acceptable spelling stands for. *)
Inductive spells (k : akind) : hval -> entry -> Prop :=
| sp_template : forall t, t_kind t = k -> spells k (HTmpl t) (RTmpl t, None)
| sp_link : forall s i, spells k (HLink s i) (RLink s i, None)
| sp_template_none : forall t, spells k (HSeq [HTmpl t; HNone]) (RTmpl t, None)
| sp_template_range : forall t b, spells k (HSeq [HTmpl t; HBounds b]) (RTmpl t, Some b)
| sp_link_none : forall s i, spells k (HSeq [HLink s i; HNone]) (RLink s i, None)
| sp_link_range : forall s i b, spells k (HSeq [HLink s i; HBounds b]) (RLink s i, Some b).
Definition refines (e : entry) : Prop :=
  match e with (RTmpl t, Some b) => inside b (t_bounds t) | _ => True end.
Definition good_entry (e : entry) : Prop :=
  match e with (RTmpl t, Some b) => good_bounds b /\ good_bounds (t_bounds t) | _ => True end.

(** ** C13 *)
Definition dimensionless_unit (u : uunit) : Prop := udim u = [] /\ uscale u == 1 /\ uoff u == 0.
(** Every quantity the value may be is a pure number between 0 and 1. *)
Definition is_fraction (v : value) : Prop :=
  forall p, takes v p -> exists m, p = PQuantity [] m /\ 0 <= m /\ m <= 1.
Definition get_q (q : quantities) (f : qfield) : option value :=
  match f with QMass => q_mass q | QVolume => q_volume q | QNumber => q_number q | QAbsolute => q_absolute q end.
