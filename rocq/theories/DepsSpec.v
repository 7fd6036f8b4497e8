(** What the direct dependencies of an entity are. *)
From Coq Require Import String List Bool.
From Verif Require Import Base GraphModel.
Import ListNotations.
Open Scope string_scope.
Open Scope list_scope.

(** The entity or link [d] occurs in the value [v], at any depth of lists, tuples, dictionaries and
    serialisable objects, but not inside another entity. *)
Inductive mentions (d : pv) : pv -> Prop :=
| m_ref : forall o, d = PRef o -> mentions d (PRef o)
| m_link : forall s i, d = PLink s i -> mentions d (PLink s i)
| m_list : forall l x, In x l -> mentions d x -> mentions d (PList l)
| m_tuple : forall l x, In x l -> mentions d x -> mentions d (PTuple l)
| m_dict : forall l k x, In (k, x) l -> mentions d x -> mentions d (PDict l)
| m_obj : forall t l k x, In (k, x) l -> mentions d x -> mentions d (PObj t l).

(** The fields that are kept up by the other side's setter and cannot be assigned. *)
Definition back_reference (k : ekind) (f : string) : Prop :=
  In (k, f) [(KMatR, "measurements"); (KProcR, "output_material"); (KProcR, "ingredients");
             (KProcS, "output_material"); (KProcS, "ingredients")].

(** [d] is referred to directly from a writable field of [o]. *)
Definition depends_on (h : heap) (o : oid) (d : pv) : Prop :=
  exists e f v, hget h o = Some e /\ In (f, v) (e_fields e) /\ ~ back_reference (e_kind e) f /\ mentions d v.

(** ** What the fields hold *)

Inductive contents := Reference | Attributes | PropertiesAndConditions | TemplatesAndBounds | Derived | Data.

(** The documented types of the fields (the constructors' signatures). *)
Definition contents_of (k : ekind) (f : string) : contents :=
  match k with
  | KPropT | KCondT | KParamT => Data
  | KMatT => if String.eqb f "properties" then TemplatesAndBounds else Data
  | KProcT => if String.eqb f "conditions" then TemplatesAndBounds
              else if String.eqb f "parameters" then TemplatesAndBounds else Data
  | KMeasT => if String.eqb f "properties" then TemplatesAndBounds
              else if String.eqb f "conditions" then TemplatesAndBounds
              else if String.eqb f "parameters" then TemplatesAndBounds else Data
  | KMatS => if String.eqb f "template" then Reference else if String.eqb f "process" then Reference
             else if String.eqb f "properties" then PropertiesAndConditions else Data
  | KProcS => if String.eqb f "template" then Reference
              else if String.eqb f "parameters" then Attributes else if String.eqb f "conditions" then Attributes
              else if String.eqb f "output_material" then Derived else if String.eqb f "ingredients" then Derived else Data
  | KMeasS => if String.eqb f "template" then Reference
              else if String.eqb f "parameters" then Attributes else if String.eqb f "conditions" then Attributes else Data
  | KIngS => if String.eqb f "material" then Reference else if String.eqb f "process" then Reference else Data
  | KMatR => if String.eqb f "spec" then Reference else if String.eqb f "process" then Reference
             else if String.eqb f "measurements" then Derived else Data
  | KProcR => if String.eqb f "spec" then Reference
              else if String.eqb f "parameters" then Attributes else if String.eqb f "conditions" then Attributes
              else if String.eqb f "output_material" then Derived else if String.eqb f "ingredients" then Derived else Data
  | KMeasR => if String.eqb f "spec" then Reference else if String.eqb f "material" then Reference
              else if String.eqb f "properties" then Attributes
              else if String.eqb f "parameters" then Attributes else if String.eqb f "conditions" then Attributes else Data
  | KIngR => if String.eqb f "spec" then Reference else if String.eqb f "material" then Reference
             else if String.eqb f "process" then Reference else Data
  end.

(** None, a link or an entity. *)
Definition is_reference (v : pv) : Prop := v = PNone \/ (exists s i, v = PLink s i) \/ exists o, v = PRef o.

(** Strings, numbers, bounds, values, sources, file links: no entity and no link inside. *)
Definition is_data (v : pv) : Prop := forall d, ~ mentions d v.

(** A property, condition or parameter: its template is a reference, the rest data. *)
Definition is_attribute (t : string) (v : pv) : Prop :=
  exists fs, v = PObj t fs /\ NoDup (map fst fs) /\ In "template" (map fst fs) /\
    forall f x, In (f, x) fs -> (f = "template" -> is_reference x) /\ (f <> "template" -> is_data x).

Definition is_attributes (v : pv) : Prop :=
  exists l, v = PList l /\ forall x, In x l -> exists t, In t ["property"; "condition"; "parameter"] /\ is_attribute t x.

(** A property with conditions. *)
Definition is_property_and_conditions (v : pv) : Prop :=
  exists p cs, v = PObj "property_and_conditions" [("property", p); ("conditions", PList cs)] /\
    is_attribute "property" p /\ forall c, In c cs -> is_attribute "condition" c.

(** An attribute template, or a link to one, and the bounds or None. *)
Definition is_pair (v : pv) : Prop :=
  exists t b, (v = PTuple [t; b] \/ v = PList [t; b]) /\ is_reference t /\ t <> PNone /\ is_data b.

Definition holds (c : contents) (v : pv) : Prop :=
  match c with
  | Reference => is_reference v
  | Attributes => is_attributes v
  | PropertiesAndConditions => exists l, v = PList l /\ forall x, In x l -> is_property_and_conditions x
  | TemplatesAndBounds => exists l, v = PList l /\ forall x, In x l -> is_pair x
  | Derived => True
  | Data => is_data v
  end.

(** Every field of the entity holds what it is documented to hold, and the lists of attributes are
    there (constructors always make them). *)
Definition documented (e : entity) : Prop :=
  NoDup (map fst (e_fields e)) /\
  (forall f v, In (f, v) (e_fields e) -> holds (contents_of (e_kind e) f) v) /\
  (forall f, In (contents_of (e_kind e) f) [Attributes; PropertiesAndConditions; TemplatesAndBounds] -> In f (map fst (e_fields e))).
