(** What the builders should do, in terms of the objects of the graph before and after. *)
From Coq Require Import String List Bool Arith ZArith QArith.
From Verif Require Import Base BoundsModel BoundsSpec GraphModel GraphSpec BuildModel.
From Verif Require DictModel.
Import ListNotations.
Open Scope string_scope.
Open Scope nat_scope.
Open Scope list_scope.

(** Every object of [h] is in [g], unchanged. *)
Definition kept (h g : heap) : Prop := forall o, o < length h -> hget g o = hget h o.

Definition text (v : pv) : Prop := exists s, v = PAtom (AStr s).

(** [v] may be assigned to a reference to an object of class [k]. *)
Definition fits (h : heap) (k : ekind) (v : pv) : Prop :=
  v = PNone \/ (exists s i, v = PLink s i) \/ (exists o, v = PRef o /\ kind_at h o = Some k).

(** ** make_node *)

(** The name of the new process: as given, else the name of its template, else that of the material. *)
Definition process_called (h : heap) (name process_name template n : pv) : Prop :=
  (process_name <> PNone /\ n = process_name)
  \/ (process_name = PNone /\ template = PNone /\ n = name)
  \/ (process_name = PNone /\ exists t, template = PRef t /\ hget h t <> None /\ n = read h t "name").

(** The material run [m] with its spec, its process and the process's spec, all linked. *)
Record node (h : heap) (m : oid) (name process_name process_template material_template : pv) (ms p ps : oid) : Prop := mkNode {
  nd_kinds : kind_at h m = Some KMatR /\ kind_at h ms = Some KMatS /\ kind_at h p = Some KProcR /\ kind_at h ps = Some KProcS;
  nd_specs : fval h m "spec" = PRef ms /\ fval h p "spec" = PRef ps;
  nd_processes : fval h m "process" = PRef p /\ fval h ms "process" = PRef ps;
  nd_outputs : fval h p "output_material" = PRef m /\ fval h ps "output_material" = PRef ms;
  nd_templates : fval h ms "template" = material_template /\ fval h ps "template" = process_template;
  nd_names : read h m "name" = name /\ read h ms "name" = name /\ read h p "name" = process_name /\ read h ps "name" = process_name;
  nd_empty : fval h p "ingredients" = PList [] /\ fval h ps "ingredients" = PList [] /\ fval h m "measurements" = PList [] }.

(** ** add_edge *)

(** [b] can take an ingredient: it has a process, a spec object, and the latter has a process. *)
Definition can_take (h : heap) (b : oid) : Prop :=
  kind_at h b = Some KMatR /\ fval h b "process" <> PNone
  /\ exists bs, fval h b "spec" = PRef bs /\ kind_at h bs = Some KMatS /\ fval h bs "process" <> PNone.

(** [a] can be an ingredient: it has a spec. *)
Definition can_be_used (h : heap) (a : oid) : Prop := kind_at h a = Some KMatR /\ fval h a "spec" <> PNone.

(** The name of the new ingredient: as given, else that of the material. *)
Definition ingredient_called (h : heap) (a : oid) (name n : pv) : Prop :=
  (name <> PNone /\ n = name) \/ (name = PNone /\ n = read h a "name").

(** [g] is [h] with one ingredient run [r] and its spec [s] more: [r] consumes [a] in the process of
    [b], [s] consumes the spec of [a] in the process of the spec of [b]; each is added at the end of
    the ingredients of its process; nothing else of [h] changes. *)
Record edge (h : heap) (a b : oid) (n : pv) (g : heap) (r s : oid) : Prop := mkEdge {
  ed_new : length g = length h + 2 /\ length h <= r < length g /\ length h <= s < length g /\ r <> s;
  ed_kinds : kind_at g r = Some KIngR /\ kind_at g s = Some KIngS;
  ed_spec : fval g r "spec" = PRef s;
  ed_name : read g r "name" = n /\ read g s "name" = n;
  ed_material : fval g r "material" = PRef a /\ fval g s "material" = fval h a "spec";
  ed_process : fval g r "process" = fval h b "process"
    /\ (forall bs, fval h b "spec" = PRef bs -> fval g s "process" = fval h bs "process");
  ed_run_list : forall p, fval h b "process" = PRef p ->
    exists l, fval h p "ingredients" = PList l /\ fval g p "ingredients" = PList (l ++ [PRef r]);
  ed_spec_list : forall bs q, fval h b "spec" = PRef bs -> fval h bs "process" = PRef q ->
    exists l, fval h q "ingredients" = PList l /\ fval g q "ingredients" = PList (l ++ [PRef s]);
  ed_kept : forall o, o < length h -> kind_at g o = kind_at h o /\ option_map e_uids (hget g o) = option_map e_uids (hget h o);
  ed_frame : forall o f, o < length h ->
    fval g o f = fval h o f
    \/ (f = "ingredients" /\ (fval h b "process" = PRef o \/ exists bs, fval h b "spec" = PRef bs /\ fval h bs "process" = PRef o)) }.

Section Quantities.
  Variable units : pv -> res pv.
  Variable refuses : string -> pv -> option exn.

  (** The real value of a number in given units. *)
  Definition real_of (q : Q) (u w : pv) : Prop :=
    exists u', units u = Ok u' /\ w = PObj "nominal_real" [("nominal", PAtom (AFloat q)); ("units", u')].

  Definition not_float (v : pv) : Prop := v <> PNone /\ forall q, v <> PAtom (AFloat q).

  (** [w] is what the ingredient should hold when the fraction [f] is given as [v]. *)
  Definition fraction_given (f : string) (v w : pv) : Prop :=
    (v = PNone /\ w = PNone)
    \/ (refuses f w = None /\ ((exists q, v = PAtom (AFloat q) /\ real_of q (PAtom (AStr "")) w) \/ (not_float v /\ w = v))).

  (** Likewise for the absolute quantity, given with units exactly when it is a number. *)
  Definition absolute_given (v u w : pv) : Prop :=
    (v = PNone /\ u = PNone /\ w = PNone)
    \/ (refuses "absolute_quantity" w = None /\
        ((exists q, v = PAtom (AFloat q) /\ u <> PNone /\ real_of q u w) \/ (not_float v /\ u = PNone /\ w = v))).
End Quantities.

(** ** add_measurement *)

(** The name of the new measurement: as given, else that of its template. *)
Definition measurement_called (h : heap) (name template n : pv) : Prop :=
  (name <> PNone /\ n = name)
  \/ (name = PNone /\ exists t, template = PRef t /\ hget h t <> None /\ n = read h t "name").

Definition of_type (t : string) (v : pv) : bool := match v with PObj t' _ => String.eqb t' t | _ => false end.

(** [g] is [h] with one measurement run [r] of [m] and its spec [s] more, holding the attributes. *)
Record measured (h : heap) (m : oid) (n template : pv) (attributes : list pv) (g : heap) (r s : oid) : Prop := mkMeasured {
  me_new : length g = length h + 2 /\ length h <= r < length g /\ length h <= s < length g /\ r <> s;
  me_kinds : kind_at g r = Some KMeasR /\ kind_at g s = Some KMeasS;
  me_spec : fval g r "spec" = PRef s /\ fval g s "template" = template;
  me_name : read g r "name" = n /\ read g s "name" = n;
  me_material : fval g r "material" = PRef m;
  me_list : exists l, fval h m "measurements" = PList l /\ fval g m "measurements" = PList (l ++ [PRef r]);
  me_attributes : fval g r "properties" = PList (filter (of_type "property") attributes)
    /\ fval g r "conditions" = PList (filter (of_type "condition") attributes)
    /\ fval g r "parameters" = PList (filter (of_type "parameter") attributes);
  me_kept : forall o, o < length h -> kind_at g o = kind_at h o /\ option_map e_uids (hget g o) = option_map e_uids (hget h o);
  me_frame : forall o f, o < length h -> fval g o f = fval h o f \/ (f = "measurements" /\ o = m) }.

(** [v] is no reference to an object that does not exist. *)
Definition known (h : heap) (v : pv) : Prop := forall o, v = PRef o -> o < length h.

(** Every process has a list of ingredients, every material run a list of measurements. *)
Definition has_lists (h : heap) : Prop := forall o k f, kind_at h o = Some k ->
  In (k, f) [(KProcR, "ingredients"); (KProcS, "ingredients"); (KMatR, "measurements")] -> exists l, fval h o f = PList l.

(** ** add_attribute *)

(** The lists of an object of class [k] an attribute of type [t] may go to. *)
Definition goes_to (k : ekind) (t f : string) : Prop :=
  In (k, t, f)
    [ (KProcS, "condition", "conditions"); (KProcS, "parameter", "parameters")
    ; (KProcR, "condition", "conditions"); (KProcR, "parameter", "parameters")
    ; (KMeasS, "condition", "conditions"); (KMeasS, "parameter", "parameters")
    ; (KMeasR, "property", "properties"); (KMeasR, "condition", "conditions"); (KMeasR, "parameter", "parameters") ].

Definition alone (a : pv) : pv := PObj "property_and_conditions" [("property", a); ("conditions", PList [])].

(** The list [l] of properties of a material spec, or of attributes of another object of class [k], after
    the attribute [a] of type [t] has been added. *)
Definition extended (k : ekind) (t : string) (a : pv) (f : string) (l l' : list pv) : Prop :=
  (goes_to k t f /\ l' = l ++ [a])
  \/ (k = KMatS /\ f = "properties" /\ t = "property" /\ l' = l ++ [alone a])
  \/ (k = KMatS /\ f = "properties" /\ t = "condition" /\
      exists pre ty p cs, l = pre ++ [PObj ty [("property", p); ("conditions", PList cs)]]
        /\ l' = pre ++ [PObj ty [("property", p); ("conditions", PList (cs ++ [a]))]]).

(** The properties of material specs are properties with lists of conditions. *)
Definition properties_shaped (h : heap) : Prop := forall o l p, kind_at h o = Some KMatS -> fval h o "properties" = PList l -> In p l ->
  exists ty q cs, p = PObj ty [("property", q); ("conditions", PList cs)].

(** ** make_value *)

(** The double a number is converted to. *)
Definition double_of (n : pynum) (q : Q) : Prop :=
  match n with PyInt z => q = inject_Z (DictModel.round53 z) | PyFloat x => q = x | _ => False end.

(** The number or string is within the bounds; a number given for real bounds is taken in their units,
    as a double. *)
Definition inside (x : primitive) (b : bounds) : Prop :=
  match b, x with
  | BReal lo hi _, MNum n => exists q, double_of n q /\ (lo <= q /\ q <= hi)%Q
  | BInt lo hi, MNum n => exists q, num_value n = Some q /\ (inject_Z lo <= q /\ q <= inject_Z hi)%Q
  | BCat cs, MStr s => In s cs
  | BComp cs, MStr s => forall t, element_token s t -> In t cs
  | BMol, _ => True
  | _, _ => False
  end.
