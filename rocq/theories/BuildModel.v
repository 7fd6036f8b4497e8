(** Model of gemd/builders/impl.py. *)
From Coq Require Import String List Bool Arith ZArith QArith.
From Verif Require Import Base PyStr BoundsModel ValuesModel ValidationModel GraphModel.
From Verif Require DictModel.
Import ListNotations.
Open Scope string_scope.
Open Scope list_scope.

(** ** Objects and their links *)

(** A call: the graph it leaves behind and what it returns or raises. *)
Definition act (A : Type) := heap -> heap * res A.
Definition ret {A} (a : A) : act A := fun h => (h, Ok a).
Definition raise {A} (e : exn) : act A := fun h => (h, Err e).
Definition seq {A B} (m : act A) (f : A -> act B) : act B :=
  fun h => match m h with (h', Ok a) => f a h' | (h', Err e) => (h', Err e) end.
Notation "x <- m ;; k" := (seq m (fun x => k)) (at level 100, m at next level, right associativity).
Notation "m ;; k" := (seq m (fun _ => k)) (at level 100, right associativity).

(** The attributes other than the references, as a constructor leaves them when it is given a name
    only: base_object.py:37-51 (name, notes, file_links), base_entity.py:17-19 (tags),
    has_conditions.py:19-21, has_parameters.py:19-21, has_properties.py:19-21 (lists),
    has_quantities.py:17-32, material_run.py:65-68, material_spec.py:65-66, has_source.py:10-12,
    ingredient_run.py:74, ingredient_spec.py:82-84. *)
Definition other_fields (k : ekind) (name : pv) : list (string * pv) :=
  [("name", name); ("tags", PList []); ("notes", PNone); ("file_links", PList [])]
  ++ match k with
     | KMatR => [("sample_type", PAtom (AStr "unknown"))]
     | KMatS => [("properties", PList [])]
     | KProcR => [("conditions", PList []); ("parameters", PList []); ("source", PNone)]
     | KProcS | KMeasS => [("conditions", PList []); ("parameters", PList [])]
     | KMeasR => [("properties", PList []); ("conditions", PList []); ("parameters", PList []); ("source", PNone)]
     | KIngS => [("labels", PList []); ("mass_fraction", PNone); ("volume_fraction", PNone); ("number_fraction", PNone); ("absolute_quantity", PNone)]
     | KIngR => [("labels", PNone); ("mass_fraction", PNone); ("volume_fraction", PNone); ("number_fraction", PNone); ("absolute_quantity", PNone)]
     | _ => []
     end.

Section Builders.
  (** Entity equality, as in [GraphModel]. *)
  Variable eq : heap -> pv -> oid -> bool.
  (** NominalReal's treatment of its units (continuous_value.py:37-42, units/impl.py parse_units): the
      units as stored, or the exception. *)
  Variable units : pv -> res pv.
  (** What assigning a value other than None to one of the four quantities of an ingredient raises, if
      anything (has_quantities.py:34-125, modelled in [ValidationModel]). *)
  Variable refuses : string -> pv -> option exn.
  (** What putting an attribute into one of the lists of an object raises, if anything
      (has_template_check_generator.py:77-89, modelled in [ValidationModel]). *)
  Variable rejects : heap -> oid -> string -> pv -> option exn.

  Definition is_none (v : pv) : bool := match v with PNone => true | _ => false end.
  Definition raise_if (e : option exn) : act unit := match e with None => ret tt | Some e => raise e end.
  Definition lift {A} (r : res A) : act A := fun h => (h, r).

  (** [o.f = v] *)
  Definition set_ref (o : oid) (f : string) (v : pv) : act unit :=
    fun h => match assign eq h o f v with (h', None) => (h', Ok tt) | (h', Some e) => (h', Err e) end.

  (** [v.f] for a reference or the name: every entity has a name, and the references of its class. *)
  Definition getattr (v : pv) (f : string) : act pv := fun h =>
    match v with
    | PRef o => match kind_at h o with
                | Some k => if String.eqb f "name" then (h, Ok (read h o f))
                            else match role_of k f with Some _ => (h, Ok (read h o f)) | None => (h, Err AttributeError) end
                | None => (h, Err AttributeError)
                end
    | _ => (h, Err AttributeError)
    end.

  (** A constructor up to its reference arguments. The name is checked before (base_object.py:49-50,
      setters.py:42-64) except for an ingredient run, which has none (ingredient_run.py:72). *)
  Definition new (k : ekind) (name : pv) : act oid := fun h =>
    match k, name with
    | KIngR, _ | _, PAtom (AStr _) => (h ++ [mkE k [] (blank k ++ other_fields k name)], Ok (length h))
    | _, _ => (h, Err TypeError)
    end.

  (** impl.py:26-82. The constructors assign their references in the order spec or template
      (has_spec.py:19, has_template.py:18), then process (material_run.py:67, material_spec.py:68). *)
  Definition make_node (name process_name process_template material_template : pv) : act oid :=
    process_name <- match process_name with
                    | PNone => match process_template with PNone => ret name | _ => getattr process_template "name" end
                    | _ => ret process_name
                    end;;
    ps <- new KProcS process_name;; set_ref ps "template" process_template;;
    p <- new KProcR process_name;; set_ref p "spec" (PRef ps);;
    ms <- new KMatS name;; set_ref ms "template" material_template;; set_ref ms "process" (PRef ps);;
    m <- new KMatR name;; set_ref m "spec" (PRef ms);; set_ref m "process" (PRef p);;
    ret m.

  (** NominalReal(nominal=q, units=u), nominal_real.py:22-26 *)
  Definition nominal_real (q : Q) (u : pv) : res pv :=
    do u' <- units u; Ok (PObj "nominal_real" [("nominal", PAtom (AFloat q)); ("units", u')]).

  Definition set_quantity (r : oid) (f : string) (v : pv) : act unit :=
    raise_if (refuses f v);; fun h => (set_field h r f v, Ok tt).

  (** impl.py:161-174 *)
  Definition edge_fraction (r : oid) (f : string) (v : pv) : act unit :=
    match v with
    | PNone => ret tt
    | PAtom (AFloat q) => x <- lift (nominal_real q (PAtom (AStr "")));; set_quantity r f x
    | _ => set_quantity r f v
    end.

  (** impl.py:176-182: what is left of the units *)
  Definition edge_absolute (r : oid) (v u : pv) : act pv :=
    match v with
    | PNone => ret u
    | PAtom (AFloat q) =>
        match u with
        | PNone => raise ValueError
        | _ => x <- lift (nominal_real q u);; set_quantity r "absolute_quantity" x;; ret PNone
        end
    | _ => set_quantity r "absolute_quantity" v;; ret u
    end.

  (** impl.py:85-188. The constructors assign material before process (ingredient_spec.py:85-86,
      ingredient_run.py:83-84), and the spec of a run first of all (line 75). *)
  Definition add_edge (input output name mass number volume absolute units_arg : pv) : act oid :=
    output_spec <- getattr output "spec";;
    (fun h =>
       if is_kind h KMatS output_spec then
         (sp <- getattr output_spec "process";;
          op <- getattr output "process";;
          if (is_none sp || is_none op)%bool then raise ValueError
          else
            input_spec <- getattr input "spec";;
            if is_none input_spec then raise ValueError
            else
              name <- (if is_none name then getattr input "name" else ret name);;
              s <- new KIngS name;; set_ref s "material" input_spec;; set_ref s "process" sp;;
              r <- new KIngR PNone;; set_ref r "spec" (PRef s);; set_ref r "material" input;; set_ref r "process" op;;
              edge_fraction r "mass_fraction" mass;; edge_fraction r "number_fraction" number;;
              edge_fraction r "volume_fraction" volume;;
              left <- edge_absolute r absolute units_arg;;
              if is_none left then ret r else raise ValueError) h
       else raise ValueError h).

  (** [o.lf.append(v)] (valid_list.py: the trigger runs before the list grows) *)
  Definition append (o : oid) (lf : string) (v : pv) : act unit := fun h =>
    match fval h o lf with
    | PList l => match rejects h o lf v with
                 | Some e => (h, Err e)
                 | None => (set_field h o lf (PList (l ++ [v])), Ok tt)
                 end
    | _ => (h, Err AttributeError)
    end.

  (** The list an attribute belongs to (impl.py:237-245, 279-294); attributes are [PObj]s whose type
      names are those of their classes (property.py:9, condition.py:9, parameter.py:9). *)
  Definition list_for (v : pv) : option string :=
    match v with
    | PObj t _ => if String.eqb t "property" then Some "properties" else if String.eqb t "condition" then Some "conditions"
                  else if String.eqb t "parameter" then Some "parameters" else None
    | _ => None
    end.

  Fixpoint append_all (o : oid) (l : list pv) : act unit :=
    match l with
    | [] => ret tt
    | v :: l' => match list_for v with
                 | Some lf => append o lf v;; append_all o l'
                 | None => raise ValueError
                 end
    end.

  (** impl.py:191-248; no attributes are an empty list. *)
  Definition add_measurement (material name template : pv) (attributes : list pv) : act oid :=
    name <- match name with
            | PNone => match template with PNone => raise ValueError | _ => getattr template "name" end
            | _ => ret name
            end;;
    s <- new KMeasS name;; set_ref s "template" template;;
    r <- new KMeasR name;; set_ref r "spec" (PRef s);; set_ref r "material" material;;
    append_all r attributes;; ret r.

  (** The attribute [make_attribute] builds (impl.py:299-333, see [make_attribute] below), as stored in
      an object, or what it raises. *)
  Variable attribute : heap -> pv -> pv -> res pv.

  (** isinstance(target, HasProperties) and so on, but for material specs. *)
  Definition has_list (k : ekind) (lf : string) : bool :=
    match k with
    | KMeasR => true
    | KProcS | KProcR | KMeasS => (String.eqb lf "conditions" || String.eqb lf "parameters")%bool
    | _ => false
    end.

  (** [properties[-1].conditions.append(v)]: the last property gains a condition; the conditions of a
      PropertyAndConditions are checked for their class only (property_and_conditions.py:42-44). *)
  Definition with_condition (p v : pv) : pv :=
    match p with
    | PObj t fs => match dict_get "conditions" fs with
                   | Some (PList l) => PObj t (dict_set "conditions" (PList (l ++ [v])) fs)
                   | _ => p
                   end
    | _ => p
    end.
  Fixpoint on_last {A} (f : A -> A) (l : list A) : list A :=
    match l with [] => [] | [x] => [f x] | x :: r => x :: on_last f r end.

  (** impl.py:250-296 *)
  Definition add_attribute (target : pv) (template value : pv) : act pv := fun h =>
    match attribute h template value with
    | Err e => (h, Err e)
    | Ok a =>
        match target with
        | PRef o =>
            match kind_at h o, list_for a with
            | Some KMatS, Some "properties" =>
                (append o "properties" (PObj "property_and_conditions" [("property", a); ("conditions", PList [])]);; ret a) h
            | Some KMatS, Some "conditions" =>
                match fval h o "properties" with
                | PList [] => (h, Err ValueError)
                | PList l => (set_field h o "properties" (PList (on_last (fun p => with_condition p a) l)), Ok a)
                | _ => (h, Err AttributeError)
                end
            | Some k, Some lf => if has_list k lf then (append o lf a;; ret a) h else (h, Err ValueError)
            | _, _ => (h, Err ValueError)
            end
        | _ => (h, Err ValueError)
        end
    end.
End Builders.

(** ** Values and attributes *)

(** The number or string to make a value of; [MOther] is anything else. *)
Inductive primitive : Type := MNum (x : pynum) | MStr (s : string) | MOther.

Definition as_pystr (x : primitive) : pystr :=
  match x with MStr s => SStr s | MNum PyNone => SNoneV | _ => SNotStr end.

(** [float(x)] at nominal_real.py:26, after the assertion on the class of [x]. *)
Definition to_float (x : primitive) : res pynum :=
  match x with
  | MNum PyNone | MStr _ | MOther => Err AssertionError
  | MNum (PyInt z) => if (Z.abs (DictModel.round53 z) <? 2 ^ 1024)%Z then Ok (PyFloat (inject_Z (DictModel.round53 z))) else Err OverflowError
  | MNum x => Ok x
  end.

Definition fresh {A B} (mk : A -> B) (r : A * option exn) : res B :=
  match r with (a, None) => Ok (mk a) | (_, Some e) => Err e end.

(** impl.py:336-370. The five classes of bounds are all there are, so the last branch is not reached;
    [None] as a number stands for Python's None, whose [str] does not start with "InChI=". The
    constructors: nominal_real.py:22-26, nominal_integer.py:19-35, nominal_categorical.py:20-34,
    empirical_formula.py:37-62, inchi_value.py:19-42, smiles_value.py:20-36. *)
Definition make_value (x : primitive) (b : bounds) : res value :=
  match b with
  | BReal _ _ u => do q <- to_float x; Ok (VNominalReal q u)
  | BInt _ _ => match x with
                | MNum n => do z <- int_like n; Ok (VNominalInteger z)
                | _ => Err TypeError
                end
  | BCat _ => match as_pystr x with
              | SNoneV => Ok (VNominalCategorical None)
              | SStr s => Ok (VNominalCategorical (Some s))
              | SNotStr => Err TypeError
              end
  | BComp _ => fresh VEmpiricalFormula (set_formula None (as_pystr x))
  | BMol => match as_pystr x with
            | SStr s => if startswith "InChI=" s then fresh VInChI (set_inchi None (SStr s)) else Ok (VSmiles (Some s))
            | SNoneV => Ok (VSmiles None)
            | SNotStr => Err TypeError
            end
  end.

(** What may be given as the value of an attribute. *)
Inductive attr_value : Type := GivenValue (v : value) | Primitive (x : primitive).

(** impl.py:299-333; [None] stands for a template that is no attribute template. *)
Definition make_attribute (l : level) (t : option tmpl) (x : attr_value) (log : nat) : res (akind * attr) * nat :=
  match t with
  | None => (Err ValueError, log)
  | Some t =>
      match match x with GivenValue v => Ok v | Primitive p => make_value p (t_bounds t) end with
      | Err e => (Err e, log)
      | Ok v => match init_attr (t_kind t) l (t_name t) (VVal v) (TRef (RTmpl t)) log with
                | (Ok a, log') => (Ok (t_kind t, a), log')
                | (Err e, log') => (Err e, log')
                end
      end
  end.
