(** Model of the object graph: entities with identity, the references between them, and the
    setters that keep two-sided references.

    Python objects with identity are entities in a heap, addressed by their position; attribute,
    value, bounds, source and file-link objects have no observable identity of their own here and
    are modelled as trees ([PObj]). *)
From Coq Require Import String List Bool Arith ZArith QArith.
From Verif Require Import Base.
Import ListNotations.
Open Scope string_scope.
Open Scope list_scope.

(** The concrete entity classes: gemd/entity/template/*.py, gemd/entity/object/*.py. *)
Inductive ekind :=
| KPropT | KCondT | KParamT            (* property_template.py:6, condition_template.py:6, parameter_template.py:6 *)
| KMatT | KProcT | KMeasT              (* material_template.py:8, process_template.py:10, measurement_template.py:10 *)
| KMatS | KProcS | KMeasS | KIngS      (* material_spec.py:19, process_spec.py:19, measurement_spec.py:16, ingredient_spec.py:18 *)
| KMatR | KProcR | KMeasR | KIngR.     (* material_run.py:17, process_run.py:21, measurement_run.py:22, ingredient_run.py:20 *)

Definition ekind_eq_dec : forall a b : ekind, {a = b} + {a <> b}.
Proof. decide equality. Defined.
Definition ekind_eqb (a b : ekind) : bool := if ekind_eq_dec a b then true else false.

(** The address of an entity (its identity). *)
Definition oid := nat.

(** Plain scalar data. *)
Inductive atom := ABool (b : bool) | AInt (z : Z) | AFloat (q : Q) | AStr (s : string).

(** What a field of an object can hold. [PLink] is a LinkByUID (link_by_uid.py:11-30), [PObj] a
    dictionary-serializable object that is not an entity, with its type name and fields. *)
Inductive pv :=
| PNone
| PAtom (a : atom)
| PLink (scope id : string)
| PRef (o : oid)
| PList (l : list pv)
| PTuple (l : list pv)
| PDict (l : list (string * pv))
| PObj (typ : string) (fs : list (string * pv)).

(** An entity: its class, its uids (base_entity.py:39-73; the case-insensitive dictionary itself is
    modelled in [CidModel], here its pairs in order) and its other instance attributes in order,
    without the leading underscore (dict_serializable.py:95-108 strips it as well). *)
Record entity := mkE { e_kind : ekind; e_uids : list (string * string); e_fields : list (string * pv) }.

Definition heap := list entity.

Definition hget (h : heap) (o : oid) : option entity := nth_error h o.

Fixpoint hset (h : heap) (o : oid) (e : entity) : heap :=
  match h, o with
  | [], _ => []
  | _ :: r, O => e :: r
  | x :: r, S n => x :: hset r n e
  end.

Definition kind_at (h : heap) (o : oid) : option ekind := option_map e_kind (hget h o).

Definition fget (e : entity) (f : string) : pv :=
  match dict_get f (e_fields e) with Some v => v | None => PNone end.

(** Reading an instance attribute. *)
Definition fval (h : heap) (o : oid) (f : string) : pv :=
  match hget h o with Some e => fget e f | None => PNone end.

(** Assigning an instance attribute. *)
Definition set_field (h : heap) (o : oid) (f : string) (v : pv) : heap :=
  match hget h o with
  | Some e => hset h o (mkE (e_kind e) (e_uids e) (dict_set f v (e_fields e)))
  | None => h
  end.

(** [isinstance(v, K)] for an entity class [K] (none of the concrete classes subclasses another). *)
Definition is_kind (h : heap) (k : ekind) (v : pv) : bool :=
  match v with
  | PRef o => match kind_at h o with Some k' => ekind_eqb k' k | None => false end
  | _ => false
  end.

(** The way an assignable reference field behaves. *)
Inductive role :=
| Produce (pk : ekind)              (* material.process *)
| Owned (pk : ekind) (lf : string)  (* measurement.material, ingredient.process *)
| Plain (pk : ekind)                (* a one-sided reference *)
| IngRunSpec.                       (* ingredient_run.spec *)

(** Which setter serves which field of which class:
    material_run.py:75-87, material_spec.py:87-109 (process); measurement_run.py:92-103 (material);
    ingredient_run.py:109-136, ingredient_spec.py:102-130 (material, process);
    has_spec.py:26-35 with _spec_type of each run; has_template.py:30-39 with _template_type of
    each spec; ingredient_run.py:143-155 (spec). *)
Definition role_of (k : ekind) (f : string) : option role :=
  match k with
  | KMatR => if String.eqb f "process" then Some (Produce KProcR)
             else if String.eqb f "spec" then Some (Plain KMatS) else None
  | KMatS => if String.eqb f "process" then Some (Produce KProcS)
             else if String.eqb f "template" then Some (Plain KMatT) else None
  | KMeasR => if String.eqb f "material" then Some (Owned KMatR "measurements")
              else if String.eqb f "spec" then Some (Plain KMeasS) else None
  | KIngR => if String.eqb f "process" then Some (Owned KProcR "ingredients")
             else if String.eqb f "material" then Some (Plain KMatR)
             else if String.eqb f "spec" then Some IngRunSpec else None
  | KIngS => if String.eqb f "process" then Some (Owned KProcS "ingredients")
             else if String.eqb f "material" then Some (Plain KMatS) else None
  | KProcR => if String.eqb f "spec" then Some (Plain KProcS) else None
  | KProcS => if String.eqb f "template" then Some (Plain KProcT) else None
  | KMeasS => if String.eqb f "template" then Some (Plain KMeasT) else None
  | _ => None
  end.

(** has_spec.py:26-35, has_template.py:30-39, ingredient_run.py:109-117, ingredient_spec.py:102-110:
    one-sided references accept None, a link or an object of the right class. *)
Definition set_plain (pk : ekind) (f : string) (h : heap) (o : oid) (v : pv) : heap * option exn :=
  match v with
  | PNone | PLink _ _ => (set_field h o f v, None)
  | _ => if is_kind h pk v then (set_field h o f v, None) else (h, Some TypeError)
  end.

(** ingredient_run.py:148-155: the name and labels of the previous spec object are stored before
    the assignment is attempted. *)
Definition set_ing_spec (h : heap) (o : oid) (v : pv) : heap * option exn :=
  let h1 := match fval h o "spec" with
            | PRef s => if is_kind h KIngS (PRef s)
                        then set_field (set_field h o "name" (fval h s "name")) o "labels" (fval h s "labels")
                        else h
            | _ => h
            end in
  set_plain KIngS "spec" h1 o v.

(** material_run.py:75-87, material_spec.py:87-109. The old process is detached before the
    argument's type is looked at. *)
Definition set_process (pk : ekind) (h : heap) (m : oid) (v : pv) : heap * option exn :=
  let h1 := match fval h m "process" with
            | PRef p => if is_kind h pk (PRef p) then set_field h p "output_material" PNone else h
            | _ => h
            end in
  match v with
  | PNone | PLink _ _ => (set_field h1 m "process" v, None)
  | PRef p => if is_kind h1 pk v
              then (set_field (set_field h1 p "output_material" (PRef m)) m "process" v, None)
              else (h1, Some TypeError)
  | _ => (h1, Some TypeError)
  end.

Section Setters.
  (** [item == self] for an item of a list and an entity: gemd's entity equality
      (base_entity.py:208-218), a parameter here. *)
  Variable eq : heap -> pv -> oid -> bool.

  (** [list.remove(self)]: drops the first item that is, or is equal to, [self]. *)
  Fixpoint remove (h : heap) (x : oid) (l : list pv) : option (list pv) :=
    match l with
    | [] => None
    | y :: r =>
        if match y with PRef o => Nat.eqb o x | _ => false end || eq h y x then Some r
        else option_map (cons y) (remove h x r)
    end.

  (** measurement_run.py:92-103, ingredient_run.py:124-136, ingredient_spec.py:117-130: [cf] is the
      reference field, [lf] the list field of the object referred to. The type checks that
      ValidList.append performs (valid_list.py) always accept [self] and are left out. *)
  Definition set_owned (pk : ekind) (cf lf : string) (h : heap) (x : oid) (v : pv) : heap * option exn :=
    let detached :=
      match fval h x cf with
      | PRef p =>
          if is_kind h pk (PRef p) then
            match fval h p lf with
            | PList l => match remove h x l with
                         | Some l' => Ok (set_field h p lf (PList l'))
                         | None => Err ValueError
                         end
            | _ => Err AttributeError
            end
          else Ok h
      | _ => Ok h
      end in
    match detached with
    | Err e => (h, Some e)
    | Ok h1 =>
        match v with
        | PNone | PLink _ _ => (set_field h1 x cf v, None)
        | PRef p =>
            if is_kind h1 pk v then
              let h2 := set_field h1 x cf v in
              match fval h2 p lf with
              | PList l => (set_field h2 p lf (PList (l ++ [PRef x])), None)
              | _ => (h2, Some AttributeError)
              end
            else (h1, Some TypeError)
        | _ => (h1, Some TypeError)
        end
    end.

  (** [o.f = v] for a reference field [f]. *)
  Definition assign (h : heap) (o : oid) (f : string) (v : pv) : heap * option exn :=
    match kind_at h o with
    | None => (h, Some AttributeError)
    | Some k =>
        match role_of k f with
        | None => (h, Some AttributeError)
        | Some (Plain pk) => set_plain pk f h o v
        | Some IngRunSpec => set_ing_spec h o v
        | Some (Produce pk) => set_process pk h o v
        | Some (Owned pk lf) => set_owned pk f lf h o v
        end
    end.

  (** The reference fields a constructor initialises before assigning its arguments:
      material_run.py:63-64, material_spec.py:67-68, process_run.py:78-79, process_spec.py:76-77,
      measurement_run.py:84, ingredient_run.py:80-81, ingredient_spec.py:80-81, has_spec.py:18,
      has_template.py:17. *)
  Definition blank (k : ekind) : list (string * pv) :=
    match k with
    | KMatR => [("spec", PNone); ("process", PNone); ("measurements", PList [])]
    | KMatS => [("template", PNone); ("process", PNone)]
    | KProcR => [("spec", PNone); ("output_material", PNone); ("ingredients", PList [])]
    | KProcS => [("template", PNone); ("output_material", PNone); ("ingredients", PList [])]
    | KMeasR => [("spec", PNone); ("material", PNone)]
    | KMeasS => [("template", PNone)]
    | KIngR => [("spec", PNone); ("material", PNone); ("process", PNone)]
    | KIngS => [("material", PNone); ("process", PNone)]
    | _ => []
    end.

  (** What a program does to the graph: build an object (its constructor's reference arguments
      are the assignments that follow) or assign a reference. [extra] stands for the fields that
      are not references to other objects of the graph's two-sided relations. *)
  Inductive gop :=
  | GNew (k : ekind) (uids : list (string * string)) (extra : list (string * pv))
  | GSet (o : oid) (f : string) (v : pv).

  Definition gstep (h : heap) (op : gop) : heap * option exn :=
    match op with
    | GNew k u extra => (h ++ [mkE k u (blank k ++ extra)], None)
    | GSet o f v => assign h o f v
    end.

  Fixpoint grun (h : heap) (ops : list gop) : heap :=
    match ops with [] => h | op :: r => grun (fst (gstep h op)) r end.

  (** The exceptions a history raises (each caught by the program, which goes on). *)
  Fixpoint graised (h : heap) (ops : list gop) : list exn :=
    match ops with
    | [] => []
    | op :: r => match snd (gstep h op) with Some e => [e] | None => [] end ++ graised (fst (gstep h op)) r
    end.
End Setters.

(** Reading a field through its getter: ingredient_run.py:86-102 takes [name] and [labels] from
    the spec object when there is one; every other getter returns the instance attribute. *)
Definition read (h : heap) (o : oid) (f : string) : pv :=
  match kind_at h o with
  | Some KIngR =>
      if (String.eqb f "name" || String.eqb f "labels")%bool then
        match fval h o "spec" with
        | PRef s => if is_kind h KIngS (PRef s) then fval h s f else fval h o f
        | _ => fval h o f
        end
      else fval h o f
  | _ => fval h o f
  end.
