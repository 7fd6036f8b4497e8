(** Model of what a run shows of its spec: names, labels and templates, on top of the object graph
    of [GraphModel]. *)
From Coq Require Import String List Bool Arith.
From Verif Require Import Base GraphModel.
Import ListNotations.
Open Scope string_scope.
Open Scope list_scope.

(** The classes derived from BaseObject: every run and spec. *)
Definition is_object (k : ekind) : bool :=
  match k with
  | KMatS | KProcS | KMeasS | KIngS | KMatR | KProcR | KMeasR | KIngR => true
  | _ => false
  end.

Definition is_attribute_template (k : ekind) : bool :=
  match k with KPropT | KCondT | KParamT => true | _ => false end.

(** setters.py:42-63: only strings pass (a string subclass is a string here). *)
Definition validate_str (v : pv) : res pv :=
  match v with PAtom (AStr _) => Ok v | _ => Err TypeError end.

(** The items that iterating over a value gives; None for values that cannot be iterated over.
    Iterating over a dictionary gives its keys. Generators and sets are not values of this model. *)
Definition iterate (v : pv) : option (list pv) :=
  match v with
  | PList l | PTuple l => Some l
  | PDict kvs => Some (map (fun kv => PAtom (AStr (fst kv))) kvs)
  | _ => None
  end.

Definition is_string (v : pv) : bool := match v with PAtom (AStr _) => true | _ => false end.

(** setters.py:11-38 with [typ=str] and no trigger: None means no labels, a string means one label,
    anything that can be iterated over its items; ValidList raises TypeError for an item that is
    not a string (valid_list.py:29-60). *)
Definition validate_labels (v : pv) : res pv :=
  let items := match v with
               | PNone => []
               | PAtom (AStr _) => [v]
               | _ => match iterate v with Some l => l | None => [v] end
               end in
  if forallb is_string items then Ok (PList items) else Err TypeError.

(** Assigning [o.name]. Ingredient runs override [name] with a property that has no setter
    (ingredient_run.py:86-93); the other objects check that it is a string (base_object.py:69-72);
    on templates it is a plain attribute (base_template.py:40, attribute_template.py:33). *)
Definition set_name (h : heap) (o : oid) (v : pv) : heap * option exn :=
  match kind_at h o with
  | None => (h, Some AttributeError)
  | Some KIngR => (h, Some AttributeError)
  | Some k =>
      if is_object k then
        match validate_str v with
        | Ok w => (set_field h o "name" w, None)
        | Err e => (h, Some e)
        end
      else (set_field h o "name" v, None)
  end.

(** Assigning [o.labels]: ingredient_spec.py:93-95 has a setter, ingredient_run.py:95-102 has none;
    the other classes define no labels and setting them there is not modelled (it would add an
    attribute nobody reads). *)
Definition set_labels (h : heap) (o : oid) (v : pv) : heap * option exn :=
  match kind_at h o with
  | Some KIngS =>
      match validate_labels v with
      | Ok w => (set_field h o "labels" w, None)
      | Err e => (h, Some e)
      end
  | _ => (h, Some AttributeError)
  end.

(** The object whose list [o.labels] returns: the spec of an ingredient run that has one
    (ingredient_run.py:95-102), otherwise [o] itself. *)
Definition labels_owner (h : heap) (o : oid) : oid :=
  match kind_at h o, fval h o "spec" with
  | Some KIngR, PRef s => if is_kind h KIngS (PRef s) then s else o
  | _, _ => o
  end.

(** [o.labels.append(v)]: the getter's list is the owner's own list, so the owner changes. An
    ingredient run that never had a spec holds None there (ingredient_run.py:74). *)
Definition add_label (h : heap) (o : oid) (v : pv) : heap * option exn :=
  match kind_at h o with
  | Some KIngS | Some KIngR =>
      let p := labels_owner h o in
      match fval h p "labels" with
      | PList l => if is_string v then (set_field h p "labels" (PList (l ++ [v])), None) else (h, Some TypeError)
      | _ => (h, Some AttributeError)
      end
  | _ => (h, Some AttributeError)
  end.

(** The constructors as far as name and labels go. Objects: base_object.py:37-52 calls the name
    setter where there is one (not for ingredient runs, which start with neither name nor labels,
    ingredient_run.py:72-75; the name and labels a dictionary supplies are stored afterwards,
    ingredient_run.py:157-182, which is [labels], [name] given to a KIngR here). Attribute
    templates: attribute_template.py:31-37. A raising constructor leaves no object behind. *)
Definition construct (h : heap) (k : ekind) (uids : list (string * string)) (name labels : pv)
                     (extra : list (string * pv)) : heap * option exn :=
  let make n l := (h ++ [mkE k uids (blank k ++ ("name", n) :: ("labels", l) :: extra)], None) in
  match k with
  | KIngR =>
      (* from_dict stores a name as it is, and labels through validate_list, unless they are None *)
      match labels with
      | PNone => make name PNone
      | _ => match validate_labels labels with
             | Ok l => make name l
             | Err e => (h, Some e)
             end
      end
  | KIngS =>
      match validate_str name with
      | Err e => (h, Some e)
      | Ok n => match validate_labels labels with
                | Ok l => make n l
                | Err e => (h, Some e)
                end
      end
  | _ =>
      if is_object k then
        match validate_str name with
        | Ok n => make n PNone
        | Err e => (h, Some e)
        end
      else if is_attribute_template k then
        if is_string name then make name PNone else (h, Some ValueError)
      else make name PNone
  end.

(** [o.template] through its getter: has_spec.py:42-48 for runs (every spec class is a HasTemplate;
    an ingredient spec's template is always None, ingredient_spec.py:132-135), has_template.py:25-28
    for specs. *)
Definition spec_template (h : heap) (s : oid) : pv :=
  match kind_at h s with
  | Some KMatS | Some KProcS | Some KMeasS => fval h s "template"
  | _ => PNone
  end.

Definition is_spec (h : heap) (v : pv) : bool :=
  is_kind h KMatS v || is_kind h KProcS v || is_kind h KMeasS v || is_kind h KIngS v.

Definition template_of (h : heap) (o : oid) : pv :=
  match kind_at h o with
  | Some (KMatR | KProcR | KMeasR | KIngR) =>
      match fval h o "spec" with
      | PRef s => if is_spec h (PRef s) then spec_template h s else PNone
      | _ => PNone
      end
  | Some (KMatS | KProcS | KMeasS | KIngS) => spec_template h o
  | _ => PNone
  end.

(** What a program does: construct, assign a reference, assign a name or labels, append a label. *)
Inductive nop :=
| NNew (k : ekind) (uids : list (string * string)) (name labels : pv) (extra : list (string * pv))
| NSet (o : oid) (f : string) (v : pv)
| NName (o : oid) (v : pv)
| NLabels (o : oid) (v : pv)
| NAddLabel (o : oid) (v : pv).

Section Steps.
  Variable eq : heap -> pv -> oid -> bool.

  Definition nstep (h : heap) (op : nop) : heap * option exn :=
    match op with
    | NNew k u n l extra => construct h k u n l extra
    | NSet o f v => assign eq h o f v
    | NName o v => set_name h o v
    | NLabels o v => set_labels h o v
    | NAddLabel o v => add_label h o v
    end.

  (** A history; exceptions are caught and the program goes on. *)
  Fixpoint nrun (h : heap) (ops : list nop) : heap :=
    match ops with [] => h | op :: r => nrun (fst (nstep h op)) r end.
End Steps.
