(** Model of the text Python shows for objects: DictSerializable.__repr__ and _name_repr of
    gemd/entity/dict_serializable.py, LinkByUID.__repr__ of gemd/entity/link_by_uid.py.

    Simplifications. The text itself is a tree of the dictionaries, lists and scalars it writes:
    Python's [str] of these is not modelled. Lists and dictionaries that contain themselves are not
    represented. *)
From Coq Require Import String List Bool Arith.
From Verif Require Import Base GraphModel TravModel SerialModel.
Import ListNotations.
Open Scope string_scope.
Open Scope list_scope.

Inductive rtree :=
| RNone
| RAtom (a : atom)
| RList (l : list rtree)
| RTuple (l : list rtree)
| RDict (l : list (string * rtree)).

Definition rtext (s : string) : rtree := RAtom (AStr s).

(** The names of the entity classes (the class statements, e.g. material_run.py:17). *)
Definition class_name (k : ekind) : string :=
  match k with
  | KPropT => "PropertyTemplate" | KCondT => "ConditionTemplate" | KParamT => "ParameterTemplate"
  | KMatT => "MaterialTemplate" | KProcT => "ProcessTemplate" | KMeasT => "MeasurementTemplate"
  | KMatS => "MaterialSpec" | KProcS => "ProcessSpec" | KMeasS => "MeasurementSpec" | KIngS => "IngredientSpec"
  | KMatR => "MaterialRun" | KProcR => "ProcessRun" | KMeasR => "MeasurementRun" | KIngR => "IngredientRun"
  end.

(** The attributes in [skip], without the underscore: material_run.py:17, process_run.py:21-23,
    process_spec.py:19-21; see also [TravModel.skipped]. *)
Definition skipped_keys (k : ekind) : list string :=
  match k with
  | KMatR => ["measurements"]
  | KProcR | KProcS => ["output_material"; "ingredients"]
  | _ => []
  end.

Section Repr.
  Variable h : heap.
  (** How a value that is not a string is written inside an f-string. *)
  Variable format : pv -> string.
  (** The name of the class of an object that is not an entity, by its type name. *)
  Variable class_of : string -> string.

  Definition name_text (v : pv) : string := match v with PAtom (AStr s) => s | _ => format v end.

  (** dict_serializable.py:186: an object in angle brackets. *)
  Definition bracket (cls name : string) : rtree := rtext ("<" ++ cls ++ " '" ++ name ++ "'>").

  (** dict_serializable.py:160-186. A string is iterable and so are its characters: the recursion does
      not end. A dictionary is iterated over by its keys, which are strings. *)
  Fixpoint name_repr (v : pv) : res rtree :=
    match v with
    | PList l | PTuple l =>
        do ts <- (fix go (l : list pv) : res (list rtree) :=
                    match l with [] => Ok [] | x :: r => do t <- name_repr x; do ts <- go r; Ok (t :: ts) end) l;
        Ok (RList ts)
    | PDict d => match d with [] => Ok (RList []) | _ => Err RecursionError end
    | PAtom (AStr s) => match s with EmptyString => Ok (RList []) | _ => Err RecursionError end
    | PNone => Ok RNone
    | PAtom (ABool _) => Ok (bracket "bool" "<unknown name>")
    | PAtom (AInt _) => Ok (bracket "int" "<unknown name>")
    | PAtom (AFloat _) => Ok (bracket "float" "<unknown name>")
    | PLink _ _ => Ok (bracket "LinkByUID" "<unknown name>")
    | PRef o => match kind_at h o with
                | Some k => Ok (bracket (class_name k) (name_text (read h o "name")))
                | None => Err AttributeError
                end
    | PObj t fs => Ok (bracket (class_of t) (match dict_get "name" fs with Some v => name_text v | None => "<unknown name>" end))
    end.

  (** [str] of a value: that of an entity inside is [nested]; a link shows scope and id
      (link_by_uid.py:29-30); other objects their attributes and type (dict_serializable.py:151-158). *)
  Section Show.
    Variable nested : oid -> res rtree.
    Fixpoint show (v : pv) : res rtree :=
      match v with
      | PNone => Ok RNone
      | PAtom a => Ok (RAtom a)
      | PLink s i => Ok (RDict [("scope", rtext s); ("id", rtext i)])
      | PRef o => nested o
      | PList l =>
          do ts <- (fix go (l : list pv) : res (list rtree) :=
                      match l with [] => Ok [] | x :: r => do t <- show x; do ts <- go r; Ok (t :: ts) end) l;
          Ok (RList ts)
      | PTuple l =>
          do ts <- (fix go (l : list pv) : res (list rtree) :=
                      match l with [] => Ok [] | x :: r => do t <- show x; do ts <- go r; Ok (t :: ts) end) l;
          Ok (RTuple ts)
      | PDict d =>
          do ts <- (fix go (l : list (string * pv)) : res (list (string * rtree)) :=
                      match l with [] => Ok [] | (k, x) :: r => do t <- show x; do ts <- go r; Ok ((k, t) :: ts) end) d;
          Ok (RDict ts)
      | PObj t fs =>
          do ts <- (fix go (l : list (string * pv)) : res (list (string * rtree)) :=
                      match l with [] => Ok [] | (k, x) :: r => do t <- show x; do ts <- go r; Ok ((k, t) :: ts) end) fs;
          Ok (RDict (ts ++ [("type", rtext t)]))
      end.
  End Show.

  (** dict_serializable.py:154-157: each skipped attribute by the names of what it holds. The names
      are entered in the dictionary before it is written; an exception in writing and one in naming
      are not told apart here. *)
  Fixpoint add_names (o : oid) (ks : list string) (ts : list (string * rtree)) : res (list (string * rtree)) :=
    match ks with
    | [] => Ok ts
    | k :: r => do t <- name_repr (read h o k); add_names o r (dict_set k t ts)
    end.

  (** dict_serializable.py:151-158. More than [n] entities inside one another exhaust the stack. *)
  Fixpoint repr (n : nat) (o : oid) : res rtree :=
    match n with
    | O => Err RecursionError
    | S n' =>
        do t <- show (repr n') (PDict (as_dict h o));
        match t, kind_at h o with
        | RDict ts, Some k => do ts <- add_names o (skipped_keys k) ts; Ok (RDict ts)
        | _, _ => Err AttributeError
        end
    end.
End Repr.
