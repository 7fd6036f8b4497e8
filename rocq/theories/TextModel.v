(** Model of names of enumerated values and of the decorator migrated_enum in
    gemd/enumeration/base_enumeration.py. *)
From Coq Require Import String List Bool.
From Verif Require Import Base PyStr BoundsModel ValuesModel.
Import ListNotations.
Open Scope list_scope.

(** A class body: names with the members they declare. Simplification: names are distinct (Python
    raises TypeError otherwise). *)
Definition body : Type := list (string * member).

(** An enumeration class: its members in order, the declared names, and the migrations the
    decorator has put on its metaclass, last one first (old name, new value). *)
Record enum_class : Type := mkEnum { emembers : list member; ebody : body; emigrated : list (string * string) }.

(** The class statement, without decorators. *)
Definition class_statement (b : body) : res enum_class :=
  do ms <- define_enum [] (map snd b); Ok (mkEnum ms b []).

(** [Class(value)] *)
Definition call (c : enum_class) (v : string) : res member := enum_call (emembers c) v.

(** EnumMeta.__getitem__: the member of that name; an alias gives the member it repeats. *)
Definition by_name (c : enum_class) (n : string) : res member :=
  match find (fun p => String.eqb (fst p) n) (ebody c) with
  | None => Err KeyError
  | Some (_, m) => match find (fun m' => String.eqb (mvalue m') (mvalue m)) (emembers c) with
                   | Some m' => Ok m'
                   | None => Err KeyError
                   end
  end.

(** base_enumeration.py:103-136 [migrated_enum]: the message at line 125 calls [cls(new_value)], so a
    value the class does not take raises. Simplification: the lines printed and the warnings issued are
    not modelled. *)
Definition migrated_enum (old new : string) (c : enum_class) : res enum_class :=
  do _ <- call c new; Ok (mkEnum (emembers c) (ebody c) ((old, new) :: emigrated c)).

(** base_enumeration.py:109-118 [MixinMeta.__getitem__]: each decoration derives a metaclass from the
    one before and asks it for other names. [Class.name] runs the same way through the properties set
    at line 130, line 120-122. *)
Fixpoint lookup_from (ms : list (string * string)) (c : enum_class) (n : string) : res member :=
  match ms with
  | [] => by_name c n
  | (old, new) :: r => if String.eqb n old then call c new else lookup_from r c n
  end.
Definition getitem (c : enum_class) (n : string) : res member := lookup_from (emigrated c) c n.

(** Decorators, innermost first. *)
Fixpoint decorate (ds : list (string * string)) (c : enum_class) : res enum_class :=
  match ds with [] => Ok c | (old, new) :: r => do c' <- migrated_enum old new c; decorate r c' end.
