(** Model of the plain fields of entities, attributes and sources: names, tags, notes, descriptions, file links, labels, allowed
    names and labels, sources, sample types and origins, with validate_list and validate_str (gemd/entity/setters.py:11-64).
    Simplifications: the other fields (uids, references, values, bounds, lists of attributes) have their own models and are left
    out, so a constructor is what it does to these fields, with the other arguments absent; the text str.lower works on is 8-bit (PyStr). *)
From Coq Require Import String List Bool Arith.
From Verif Require Import Base PyStr ValuesModel.
Import ListNotations.
Open Scope string_scope.
Open Scope list_scope.

(** Objects of Python that are not iterated over when assigned: texts (members of enumerations are texts too), file links,
    PerformedSource objects, and all others. *)
Inductive item : Type := IText (s : string) | ILink (filename url : string) | ISource (n : nat) | IThing (n : nat).
(** What may be assigned. [GMany]: a list, tuple, set or dictionary (its keys), which can be iterated over again and again; [GOnce]: an
    iterator or generator, which gives each item once; what it has left is part of the state. *)
Inductive given : Type := GNone | GOne (x : item) | GMany (l : list item) | GOnce (i : nat).
(** What a field holds. [HAny]: whatever was assigned. *)
Inductive held : Type := HNone | HText (s : string) | HList (l : list item) | HMember (m : member) | HSource (n : nat) | HAny (a : given).

Inductive cls : Type :=
  ProcessTemplate | MaterialTemplate | MeasurementTemplate | PropertyTemplate | ConditionTemplate | ParameterTemplate
| ProcessSpec | MaterialSpec | MeasurementSpec | IngredientSpec | ProcessRun | MaterialRun | MeasurementRun | IngredientRun
| AProperty | ACondition | AParameter | PerformedSource.
Inductive field : Type := Name | Tags | Notes | FileLinks | Labels | Description | AllowedNames | AllowedLabels | Source | SampleKind | Origin | PerformedBy | PerformedDate.
Definition field_eqb (f g : field) : bool :=
  match f, g with
  | Name, Name | Tags, Tags | Notes, Notes | FileLinks, FileLinks | Labels, Labels | Description, Description | AllowedNames, AllowedNames | AllowedLabels, AllowedLabels
  | Source, Source | SampleKind, SampleKind | Origin, Origin | PerformedBy, PerformedBy | PerformedDate, PerformedDate => true
  | _, _ => false
  end.

(** gemd/enumeration/sample_type.py:9-14 and origin.py:9-16 *)
Definition sample_types : list member := map (fun s => mkMember s []) ["experimental"; "production"; "virtual"; "unknown"].
Definition origin_types : list member := map (fun s => mkMember s []) ["measured"; "predicted"; "summary"; "specified"; "computed"; "unknown"].

(** The setters: validate_str; a text or None; validate_list of texts or of file links; a PerformedSource or None; a member of
    an enumeration; a plain attribute; a property without setter. *)
Inductive setter : Type := SetText | SetMaybe | SetTexts | SetLinks | SetSource | SetMember (ms : list member) | SetPlain | NoSetter.

Definition is_object (c : cls) : bool :=
  match c with ProcessSpec | MaterialSpec | MeasurementSpec | IngredientSpec | ProcessRun | MaterialRun | MeasurementRun | IngredientRun => true | _ => false end.
Definition is_attribute (c : cls) : bool := match c with AProperty | ACondition | AParameter => true | _ => false end.
(** Which setter a field of a class has: base_entity.py:35-38 (tags), base_object.py:64-81 (name, file_links), ingredient_run.py:86-102
    (name and labels without setters), ingredient_spec.py:88-95, process_template.py:68-90, has_source.py:19-26,
    material_run.py:104-106, base_attribute.py:114-129, performed_source.py:25-52. No class has __slots__: a name it does not
    define a property for is stored as it is. *)
Definition setter_of (c : cls) (f : field) : setter :=
  match f with
  | Name => match c with IngredientRun => NoSetter | _ => if is_object c then SetText else SetPlain end
  | Tags => if is_attribute c then SetPlain else match c with PerformedSource => SetPlain | _ => SetTexts end
  | FileLinks => if is_object c || is_attribute c then SetLinks else SetPlain
  | Labels => match c with IngredientSpec => SetTexts | IngredientRun => NoSetter | _ => SetPlain end
  | AllowedNames | AllowedLabels => match c with ProcessTemplate => SetTexts | _ => SetPlain end
  | Source => match c with ProcessRun | MeasurementRun => SetSource | _ => SetPlain end
  | SampleKind => match c with MaterialRun => SetMember sample_types | _ => SetPlain end
  | Origin => if is_attribute c then SetMember origin_types else SetPlain
  | PerformedBy | PerformedDate => match c with PerformedSource => SetMaybe | _ => SetPlain end
  | Notes | Description => SetPlain
  end.

Definition iterators := nat -> list item.
Definition drain (i : nat) (l : list item) (its : iterators) : iterators := fun j => if Nat.eqb j i then l else its j.
(** [for value in _list: self._validate(value)] (valid_list.py:43-44): what an iterator has left when an item is refused *)
Fixpoint refused_at (ok : item -> bool) (l : list item) : option (list item) :=
  match l with [] => None | x :: r => if ok x then refused_at ok r else Some r end.
(** setters.py:11-39 with valid_list.py:29-60, without trigger: an iterator is used up by the check before list() reads it. *)
Definition validate_list (ok : item -> bool) (a : given) (its : iterators) : res (list item) * iterators :=
  match a with
  | GNone => (Ok [], its)
  | GOne x => (if ok x then Ok [x] else Err TypeError, its)
  | GMany l => (match refused_at ok l with None => Ok l | Some _ => Err TypeError end, its)
  | GOnce i => match refused_at ok (its i) with None => (Ok [], drain i [] its) | Some r => (Err TypeError, drain i r its) end
  end.
Definition is_text (x : item) : bool := match x with IText _ => true | _ => false end.
Definition is_link (x : item) : bool := match x with ILink _ _ => true | _ => false end.

Definition as_list (r : res (list item) * iterators) : res held * iterators :=
  match r with (Ok l, its) => (Ok (HList l), its) | (Err e, its) => (Err e, its) end.
Definition set_value (s : setter) (a : given) (its : iterators) : res held * iterators :=
  match s with
  (* setters.py:42-64 *)
  | SetText => (match a with GOne (IText t) => Ok (HText t) | _ => Err TypeError end, its)
  | SetMaybe => (match a with GNone => Ok HNone | GOne (IText t) => Ok (HText t) | _ => Err TypeError end, its)
  | SetTexts => as_list (validate_list is_text a its)
  | SetLinks => as_list (validate_list is_link a its)
  | SetSource => (match a with GNone => Ok HNone | GOne (ISource n) => Ok (HSource n) | _ => Err TypeError end, its)
  (* base_enumeration.py:60-66: str.lower raises TypeError for what is no text *)
  | SetMember ms => (match a with
                     | GNone => Err ValueError
                     | GOne (IText t) => do m <- from_str ms (Some t) true; match m with Some m => Ok (HMember m) | None => Err ValueError end
                     | _ => Err TypeError
                     end, its)
  | SetPlain => (Ok (HAny a), its)
  | NoSetter => (Err AttributeError, its)
  end.

(** An object: its class and its attributes; [None] for one it does not have. *)
Record object : Type := mkObj { o_cls : cls; o_get : field -> option held }.
Definition put (f : field) (v : held) (o : object) : object := mkObj (o_cls o) (fun g => if field_eqb g f then Some v else o_get o g).
(** [o.f = a] *)
Definition assign (o : object) (f : field) (a : given) (its : iterators) : object * option exn * iterators :=
  match set_value (setter_of (o_cls o) f) a its with
  | (Ok v, its') => (put f v o, None, its')
  | (Err e, its') => (o, Some e, its')
  end.

(** The order in which a constructor assigns these fields: base_entity.py:17-22, base_object.py:37-52, base_template.py:33-41,
    attribute_template.py:31-39, process_template.py:53-66, ingredient_spec.py:59-84, process_run.py:71-76, measurement_run.py:76-82,
    material_run.py:59-68, base_attribute.py:37-55, performed_source.py:19-23. *)
Definition init_order (c : cls) : list field :=
  match c with
  | ProcessTemplate => [Tags; Name; Description; AllowedNames; AllowedLabels]
  | MaterialTemplate | MeasurementTemplate | PropertyTemplate | ConditionTemplate | ParameterTemplate => [Tags; Name; Description]
  | ProcessSpec | MaterialSpec | MeasurementSpec => [Tags; Notes; Name; FileLinks]
  | IngredientSpec => [Tags; Notes; Name; FileLinks; Labels]
  | ProcessRun | MeasurementRun => [Tags; Notes; Name; FileLinks; Source]
  | MaterialRun => [Tags; Notes; Name; FileLinks; SampleKind]
  | IngredientRun => [Tags; Notes; FileLinks]
  | AProperty | ACondition | AParameter => [Name; Notes; Origin; FileLinks]
  | PerformedSource => [PerformedBy; PerformedDate]
  end.
Fixpoint assign_all (fs : list field) (args : field -> given) (o : object) (its : iterators) : res object * iterators :=
  match fs with
  | [] => (Ok o, its)
  | f :: r => match assign o f (args f) its with
              | (o', None, its') => assign_all r args o' its'
              | (_, Some e, its') => (Err e, its')
              end
  end.
Definition named_by_text (a : given) : bool := match a with GOne (IText _) => true | _ => false end.
Definition attribute_template (c : cls) : bool := match c with PropertyTemplate | ConditionTemplate | ParameterTemplate => true | _ => false end.
(** The constructor. An attribute template looks at its name last (attribute_template.py:36-37; the bounds come after it). What
    [args] gives is the default where the caller gives nothing: None, or the text "unknown" for sample_type and origin. *)
Definition construct (c : cls) (args : field -> given) (its : iterators) : res object * iterators :=
  match assign_all (init_order c) args (mkObj c (fun _ => None)) its with
  | (Ok o, its') => (if attribute_template c && negb (named_by_text (args Name)) then Err ValueError else Ok o, its')
  | (Err e, its') => (Err e, its')
  end.

(** A program: constructions and assignments; the objects are numbered in order of construction. *)
Inductive op : Type := New (c : cls) (args : field -> given) | Assign (x : nat) (f : field) (a : given).
Record world : Type := mkW { objects : list object; its : iterators }.
Fixpoint replace (x : nat) (o : object) (l : list object) : list object :=
  match l, x with [], _ => [] | _ :: r, O => o :: r | y :: r, S n => y :: replace n o r end.
Definition step (w : world) (p : op) : world :=
  match p with
  | New c args => match construct c args (its w) with
                  | (Ok o, i) => mkW (objects w ++ [o]) i
                  | (Err _, i) => mkW (objects w) i
                  end
  | Assign x f a => match nth_error (objects w) x with
                    | Some o => let '(o', _, i) := assign o f a (its w) in mkW (replace x o' (objects w)) i
                    | None => w
                    end
  end.
Definition run (w : world) (ps : list op) : world := fold_left step ps w.
