(** Model of DictSerializable.from_dict, _init_sig and as_dict (dict_serializable.py:58-108) and of the constructors and
    attribute setters of the serialisable classes that are not entities: the bounds (gemd/entity/bounds), the values
    (gemd/entity/value), the attributes (gemd/entity/attribute), FileLink, LinkByUID and PerformedSource.

    Simplifications. There are no booleans and no user-defined types among the values. A set is a list of its elements.
    Objects that are only passed on are their contents; templates and pint Units are numbered. Which text pint shows for
    a unit, and whether a template accepts a value (BaseAttribute._check, modelled in ValidationModel.v), are
    parameters. Arguments are given by keyword. Log messages are left out. *)
From Coq Require Import String Ascii List Bool ZArith QArith.
From Verif Require Import Base PyStr BoundsModel ValuesModel.
Import ListNotations.
Open Scope string_scope.
Open Scope list_scope.

Inductive cls :=
| RealBounds | IntegerBounds | CategoricalBounds | CompositionBounds | MolecularStructureBounds
| NominalReal | NormalReal | UniformReal | NominalInteger | UniformInteger
| NominalCategorical | DiscreteCategorical | NominalComposition | EmpiricalFormula | InChI | Smiles
| AProperty | ACondition | AParameter | PropertyAndConditions
| FileLink | LinkByUID | PerformedSource.

Inductive flt := Fin (q : Q) | NaN | Inf | NegInf.
Inductive tkind := PropertyTemplate | ConditionTemplate | ParameterTemplate | OtherEntity.

(** Python values. [DEnum]: a member of Origin, which is also a string. *)
Inductive dv :=
| DNone | DInt (z : Z) | DFloat (f : flt) | DStr (s : string) | DEnum (s : string)
| DList (l : list dv) | DTuple (l : list dv) | DSet (l : list dv) | DDict (l : list (dv * dv))
| DUnit (n : nat) | DEntity (k : tkind) (n : nat) | DObj (c : cls) (vars : list (string * dv)).

(** [typ=] of each class statement. *)
Definition typ (c : cls) : string :=
  match c with
  | RealBounds => "real_bounds" | IntegerBounds => "integer_bounds" | CategoricalBounds => "categorical_bounds"
  | CompositionBounds => "composition_bounds" | MolecularStructureBounds => "molecular_structure_bounds"
  | NominalReal => "nominal_real" | NormalReal => "normal_real" | UniformReal => "uniform_real"
  | NominalInteger => "nominal_integer" | UniformInteger => "uniform_integer"
  | NominalCategorical => "nominal_categorical" | DiscreteCategorical => "discrete_categorical"
  | NominalComposition => "nominal_composition" | EmpiricalFormula => "empirical_formula"
  | InChI => "inchi" | Smiles => "smiles"
  | AProperty => "property" | ACondition => "condition" | AParameter => "parameter"
  | PropertyAndConditions => "property_and_conditions"
  | FileLink => "file_link" | LinkByUID => "link_by_uid" | PerformedSource => "performed_source"
  end.
Definition cls_eqb (a b : cls) : bool := String.eqb (typ a) (typ b).

(** ** Dictionaries with string keys *)
Section Dict.
  Context {A : Type}.
  Fixpoint get (k : string) (d : list (string * A)) : option A :=
    match d with [] => None | (k', v) :: r => if String.eqb k k' then Some v else get k r end.
  Fixpoint put (k : string) (v : A) (d : list (string * A)) : list (string * A) :=
    match d with
    | [] => [(k, v)]
    | (k', v') :: r => if String.eqb k k' then (k, v) :: r else (k', v') :: put k v r
    end.
End Dict.
Definition mem (k : string) (l : list string) : bool := existsb (String.eqb k) l.
Definition vars := list (string * dv).

(** [x.lstrip('_')] *)
Fixpoint lstrip_underscore (s : string) : string :=
  match s with
  | String "_"%char r => lstrip_underscore r
  | _ => s
  end.

(** ** Helpers for numbers, strings and collections *)
Definition num (v : dv) : option pynum :=
  match v with
  | DInt z => Some (PyInt z)
  | DFloat (Fin q) => Some (PyFloat q) | DFloat NaN => Some PyNaN
  | DFloat Inf => Some PyInf | DFloat NegInf => Some PyNegInf
  | _ => None
  end.
Definition text_of (v : dv) : option string := match v with DStr s | DEnum s => Some s | _ => None end.
Definition is_str (v : dv) : bool := match text_of v with Some _ => true | None => false end.
(** isinstance(v, c) for one of these classes; none of them is a subclass of another. *)
Definition is_a (c : cls) (v : dv) : bool := match v with DObj c' _ => cls_eqb c c' | _ => false end.
Definition value_classes : list cls :=
  [NominalReal; NormalReal; UniformReal; NominalInteger; UniformInteger; NominalCategorical; DiscreteCategorical;
   NominalComposition; EmpiricalFormula; InChI; Smiles].
Definition is_value (v : dv) : bool := existsb (fun c => is_a c v) value_classes.

(** float(z) of an int: the nearest double, ties to even; OverflowError if that is too large. *)
Definition round53 (z : Z) : Z :=
  let a := Z.abs z in
  if (a <? 2 ^ 53)%Z then z
  else let k := (Z.log2 a - 52)%Z in
       let q := (a / 2 ^ k)%Z in
       let r := (a mod 2 ^ k)%Z in
       let h := (2 ^ (k - 1))%Z in
       let q' := if (r <? h)%Z || ((r =? h)%Z && Z.even q) then q else (q + 1)%Z in
       (Z.sgn z * (q' * 2 ^ k))%Z.
Definition to_float (v : dv) : res dv :=
  match v with
  | DInt z => if (Z.abs (round53 z) <? 2 ^ 1024)%Z then Ok (DFloat (Fin (inject_Z (round53 z)))) else Err OverflowError
  | DFloat f => Ok v
  | _ => Err TypeError
  end.
(** math.isfinite *)
Definition isfinite (v : dv) : res bool :=
  match v with
  | DInt z => if (Z.abs (round53 z) <? 2 ^ 1024)%Z then Ok true else Err OverflowError
  | DFloat (Fin _) => Ok true
  | DFloat _ => Ok false
  | _ => Err TypeError
  end.
(** [a <= b]. Simplification: lists, tuples and sets, which Python compares too, raise. *)
Definition py_le (a b : dv) : res bool :=
  match num a, num b, text_of a, text_of b with
  | Some x, Some y, _, _ => pynum_le x y
  | _, _, Some s, Some t => Ok (match String.compare s t with Gt => false | _ => true end)
  | _, _, _, _ => Err TypeError
  end.
(** hash(v) does not raise. *)
Fixpoint hashable (v : dv) : bool :=
  match v with
  | DList _ | DSet _ | DDict _ => false
  | DTuple l => forallb hashable l
  | _ => true
  end.
(** iter(v) for collections.abc.Iterable that are not strings (setters.py:36) *)
Definition items (v : dv) : option (list dv) :=
  match v with
  | DList l | DTuple l | DSet l => Some l
  | DDict l => Some (map fst l)
  | _ => None
  end.
(** sorted(list(s)) of a set of strings *)
Fixpoint insert_text (s : string) (l : list string) : list string :=
  match l with
  | [] => [s]
  | t :: r => match String.compare s t with Lt => s :: l | Eq => l | Gt => t :: insert_text s r end
  end.
Definition sort_texts (l : list string) : list string := fold_right insert_text [] l.
Fixpoint texts (l : list dv) : option (list string) :=
  match l with
  | [] => Some []
  | v :: r => match text_of v, texts r with Some s, Some t => Some (s :: t) | _, _ => None end
  end.
(** sorted(list(s)) of any set: numbers compare with each other (their order is left open), other mixtures do not. *)
Definition sort_set (l : list dv) : res dv :=
  match texts l with
  | Some ts => Ok (DList (map DStr (sort_texts ts)))
  | None => if Nat.leb (length l) 1 || forallb (fun v => match num v with Some _ => true | None => false end) l
            then Ok (DList l) else Err TypeError
  end.

Definition origins : list member := map (fun s => mkMember s []) ["measured"; "predicted"; "summary"; "specified"; "computed"; "unknown"].

Section Model.
  (** f"{_REGISTRY.parse_units(_unmangle_scaling(s))}" (gemd/units/impl.py:354-360) *)
  Variable units : string -> res string.
  (** What BaseAttribute._check(template, value) raises now (base_attribute.py:58-67) *)
  Variable check : dv -> dv -> option exn.

  (** ** Attribute setters *)
  Definition outcome := (vars * option exn)%type.
  (** A setter that stores what [f] makes of the argument, or raises. *)
  Definition checked (k : string) (f : dv -> res dv) (s : vars) (v : dv) : outcome :=
    match f v with Ok w => (put ("_" ++ k)%string w s, None) | Err e => (s, Some e) end.

  (** parse_units with return_unit=False (units/impl.py:349-364), cached; and None raises in both callers
      (continuous_value.py:37-42, real_bounds.py:76-80). *)
  Definition parse (v : dv) : res dv :=
    match v with
    | DNone => Err ValueError
    | DStr s | DEnum s => do t <- units s; Ok (DStr t)
    | DUnit n => Ok v
    | _ => if hashable v then Err UndefinedUnitError else Err TypeError
    end.

  (** real_bounds.py:41-48 and 56-63. [other] is the private name of the other bound, [bad] the forbidden comparison
      of the argument with it. *)
  Definition above (v w : dv) : res bool := do b <- py_le v w; Ok (negb b).
  Definition below (v w : dv) : res bool := do b <- py_le w v; Ok (negb b).
  Definition set_real (k other : string) (bad : dv -> dv -> res bool) (s : vars) (v : dv) : outcome :=
    checked k (fun v =>
      if match v with DNone => true | _ => false end then Err ValueError else
      do f <- isfinite v;
      if negb f then Err ValueError else
      do b <- match get other s with None | Some DNone => Ok false | Some w => bad v w end;
      if (b : bool) then Err ValueError else to_float v) s v.

  (** integer_bounds.py:38-45 and 53-60 *)
  Definition set_int (k other : string) (bad : dv -> dv -> res bool) (s : vars) (v : dv) : outcome :=
    checked k (fun v =>
      do z <- match v with DNone => Err ValueError | _ => match num v with Some x => int_checked x | None => Err TypeError end end;
      do b <- match get other s with None | Some DNone => Ok false | Some w => bad v w end;
      if (b : bool) then Err ValueError else Ok (DInt z)) s v.

  (** categorical_bounds.py:33-44 and composition_bounds.py:34-46: the attribute is set before the strings are
      checked. *)
  Definition set_texts (k : string) (s : vars) (v : dv) : outcome :=
    let store l := (put ("_" ++ k)%string (DSet l) s, if forallb is_str l then None else Some ValueError) in
    match v with
    | DNone => store []
    | DList l | DTuple l => if forallb hashable l then store l else (s, Some TypeError)
    | DSet l => store l
    | _ => (s, Some ValueError)
    end.

  (** nominal_integer.py:29-33 *)
  Definition integral (v : dv) : res dv :=
    match num v with Some x => do z <- int_like x; Ok (DInt z) | None => Err TypeError end.
  (** uniform_integer.py:34-45 *)
  Definition set_uniform_lower (s : vars) (v : dv) : outcome :=
    checked "lower_bound" (fun v =>
      do w <- integral v;
      do b <- match get "_upper_bound" s with None | Some DNone => Ok false | Some h => above v h end;
      if (b : bool) then Err ValueError else Ok w) s v.
  (** uniform_integer.py:53-63; [self.lower_bound] is [int(self._lower_bound)] *)
  Definition set_uniform_upper (s : vars) (v : dv) : outcome :=
    checked "upper_bound" (fun v =>
      do w <- integral v;
      do b <- match get "_lower_bound" s with None | Some DNone => Err TypeError | Some l => below v l end;
      if (b : bool) then Err ValueError else Ok w) s v.

  (** validate_str (setters.py:42-64) unless None (nominal_categorical.py:29-34); also performed_source.py:31-38 and
      46-52 and smiles_value.py:29-36. *)
  Definition optional_str (v : dv) : res dv :=
    match v with DNone => Ok DNone | _ => if is_str v then Ok v else Err TypeError end.

  (** discrete_categorical.py:37-49 *)
  Fixpoint sum_values (acc : pynum) (l : list (dv * dv)) : res pynum :=
    match l with
    | [] => Ok acc
    | (_, v) :: r => match num v with
                     | Some x => do s <- num_add acc x; sum_values s r
                     | None => Err TypeError
                     end
    end.
  Definition probabilities (v : dv) : res dv :=
    match v with
    | DNone => Ok DNone
    | DStr _ | DEnum _ => Ok (DDict [(v, DFloat (Fin 1))])
    | DDict l => do t <- sum_values (PyInt 0) l;
                 if off_one t then Err ValueError
                 else if forallb (fun p => is_str (fst p)) l then Ok (DDict l) else Err TypeError
    | _ => Err TypeError
    end.

  (** nominal_composition.py:36-46. [dict(l)] of a list of pairs; simplification: a pair is a list or tuple, or a
      string of two characters. Later pairs replace earlier ones with the same string as key. *)
  Definition pair_of (v : dv) : res (dv * dv) :=
    match v with
    | DList [k; x] | DTuple [k; x] => if hashable k then Ok (k, x) else Err TypeError
    | DStr (String a (String b EmptyString)) => Ok (DStr (String a EmptyString), DStr (String b EmptyString))
    | DList _ | DTuple _ | DStr _ => Err ValueError
    | _ => Err TypeError
    end.
  Fixpoint pairs_of (l : list dv) : res (list (dv * dv)) :=
    match l with [] => Ok [] | v :: r => do p <- pair_of v; do q <- pairs_of r; Ok (p :: q) end.
  Definition same_text (a b : dv) : bool :=
    match text_of a, text_of b with Some s, Some t => String.eqb s t | _, _ => false end.
  Fixpoint keep_last (l : list (dv * dv)) : list (dv * dv) :=
    match l with
    | [] => []
    | (k, v) :: r => if existsb (fun p => same_text k (fst p)) r then keep_last r else (k, v) :: keep_last r
    end.
  Definition quantities (v : dv) : res dv :=
    match v with
    | DNone => Ok (DDict [])
    | DDict _ => Ok v
    | DList l => do ps <- pairs_of l; Ok (DDict (keep_last ps))
    | _ => Err TypeError
    end.

  (** empirical_formula.py:51-62 *)
  Definition formula (v : dv) : res dv :=
    match v with
    | DNone => Ok DNone
    | _ => match text_of v with
           | Some s => if subset (elements s) all_elements then Ok v else Err ValueError
           | None => Err TypeError
           end
    end.
  (** inchi_value.py:28-42; a string that already is in order is kept as it is. *)
  Definition inchi (v : dv) : res dv :=
    match v with
    | DNone => Ok DNone
    | _ => match text_of v with
           | Some s => Ok (if startswith "InChI" s then v else DStr (normal_inchi s))
           | None => Err TypeError
           end
    end.

  (** validate_list (setters.py:11-39) with ValidList.__init__ (valid_list.py:29-60): a class of the package. *)
  Definition valid_list (c : cls) (v : dv) : res dv :=
    match v with
    | DNone => Ok (DList [])
    | _ => let l := match items v with Some l => l | None => [v] end in
           if forallb (is_a c) l then Ok (DList l) else Err TypeError
    end.

  (** base_attribute.py:74-84 *)
  Definition set_value (s : vars) (v : dv) : outcome :=
    checked "value" (fun v =>
      match v with
      | DNone => Ok DNone
      | _ => if is_value v then
               match get "_template" s with
               | None | Some DNone => Ok v
               | Some t => match check t v with Some e => Err e | None => Ok v end
               end
             else Err TypeError
      end) s v.
  (** base_attribute.py:91-102; [k]: the class of templates of this class of attributes *)
  Definition tkind_eqb (a b : tkind) : bool :=
    match a, b with
    | PropertyTemplate, PropertyTemplate | ConditionTemplate, ConditionTemplate | ParameterTemplate, ParameterTemplate | OtherEntity, OtherEntity => true
    | _, _ => false
    end.
  Definition set_template (k : tkind) (s : vars) (v : dv) : outcome :=
    checked "template" (fun v =>
      match v with
      | DNone => Ok DNone
      | DEntity k' n => if tkind_eqb k k' then
                          match get "_value" s with
                          | None | Some DNone => Ok v
                          | Some w => match check v w with Some e => Err e | None => Ok v end
                          end
                        else Err TypeError
      | _ => if is_a LinkByUID v then Ok v else Err TypeError
      end) s v.
  (** base_attribute.py:114-119 *)
  Definition origin (v : dv) : res dv :=
    match v with
    | DNone => Err ValueError
    | _ => match text_of v with
           | Some s => do m <- from_str origins (Some s) true;
                       match m with Some m => Ok (DEnum (mvalue m)) | None => Err ValueError end
           | None => Err TypeError
           end
    end.

  (** property_and_conditions.py:73-78 *)
  Definition property (v : dv) : res dv := if is_a AProperty v then Ok v else Err TypeError.

  (** The properties with a setter, by class and name. *)
  Definition template_of (c : cls) : tkind :=
    match c with AProperty => PropertyTemplate | ACondition => ConditionTemplate | _ => ParameterTemplate end.
  Definition setter (c : cls) (k : string) : option (vars -> dv -> outcome) :=
    match c with
    | RealBounds =>
        if String.eqb k "lower_bound" then Some (set_real "lower_bound" "_upper_bound" above)
        else if String.eqb k "upper_bound" then Some (set_real "upper_bound" "_lower_bound" below)
        else if String.eqb k "default_units" then Some (checked k parse) else None
    | IntegerBounds =>
        if String.eqb k "lower_bound" then Some (set_int "lower_bound" "_upper_bound" above)
        else if String.eqb k "upper_bound" then Some (set_int "upper_bound" "_lower_bound" below) else None
    | CategoricalBounds => if String.eqb k "categories" then Some (set_texts k) else None
    | CompositionBounds => if String.eqb k "components" then Some (set_texts k) else None
    | NominalReal | NormalReal | UniformReal => if String.eqb k "units" then Some (checked k parse) else None
    | NominalInteger => if String.eqb k "nominal" then Some (checked k integral) else None
    | UniformInteger =>
        if String.eqb k "lower_bound" then Some set_uniform_lower
        else if String.eqb k "upper_bound" then Some set_uniform_upper else None
    | NominalCategorical => if String.eqb k "category" then Some (checked k optional_str) else None
    | DiscreteCategorical => if String.eqb k "probabilities" then Some (checked k probabilities) else None
    | NominalComposition => if String.eqb k "quantities" then Some (checked k quantities) else None
    | EmpiricalFormula => if String.eqb k "formula" then Some (checked k formula) else None
    | InChI => if String.eqb k "inchi" then Some (checked k inchi) else None
    | Smiles => if String.eqb k "smiles" then Some (checked k optional_str) else None
    | AProperty | ACondition | AParameter =>
        if String.eqb k "value" then Some set_value
        else if String.eqb k "template" then Some (set_template (template_of c))
        else if String.eqb k "origin" then Some (checked k origin)
        else if String.eqb k "file_links" then Some (checked k (valid_list FileLink)) else None
    | PropertyAndConditions =>
        if String.eqb k "property" then Some (checked k property)
        else if String.eqb k "conditions" then Some (checked k (valid_list ACondition)) else None
    | PerformedSource => if String.eqb k "performed_by" || String.eqb k "performed_date" then Some (checked k optional_str) else None
    | MolecularStructureBounds | FileLink | LinkByUID => None
    end.
  (** property_and_conditions.py:47-65: properties without a setter *)
  Definition readonly (c : cls) (k : string) : bool :=
    match c with PropertyAndConditions => mem k ["name"; "template"; "origin"; "value"] | _ => false end.

  (** [self.k = v]; an attribute that is no property is just set. *)
  Definition setattr (c : cls) (k : string) (s : vars) (v : dv) : outcome :=
    match setter c k with
    | Some f => f s v
    | None => if readonly c k then (s, Some AttributeError) else (put k v s, None)
    end.
  (** [self.k]: a property with a setter reads its private name; those of the integer values wrap it in [int]
      (nominal_integer.py:24-26, uniform_integer.py:29-31 and 48-50). Simplification: the properties without a setter
      are left out (no instance variable has their name). *)
  Definition getattr (c : cls) (k : string) (s : vars) : res dv :=
    match setter c k with
    | Some _ => match get ("_" ++ k)%string s with
                | Some v => match c, v with
                            | NominalInteger, DNone | UniformInteger, DNone => Err TypeError
                            | _, _ => Ok v
                            end
                | None => Err AttributeError
                end
    | None => match get k s with Some v => Ok v | None => Err AttributeError end
    end.

  (** ** Constructors *)
  (** The parameters after [self] with their defaults. *)
  Definition sig (c : cls) : list (string * option dv) :=
    match c with
    | RealBounds => [("lower_bound", None); ("upper_bound", None); ("default_units", None)]        (* real_bounds.py:26 *)
    | IntegerBounds | UniformInteger => [("lower_bound", None); ("upper_bound", None)]             (* integer_bounds.py:25, uniform_integer.py:21 *)
    | CategoricalBounds => [("categories", Some DNone)]                                            (* categorical_bounds.py:23 *)
    | CompositionBounds => [("components", Some DNone)]                                            (* composition_bounds.py:24 *)
    | MolecularStructureBounds => []                                                               (* object.__init__ *)
    | NominalReal => [("nominal", Some DNone); ("units", Some DNone)]                              (* nominal_real.py:22 *)
    | NormalReal => [("mean", Some DNone); ("std", Some DNone); ("units", Some DNone)]             (* normal_real.py:24 *)
    | UniformReal => [("lower_bound", Some DNone); ("upper_bound", Some DNone); ("units", Some DNone)]  (* uniform_real.py:30 *)
    | NominalInteger => [("nominal", None)]                                                        (* nominal_integer.py:19 *)
    | NominalCategorical => [("category", Some DNone)]                                             (* nominal_categorical.py:20 *)
    | DiscreteCategorical => [("probabilities", Some DNone)]                                       (* discrete_categorical.py:28 *)
    | NominalComposition => [("quantities", Some DNone)]                                           (* nominal_composition.py:27 *)
    | EmpiricalFormula => [("formula", Some DNone)]                                                (* empirical_formula.py:37 *)
    | InChI => [("inchi", Some DNone)]                                                             (* inchi_value.py:19 *)
    | Smiles => [("smiles", Some DNone)]                                                           (* smiles_value.py:20 *)
    | AProperty | ACondition | AParameter =>                                                          (* base_attribute.py:37-44 *)
        [("name", None); ("template", Some DNone); ("origin", Some (DEnum "unknown")); ("value", Some DNone);
         ("notes", Some DNone); ("file_links", Some DNone)]
    | PropertyAndConditions => [("property", Some DNone); ("conditions", Some DNone)]              (* property_and_conditions.py:29-31 *)
    | FileLink => [("filename", None); ("url", None)]                                              (* file_link.py:26 *)
    | LinkByUID => [("scope", None); ("id", None)]                                                 (* link_by_uid.py:24 *)
    | PerformedSource => [("performed_by", Some DNone); ("performed_date", Some DNone)]            (* performed_source.py:19 *)
    end.

  (** The statements the constructors consist of. *)
  Inductive stmt :=
  | Reset (k : string)          (* self._k = None *)
  | Assign (k : string)         (* self.k = k *)
  | AssignFloat (k : string)    (* self.k = float(k) *)
  | AssertNumber (k : string)   (* assert isinstance(k, (int, float)) *)
  | AssertOrdered (a b : string) (* assert a <= b *).
  Definition body (c : cls) : list stmt :=
    match c with
    | RealBounds => [Reset "_default_units"; Reset "_lower_bound"; Reset "_upper_bound";
                     Assign "default_units"; Assign "lower_bound"; Assign "upper_bound"]          (* real_bounds.py:27-33 *)
    | IntegerBounds | UniformInteger =>
        [Reset "_lower_bound"; Reset "_upper_bound"; Assign "lower_bound"; Assign "upper_bound"]   (* integer_bounds.py:26-30, uniform_integer.py:22-26 *)
    | CategoricalBounds => [Reset "_categories"; Assign "categories"]                              (* categorical_bounds.py:24-25 *)
    | CompositionBounds => [Reset "_components"; Assign "components"]                              (* composition_bounds.py:25-26 *)
    | MolecularStructureBounds => []
    | NominalReal => [Reset "_units"; Assign "units"; AssertNumber "nominal"; AssignFloat "nominal"] (* continuous_value.py:28-30, nominal_real.py:23-26 *)
    | NormalReal => [Reset "_units"; Assign "units"; Assign "mean"; Assign "std"]                  (* normal_real.py:25-27 *)
    | UniformReal => [Reset "_units"; Assign "units"; Assign "lower_bound"; Assign "upper_bound";
                      AssertOrdered "lower_bound" "upper_bound"]                                   (* uniform_real.py:31-35 *)
    | NominalInteger => [Reset "_nominal"; Assign "nominal"]                                       (* nominal_integer.py:20-21 *)
    | NominalCategorical => [Reset "_category"; Assign "category"]                                 (* nominal_categorical.py:21-22 *)
    | DiscreteCategorical => [Reset "_probabilities"; Assign "probabilities"]                      (* discrete_categorical.py:29-30 *)
    | NominalComposition => [Reset "_quantities"; Assign "quantities"]                             (* nominal_composition.py:28-29 *)
    | EmpiricalFormula => [Reset "_formula"; Assign "formula"]                                     (* empirical_formula.py:38-39 *)
    | InChI => [Reset "_inchi"; Assign "inchi"]                                                    (* inchi_value.py:20-21 *)
    | Smiles => [Reset "_smiles"; Assign "smiles"]                                                 (* smiles_value.py:21-22 *)
    | AProperty | ACondition | AParameter =>                                                          (* base_attribute.py:45-56 *)
        [Assign "name"; Assign "notes"; Reset "_value"; Reset "_template"; Reset "_origin"; Reset "_file_links";
         Assign "value"; Assign "template"; Assign "origin"; Assign "file_links"]
    | PropertyAndConditions => [Reset "_property"; Assign "property"; Reset "_conditions"; Assign "conditions"] (* property_and_conditions.py:32-35 *)
    | FileLink => [Assign "filename"; Assign "url"]                                                (* file_link.py:27-29 *)
    | LinkByUID => [Assign "scope"; Assign "id"]                                                   (* link_by_uid.py:26-27 *)
    | PerformedSource => [Reset "_performed_by"; Reset "_performed_date"; Assign "performed_by"; Assign "performed_date"] (* performed_source.py:20-24 *)
    end.
  Definition arg (k : string) (args : vars) : dv := match get k args with Some v => v | None => DNone end.
  Definition exec (c : cls) (args : vars) (s : vars) (st : stmt) : res vars :=
    match st with
    | Reset k => Ok (put k DNone s)
    | Assign k => match setattr c k s (arg k args) with (s', None) => Ok s' | (_, Some e) => Err e end
    | AssignFloat k => do f <- to_float (arg k args); match setattr c k s f with (s', None) => Ok s' | (_, Some e) => Err e end
    | AssertNumber k => match num (arg k args) with Some _ => Ok s | None => Err AssertionError end
    | AssertOrdered a b => do o <- py_le (arg a args) (arg b args); if (o : bool) then Ok s else Err AssertionError
    end.
  Fixpoint run_body (c : cls) (args : vars) (b : list stmt) (s : vars) : res vars :=
    match b with [] => Ok s | st :: r => do s' <- exec c args s st; run_body c args r s' end.
  Fixpoint bind_args (sg : list (string * option dv)) (kw : vars) : res vars :=
    match sg with
    | [] => Ok []
    | (k, d) :: r => match get k kw, d with
                     | Some v, _ | None, Some v => do args <- bind_args r kw; Ok ((k, v) :: args)
                     | None, None => Err TypeError
                     end
    end.
  (** [cls( **kw)]: an argument that is not a parameter, or one for [self], is a TypeError. *)
  Definition call (c : cls) (kw : vars) : res vars :=
    if forallb (fun p => mem (fst p) (map fst (sig c))) kw
    then do args <- bind_args (sig c) kw; run_body c args (body c) []
    else Err TypeError.

  (** ** from_dict and as_dict *)
  (** dict_serializable.py:87-93: getfullargspec lists [self] too. *)
  Definition init_sig (c : cls) : list string := "self" :: map fst (sig c).
  (** dict_serializable.py:75-85 *)
  Definition from_dict (c : cls) (d : vars) : res vars :=
    call c (filter (fun p => mem (fst p) (init_sig c)) d).

  Fixpoint nub (l : list string) : list string :=
    match l with [] => [] | k :: r => if mem k r then nub r else k :: nub r end.
  Fixpoint read_all (c : cls) (s : vars) (ks : list string) : res vars :=
    match ks with [] => Ok [] | k :: r => do v <- getattr c k s; do d <- read_all c s r; Ok ((k, v) :: d) end.
  (** dict_serializable.py:95-108; overridden in categorical_bounds.py:130-140, composition_bounds.py:131-141 and
      molecular_structure_bounds.py:97-107. None of these classes skips a field. *)
  Definition as_dict (c : cls) (s : vars) : res vars :=
    match c with
    | CategoricalBounds | CompositionBounds =>
        let k := match c with CategoricalBounds => "categories" | _ => "components" end in
        do v <- getattr c k s;
        match v with
        | DSet l => do w <- sort_set l; Ok [("type", DStr (typ c)); (k, w)]
        | _ => Err TypeError
        end
    | MolecularStructureBounds => Ok [("type", DStr (typ c))]
    | _ => do d <- read_all c s (nub (map (fun p => lstrip_underscore (fst p)) s));
           Ok (put "type" (DStr (typ c)) d)
    end.

  (** ** Histories: assignments to attributes that are constructor arguments; what is raised is caught. *)
  Definition assign (c : cls) (s : vars) (kv : string * dv) : vars := fst (setattr c (fst kv) s (snd kv)).
  Definition history (c : cls) (s : vars) (ops : list (string * dv)) : vars := fold_left (assign c) ops s.
End Model.
