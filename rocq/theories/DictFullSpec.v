(** Specification for C55: what every assignment to a field, and every constructor, does. *)
From Coq Require Import String List Bool ZArith QArith Qabs.
From Verif Require Import ReModel ReSpec Base PyStr BoundsModel ValuesModel ValuesSpec TextSpec DictModel DictSpec.
Import ListNotations.
Open Scope string_scope.
Open Scope list_scope.

(** ** Which rule each field follows *)
Inductive side := NotAbove (other : string) | NotBelow (other : string).
Inductive rule :=
| AReal (b : side)        (* a finite number, kept as a float *)
| AWhole (b : side)       (* a finite whole number that a float can hold *)
| AnInteger               (* a whole number *)
| ARange (b : side)       (* a whole number on the right side of the other *)
| ANumber                 (* any number, kept as a float *)
| AUnit | Texts | AText | Probabilities | Quantities | AFormula | AnInChI
| AValue | ATemplate (k : tkind) | AnOrigin | ListOf (c : cls) | Instance (c : cls)
| Anything
| ReadOnly.

Definition attribute_rule (k : tkind) (f : string) : rule :=
  match f with
  | "value" => AValue | "template" => ATemplate k | "origin" => AnOrigin | "file_links" => ListOf FileLink | _ => Anything
  end.
Definition rule_of (c : cls) (f : string) : rule :=
  match c, f with
  | RealBounds, "lower_bound" => AReal (NotAbove "upper_bound")
  | RealBounds, "upper_bound" => AReal (NotBelow "lower_bound")
  | RealBounds, "default_units" => AUnit
  | IntegerBounds, "lower_bound" => AWhole (NotAbove "upper_bound")
  | IntegerBounds, "upper_bound" => AWhole (NotBelow "lower_bound")
  | CategoricalBounds, "categories" => Texts
  | CompositionBounds, "components" => Texts
  | NominalReal, "units" | NormalReal, "units" | UniformReal, "units" => AUnit
  | NominalInteger, "nominal" => AnInteger
  | UniformInteger, "lower_bound" => ARange (NotAbove "upper_bound")
  | UniformInteger, "upper_bound" => ARange (NotBelow "lower_bound")
  | NominalCategorical, "category" => AText
  | DiscreteCategorical, "probabilities" => Probabilities
  | NominalComposition, "quantities" => Quantities
  | EmpiricalFormula, "formula" => AFormula
  | InChI, "inchi" => AnInChI
  | Smiles, "smiles" => AText
  | AProperty, _ => attribute_rule PropertyTemplate f
  | ACondition, _ => attribute_rule ConditionTemplate f
  | AParameter, _ => attribute_rule ParameterTemplate f
  | PropertyAndConditions, "property" => Instance AProperty
  | PropertyAndConditions, "conditions" => ListOf ACondition
  | PropertyAndConditions, "name" | PropertyAndConditions, "template" | PropertyAndConditions, "origin" | PropertyAndConditions, "value" => ReadOnly
  | PerformedSource, "performed_by" | PerformedSource, "performed_date" => AText
  | _, _ => Anything
  end.

(** The fields of each class in the order its constructor sets them; those with a default. *)
Definition fields (c : cls) : list string :=
  match c with
  | RealBounds => ["default_units"; "lower_bound"; "upper_bound"]
  | IntegerBounds | UniformInteger => ["lower_bound"; "upper_bound"]
  | CategoricalBounds => ["categories"]
  | CompositionBounds => ["components"]
  | MolecularStructureBounds => []
  | NominalReal => ["units"; "nominal"]
  | NormalReal => ["units"; "mean"; "std"]
  | UniformReal => ["units"; "lower_bound"; "upper_bound"]
  | NominalInteger => ["nominal"]
  | NominalCategorical => ["category"]
  | DiscreteCategorical => ["probabilities"]
  | NominalComposition => ["quantities"]
  | EmpiricalFormula => ["formula"]
  | InChI => ["inchi"]
  | Smiles => ["smiles"]
  | AProperty | ACondition | AParameter => ["name"; "notes"; "value"; "template"; "origin"; "file_links"]
  | PropertyAndConditions => ["property"; "conditions"]
  | FileLink => ["filename"; "url"]
  | LinkByUID => ["scope"; "id"]
  | PerformedSource => ["performed_by"; "performed_date"]
  end.
Definition required (c : cls) : list string :=
  match c with
  | RealBounds => ["lower_bound"; "upper_bound"; "default_units"]
  | IntegerBounds | UniformInteger => ["lower_bound"; "upper_bound"]
  | NominalInteger => ["nominal"]
  | AProperty | ACondition | AParameter => ["name"]
  | FileLink => ["filename"; "url"]
  | LinkByUID => ["scope"; "id"]
  | _ => []
  end.
Definition default (c : cls) (f : string) : dv :=
  match c, f with
  | AProperty, "origin" | ACondition, "origin" | AParameter, "origin" => DEnum "unknown"
  | _, _ => DNone
  end.
(** A constructor is stricter than the attribute in one field. *)
Definition rule_when_made (c : cls) (f : string) : rule :=
  match c, f with NominalReal, "nominal" => ANumber | _, _ => rule_of c f end.

(** ** Numbers *)
(** [v] is the finite number [q]. *)
Definition finite (v : dv) (q : Q) : Prop := v = DFloat (Fin q) \/ exists z, v = DInt z /\ q = inject_Z z.
Definition number (v : dv) : Prop := (exists z, v = DInt z) \/ (exists f, v = DFloat f).
Definition special (v : dv) : Prop := v = DFloat NaN \/ v = DFloat Inf \/ v = DFloat NegInf.
(** An int that no float comes near. *)
Definition overflows (v : dv) : Prop := exists z, v = DInt z /\ (2 ^ 1024 - 2 ^ 970 <= Z.abs z)%Z.
(** The nearest double; of two that are equally near, the one with an even significand. *)
Definition even_float (q : Q) : Prop := exists m e, (Z.abs m < 2 ^ 52)%Z /\ q == inject_Z m * Qpower 2 e.
Definition rounds_to (z : Z) (q : Q) : Prop :=
  is_float q /\ forall p, is_float p -> ~ p == q ->
    Qabs (inject_Z z - q) < Qabs (inject_Z z - p) \/ (Qabs (inject_Z z - q) == Qabs (inject_Z z - p) /\ even_float q).
Definition as_float_of (v w : dv) : Prop :=
  (exists f, v = DFloat f /\ w = v) \/ (exists z q, v = DInt z /\ w = DFloat (Fin q) /\ rounds_to z q).
(** [q] lies on the wrong side of the other bound, if there is one. *)
Definition crosses (b : side) (read : string -> dv) (q : Q) : Prop :=
  match b with
  | NotAbove o => exists p, finite (read o) p /\ p < q
  | NotBelow o => exists p, finite (read o) p /\ q < p
  end.

(** ** Texts and collections *)
Definition text (v : dv) (s : string) : Prop := v = DStr s \/ v = DEnum s.
Definition textual (v : dv) : Prop := exists s, text v s.
Inductive unhashable : dv -> Prop :=
| un_list l : unhashable (DList l)
| un_set l : unhashable (DSet l)
| un_dict l : unhashable (DDict l)
| un_tuple l v : In v l -> unhashable v -> unhashable (DTuple l).
Definition sequence (v : dv) (l : list dv) : Prop := v = DList l \/ v = DTuple l.
(** What a list attribute takes from its argument: the items of a collection, the keys of a dictionary, else itself. *)
Inductive listed : dv -> list dv -> Prop :=
| li_none : listed DNone []
| li_sequence v l : sequence v l -> listed v l
| li_set l : listed (DSet l) l
| li_dict l : listed (DDict l) (map fst l)
| li_one v : v <> DNone -> (forall l, v <> DList l) -> (forall l, v <> DTuple l) -> (forall l, v <> DSet l) -> (forall l, v <> DDict l) -> listed v [v].
Definition instance (c : cls) (v : dv) : Prop := exists s, v = DObj c s.
Definition value_class (c : cls) : Prop :=
  In c [NominalReal; NormalReal; UniformReal; NominalInteger; UniformInteger; NominalCategorical; DiscreteCategorical;
        NominalComposition; EmpiricalFormula; InChI; Smiles].
Definition a_value (v : dv) : Prop := exists c, value_class c /\ instance c v.

(** An item of a list given as a composition: a pair, or what it raises. *)
Inductive item : dv -> res (dv * dv) -> Prop :=
| it_pair v k x : sequence v [k; x] -> ~ unhashable k -> item v (Ok (k, x))
| it_key v k x : sequence v [k; x] -> unhashable k -> item v (Err TypeError)
| it_length v l : sequence v l -> length l <> 2%nat -> item v (Err ValueError)
| it_chars a b : item (DStr (String a (String b ""))) (Ok (DStr (String a ""), DStr (String b "")))
| it_text s : String.length s <> 2%nat -> item (DStr s) (Err ValueError)
| it_other v : (forall l, ~ sequence v l) -> (forall s, v <> DStr s) -> item v (Err TypeError).
Definition same_key (a b : dv) : Prop := exists s, text a s /\ text b s.
(** A pair is in the dictionary made of a list of pairs unless a later one has the same text as key. *)
Definition table_of (ps d : list (dv * dv)) : Prop :=
  forall p, In p d <-> exists l1 l2, ps = l1 ++ p :: l2 /\ forall q, In q l2 -> ~ same_key (fst p) (fst q).

(** [x <= y] in Python. *)
Inductive at_most : dv -> dv -> Prop :=
| am_finite v w p q : finite v p -> finite w q -> p <= q -> at_most v w
| am_inf v : number v -> v <> DFloat NaN -> at_most v (DFloat Inf)
| am_neg v : number v -> v <> DFloat NaN -> at_most (DFloat NegInf) v
| am_text v w s t : text v s -> text w t -> String.compare s t <> Gt -> at_most v w.
Definition comparable (v w : dv) : Prop := (number v /\ number w) \/ (textual v /\ textual w).

Section Does.
  Variable units : string -> res string.
  Variable check : dv -> dv -> option exn.

  (** [does r read v stored raised]: giving [v] to a field with rule [r], while the fields of the object read as
      [read], stores [stored] (or leaves the field alone) and raises [raised] (or nothing). *)
  Inductive does : rule -> (string -> dv) -> dv -> option dv -> option exn -> Prop :=
  | real_none b read : does (AReal b) read DNone None (Some ValueError)
  | real_other b read v : v <> DNone -> ~ number v -> does (AReal b) read v None (Some TypeError)
  | real_special b read v : special v -> does (AReal b) read v None (Some ValueError)
  | real_large b read v : overflows v -> does (AReal b) read v None (Some OverflowError)
  | real_cross b read v q : finite v q -> ~ overflows v -> crosses b read q -> does (AReal b) read v None (Some ValueError)
  | real_stored b read v q w : finite v q -> ~ overflows v -> ~ crosses b read q -> as_float_of v w -> does (AReal b) read v (Some w) None

  | whole_none b read : does (AWhole b) read DNone None (Some ValueError)
  | whole_other b read v : v <> DNone -> ~ number v -> does (AWhole b) read v None (Some TypeError)
  | whole_special b read v : special v -> does (AWhole b) read v None (Some ValueError)
  | whole_large b read v : overflows v -> does (AWhole b) read v None (Some OverflowError)
  | whole_broken b read v q : finite v q -> ~ overflows v -> (forall z, is_float (inject_Z z) -> ~ q == inject_Z z) -> does (AWhole b) read v None (Some ValueError)
  | whole_cross b read v q z : finite v q -> q == inject_Z z -> is_float (inject_Z z) -> crosses b read q -> does (AWhole b) read v None (Some ValueError)
  | whole_stored b read v q z : finite v q -> q == inject_Z z -> is_float (inject_Z z) -> ~ crosses b read q -> does (AWhole b) read v (Some (DInt z)) None

  | integer_other read v : ~ number v -> does AnInteger read v None (Some TypeError)
  | integer_nan read : does AnInteger read (DFloat NaN) None (Some ValueError)
  | integer_inf read v : v = DFloat Inf \/ v = DFloat NegInf -> does AnInteger read v None (Some OverflowError)
  | integer_broken read v q : finite v q -> (forall z, ~ q == inject_Z z) -> does AnInteger read v None (Some TypeError)
  | integer_stored read v q z : finite v q -> q == inject_Z z -> does AnInteger read v (Some (DInt z)) None

  | range_refused b read v e : does AnInteger read v None (Some e) -> does (ARange b) read v None (Some e)
  | range_cross b read v z : does AnInteger read v (Some (DInt z)) None -> crosses b read (inject_Z z) -> does (ARange b) read v None (Some ValueError)
  | range_stored b read v z : does AnInteger read v (Some (DInt z)) None -> ~ crosses b read (inject_Z z) -> does (ARange b) read v (Some (DInt z)) None

  | number_other read v : ~ number v -> does ANumber read v None (Some AssertionError)
  | number_large read v : overflows v -> does ANumber read v None (Some OverflowError)
  | number_stored read v w : number v -> ~ overflows v -> as_float_of v w -> does ANumber read v (Some w) None

  | unit_none read : does AUnit read DNone None (Some ValueError)
  | unit_text read v s t : text v s -> units s = Ok t -> does AUnit read v (Some (DStr t)) None
  | unit_wrong read v s e : text v s -> units s = Err e -> does AUnit read v None (Some e)
  | unit_stored read n : does AUnit read (DUnit n) (Some (DUnit n)) None
  | unit_unhashable read v : unhashable v -> does AUnit read v None (Some TypeError)
  | unit_other read v : v <> DNone -> ~ textual v -> (forall n, v <> DUnit n) -> ~ unhashable v -> does AUnit read v None (Some UndefinedUnitError)

  | texts_none read : does Texts read DNone (Some (DSet [])) None
  | texts_unhashable read v l x : sequence v l -> In x l -> unhashable x -> does Texts read v None (Some TypeError)
  | texts_stored read v l : (sequence v l /\ Forall (fun x => ~ unhashable x) l) \/ v = DSet l -> Forall textual l -> does Texts read v (Some (DSet l)) None
  | texts_wrong read v l x : (sequence v l /\ Forall (fun x => ~ unhashable x) l) \/ v = DSet l -> In x l -> ~ textual x -> does Texts read v (Some (DSet l)) (Some ValueError)
  | texts_other read v : v <> DNone -> (forall l, ~ sequence v l) -> (forall l, v <> DSet l) -> does Texts read v None (Some ValueError)

  | text_stored read v : v = DNone \/ textual v -> does AText read v (Some v) None
  | text_other read v : v <> DNone -> ~ textual v -> does AText read v None (Some TypeError)

  | prob_none read : does Probabilities read DNone (Some DNone) None
  | prob_text read v : textual v -> does Probabilities read v (Some (DDict [(v, DFloat (Fin 1))])) None
  | prob_other read v : v <> DNone -> ~ textual v -> (forall l, v <> DDict l) -> does Probabilities read v None (Some TypeError)
  | prob_number read l p : In p l -> ~ number (snd p) -> does Probabilities read (DDict l) None (Some TypeError)
  | prob_off read l xs t : Forall2 (fun p x => num (snd p) = Some x) l xs -> sum_is xs t -> ~ near_one t -> does Probabilities read (DDict l) None (Some ValueError)
  | prob_key read l xs t p : Forall2 (fun p x => num (snd p) = Some x) l xs -> sum_is xs t -> near_one t -> In p l -> ~ textual (fst p) -> does Probabilities read (DDict l) None (Some TypeError)
  | prob_stored read l xs t : Forall2 (fun p x => num (snd p) = Some x) l xs -> sum_is xs t -> near_one t -> Forall (fun p => textual (fst p)) l -> does Probabilities read (DDict l) (Some (DDict l)) None

  | quant_none read : does Quantities read DNone (Some (DDict [])) None
  | quant_dict read l : does Quantities read (DDict l) (Some (DDict l)) None
  | quant_list read l ps d : Forall2 (fun v p => item v (Ok p)) l ps -> table_of ps d -> does Quantities read (DList l) (Some (DDict d)) None
  | quant_item read l1 v l2 ps e : Forall2 (fun v p => item v (Ok p)) l1 ps -> item v (Err e) -> does Quantities read (DList (l1 ++ v :: l2)) None (Some e)
  | quant_other read v : v <> DNone -> (forall l, v <> DDict l) -> (forall l, v <> DList l) -> does Quantities read v None (Some TypeError)

  | formula_none read : does AFormula read DNone (Some DNone) None
  | formula_stored read v s : text v s ->
      (forall w, In w (re_findall element_re None 0 (list_ascii_of_string s)) -> In (string_of_list_ascii w) all_elements) -> does AFormula read v (Some v) None
  | formula_wrong read v s w : text v s ->
      In w (re_findall element_re None 0 (list_ascii_of_string s)) -> ~ In (string_of_list_ascii w) all_elements -> does AFormula read v None (Some ValueError)
  | formula_other read v : v <> DNone -> ~ textual v -> does AFormula read v None (Some TypeError)

  | inchi_none read : does AnInChI read DNone (Some DNone) None
  | inchi_kept read v r : text v ("InChI" ++ r)%string -> does AnInChI read v (Some v) None
  | inchi_stored read v s t : text v s -> (forall r, s <> ("InChI" ++ r)%string) -> inchi_of s t -> does AnInChI read v (Some (DStr t)) None
  | inchi_other read v : v <> DNone -> ~ textual v -> does AnInChI read v None (Some TypeError)

  | value_none read : does AValue read DNone (Some DNone) None
  | value_stored read v : a_value v -> read "template" = DNone \/ check (read "template") v = None -> does AValue read v (Some v) None
  | value_refused read v e : a_value v -> read "template" <> DNone -> check (read "template") v = Some e -> does AValue read v None (Some e)
  | value_other read v : v <> DNone -> ~ a_value v -> does AValue read v None (Some TypeError)

  | template_none k read : does (ATemplate k) read DNone (Some DNone) None
  | template_link k read v : instance LinkByUID v -> does (ATemplate k) read v (Some v) None
  | template_stored k read n : read "value" = DNone \/ check (DEntity k n) (read "value") = None -> does (ATemplate k) read (DEntity k n) (Some (DEntity k n)) None
  | template_refused k read n e : read "value" <> DNone -> check (DEntity k n) (read "value") = Some e -> does (ATemplate k) read (DEntity k n) None (Some e)
  | template_other k read v : v <> DNone -> ~ instance LinkByUID v -> (forall n, v <> DEntity k n) -> does (ATemplate k) read v None (Some TypeError)

  | origin_none read : does AnOrigin read DNone None (Some ValueError)
  | origin_other read v : v <> DNone -> ~ textual v -> does AnOrigin read v None (Some TypeError)
  | origin_stored read v s o : text v s -> In o ["measured"; "predicted"; "summary"; "specified"; "computed"; "unknown"] -> ValuesSpec.reads s o -> does AnOrigin read v (Some (DEnum o)) None
  | origin_unread read v s : text v s -> (forall o, In o ["measured"; "predicted"; "summary"; "specified"; "computed"; "unknown"] -> ~ ValuesSpec.reads s o) -> does AnOrigin read v None (Some ValueError)

  | list_stored c read v l : listed v l -> Forall (instance c) l -> does (ListOf c) read v (Some (DList l)) None
  | list_wrong c read v l x : listed v l -> In x l -> ~ instance c x -> does (ListOf c) read v None (Some TypeError)
  | instance_stored c read v : instance c v -> does (Instance c) read v (Some v) None
  | instance_other c read v : ~ instance c v -> does (Instance c) read v None (Some TypeError)
  | anything read v : does Anything read v (Some v) None
  | read_only read v : does ReadOnly read v None (Some AttributeError).

  (** ** Constructors *)
  (** The fields are set one after the other; the first refusal ends it. *)
  Inductive builds (c : cls) (args : string -> dv) : list string -> (string -> dv) -> res (string -> dv) -> Prop :=
  | built read : builds c args [] read (Ok read)
  | build_set f fs read w o : does (rule_when_made c f) read (args f) (Some w) None ->
      builds c args fs (fun g => if String.eqb g f then w else read g) o -> builds c args (f :: fs) read o
  | build_refused f fs read st e : does (rule_when_made c f) read (args f) st (Some e) -> builds c args (f :: fs) read (Err e).
  Inductive constructs (c : cls) (args : string -> dv) : res (string -> dv) -> Prop :=
  | made_err e : builds c args (fields c) (fun _ => DNone) (Err e) -> constructs c args (Err e)
  | made_ok read : builds c args (fields c) (fun _ => DNone) (Ok read) ->
      (c = UniformReal -> at_most (args "lower_bound") (args "upper_bound")) -> constructs c args (Ok read)
  | made_incomparable read : c = UniformReal -> builds c args (fields c) (fun _ => DNone) (Ok read) ->
      ~ comparable (args "lower_bound") (args "upper_bound") -> constructs c args (Err TypeError)
  | made_unordered read : c = UniformReal -> builds c args (fields c) (fun _ => DNone) (Ok read) ->
      comparable (args "lower_bound") (args "upper_bound") -> ~ at_most (args "lower_bound") (args "upper_bound") -> constructs c args (Err AssertionError).
  (** The argument of each field: the one given, else the default. *)
  Definition arguments (c : cls) (kw : list (string * dv)) (args : string -> dv) : Prop :=
    forall f, In f (fields c) -> In (f, args f) kw \/ (~ In f (map fst kw) /\ args f = default c f).
  Definition fits (c : cls) (kw : list (string * dv)) : Prop :=
    (forall f, In f (map fst kw) -> In f (fields c)) /\ (forall f, In f (required c) -> In f (map fst kw)).
End Does.

(** Stored values that are the same: one is a float with an equal number, or a dictionary with the same entries. *)
Definition same_stored (v w : dv) : Prop :=
  v = w \/ (exists p q, v = DFloat (Fin p) /\ w = DFloat (Fin q) /\ p == q) \/
  (exists d e, v = DDict d /\ w = DDict e /\ forall p, In p d <-> In p e).
