(** Model of template validation: gemd/entity/bounds_validation.py, attribute/base_attribute.py,
    template/base_template.py, template/has_*_templates.py, object/has_template_check_generator.py,
    object/has_conditions.py (and has_parameters.py, has_properties.py), object/has_quantities.py.
    Simplifications: attributes and templates are immutable records (mutating one that is already
    inside a list is not modelled); logger.warning is a counter. *)
From Coq Require Import String List Bool ZArith QArith.
From Verif Require Import Base BoundsModel VlModel.
Import ListNotations.
Open Scope list_scope.

(** bounds_validation.py:7-19 *)
Inductive level : Type := IGNORE | WARNING | FATAL.

(** The kinds of attribute, and attribute templates (template/attribute_template.py:31-54). *)
Inductive akind : Type := AProperty | ACondition | AParameter.
Definition akind_eqb (a b : akind) : bool :=
  match a, b with
  | AProperty, AProperty | ACondition, ACondition | AParameter, AParameter => true
  | _, _ => false
  end.
Record tmpl : Type := mkTmpl { t_kind : akind; t_uid : string; t_name : string; t_bounds : bounds }.
(** A reference to one: the object or a LinkByUID. *)
Inductive tref : Type := RTmpl (t : tmpl) | RLink (scope id : string).

(** ** Attributes (base_attribute.py) *)

Record attr : Type := mkAttr { a_name : string; a_value : option value; a_template : option tref }.

(** base_attribute.py:58-67 [_check]. [log] counts warnings. With a link as template (line 81 passes
    whatever the template is), [template.bounds] is an AttributeError unless the level is IGNORE. *)
Definition check (l : level) (t : tref) (v : value) (log : nat) : option exn * nat :=
  match l with
  | IGNORE => (None, log)
  | _ => match t with
         | RLink _ _ => (Some AttributeError, log)
         | RTmpl t =>
             match contains (t_bounds t) (AValue v) with
             | Err e => (Some e, log)
             | Ok true => (None, log)
             | Ok false => match l with WARNING => (None, S log) | _ => (Some ValueError, log) end
             end
         end
  end.

(** base_attribute.py:74-84 *)
Inductive varg : Type := VNone | VVal (v : value) | VOther.
Definition set_value (l : level) (a : attr) (x : varg) (log : nat) : attr * option exn * nat :=
  match x with
  | VNone => (mkAttr (a_name a) None (a_template a), None, log)
  | VOther => (a, Some TypeError, log)
  | VVal v =>
      match a_template a with
      | None => (mkAttr (a_name a) (Some v) (a_template a), None, log)
      | Some t => match check l t v log with
                  | (Some e, log') => (a, Some e, log')
                  | (None, log') => (mkAttr (a_name a) (Some v) (a_template a), None, log')
                  end
      end
  end.

(** base_attribute.py:91-102; [k] is the kind of the attribute ([_template_type]). *)
Inductive targ : Type := TNone | TRef (t : tref) | TOther.
Definition set_template (k : akind) (l : level) (a : attr) (x : targ) (log : nat) : attr * option exn * nat :=
  match x with
  | TNone => (mkAttr (a_name a) (a_value a) None, None, log)
  | TOther => (a, Some TypeError, log)
  | TRef (RLink s i) => (mkAttr (a_name a) (a_value a) (Some (RLink s i)), None, log)
  | TRef (RTmpl t) =>
      if akind_eqb (t_kind t) k then
        match a_value a with
        | None => (mkAttr (a_name a) (a_value a) (Some (RTmpl t)), None, log)
        | Some v => match check l (RTmpl t) v log with
                    | (Some e, log') => (a, Some e, log')
                    | (None, log') => (mkAttr (a_name a) (a_value a) (Some (RTmpl t)), None, log')
                    end
        end
      else (a, Some TypeError, log)
  end.

(** base_attribute.py:37-56 (the origin and file links do not matter here). *)
Definition init_attr (k : akind) (l : level) (name : string) (v : varg) (t : targ) (log : nat)
  : res attr * nat :=
  match set_value l (mkAttr name None None) v log with
  | (_, Some e, log1) => (Err e, log1)
  | (a, None, log1) => match set_template k l a t log1 with
                       | (_, Some e, log2) => (Err e, log2)
                       | (a', None, log2) => (Ok a', log2)
                       end
  end.

Inductive aop : Type := ASetValue (x : varg) | ASetTemplate (x : targ).
Definition astep (k : akind) (l : level) (a : attr) (o : aop) (log : nat) : attr * option exn * nat :=
  match o with
  | ASetValue x => set_value l a x log
  | ASetTemplate x => set_template k l a x log
  end.
Fixpoint arun (k : akind) (l : level) (a : attr) (ops : list aop) (log : nat) : attr * nat :=
  match ops with
  | [] => (a, log)
  | o :: r => let '(a1, _, log1) := astep k l a o log in arun k l a1 r log1
  end.

(** ** Object templates: the list of (attribute template, range) pairs. *)

(** What may be found in an argument to the properties/conditions/parameters setter. *)
Inductive hval : Type :=
| HTmpl (t : tmpl) | HLink (scope id : string) | HBounds (b : bounds) | HNone
| HSeq (l : list hval)    (* a list or a tuple *)
| HOther.
Inductive hty : Type := YTmpl (k : akind) | YLink | YSeq.
Definition h_instance (x : hval) (t : hty) : bool :=
  match x, t with
  | HTmpl t, YTmpl k => akind_eqb (t_kind t) k
  | HLink _ _, YLink => true
  | HSeq _, YSeq => true
  | _, _ => false
  end.

(** base_template.py:43-80 [_homogenize_ranges]; unpacking a sequence of another length is a
    ValueError. *)
Definition homogenize (x : hval) : res hval :=
  match x with
  | HTmpl _ | HLink _ _ => Ok (HSeq [x; HNone])
  | HSeq [first; second] =>
      match first, second with
      | HTmpl t, HBounds b => if contains_bounds (t_bounds t) b then Ok (HSeq [first; second]) else Err ValueError
      | HTmpl _, HNone | HLink _ _, HNone | HLink _ _, HBounds _ => Ok (HSeq [first; second])
      | _, _ => Err TypeError
      end
  | HSeq _ => Err ValueError
  | _ => Err TypeError
  end.
Definition h_trigger : trigger hval unit :=
  fun x s => match homogenize x with Ok y => (Ok (Some y), s) | Err e => (Err e, s) end.
Definition h_types (k : akind) : list hty := [YTmpl k; YLink; YSeq].

Definition is_bounds (x : hval) : bool := match x with HBounds _ => true | _ => false end.

(** has_property_templates.py:50-70 (and has_condition_templates.py:47-72,
    has_parameter_templates.py:47-72): an iterable containing bounds is one pair. Simplification:
    the argument is None, a single template or link, or a list or tuple. *)
Definition set_entries (k : akind) (x : hval) : res (vlist hval hty unit) :=
  let go a := fst (validate_list hval hty unit h_instance a (h_types k) (Some h_trigger) tt) in
  match x with
  | HNone => go ANone
  | HSeq l => if existsb is_bounds l then go (AIter (Reusable [HSeq l])) else go (AIter (Reusable l))
  | _ => go (AScalar x)
  end.

(** The pairs as seen by validate_*. *)
Definition entry : Type := (tref * option bounds)%type.
Definition as_entry (x : hval) : option entry :=
  match x with
  | HSeq [HTmpl t; HNone] => Some (RTmpl t, None)
  | HSeq [HTmpl t; HBounds b] => Some (RTmpl t, Some b)
  | HSeq [HLink s i; HNone] => Some (RLink s i, None)
  | HSeq [HLink s i; HBounds b] => Some (RLink s i, Some b)
  | _ => None
  end.

(** ** Checking attributes against an object template *)
Section Check.
  (** [==] between attribute templates and links: BaseEntity.__eq__ and LinkByUID.__eq__, modelled
      elsewhere; here any test. *)
  Variable same : tref -> tref -> bool.
  Variable k : akind.

  (** The generator expressions at has_property_templates.py:79 and :82: the first match; a link has
      no attribute [name]. *)
  Definition by_template (t : tref) (es : list entry) : option entry :=
    find (fun e => same t (fst e)) es.
  Fixpoint by_name (n : string) (es : list entry) : res (option entry) :=
    match es with
    | [] => Ok None
    | (RLink _ _, _) :: _ => Err AttributeError
    | (RTmpl t, b) :: r => if String.eqb n (t_name t) then Ok (Some (RTmpl t, b)) else by_name n r
    end.

  Definition value_arg (a : attr) : carg :=
    match a_value a with Some v => AValue v | None => BoundsModel.ANone end.

  (** has_property_templates.py:72-90, has_condition_templates.py:74-88,
      has_parameter_templates.py:74-88. *)
  Definition validate (es : list entry) (a : attr) : res bool :=
    do e <- match a_template a with
            | Some t => Ok (by_template t es)
            | None => by_name (a_name a) es
            end;
    match e with
    | Some (_, Some b) => contains b (value_arg a)
    | Some (RTmpl t, None) => if akind_eqb (t_kind t) k then contains (t_bounds t) (value_arg a) else Ok true
    | _ => Ok true
    end.

  (** What the trigger reads and writes: the level, the object's template (None when it is absent, a
      link, or a class without such a list: the isinstance test at line 81), and the log. *)
  Record env : Type := mkEnv { e_level : level; e_entries : option (list entry); e_log : nat }.

  (** has_template_check_generator.py:77-89 *)
  Definition template_check : trigger attr env := fun a s =>
    match e_level s, e_entries s with
    | IGNORE, _ | _, None => (Ok None, s)
    | l, Some es =>
        match validate es a with
        | Err e => (Err e, s)
        | Ok true => (Ok None, s)
        | Ok false => match l with
                      | WARNING => (Ok None, mkEnv l (Some es) (S (e_log s)))
                      | _ => (Err ValueError, s)
                      end
        end
    end.

  (** The attribute list: has_conditions.py:28-32, has_parameters.py:28-32, has_properties.py:28-32,
      material_spec.py:74-80. Elements are attributes of the right class or other objects. *)
  Definition attr_instance (x : attr) (t : unit) : bool := true.
  Definition set_attrs (x : arg attr) (s : env) : res (vlist attr unit env) * env :=
    validate_list attr unit env attr_instance x [tt] (Some template_check) s.

  (** A history on one object: list mutations, assignment of a whole list, and changes of level and
      of the object's template between them. *)
  Inductive oop : Type :=
  | LList (o : op attr) | LAssign (x : arg attr) | LLevel (l : level) | LTemplate (es : option (list entry)).
  Definition ostep (v : vlist attr unit env) (o : oop) (s : env) : vlist attr unit env * option exn * env :=
    match o with
    | LList o => step attr unit env attr_instance v o s
    | LAssign x => match set_attrs x s with (Ok v', s') => (v', None, s') | (Err e, s') => (v, Some e, s') end
    | LLevel l => (v, None, mkEnv l (e_entries s) (e_log s))
    | LTemplate es => (v, None, mkEnv (e_level s) es (e_log s))
    end.
  Fixpoint orun (v : vlist attr unit env) (ops : list oop) (s : env) : vlist attr unit env * env :=
    match ops with
    | [] => (v, s)
    | o :: r => let '(v1, _, s1) := ostep v o s in orun v1 r s1
    end.
  (** A list attribute before anything was put in it. *)
  Definition no_attrs : vlist attr unit env := mkVl [tt] (Some template_check) [].
End Check.

(** ** Ingredient quantities (has_quantities.py) *)
Section Quantities.
  (** parse_units('') *)
  Variable dimless : uunit.

  Definition continuous (v : value) : bool :=
    match v with VNominalReal _ _ | VUniformReal _ _ _ | VNormalReal _ _ _ => true | _ => false end.
  Definition value_unit (v : value) : uunit :=
    match v with VNominalReal _ u | VUniformReal _ _ u | VNormalReal _ _ u => u | _ => dimless end.

  (** has_quantities.py:34-44 and the setters at 51-59, 66-74, 81-89. *)
  Definition fraction_bounds : bounds := BReal 0 1 dimless.
  Definition set_fraction (l : level) (old : option value) (x : varg) (log : nat)
    : option value * option exn * nat :=
    match x with
    | VNone => (None, None, log)
    | VOther => (old, Some TypeError, log)
    | VVal v =>
        if continuous v then
          match l with
          | IGNORE => (Some v, None, log)
          | _ => match contains fraction_bounds (AValue v) with
                 | Err e => (old, Some e, log)
                 | Ok true => (Some v, None, log)
                 | Ok false => match l with
                               | WARNING => (Some v, None, S log)
                               | _ => (old, Some ValueError, log)
                               end
                 end
          end
        else (old, Some TypeError, log)
    end.

  (** sys.float_info.max *)
  Definition float_max : Q := inject_Z ((2 ^ 53 - 1) * 2 ^ 971).

  (** has_quantities.py:96-125; at FATAL line 124 raises whether or not there are messages. *)
  Definition set_absolute (l : level) (old : option value) (x : varg) (log : nat)
    : option value * option exn * nat :=
    match x with
    | VNone => (None, None, log)
    | VOther => (old, Some TypeError, log)
    | VVal v =>
        if continuous v then
          match l with
          | IGNORE => (Some v, None, log)
          | _ =>
              match contains (BReal 0 float_max (value_unit v)) (AValue v),
                    contains (BReal 0 float_max dimless) (AValue v) with
              | Err e, _ => (old, Some e, log)
              | _, Err e => (old, Some e, log)
              | Ok inb, Ok nodim =>
                  match l with
                  | WARNING => (Some v, None, (log + (if inb then 0 else 1) + (if nodim then 1 else 0))%nat)
                  | _ => (old, Some ValueError, log)
                  end
              end
          end
        else (old, Some TypeError, log)
    end.

  (** The object: four attributes, each with its setter (has_quantities.py:17-32, 46-125). *)
  Inductive qfield : Type := QMass | QVolume | QNumber | QAbsolute.
  Record quantities : Type :=
    mkQ { q_mass : option value; q_volume : option value; q_number : option value; q_absolute : option value }.
  Definition qstep (l : level) (q : quantities) (f : qfield) (x : varg) (log : nat)
    : quantities * option exn * nat :=
    match f with
    | QMass => let '(y, e, log') := set_fraction l (q_mass q) x log in
               (mkQ y (q_volume q) (q_number q) (q_absolute q), e, log')
    | QVolume => let '(y, e, log') := set_fraction l (q_volume q) x log in
                 (mkQ (q_mass q) y (q_number q) (q_absolute q), e, log')
    | QNumber => let '(y, e, log') := set_fraction l (q_number q) x log in
                 (mkQ (q_mass q) (q_volume q) y (q_absolute q), e, log')
    | QAbsolute => let '(y, e, log') := set_absolute l (q_absolute q) x log in
                   (mkQ (q_mass q) (q_volume q) (q_number q) y, e, log')
    end.
  (** Failing assignments are caught by the client. *)
  Fixpoint qrun (l : level) (q : quantities) (ops : list (qfield * varg)) (log : nat) : quantities * nat :=
    match ops with
    | [] => (q, log)
    | (f, x) :: r => let '(q1, _, log1) := qstep l q f x log in qrun l q1 r log1
    end.
End Quantities.

(** ** The validation level (bounds_validation.py:25-45) *)

(** A level argument: [None] is something WarningLevel() refuses with ValueError. *)
Inductive prog : Type :=
| PSkip
| PSet (l : option level)                  (* set_validation_level(l) *)
| PWith (l : option level) (body : prog)   (* with validation_level(l): body *)
| PSeq (p q : prog)
| PRaise                                   (* raise an exception *)
| PTry (p q : prog)                        (* try: p; except: q *)
| PFinally (p q : prog).                   (* try: p; finally: q *)

(** The level afterwards and whether an exception is propagating. A with-statement throws the body's
    exception into the generator at line 42, so line 45 is not reached. *)
Fixpoint exec (p : prog) (l : level) : level * bool :=
  match p with
  | PSkip => (l, false)
  | PSet None => (l, true)
  | PSet (Some l') => (l', false)
  | PWith None _ => (l, true)
  | PWith (Some l') body => match exec body l' with
                            | (_, false) => (l, false)
                            | (l2, true) => (l2, true)
                            end
  | PSeq p q => match exec p l with (l1, false) => exec q l1 | r => r end
  | PRaise => (l, true)
  | PTry p q => match exec p l with (l1, true) => exec q l1 | r => r end
  | PFinally p q => let (l1, e) := exec p l in let (l2, e') := exec q l1 in (l2, e || e')%bool
  end.
