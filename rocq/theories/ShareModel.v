(** Model of attributes, values, bounds and templates as objects that are shared and changed in place: the setters of
    gemd/entity/attribute/base_attribute.py, template/attribute_template.py, object/has_template.py and the attribute lists
    of object/has_properties.py (has_conditions.py, has_parameters.py), with the checks of [ValidationModel] reading what
    the objects hold when they are made.
    Simplifications: the objects are cells with addresses, there from the start (making one is giving content to a cell
    nothing refers to); one of the three attribute lists per object, all attributes of one class [k]; an object without a
    template, with a link, or with a template class that has no such list has none here (the isinstance test at
    has_template_check_generator.py:81). *)
From Coq Require Import String List Bool ZArith QArith.
From Verif Require Import Base BoundsModel VlModel ValidationModel.
Import ListNotations.
Open Scope list_scope.

Definition ref := nat.
(** A template in a field: the object or a LinkByUID. *)
Inductive tlink : Type := TObj (r : ref) | TLnk (scope id : string).
(** base_attribute.py:37-56: name, value, template. *)
Record acell : Type := mkAC { c_name : string; c_value : option ref; c_template : option tlink }.
(** attribute_template.py:31-42 *)
Record tcell : Type := mkTC { c_kind : akind; c_uid : string; c_tname : string; c_bounds : ref }.
(** An object: its template and its list of attributes. *)
Record ocell : Type := mkOC { c_otemplate : option ref; c_list : list ref }.
Record world : Type := mkW {
  w_bounds : ref -> bounds; w_values : ref -> value; w_templates : ref -> tcell; w_attrs : ref -> acell;
  w_entries : ref -> list (tlink * option ref);   (* the pairs of an object template *)
  w_objects : ref -> ocell; w_level : level; w_log : nat }.

Definition upd {A} (f : ref -> A) (r : ref) (x : A) : ref -> A := fun q => if Nat.eqb q r then x else f q.
Definition with_attr (w : world) (a : ref) (x : acell) : world :=
  mkW (w_bounds w) (w_values w) (w_templates w) (upd (w_attrs w) a x) (w_entries w) (w_objects w) (w_level w) (w_log w).
Definition with_object (w : world) (o : ref) (x : ocell) : world :=
  mkW (w_bounds w) (w_values w) (w_templates w) (w_attrs w) (w_entries w) (upd (w_objects w) o x) (w_level w) (w_log w).
Definition with_template (w : world) (t : ref) (x : tcell) : world :=
  mkW (w_bounds w) (w_values w) (upd (w_templates w) t x) (w_attrs w) (w_entries w) (w_objects w) (w_level w) (w_log w).
Definition with_log (w : world) (n : nat) : world :=
  mkW (w_bounds w) (w_values w) (w_templates w) (w_attrs w) (w_entries w) (w_objects w) (w_level w) n.

(** What the objects hold now. *)
Definition read_template (w : world) (t : ref) : tmpl :=
  let c := w_templates w t in mkTmpl (c_kind c) (c_uid c) (c_tname c) (w_bounds w (c_bounds c)).
Definition read_link (w : world) (x : tlink) : tref :=
  match x with TObj t => RTmpl (read_template w t) | TLnk s i => RLink s i end.
Definition read_attr (w : world) (a : ref) : attr :=
  let c := w_attrs w a in mkAttr (c_name c) (option_map (w_values w) (c_value c)) (option_map (read_link w) (c_template c)).
Definition read_entry (w : world) (e : tlink * option ref) : entry := (read_link w (fst e), option_map (w_bounds w) (snd e)).
Definition read_entries (w : world) (o : ref) : option (list entry) :=
  option_map (fun t => map (read_entry w) (w_entries w t)) (c_otemplate (w_objects w o)).

Section Share.
  (** [==] between attribute templates and links, as in [ValidationModel]. *)
  Variable same : tref -> tref -> bool.
  Variable k : akind.

  (** The trigger of the list of object [o], has_template_check_generator.py:77-89. *)
  Definition list_check (o : ref) : trigger ref world := fun a w =>
    let (r, s) := template_check same k (read_attr w a) (mkEnv (w_level w) (read_entries w o) (w_log w)) in
    (match r with Ok _ => Ok None | Err e => Err e end, with_log w (e_log s)).
  Definition any_instance (a : ref) (t : unit) : bool := true.
  Definition list_of (w : world) (o : ref) : vlist ref unit world := mkVl [tt] (Some (list_check o)) (c_list (w_objects w o)).

  Inductive vref : Type := VRNone | VRef (v : ref) | VROther.
  Inductive lref : Type := LRNone | LRef (t : tlink) | LROther.
  Inductive sop : Type :=
  | SBounds (b : ref) (x : bounds)          (* a setter of a bounds object *)
  | SValue (v : ref) (x : value)            (* a setter of a value object *)
  | STemplateBounds (t b : ref)             (* template.bounds = b, attribute_template.py:49-56 *)
  | STemplateName (t : ref) (n : string)
  | SAttrName (a : ref) (n : string)
  | SAttrValue (a : ref) (x : vref)         (* attribute.value = x, base_attribute.py:74-84 *)
  | SAttrTemplate (a : ref) (x : lref)      (* attribute.template = x, base_attribute.py:91-102 *)
  | SEntries (t : ref) (l : list (tlink * option ref))   (* any change to the list of an object template (what it may hold: C12, C56) *)
  | SObjectTemplate (o : ref) (t : option ref)           (* object.template = t, has_template.py:27-36; run.spec = s, has_spec.py *)
  | SList (o : ref) (x : op ref)            (* append, extend, insert, ... on the list *)
  | SAssign (o : ref) (x : arg ref)         (* object.properties = x, has_properties.py:28-32 *)
  | SLevel (l : level).                     (* set_validation_level *)

  Definition varg_of (w : world) (x : vref) : varg := match x with VRNone => VNone | VRef v => VVal (w_values w v) | VROther => VOther end.
  Definition targ_of (w : world) (x : lref) : targ := match x with LRNone => TNone | LRef t => TRef (read_link w t) | LROther => TOther end.

  Definition sstep (w : world) (x : sop) : world * option exn :=
    match x with
    | SBounds b x => (mkW (upd (w_bounds w) b x) (w_values w) (w_templates w) (w_attrs w) (w_entries w) (w_objects w) (w_level w) (w_log w), None)
    | SValue v x => (mkW (w_bounds w) (upd (w_values w) v x) (w_templates w) (w_attrs w) (w_entries w) (w_objects w) (w_level w) (w_log w), None)
    | STemplateBounds t b => let c := w_templates w t in (with_template w t (mkTC (c_kind c) (c_uid c) (c_tname c) b), None)
    | STemplateName t n => let c := w_templates w t in (with_template w t (mkTC (c_kind c) (c_uid c) n (c_bounds c)), None)
    | SAttrName a n => let c := w_attrs w a in (with_attr w a (mkAC n (c_value c) (c_template c)), None)
    | SAttrValue a x =>
        let c := w_attrs w a in
        match set_value (w_level w) (read_attr w a) (varg_of w x) (w_log w) with
        | (_, Some e, log) => (with_log w log, Some e)
        | (_, None, log) => (with_log (with_attr w a (mkAC (c_name c) (match x with VRef v => Some v | _ => None end) (c_template c))) log, None)
        end
    | SAttrTemplate a x =>
        let c := w_attrs w a in
        match set_template k (w_level w) (read_attr w a) (targ_of w x) (w_log w) with
        | (_, Some e, log) => (with_log w log, Some e)
        | (_, None, log) => (with_log (with_attr w a (mkAC (c_name c) (c_value c) (match x with LRef t => Some t | _ => None end))) log, None)
        end
    | SEntries t l => (mkW (w_bounds w) (w_values w) (w_templates w) (w_attrs w) (upd (w_entries w) t l) (w_objects w) (w_level w) (w_log w), None)
    | SObjectTemplate o t => (with_object w o (mkOC t (c_list (w_objects w o))), None)
    | SList o x =>
        let '(v, e, w') := step ref unit world any_instance (list_of w o) x w in
        (with_object w' o (mkOC (c_otemplate (w_objects w' o)) (items v)), e)
    | SAssign o x =>
        match validate_list ref unit world any_instance x [tt] (Some (list_check o)) w with
        | (Ok v, w') => (with_object w' o (mkOC (c_otemplate (w_objects w' o)) (items v)), None)
        | (Err e, w') => (w', Some e)
        end
    | SLevel l => (mkW (w_bounds w) (w_values w) (w_templates w) (w_attrs w) (w_entries w) (w_objects w) l (w_log w), None)
    end.
  (** Exceptions are caught by the client. *)
  Fixpoint srun (w : world) (h : list sop) : world := match h with [] => w | x :: r => srun (fst (sstep w x)) r end.
End Share.
