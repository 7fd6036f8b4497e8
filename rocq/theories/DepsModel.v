(** Model of all_dependencies (gemd/entity/base_entity.py:108-118): the classes it walks over and the
    [_local_dependencies] methods it calls.

    Simplifications. Python's sets compare members by hash and equality; entities hash by identity
    and links by scope and id (base_entity.py:225-226, link_by_uid.py:80-81), so that, coincidences
    of an address and a hash aside, members are the same if they are the same entity or equal
    links. A set is the list of its members in the order in which they came. *)
From Coq Require Import String List Bool Arith.
From Verif Require Import Base GraphModel TravModel.
Import ListNotations.
Open Scope string_scope.
Open Scope list_scope.
Open Scope nat_scope.

(** The classes an entity class descends from. *)
Inductive cls :=
| Concrete (k : ekind)
| BaseObject | BaseTemplate | AttributeTemplate | BaseEntity | DictSerializable
| HasDependencies | HasTemplateCheckGenerator
| HasTemplate | HasSpec | HasProcess | HasMaterial | HasConditions | HasParameters | HasProperties
| HasPropertyTemplates | HasConditionTemplates | HasParameterTemplates
| HasQuantities | HasSource | ABC | Object.

Definition cls_eq_dec : forall a b : cls, {a = b} + {a <> b}.
Proof. decide equality. apply ekind_eq_dec. Defined.
Definition cls_eqb (a b : cls) : bool := if cls_eq_dec a b then true else false.

(** [cls.__bases__], the class statements: property_template.py:6, condition_template.py:6,
    parameter_template.py:6, material_template.py:8, process_template.py:10-12,
    measurement_template.py:10-12, material_spec.py:19, process_spec.py:19-21,
    measurement_spec.py:16-18, ingredient_spec.py:18-20, material_run.py:17, process_run.py:21-23,
    measurement_run.py:22-23, ingredient_run.py:20-22, base_object.py:12, base_template.py:12,
    attribute_template.py:8, base_entity.py:14, dict_serializable.py:55, has_dependencies.py:10,
    has_template_check_generator.py:16, has_template.py:13, has_spec.py:14, has_process.py:13,
    has_material.py:13, has_conditions.py:16, has_parameters.py:16, has_properties.py:16,
    has_property_templates.py:18, has_condition_templates.py:16, has_parameter_templates.py:16,
    has_quantities.py:13, has_source.py:7. *)
Definition bases (c : cls) : list cls :=
  match c with
  | Concrete KPropT | Concrete KCondT | Concrete KParamT => [AttributeTemplate]
  | Concrete KMatT => [BaseTemplate; HasPropertyTemplates]
  | Concrete KProcT => [BaseTemplate; HasConditionTemplates; HasParameterTemplates]
  | Concrete KMeasT => [BaseTemplate; HasPropertyTemplates; HasConditionTemplates; HasParameterTemplates]
  | Concrete KMatS => [BaseObject; HasTemplate; HasProcess; HasProperties]
  | Concrete KProcS => [BaseObject; HasTemplate; HasParameters; HasConditions]
  | Concrete KMeasS => [BaseObject; HasTemplate; HasParameters; HasConditions]
  | Concrete KIngS => [BaseObject; HasQuantities; HasTemplate; HasMaterial; HasProcess]
  | Concrete KMatR => [BaseObject; HasSpec; HasProcess]
  | Concrete KProcR => [BaseObject; HasSpec; HasConditions; HasParameters; HasSource]
  | Concrete KMeasR => [BaseObject; HasMaterial; HasSpec; HasConditions; HasProperties; HasParameters; HasSource]
  | Concrete KIngR => [BaseObject; HasQuantities; HasSpec; HasMaterial; HasProcess]
  | BaseObject | BaseTemplate | AttributeTemplate => [BaseEntity]
  | BaseEntity => [DictSerializable]
  | DictSerializable | HasDependencies | HasTemplateCheckGenerator => [ABC]
  | HasTemplate | HasSpec | HasProcess => [HasDependencies]
  | HasMaterial => [HasDependencies; ABC]
  | HasConditions | HasParameters | HasProperties => [HasTemplateCheckGenerator; HasDependencies; ABC]
  | HasPropertyTemplates | HasConditionTemplates | HasParameterTemplates => [HasDependencies]
  | HasQuantities | HasSource | ABC => [Object]
  | Object => []
  end.

(** ** Python's method resolution order *)

(** The first head of the lists that is in no list's tail. *)
Definition tails (ls : list (list cls)) : list cls := flat_map (@tl cls) ls.
Definition good_head (ls : list (list cls)) : option cls :=
  find (fun c => negb (existsb (cls_eqb c) (tails ls))) (flat_map (fun l => match l with [] => [] | c :: _ => [c] end) ls).
Definition drop_head (c : cls) (l : list cls) : list cls :=
  match l with [] => [] | d :: r => if cls_eqb c d then r else l end.

Fixpoint merge (n : nat) (ls : list (list cls)) : list cls :=
  match n with
  | O => []
  | S n' => match good_head ls with
            | Some c => c :: merge n' (map (drop_head c) ls)
            | None => []
            end
  end.

(** [cls.__mro__]: the class, then the merge of its bases' orders and of the list of its bases. *)
Fixpoint mro_upto (n : nat) (c : cls) : list cls :=
  match n with
  | O => []
  | S n' => c :: merge 40 (map (mro_upto n') (bases c) ++ [bases c])
  end.
Definition mro (c : cls) : list cls := mro_upto 8 c.

(** [issubclass(c, d)] *)
Definition issubclass (c d : cls) : bool := existsb (cls_eqb d) (mro c).

(** ** The methods *)

Inductive method :=
| LAbstract                       (* has_dependencies.py:13-15 *)
| LField (f : string)             (* {self.f} if self.f is not None else set() *)
| LAttributes (f : string)        (* {a.template for a in self.f if a.template is not None} *)
| LTemplates (f : string)         (* {attr[0] for attr in self.f} *)
| LMaterialSpec.                  (* material_spec.py:116-125 *)

(** The class's own [_local_dependencies]: has_template.py:41-43, has_spec.py:50-52,
    has_process.py:26-28, has_material.py:26-28, has_conditions.py:34-36, has_parameters.py:34-36,
    has_properties.py:34-36, has_property_templates.py:92-94, has_condition_templates.py:90-92,
    has_parameter_templates.py:90-92. *)
Definition own (c : cls) : option method :=
  match c with
  | HasDependencies => Some LAbstract
  | HasTemplate => Some (LField "template")
  | HasSpec => Some (LField "spec")
  | HasProcess => Some (LField "process")
  | HasMaterial => Some (LField "material")
  | HasConditions => Some (LAttributes "conditions")
  | HasParameters => Some (LAttributes "parameters")
  | HasProperties => Some (LAttributes "properties")
  | HasPropertyTemplates => Some (LTemplates "properties")
  | HasConditionTemplates => Some (LTemplates "conditions")
  | HasParameterTemplates => Some (LTemplates "parameters")
  | Concrete KMatS => Some LMaterialSpec
  | _ => None
  end.

(** [cls._local_dependencies]: the first in the method resolution order. *)
Fixpoint lookup (l : list cls) : option method :=
  match l with [] => None | c :: r => match own c with Some m => Some m | None => lookup r end end.

(** ["_local_dependencies" in cls.__abstractmethods__]: what the class inherits is abstract. *)
Definition abstract (c : cls) : bool := match lookup (mro c) with Some LAbstract => true | _ => false end.

(** ** Sets *)

Definition same (v w : pv) : bool :=
  match v, w with
  | PRef o, PRef p => Nat.eqb o p
  | PLink s i, PLink t j => String.eqb s t && String.eqb i j
  | PNone, PNone => true
  | _, _ => false
  end.
Definition set_add (l : list pv) (v : pv) : res (list pv) :=
  if hashable v then Ok (if existsb (same v) l then l else l ++ [v]) else Err TypeError.
Fixpoint set_update (l : list pv) (vs : list pv) : res (list pv) :=
  match vs with [] => Ok l | v :: r => do l' <- set_add l v; set_update l' r end.

(** ** What the methods return *)

(** [self.f]: ingredient_spec.py:132-135 has no template; other getters return the attribute. *)
Definition getter (e : entity) (f : string) : pv :=
  match e_kind e with
  | KIngS => if String.eqb f "template" then PNone else fget e f
  | _ => fget e f
  end.

(** Iterating over a list attribute. *)
Definition items (v : pv) : res (list pv) :=
  match v with PList l | PTuple l => Ok l | _ => Err TypeError end.

(** [v.f] for an object that is not an entity. *)
Definition attr (v : pv) (f : string) : res pv :=
  match v with
  | PObj _ fs => match dict_get f fs with Some x => Ok x | None => Err AttributeError end
  | _ => Err AttributeError
  end.

(** [a.template]: base_attribute.py:86-89; property_and_conditions.py:52-55 for a property with
    conditions. *)
Definition template_of (v : pv) : res pv :=
  match v with
  | PObj "property_and_conditions" _ => do p <- attr v "property"; attr p "template"
  | _ => attr v "template"
  end.

Definition some_of (v : pv) : list pv := match v with PNone => [] | _ => [v] end.

(** [result] with the templates of the attributes that have one. *)
Fixpoint add_templates (result : list pv) (l : list pv) : res (list pv) :=
  match l with
  | [] => Ok result
  | a :: r => do t <- template_of a; do result' <- set_update result (some_of t); add_templates result' r
  end.

(** material_spec.py:118-125 *)
Fixpoint add_material_spec (result : list pv) (l : list pv) : res (list pv) :=
  match l with
  | [] => Ok result
  | a :: r =>
      do p <- attr a "property";
      do t <- attr p "template";
      do result1 <- set_update result (some_of t);
      do c <- attr a "conditions";
      do cs <- items c;
      do result2 <- add_templates result1 cs;
      add_material_spec result2 r
  end.

(** [attr[0]] *)
Definition first (v : pv) : res pv :=
  match v with PList (x :: _) | PTuple (x :: _) => Ok x | PList [] | PTuple [] => Err IndexError | _ => Err TypeError end.
Fixpoint add_firsts (result : list pv) (l : list pv) : res (list pv) :=
  match l with
  | [] => Ok result
  | a :: r => do t <- first a; do result' <- set_add result t; add_firsts result' r
  end.

Definition local_dependencies (m : method) (e : entity) : res (list pv) :=
  match m with
  | LAbstract => Ok []
  | LField f => set_update [] (some_of (getter e f))
  | LAttributes f => do l <- items (getter e f); add_templates [] l
  | LTemplates f => do l <- items (getter e f); add_firsts [] l
  | LMaterialSpec => do l <- items (getter e "properties"); add_material_spec [] l
  end.

(** base_entity.py:112-117. The queue is a stack; its top is the head of the list. *)
Fixpoint dep_loop (n : nat) (e : entity) (result : list pv) (queue : list cls) : outcome (list pv) :=
  match queue with
  | [] => Done result
  | c :: q =>
      match n with
      | O => Exhausted
      | S n' =>
          if issubclass c HasDependencies && negb (abstract c) then
            match lookup (mro c) with
            | None => Raised AttributeError
            | Some m => match (do s <- local_dependencies m e; set_update result s) with
                        | Ok result' => dep_loop n' e result' (rev (bases c) ++ q)
                        | Err x => Raised x
                        end
            end
          else dep_loop n' e result q
      end
  end.

(** base_entity.py:108-118 *)
Definition all_dependencies (h : heap) (o : oid) : outcome (list pv) :=
  match hget h o with
  | Some e => dep_loop 60 e [] [Concrete (e_kind e)]
  | None => Raised AttributeError
  end.
