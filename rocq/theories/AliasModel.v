(** Model of the lists of tags and labels of ingredient specs and runs as Python objects with identities: who holds which list, and
    who sees it change. gemd/entity/base_entity.py:25-38 (tags), gemd/entity/object/ingredient_spec.py:88-95 (labels), ingredient_run.py:57-84
    (constructor), 86-102 (name and labels shown from the spec), 143-153 (setter of spec), has_spec.py:21-35, setters.py:11-39.
    Simplifications: items are texts, so the checks of ValidList do not fail (see VlModel.v); append stands for all changes in
    place; the tags of other classes work as those of ingredients (the same code). *)
From Coq Require Import String List Bool Arith.
From Verif Require Import Base.
Import ListNotations.
Open Scope list_scope.

(** [SpecOf]: an IngredientSpec, by number. *)
Inductive spec_value : Type := NoSpec | SpecLink | SpecOf (s : nat).
(** An entity: a spec or a run, its _tags, _labels (None: no list) and _spec. Lists are addresses. *)
Record ent : Type := mkEnt { is_run : bool; e_tags : nat; e_labels : option nat; e_spec : spec_value }.
(** [cells]: what the list at an address holds; [fresh]: the next address; [count]: the next entity; [vars]: lists that the program has in
    variables. *)
Record world : Type := mkWd { cells : nat -> list string; fresh : nat; ents : nat -> option ent; count : nat; vars : nat -> option nat }.

Definition upd {A} (x : nat) (v : A) (f : nat -> A) : nat -> A := fun y => if Nat.eqb y x then v else f y.
(** A new list *)
Definition alloc (l : list string) (w : world) : world := mkWd (upd (fresh w) l (cells w)) (S (fresh w)) (ents w) (count w) (vars w).
Definition put (x : nat) (e : ent) (w : world) : world := mkWd (cells w) (fresh w) (upd x (Some e) (ents w)) (count w) (vars w).

(** x.tags and x.labels (ingredient_run.py:95-102: the list of the spec itself, if the spec is an object) *)
Definition get_tags (w : world) (x : nat) : option nat := option_map e_tags (ents w x).
Definition get_labels (w : world) (x : nat) : option nat :=
  match ents w x with
  | Some e => match e_spec e with
              | SpecOf s => match ents w s with Some e' => e_labels e' | None => None end
              | _ => e_labels e
              end
  | None => None
  end.
Definition content (w : world) (a : option nat) : option (list string) := option_map (cells w) a.

(** What may be assigned: a list written down, x.tags, x.labels, a variable; None counts as an empty list. *)
Inductive src : Type := Lit (l : list string) | TagsOf (x : nat) | LabelsOf (x : nat) | Var (v : nat).
Definition value (w : world) (s : src) : list string :=
  match (match s with
         | Lit l => Some l
         | TagsOf x => content w (get_tags w x)
         | LabelsOf x => content w (get_labels w x)
         | Var v => content w (vars w v)
         end) with Some l => l | None => [] end.

Inductive op : Type :=
| NewSpec (tags labels : src) | NewRun (tags : src) (spec : spec_value)
| SetTags (x : nat) (s : src) | SetLabels (x : nat) (s : src) | SetSpec (x : nat) (s : spec_value) | SetSpecBad (x : nat)
| AppendTags (x : nat) (t : string) | AppendLabels (x : nat) (t : string)
| HoldTags (v x : nat) | HoldLabels (v x : nat) | AppendVar (v : nat) (t : string).

(** [l.append(t)]; AttributeError if there is no list *)
Definition append (a : option nat) (t : string) (w : world) : world * option exn :=
  match a with
  | Some a => (mkWd (upd a (cells w a ++ [t]) (cells w)) (fresh w) (ents w) (count w) (vars w), None)
  | None => (w, Some AttributeError)
  end.
(** Whether an entity is an IngredientSpec *)
Definition is_spec (w : world) (s : nat) : bool := match ents w s with Some e => negb (is_run e) | None => false end.
Definition spec_ok (w : world) (s : spec_value) : bool := match s with SpecOf s => is_spec w s | _ => true end.
(** ingredient_run.py:149-151: keep a copy of the labels of the old spec *)
Definition keep_labels (x : nat) (e : ent) (w : world) : world * ent :=
  match e_spec e with
  | SpecOf s => let w' := alloc (value w (LabelsOf s)) w in let e' := mkEnt (is_run e) (e_tags e) (Some (fresh w)) (e_spec e) in (put x e' w', e')
  | _ => (w, e)
  end.
Definition step (p : op) (w : world) : world * option exn :=
  match p with
  | NewSpec t l =>
      let w1 := alloc (value w t) w in let w2 := alloc (value w l) w1 in
      (mkWd (cells w2) (fresh w2) (upd (count w) (Some (mkEnt false (fresh w) (Some (fresh w1)) NoSpec)) (ents w)) (S (count w)) (vars w), None)
  | NewRun t s =>
      if spec_ok w s then
        let w1 := alloc (value w t) w in
        (mkWd (cells w1) (fresh w1) (upd (count w) (Some (mkEnt true (fresh w) None s)) (ents w)) (S (count w)) (vars w), None)
      else (w, Some TypeError)
  | SetTags x s => match ents w x with
                   | Some e => (put x (mkEnt (is_run e) (fresh w) (e_labels e) (e_spec e)) (alloc (value w s) w), None)
                   | None => (w, Some AttributeError)
                   end
  | SetLabels x s => match ents w x with
                     | Some e => if is_run e then (w, Some AttributeError)
                                 else (put x (mkEnt (is_run e) (e_tags e) (Some (fresh w)) (e_spec e)) (alloc (value w s) w), None)
                     | None => (w, Some AttributeError)
                     end
  | SetSpec x s => match ents w x with
                   | Some e => if is_run e then
                                 let (w', e') := keep_labels x e w in
                                 if spec_ok w s then (put x (mkEnt (is_run e') (e_tags e') (e_labels e') s) w', None) else (w', Some TypeError)
                               else (w, None)   (* an IngredientSpec has no property spec: a plain attribute nothing else reads *)
                   | None => (w, Some AttributeError)
                   end
  | SetSpecBad x => match ents w x with
                    | Some e => if is_run e then (fst (keep_labels x e w), Some TypeError) else (w, None)
                    | None => (w, Some AttributeError)
                    end
  | AppendTags x t => append (get_tags w x) t w
  | AppendLabels x t => append (get_labels w x) t w
  | HoldTags v x => (mkWd (cells w) (fresh w) (ents w) (count w) (upd v (get_tags w x) (vars w)), None)
  | HoldLabels v x => (mkWd (cells w) (fresh w) (ents w) (count w) (upd v (get_labels w x) (vars w)), None)
  | AppendVar v t => append (vars w v) t w
  end.
Definition start : world := mkWd (fun _ => []) 0 (fun _ => None) 0 (fun _ => None).
Definition run (ps : list op) (w : world) : world := fold_left (fun w p => fst (step p w)) ps w.
