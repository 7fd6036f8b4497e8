(** Model of the graph traversals: gemd/util/impl.py:391-503 (recursive_foreach,
    recursive_flatmap), and of set_uuids (impl.py:12-35).

    Simplifications. Dictionary keys are strings. The set of things seen holds entities only: links,
    numbers, strings and serialisable objects that are not entities are skipped by Python when met
    again, which cannot change which entities are visited, since what they contain has been
    visited or queued before; the order of visits may differ. An entity's uids, which contain
    strings only, are not walked. The functions applied do not change references. *)
From Coq Require Import String List Bool Arith.
From Verif Require Import Base GraphModel.
Import ListNotations.
Open Scope string_scope.
Open Scope list_scope.
Open Scope nat_scope.

(** A completed computation, an exception, or (never, see TravProperties) too little fuel. *)
Inductive outcome (A : Type) := Done (a : A) | Raised (e : exn) | Exhausted.
Arguments Done {A}. Arguments Raised {A}. Arguments Exhausted {A}.

(** Python's [hash(v)] succeeds: entities and serialisable objects hash by identity
    (dict_serializable.py:205-206, base_entity.py:225-226), links by value (link_by_uid.py:80-81),
    a tuple if all its members do, lists and dictionaries do not. *)
Fixpoint hashable (v : pv) : bool :=
  match v with
  | PList _ | PDict _ => false
  | PTuple l => (fix all (l : list pv) := match l with [] => true | x :: r => hashable x && all r end) l
  | _ => true
  end.

(** The class attribute [skip] (material_run.py:17, process_run.py:23, process_spec.py:21). *)
Definition skipped (k : ekind) (f : string) : bool :=
  match k with
  | KMatR => String.eqb f "measurements"
  | KProcR | KProcS => String.eqb f "output_material" || String.eqb f "ingredients"
  | _ => false
  end.

Definition mem (o : oid) (l : list oid) : bool := existsb (Nat.eqb o) l.

Section Walk.
  Variable h : heap.
  (** The order in which an object's attributes are taken: that of its [__dict__] in foreach,
      sorted by name in flatmap. *)
  Variable arrange : list (string * pv) -> list (string * pv).
  (** Which attributes of an entity are entered. *)
  Variable keep : ekind -> string -> bool.
  (** Whether the members of a list are pushed last first (flatmap). *)
  Variable backwards : bool.

  (** impl.py:430-441 and 489-501: what is pushed for [v], in the order of pushing. *)
  Definition pushed (v : pv) : list pv :=
    match v with
    | PList l | PTuple l => if backwards then rev l else l
    | PDict d => map (fun kv => PAtom (AStr (fst kv))) d ++ map snd d
    | PObj _ fs => map snd (arrange fs)
    | PRef o => match hget h o with
                | Some e => map snd (filter (fun kv => keep (e_kind e) (fst kv)) (arrange (e_fields e)))
                | None => []
                end
    | _ => []
    end.

  (** impl.py:416-444 and 472-503: the loop. [seen] are the entities visited so far, last first;
      the top of the stack is its head. *)
  Fixpoint walk (n : nat) (seen : list oid) (stack : list pv) : outcome (list oid) :=
    match stack with
    | [] => Done (rev seen)
    | this :: rest =>
        match n with
        | O => Exhausted
        | S n' =>
            match this with
            | PRef o => if mem o seen then walk n' seen rest
                        else walk n' (o :: seen) (rev (pushed this) ++ rest)
            | PTuple _ => if hashable this then walk n' seen (rev (pushed this) ++ rest) else Raised TypeError
            | _ => walk n' seen (rev (pushed this) ++ rest)
            end
        end
    end.

  (** More steps than there is anything to pop. *)
  Fixpoint vsize (v : pv) : nat :=
    match v with
    | PList l | PTuple l => S ((fix sum (l : list pv) := match l with [] => 0 | x :: r => vsize x + sum r end) l)
    | PDict l => S ((fix sum (l : list (string * pv)) := match l with [] => 0 | (_, x) :: r => S (vsize x) + sum r end) l)
    | PObj _ l => S ((fix sum (l : list (string * pv)) := match l with [] => 0 | (_, x) :: r => vsize x + sum r end) l)
    | _ => 1
    end.
  Definition fsize (e : entity) : nat := list_sum (map (fun kv => vsize (snd kv)) (e_fields e)).
  Definition budget (obj : pv) : nat := vsize obj + list_sum (map fsize h).

  Definition visits (obj : pv) : outcome (list oid) := walk (budget obj) [] [obj].
End Walk.

(** impl.py:391-444: the entities the function is called on, in order of the calls. [apply_first]
    matters only to functions that change references. *)
Definition foreach (h : heap) (obj : pv) : outcome (list oid) :=
  visits h (fun d => d) (fun _ _ => true) false obj.

Section Flatmap.
  (** [sorted(this.__dict__.items())]. The model's field names lack the underscores that some
      attributes have, so the order is left open. *)
  Variable sorted : list (string * pv) -> list (string * pv).

  (** impl.py:447-503 *)
  Definition flatmap (unidirectional : bool) (h : heap) (obj : pv) : outcome (list oid) :=
    visits h sorted (fun k f => negb (unidirectional && skipped k f)) true obj.
End Flatmap.

(** ** set_uuids *)

Definition set_uids (h : heap) (o : oid) (u : list (string * string)) : heap :=
  match hget h o with Some e => hset h o (mkE (e_kind e) u (e_fields e)) | None => h end.

Section Uuids.
  (** [str(uuid.uuid4())], the [n]-th call. *)
  Variable uuid4 : nat -> string.

  (** impl.py:30-33: [add_uid] on empty uids stores the pair (base_entity.py:61-73). The counter
      numbers the calls of [uuid4]. *)
  Definition give_uid (scope : string) (st : heap * nat) (o : oid) : heap * nat :=
    let '(h, n) := st in
    match hget h o with
    | Some e => match e_uids e with
                | [] => (set_uids h o [(scope, uuid4 n)], S n)
                | _ => st
                end
    | None => st
    end.

  (** impl.py:12-35. An exception leaves the entities met before it changed; it is reported
      without the heap here. *)
  Definition set_uuids (h : heap) (n : nat) (obj : pv) (scope : string) : outcome (heap * nat) :=
    match foreach h obj with
    | Done l => Done (fold_left (give_uid scope) l (h, n))
    | Raised e => Raised e
    | Exhausted => Exhausted
    end.
End Uuids.
