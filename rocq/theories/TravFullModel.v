(** Model of the graph traversals with the function they call: gemd/util/impl.py:391-444
    (recursive_foreach), impl.py:447-503 (recursive_flatmap), impl.py:12-35 (set_uuids).

    TravModel lists the entities that are visited when the loop ends by itself. Here the function
    is part of the model: it may change the graph, keep a state of its own and raise, and what it did
    before an exception remains. The loop pushes as TravModel.pushed does, with the simplifications
    stated there. *)
From Coq Require Import String List Bool Arith.
From Verif Require Import Base GraphModel TravModel.
Import ListNotations.
Open Scope string_scope.
Open Scope list_scope.
Open Scope nat_scope.

(** How a traversal ends, with the state it leaves: by itself, by an exception, or (never, see
    TravFullProperties) by too little fuel. *)
Inductive ending (St : Type) := Ended (st : St) | Threw (e : exn) (st : St) | Endless.
Arguments Ended {St}. Arguments Threw {St}. Arguments Endless {St}.

Section Loop.
  (** What the function has beside the graph: variables it captured, or the results so far. *)
  Variable A : Type.
  (** A call: the state it leaves, and the exception if it raises. *)
  Variable func : oid -> heap * A -> (heap * A) * option exn.
  Variable arrange : list (string * pv) -> list (string * pv).
  Variable keep : ekind -> string -> bool.
  Variable backwards : bool.
  (** Whether the function is called before the members are pushed. *)
  Variable apply_first : bool.

  (** impl.py:418-444 and 475-503 *)
  Fixpoint loop (n : nat) (seen : list oid) (stack : list pv) (st : heap * A) : ending (heap * A) :=
    match stack with
    | [] => Ended st
    | this :: rest =>
        match n with
        | O => Endless
        | S n' =>
            match this with
            | PRef o =>
                if mem o seen then loop n' seen rest st
                else let '(st', x) := func o st in
                     let members := pushed (fst (if apply_first then st' else st)) arrange keep backwards this in
                     match x with
                     | Some e => Threw e st'
                     | None => loop n' (o :: seen) (rev members ++ rest) st'
                     end
            | PTuple _ => if hashable this then loop n' seen (rev (pushed (fst st) arrange keep backwards this) ++ rest) st
                          else Threw TypeError st
            | _ => loop n' seen (rev (pushed (fst st) arrange keep backwards this) ++ rest) st
            end
        end
    end.
End Loop.

(** impl.py:391-444 *)
Definition recursive_foreach {A} (func : oid -> heap * A -> (heap * A) * option exn) (apply_first : bool) (obj : pv)
  (st : heap * A) : ending (heap * A) :=
  loop A func (fun d => d) (fun _ _ => true) false apply_first (budget (fst st) obj) [] [obj] st.

Section Flatmap.
  (** [sorted(this.__dict__.items())], left open as in TravModel. *)
  Variable sorted : list (string * pv) -> list (string * pv).
  Variable B : Type.
  (** The function: the results for an entity, or an exception. It leaves the graph as it is. *)
  Variable func : heap -> oid -> list B + exn.

  (** impl.py:483-484: [res.extend(func(this))]. *)
  Definition extend (o : oid) (st : heap * list B) : (heap * list B) * option exn :=
    match func (fst st) o with
    | inl l => ((fst st, snd st ++ l), None)
    | inr e => (st, Some e)
    end.

  (** impl.py:447-503. The function is called before the members are pushed. *)
  Definition recursive_flatmap (unidirectional : bool) (h : heap) (obj : pv) : ending (heap * list B) :=
    loop (list B) extend sorted (fun k f => negb (unidirectional && skipped k f)) true true (budget h obj) [] [obj] (h, []).
End Flatmap.

Section Uuids.
  (** [str(uuid.uuid4())], the [n]-th call. *)
  Variable uuid4 : nat -> string.

  (** impl.py:30-33: the function, with the number of calls of [uuid4] as its state. *)
  Definition func_set_uuid (scope : string) (o : oid) (st : heap * nat) : (heap * nat) * option exn :=
    (give_uid uuid4 scope st o, None).

  (** impl.py:12-35 *)
  Definition set_uuids_all (h : heap) (n : nat) (obj : pv) (scope : string) : ending (heap * nat) :=
    recursive_foreach (func_set_uuid scope) false obj (h, n).
End Uuids.
