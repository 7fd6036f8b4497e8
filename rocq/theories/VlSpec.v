(** Specification for C03/C04. *)
From Coq Require Import List Bool ZArith.
From Verif Require Import Base VlModel.
Import ListNotations.
Open Scope list_scope.

Section VlSpec.
  Variables A ty S : Type.
  Variable instance_of : A -> ty -> bool.

  (** x is an instance of one of the content types. *)
  Definition permitted (ts : list ty) (x : A) : Prop := exists t, In t ts /\ instance_of x t = true.

  (** "Storing x": running the trigger once on x in state s yields y and state s'. *)
  Inductive stored_as : option (trigger A S) -> A -> S -> A -> S -> Prop :=
  | sa_none : forall x s, stored_as None x s x s
  | sa_keep : forall f x s s', f x s = (Ok None, s') -> stored_as (Some f) x s x s'
  | sa_repl : forall f x y s s', f x s = (Ok (Some y), s') -> stored_as (Some f) x s y s'.

  (** The same for a sequence of elements, in order, once each. *)
  Inductive all_stored_as (t : option (trigger A S)) : list A -> S -> list A -> S -> Prop :=
  | as_nil : forall s, all_stored_as t [] s [] s
  | as_cons : forall x y xs ys s s1 s2, stored_as t x s y s1 -> all_stored_as t xs s1 ys s2 ->
      all_stored_as t (x :: xs) s (y :: ys) s2.

  (** The trigger raises on some element, after storing the ones before it. *)
  Definition trigger_raises (t : option (trigger A S)) (xs : list A) (s : S) (e : exn) (s' : S) : Prop :=
    exists f pre x post ys s1, t = Some f /\ xs = pre ++ x :: post /\
      all_stored_as t pre s ys s1 /\ f x s1 = (Err e, s').

  (** A trigger that only ever replaces permitted elements by permitted ones. *)
  Definition closed_trigger (ts : list ty) (t : option (trigger A S)) : Prop :=
    forall f x y s s', t = Some f -> permitted ts x -> f x s = (Ok (Some y), s') -> permitted ts y.

  (** Operations the invariant covers: everything except [+=] with a forbidden element. *)
  Definition guarded (ts : list ty) (o : op A) : Prop :=
    match o with OIadd l => Forall (permitted ts) l | _ => True end.

  (** Argument lists that can be looped over more than once (lists, tuples, sets, ValidLists). *)
  Definition reusable (i : iterable A) : Prop := exists l, i = Reusable l.
End VlSpec.
