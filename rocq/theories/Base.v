(** Shared vocabulary: results of Python calls and insertion-ordered dictionaries. *)
From Coq Require Import String Ascii List Bool Arith Lia.
Import ListNotations.
Open Scope string_scope.
Open Scope list_scope.

(** The exception classes the modelled code can raise. *)
Inductive exn : Type :=
| KeyError | ValueError | TypeError | AttributeError | IndexError | AssertionError
| IncompatibleUnitsError | UndefinedUnitError | ZeroDivisionError | DefinitionSyntaxError
| FileNotFoundError | OverflowError | UnboundLocalError | RecursionError | StopIteration.

Definition exn_eq_dec : forall a b : exn, {a = b} + {a <> b}.
Proof. decide equality. Defined.

(** The result of a Python call: a value or a raised exception. *)
Inductive res (A : Type) : Type :=
| Ok (a : A)
| Err (e : exn).
Arguments Ok {A} a.
Arguments Err {A} e.

Definition bind {A B} (r : res A) (f : A -> res B) : res B :=
  match r with Ok a => f a | Err e => Err e end.

Definition is_ok {A} (r : res A) : bool := match r with Ok _ => true | Err _ => false end.

Notation "'do' x <- r ; b" := (bind r (fun x => b))
  (at level 200, x pattern, r at level 100, b at level 200, right associativity).

(** Python's built-in [dict] with string keys: an insertion-ordered association list.
    [dict_set] overwrites in place or appends, [dict_del] removes, as CPython (>= 3.7) does. *)
Section Dict.
  Context {V : Type}.

  Fixpoint dict_get (k : string) (d : list (string * V)) : option V :=
    match d with
    | [] => None
    | (k', v) :: r => if String.eqb k k' then Some v else dict_get k r
    end.

  Fixpoint dict_set (k : string) (v : V) (d : list (string * V)) : list (string * V) :=
    match d with
    | [] => [(k, v)]
    | (k', v') :: r => if String.eqb k k' then (k', v) :: r else (k', v') :: dict_set k v r
    end.

  Fixpoint dict_del (k : string) (d : list (string * V)) : list (string * V) :=
    match d with
    | [] => []
    | (k', v') :: r => if String.eqb k k' then r else (k', v') :: dict_del k r
    end.

  Definition dict_mem (k : string) (d : list (string * V)) : bool :=
    match dict_get k d with Some _ => true | None => false end.

  (** [dict.update] / the [dict] constructor applied to key-value pairs. *)
  Definition dict_update (items d : list (string * V)) : list (string * V) :=
    fold_left (fun acc kv => dict_set (fst kv) (snd kv) acc) items d.

  Definition keys (d : list (string * V)) : list string := map fst d.
End Dict.
