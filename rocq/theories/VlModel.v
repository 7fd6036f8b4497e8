(** Model of gemd/entity/valid_list.py (class ValidList) and of validate_list in
    gemd/entity/setters.py.
    [A] is the universe of Python objects, [ty] that of classes, [instance_of] is isinstance, and [S]
    is whatever state a trigger can read and write (logs, validation level, ...).
    Simplification: slice indices are in [SliceModel]. *)
From Coq Require Import List Bool ZArith Lia.
From Verif Require Import Base.
Import ListNotations.
Open Scope list_scope.

Section Vl.
  Variables A ty S : Type.
  Variable instance_of : A -> ty -> bool.

  (** A trigger is called with a value; it may raise, return None, or return a replacement. *)
  Definition trigger := A -> S -> res (option A) * S.

  (** What is passed where Python asks for an Iterable. A one-shot iterable (generator, map,
      zip, iterator) yields its elements to the first loop over it and nothing afterwards. *)
  Inductive iterable : Type := Reusable (l : list A) | OneShot (l : list A).

  Definition first_pass (i : iterable) : list A := match i with Reusable l | OneShot l => l end.
  Definition later_pass (i : iterable) : list A := match i with Reusable l => l | OneShot _ => [] end.

  (** valid_list.py:27-49: the object: content types, trigger, list content. *)
  Record vlist : Type := mkVl { ctypes : list ty; trig : option trigger; items : list A }.

  (** valid_list.py:61-82 [_validate]; isinstance(value, tuple_of_types). *)
  Definition accepts (ts : list ty) (x : A) : bool := existsb (instance_of x) ts.

  (** The trigger idiom at valid_list.py:104-107, 128-131, 187-190 and inside the loops at
      54-57 and 159-162: call, and keep the value unless a replacement is returned. *)
  Definition fire (t : option trigger) (x : A) (s : S) : res A * S :=
    match t with
    | None => (Ok x, s)
    | Some f => match f x s with
                | (Ok None, s') => (Ok x, s')
                | (Ok (Some y), s') => (Ok y, s')
                | (Err e, s') => (Err e, s')
                end
    end.

  (** The loops over [enumerate(_list)] / [enumerate(cache)], left to right. *)
  Fixpoint fire_all (t : option trigger) (l : list A) (s : S) : res (list A) * S :=
    match l with
    | [] => (Ok [], s)
    | x :: r => match fire t x s with
                | (Err e, s1) => (Err e, s1)
                | (Ok y, s1) => match fire_all t r s1 with
                                | (Ok ys, s2) => (Ok (y :: ys), s2)
                                | (Err e, s2) => (Err e, s2)
                                end
                end
    end.

  (** valid_list.py:29-59 [__init__] with content types already normalised to a tuple of classes.
      Line 46 loops over _list, line 49 makes [list(_list)], line 53 enumerates _list again: with
      a one-shot iterable the last two see nothing. *)
  Definition init (i : iterable) (ts : list ty) (t : option trigger) (s : S) : res vlist * S :=
    if forallb (accepts ts) (first_pass i) then
      match fire_all t (later_pass i) s with
      | (Ok ys, s') => (Ok (mkVl ts t ys), s')
      | (Err e, s') => (Err e, s')
      end
    else (Err TypeError, s).

  (** Python list indices: negative ones count from the end. *)
  Definition norm_index (i : Z) (n : nat) : option nat :=
    let j := (if i <? 0 then i + Z.of_nat n else i)%Z in
    if ((0 <=? j) && (j <? Z.of_nat n))%Z%bool then Some (Z.to_nat j) else None.

  Fixpoint set_nth (n : nat) (x : A) (l : list A) : list A :=
    match l, n with
    | [], _ => []
    | _ :: r, O => x :: r
    | a :: r, Datatypes.S m => a :: set_nth m x r
    end.

  Definition del_nth (n : nat) (l : list A) : list A := firstn n l ++ skipn (Datatypes.S n) l.

  (** [list.insert] clamps its index. *)
  Definition insert_pos (i : Z) (n : nat) : nat :=
    let j := (if i <? 0 then Z.max 0 (i + Z.of_nat n) else Z.min i (Z.of_nat n))%Z in Z.to_nat j.

  Definition with_items (v : vlist) (l : list A) : vlist := mkVl (ctypes v) (trig v) l.

  (** valid_list.py:84-108; [list.__setitem__] raises IndexError after the trigger has run. *)
  Definition setitem (v : vlist) (i : Z) (x : A) (s : S) : vlist * option exn * S :=
    if accepts (ctypes v) x then
      match fire (trig v) x s with
      | (Ok y, s') => match norm_index i (length (items v)) with
                      | Some n => (with_items v (set_nth n y (items v)), None, s')
                      | None => (v, Some IndexError, s')
                      end
      | (Err e, s') => (v, Some e, s')
      end
    else (v, Some TypeError, s).

  (** valid_list.py:110-132 *)
  Definition append (v : vlist) (x : A) (s : S) : vlist * option exn * S :=
    if accepts (ctypes v) x then
      match fire (trig v) x s with
      | (Ok y, s') => (with_items v (items v ++ [y]), None, s')
      | (Err e, s') => (v, Some e, s')
      end
    else (v, Some TypeError, s).

  (** valid_list.py:134-164; [None] is an argument that is not iterable. *)
  Definition extend (v : vlist) (i : option iterable) (s : S) : vlist * option exn * S :=
    match i with
    | None => (v, Some TypeError, s)
    | Some i =>
        if forallb (accepts (ctypes v)) (first_pass i) then
          match fire_all (trig v) (later_pass i) s with
          | (Ok ys, s') => (with_items v (items v ++ ys), None, s')
          | (Err e, s') => (v, Some e, s')
          end
        else (v, Some TypeError, s)
    end.

  (** valid_list.py:166-191 *)
  Definition insert (v : vlist) (i : Z) (x : A) (s : S) : vlist * option exn * S :=
    if accepts (ctypes v) x then
      match fire (trig v) x s with
      | (Ok y, s') =>
          let n := insert_pos i (length (items v)) in
          (with_items v (firstn n (items v) ++ y :: skipn n (items v)), None, s')
      | (Err e, s') => (v, Some e, s')
      end
    else (v, Some TypeError, s).

  (** Inherited, not overridden: [del l[i]], [clear], [reverse], [+=]. *)
  Definition delitem (v : vlist) (i : Z) (s : S) : vlist * option exn * S :=
    match norm_index i (length (items v)) with
    | Some n => (with_items v (del_nth n (items v)), None, s)
    | None => (v, Some IndexError, s)
    end.

  Inductive op : Type :=
  | OSetitem (i : Z) (x : A) | OAppend (x : A) | OExtend (i : option iterable)
  | OInsert (i : Z) (x : A) | ODelitem (i : Z) | OClear | OReverse | OIadd (l : list A).

  Definition step (v : vlist) (o : op) (s : S) : vlist * option exn * S :=
    match o with
    | OSetitem i x => setitem v i x s
    | OAppend x => append v x s
    | OExtend i => extend v i s
    | OInsert i x => insert v i x s
    | ODelitem i => delitem v i s
    | OClear => (with_items v [], None, s)
    | OReverse => (with_items v (rev (items v)), None, s)
    | OIadd l => (with_items v (items v ++ l), None, s)
    end.

  (** A history: every operation is attempted, failing ones are caught by the client. *)
  Fixpoint run (v : vlist) (ops : list op) (s : S) : vlist * S :=
    match ops with
    | [] => (v, s)
    | o :: r => let '(v1, _, s1) := step v o s in run v1 r s1
    end.

  (** setters.py:11-39 [validate_list]. *)
  Inductive arg : Type := ANone | AScalar (x : A) | AIter (i : iterable).
  Definition validate_list (a : arg) (ts : list ty) (t : option trigger) (s : S) : res vlist * S :=
    match a with
    | ANone => init (Reusable []) ts t s
    | AIter i => init i ts t s
    | AScalar x => init (Reusable [x]) ts t s
    end.
End Vl.

Arguments Reusable {A}. Arguments OneShot {A}. Arguments mkVl {A ty S}.
Arguments ctypes {A ty S}. Arguments trig {A ty S}. Arguments items {A ty S}.
Arguments OSetitem {A}. Arguments OAppend {A}. Arguments OExtend {A}. Arguments OInsert {A}.
Arguments ODelitem {A}. Arguments OClear {A}. Arguments OReverse {A}. Arguments OIadd {A}.
Arguments ANone {A}. Arguments AScalar {A}. Arguments AIter {A}.
