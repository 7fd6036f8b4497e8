(** Model of the list operations that ValidList (gemd/entity/valid_list.py) inherits from list, and of index
    assignment with a slice, which it overrides (valid_list.py:84-108) without treating slices apart.

    Simplifications. [sort] is left out. Indices are integers (objects with [__index__] are their integers). What
    iterating over an object yields is the parameter [members]: [None] if it is not iterable. [eqb] is [==]. *)
From Coq Require Import List Bool ZArith Lia.
From Verif Require Import Base VlModel.
Import ListNotations.
Open Scope list_scope.

(** A slice object, slice(start, stop, step). *)
Record slice : Type := mkSlice { sl_start : option Z; sl_stop : option Z; sl_step : option Z }.

Section Positions.
  Open Scope Z_scope.
  (** CPython, PySlice_AdjustIndices: an end of the slice that was given, in a list of length [n]. *)
  Definition adjust (n step x : Z) : Z :=
    let x := if x <? 0 then x + n else x in
    if x <? 0 then if step <? 0 then -1 else 0
    else if x >=? n then if step <? 0 then n - 1 else n
    else x.
  (** CPython, PySlice_Unpack and PySlice_AdjustIndices: first index, end index and step. *)
  Definition indices (n : Z) (s : slice) : res (Z * Z * Z) :=
    let step := match sl_step s with None => 1 | Some k => k end in
    if step =? 0 then Err ValueError else
    Ok (match sl_start s with Some x => adjust n step x | None => if step <? 0 then n - 1 else 0 end,
        match sl_stop s with Some x => adjust n step x | None => if step <? 0 then -1 else n end,
        step).
  (** CPython, the number of indices. *)
  Definition slice_length (i j step : Z) : Z :=
    if step <? 0 then if j <? i then (i - j - 1) / (- step) + 1 else 0
    else if i <? j then (j - i - 1) / step + 1 else 0.
  Definition positions (i j step : Z) : list nat :=
    map (fun m => Z.to_nat (i + Z.of_nat m * step)) (seq 0 (Z.to_nat (slice_length i j step))).
End Positions.

Section Slices.
  Variables A ty S : Type.
  Variable instance_of : A -> ty -> bool.
  Variable members : A -> option (list A).
  Variable eqb : A -> A -> bool.

  Fixpoint set_all (ps : list nat) (ys : list A) (l : list A) : list A :=
    match ps, ys with p :: ps, y :: ys => set_all ps ys (set_nth A p y l) | _, _ => l end.
  (** The members of [l], the first of which has index [k], whose index is not among [ps]. *)
  Fixpoint drop_all (k : nat) (ps : list nat) (l : list A) : list A :=
    match l with
    | [] => []
    | x :: r => if existsb (Nat.eqb k) ps then drop_all (Datatypes.S k) ps r else x :: drop_all (Datatypes.S k) ps r
    end.

  (** CPython, list_ass_subscript with a slice and a value. With step 1 the stretch is replaced, an end before the
      start counting as the start; otherwise the numbers of positions and of new elements must agree. *)
  Definition list_set_slice (l : list A) (s : slice) (y : A) : res (list A) :=
    match indices (Z.of_nat (length l)) s with
    | Err e => Err e
    | Ok (i, j, step) =>
        match members y with
        | None => Err TypeError
        | Some ys =>
            if (step =? 1)%Z then
              let i := Z.to_nat i in let j := Nat.max i (Z.to_nat j) in
              Ok (firstn i l ++ ys ++ skipn j l)
            else
              let ps := positions i j step in
              if Nat.eqb (length ys) (length ps) then Ok (set_all ps ys l) else Err ValueError
        end
    end.
  (** CPython, list_ass_subscript with a slice and no value. *)
  Definition list_del_slice (l : list A) (s : slice) : res (list A) :=
    match indices (Z.of_nat (length l)) s with
    | Err e => Err e
    | Ok (i, j, step) => Ok (drop_all 0 (positions i j step) l)
    end.

  (** valid_list.py:84-108 with a slice: the value is checked, and passed to the trigger, as one element. *)
  Definition set_slice (v : vlist A ty S) (s : slice) (x : A) (st : S) : vlist A ty S * option exn * S :=
    if accepts A ty instance_of (ctypes v) x then
      match fire A S (trig v) x st with
      | (Ok y, st') => match list_set_slice (items v) s y with
                       | Ok l => (with_items A ty S v l, None, st')
                       | Err e => (v, Some e, st')
                       end
      | (Err e, st') => (v, Some e, st')
      end
    else (v, Some TypeError, st).

  (** Inherited. *)
  Definition del_slice (v : vlist A ty S) (s : slice) (st : S) : vlist A ty S * option exn * S :=
    match list_del_slice (items v) s with
    | Ok l => (with_items A ty S v l, None, st)
    | Err e => (v, Some e, st)
    end.
  (** [pop] takes -1 if nothing is given. *)
  Definition pop (v : vlist A ty S) (i : option Z) (st : S) : vlist A ty S * option exn * S :=
    delitem A ty S v (match i with Some i => i | None => -1 end)%Z st.
  (** [remove] deletes the first member that equals the argument. *)
  Fixpoint remove_first (x : A) (l : list A) : option (list A) :=
    match l with
    | [] => None
    | a :: r => if eqb a x then Some r else match remove_first x r with Some r' => Some (a :: r') | None => None end
    end.
  Definition remove (v : vlist A ty S) (x : A) (st : S) : vlist A ty S * option exn * S :=
    match remove_first x (items v) with
    | Some l => (with_items A ty S v l, None, st)
    | None => (v, Some ValueError, st)
    end.
  (** [*=]; a negative number counts as zero. *)
  Definition repeat_list (k : Z) (l : list A) : list A := concat (repeat l (Z.to_nat k)).
  Definition imul (v : vlist A ty S) (k : Z) (st : S) : vlist A ty S * option exn * S :=
    (with_items A ty S v (repeat_list k (items v)), None, st).

  Inductive xop : Type :=
  | XOp (o : op A) | XSetSlice (s : slice) (x : A) | XDelSlice (s : slice) | XPop (i : option Z) | XRemove (x : A) | XImul (k : Z).
  Definition xstep (v : vlist A ty S) (o : xop) (st : S) : vlist A ty S * option exn * S :=
    match o with
    | XOp o => step A ty S instance_of v o st
    | XSetSlice s x => set_slice v s x st
    | XDelSlice s => del_slice v s st
    | XPop i => pop v i st
    | XRemove x => remove v x st
    | XImul k => imul v k st
    end.
  Fixpoint xrun (v : vlist A ty S) (ops : list xop) (st : S) : vlist A ty S * S :=
    match ops with
    | [] => (v, st)
    | o :: r => let '(v1, _, st1) := xstep v o st in xrun v1 r st1
    end.
End Slices.
Arguments XOp {A}. Arguments XSetSlice {A}. Arguments XDelSlice {A}. Arguments XPop {A}. Arguments XRemove {A}. Arguments XImul {A}.
