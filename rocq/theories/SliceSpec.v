(** What a slice selects, as the Python documentation says it, and what follows from it. *)
From Coq Require Import List Bool ZArith.
From Verif Require Import Base VlModel VlSpec SliceModel.
Import ListNotations.
Open Scope list_scope.

Section Selection.
  Open Scope Z_scope.
  (** An end counts from the end of the list if negative, and is then moved into the list: between 0 and [n] for a
      positive step, between -1 and [n]-1 for a negative one. *)
  Definition end_at (n k x : Z) : Z :=
    let x := if x <? 0 then n + x else x in
    if k <? 0 then Z.min (n - 1) (Z.max (-1) x) else Z.min n (Z.max 0 x).
  Definition step_of (s : slice) : Z := match sl_step s with Some k => k | None => 1 end.
  Definition first_of (n : Z) (s : slice) : Z :=
    match sl_start s with Some x => end_at n (step_of s) x | None => if step_of s <? 0 then n - 1 else 0 end.
  Definition stop_of (n : Z) (s : slice) : Z :=
    match sl_stop s with Some x => end_at n (step_of s) x | None => if step_of s <? 0 then -1 else n end.
  (** Position [p] is selected as the [m]-th: it is the first plus [m] steps, and not yet at the stop. *)
  Definition selected (n : Z) (s : slice) (m : nat) (p : nat) : Prop :=
    Z.of_nat p = first_of n s + Z.of_nat m * step_of s /\
    (if step_of s <? 0 then stop_of n s < Z.of_nat p else Z.of_nat p < stop_of n s).
End Selection.

Section Effect.
  Variable A : Type.
  (** Assigning [ys] to the slice [s] of [l] gives [l']. *)
  Inductive spliced (l : list A) (s : slice) (ys : list A) : list A -> Prop :=
  | splice : forall pre mid post, step_of s = 1%Z -> l = pre ++ mid ++ post ->
      Z.of_nat (length pre) = first_of (Z.of_nat (length l)) s ->
      (** the stretch ends at the stop, or is empty *)
      Z.of_nat (length (pre ++ mid)) = Z.max (first_of (Z.of_nat (length l)) s) (stop_of (Z.of_nat (length l)) s) ->
      spliced l s ys (pre ++ ys ++ post)
  | spread : forall l', step_of s <> 1%Z -> step_of s <> 0%Z -> length l' = length l ->
      (** one new element for each position selected *)
      (forall m, (exists p, selected (Z.of_nat (length l)) s m p) <-> m < length ys) ->
      (forall m p, selected (Z.of_nat (length l)) s m p -> nth_error l' p = nth_error ys m) ->
      (forall p, (forall m, ~ selected (Z.of_nat (length l)) s m p) -> nth_error l' p = nth_error l p) ->
      spliced l s ys l'.

  (** [kept P k l l']: of [l], whose first member has index [k], the members whose index is not in [P] are [l']. *)
  Inductive kept (P : nat -> Prop) : nat -> list A -> list A -> Prop :=
  | kept_nil : forall k, kept P k [] []
  | kept_out : forall k x l l', P k -> kept P (S k) l l' -> kept P k (x :: l) l'
  | kept_in : forall k x l l', ~ P k -> kept P (S k) l l' -> kept P k (x :: l) (x :: l').
End Effect.

Section Guard.
  Variables A ty : Type.
  Variable instance_of : A -> ty -> bool.
  Variable members : A -> option (list A).
  (** What is permitted contains only what is permitted: true of every content type whose instances are not iterable,
      and of strings. *)
  Definition closed_members (ts : list ty) : Prop :=
    forall x ys, permitted A ty instance_of ts x -> members x = Some ys -> Forall (permitted A ty instance_of ts) ys.
  (** All operations but [+=] with something forbidden. *)
  Definition xguarded (ts : list ty) (o : xop A) : Prop :=
    match o with XOp o => guarded A ty instance_of ts o | _ => True end.
End Guard.
