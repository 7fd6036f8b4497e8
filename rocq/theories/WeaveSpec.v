(** When the two sides of references agree, and which thread works on which object. *)
From Coq Require Import List Bool Arith.
From Verif Require Import WeaveModel.
Import ListNotations.

(** A child is in the list of its parent, once, and in no other list. *)
Definition listed_right (m : machine) (x : nat) : Prop := forall p,
  (parent m x = Some p -> exists a b, kids m p = a ++ x :: b /\ ~ In x a /\ ~ In x b) /\ (parent m x <> Some p -> ~ In x (kids m p)).
(** A process that points to a material is the process of that material. *)
Definition points_right (m : machine) (p : nat) : Prop := forall x, out m p = Some x -> proc m x = Some p.

(** A thread is in the middle of assigning to a child, or to a material. *)
Definition on_child (m : machine) (t x : nat) : Prop :=
  match at_ (m_thread m t) with Removing y _ _ _ | Storing y _ | Appending y _ => y = x | _ => False end.
Definition on_material (m : machine) (t x : nat) : Prop :=
  match at_ (m_thread m t) with Clearing y _ _ | Claiming y _ | Keeping y _ => y = x | _ => False end.
(** Every object is assigned to by one thread only. *)
Definition children_apart (progs : nat -> list op) (owner : nat -> nat) : Prop := forall t x v, In (Assign x v) (progs t) -> owner x = t.
Definition materials_apart (progs : nat -> list op) (owner : nat -> nat) : Prop := forall t x v, In (Produce x v) (progs t) -> owner x = t.

(** What was assigned last, according to a history of assignments; those that raised do not count. *)
Fixpoint last_assigned (log : list (op * bool)) (x : nat) (before : option nat) : option nat :=
  match log with
  | [] => before
  | (Assign y v, true) :: r => last_assigned r x (if y =? x then v else before)
  | _ :: r => last_assigned r x before
  end.
Fixpoint last_produced (log : list (op * bool)) (x : nat) (before : option nat) : option nat :=
  match log with
  | [] => before
  | (Produce y v, true) :: r => last_produced r x (if y =? x then v else before)
  | _ :: r => last_produced r x before
  end.

(** No thread goes on with the search of a list that another one is searching too. *)
Definition searching (m : machine) (t p : nat) : Prop := match at_ (m_thread m t) with Removing _ _ q _ => q = p | _ => False end.
Definition searches_apart (m : machine) (t : nat) : Prop := forall p, searching m t p -> forall u, u <> t -> ~ searching m u p.
Inductive always (P : machine -> nat -> Prop) : machine -> list nat -> Prop :=
| always_end m : always P m []
| always_step m t r : P m t -> always P (step t m) r -> always P m (t :: r).

(** The assignments to one child, or to one material, in a list of operations. *)
Definition to_child (x : nat) (l : list op) : list op := filter (fun o => match o with Assign y _ => y =? x | _ => false end) l.
Definition to_material (x : nat) (l : list op) : list op := filter (fun o => match o with Produce y _ => y =? x | _ => false end) l.
