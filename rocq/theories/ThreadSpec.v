(** What threads that use validation levels should see, independent of the steps of ThreadModel.v. *)
From Coq Require Import List Bool Arith.
From Verif Require Import ThreadModel.
Import ListNotations.

(** A program on its own: the levels its checks see, and the level it leaves. In a block the level is that of the block;
    behind the block it is what it was before. *)
Inductive alone : list stmt -> level -> list level -> level -> Prop :=
| alone_end l : alone [] l [] l
| alone_check r l seen l' : alone r l seen l' -> alone (SCheck :: r) l (l :: seen) l'
| alone_set x r l seen l' : alone r x seen l' -> alone (SSet x :: r) l seen l'
| alone_block x body r l s1 l1 s2 l2 : alone body x s1 l1 -> alone r l s2 l2 -> alone (SBlock x body :: r) l (s1 ++ s2) l2.

(** A level that a program asks for. *)
Inductive asks : list stmt -> level -> Prop :=
| asks_set l r : asks (SSet l :: r) l
| asks_block l b r : asks (SBlock l b :: r) l
| asks_body l x b r : asks b l -> asks (SBlock x b :: r) l
| asks_later l s r : asks r l -> asks (s :: r) l.
(** Programs that change the level for good only inside a block, and programs that never do. *)
Definition scoped (p : list stmt) : Prop := forall l, ~ In (SSet l) p.
Definition only_checks (p : list stmt) : Prop := forall s, In s p -> s = SCheck.

(** A thread is in a block from reading the level it will restore until it has restored it. *)
Definition in_block (m : machine) (t : nat) : Prop := t_entering (m_thread m t) <> None \/ t_stack (m_thread m t) <> [].
Definition finished (m : machine) (t : nat) : Prop := m_thread m t = mkT None [] [].

(** A property of every moment of a schedule: thread [t] is about to take a step of machine [m]. *)
Inductive always (P : machine -> nat -> Prop) : machine -> list nat -> Prop :=
| always_end m : always P m []
| always_step m t r : P m t -> always P (step t m) r -> always P m (t :: r).
(** No thread runs while another is in a block. *)
Definition alone_in_block (m : machine) (t : nat) : Prop := forall u, u <> t -> ~ in_block m u.

(** First in, last out: of the threads in blocks, the one that came first ([owner]) does not leave before the others have. *)
Inductive first_in_last_out : option nat -> machine -> list nat -> Prop :=
| filo_end o m : first_in_last_out o m []
| filo_enter m t r : in_block (step t m) t -> first_in_last_out (Some t) (step t m) r -> first_in_last_out None m (t :: r)
| filo_outside m t r : ~ in_block (step t m) t -> first_in_last_out None (step t m) r -> first_in_last_out None m (t :: r)
| filo_other o m t r : t <> o -> first_in_last_out (Some o) (step t m) r -> first_in_last_out (Some o) m (t :: r)
| filo_stay o m r : in_block (step o m) o -> first_in_last_out (Some o) (step o m) r -> first_in_last_out (Some o) m (o :: r)
| filo_leave o m r : ~ in_block (step o m) o -> (forall u, u <> o -> ~ in_block m u) -> first_in_last_out None (step o m) r -> first_in_last_out (Some o) m (o :: r).

Definition rank (l : level) : nat := match l with IGNORE => 0 | WARNING => 1 | FATAL => 2 end.
