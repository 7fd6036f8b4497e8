(** Model of the validation level (gemd/entity/bounds_validation.py) shared by several threads: a global variable, read and
    written by set_validation_level, by the context validation_level and by the checks of setters.
    Simplifications: the levels given are valid ones; the body of a context does not raise (see ValidationModel.v for that);
    of what a program does only the changes of level and the places where it is looked up are kept. *)
From Coq Require Import List Bool Arith.
Import ListNotations.

(** bounds_validation.py:7-20 *)
Inductive level : Type := IGNORE | WARNING | FATAL.

(** What a thread does: a check (get_validation_level, lines 26-28), set_validation_level (31-34), or a with-block of
    validation_level (37-46). *)
Inductive stmt : Type := SCheck | SSet (l : level) | SBlock (l : level) (body : list stmt).

(** A thread: what is left of the innermost block, and for each open block the value kept in old_value and what follows it.
    [t_entering] is the value read at line 42 and not yet replaced, with the level, the body and what follows. *)
Record thread : Type := mkT { t_entering : option (level * (level * list stmt * list stmt)); t_now : list stmt; t_stack : list (level * list stmt) }.
Definition start (p : list stmt) : thread := mkT None p [].

(** The global variable, the threads, and what each has seen in its checks. *)
Record machine : Type := mkM { m_level : level; m_thread : nat -> thread; m_seen : nat -> list level }.
Definition upd {A} (f : nat -> A) (t : nat) (x : A) : nat -> A := fun u => if u =? t then x else f u.

(** One step of thread [t]: one read or write of the global variable. Line 42 is a read, then a write; line 46 is a write. *)
Definition step (t : nat) (m : machine) : machine :=
  let th := m_thread m t in
  match t_entering th with
  | Some (old, (l, body, rest)) => mkM l (upd (m_thread m) t (mkT None body ((old, rest) :: t_stack th))) (m_seen m)
  | None =>
      match t_now th with
      | SCheck :: r => mkM (m_level m) (upd (m_thread m) t (mkT None r (t_stack th))) (upd (m_seen m) t (m_seen m t ++ [m_level m]))
      | SSet l :: r => mkM l (upd (m_thread m) t (mkT None r (t_stack th))) (m_seen m)
      | SBlock l body :: r => mkM (m_level m) (upd (m_thread m) t (mkT (Some (m_level m, (l, body, r))) [] (t_stack th))) (m_seen m)
      | [] => match t_stack th with
              | [] => m
              | (old, r) :: s => mkM old (upd (m_thread m) t (mkT None r s)) (m_seen m)
              end
      end
  end.
(** A schedule: which thread takes the next step. *)
Definition run (sched : list nat) (m : machine) : machine := fold_left (fun m t => step t m) sched m.
Definition init (l : level) (progs : nat -> list stmt) : machine := mkM l (fun t => start (progs t)) (fun _ => []).
