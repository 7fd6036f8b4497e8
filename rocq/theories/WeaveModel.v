(** Model of the setters of two-sided references used by several threads: a child with a parent that lists it
    (ingredient.process, gemd/entity/object/ingredient_run.py:124-136 and ingredient_spec.py:117-130; measurement.material,
    measurement_run.py:92-103), and a material with a process that points back (material.process, material_run.py:75-87,
    material_spec.py:87-109). The steps are the reads and writes of what the objects hold.
    Simplifications: assigning None or a link is [None], values of a wrong type are left out (GraphModel.v has them); objects
    are equal only if they are the same; objects are numbered, and references in the two kinds of relation are kept apart.
    The old parent, read twice by a setter (ingredient_run.py:126, 128), is read once: it differs only if two threads assign to one child. *)
From Coq Require Import List Bool Arith.
Import ListNotations.

(** child.parent = v; material.process = v *)
Inductive op := Assign (x : nat) (v : option nat) | Produce (m : nat) (v : option nat).
(** Where a thread is in a setter. [Removing]: list.remove compares the item at a position with the child; comparing objects
    that are not identical runs Python code, so other threads run between two comparisons, and the length is looked up anew. *)
Inductive place :=
| Between
| Removing (x : nat) (v : option nat) (p i : nat)
| Storing (x : nat) (v : option nat)
| Appending (x p : nat)
| Clearing (m : nat) (v : option nat) (p : nat)
| Claiming (m p : nat)
| Keeping (m : nat) (v : option nat).
Record thread := mkT { at_ : place; todo : list op }.
(** What the objects hold, the threads, and which assignments have ended, well or with ValueError. *)
Record machine := mkM {
  parent : nat -> option nat; kids : nat -> list nat; proc : nat -> option nat; out : nat -> option nat;
  m_thread : nat -> thread; m_log : list (op * bool)
}.
Definition upd {A} (f : nat -> A) (t : nat) (x : A) : nat -> A := fun u => if u =? t then x else f u.
Definition goto (t : nat) (p : place) (m : machine) : machine :=
  mkM (parent m) (kids m) (proc m) (out m) (upd (m_thread m) t (mkT p (todo (m_thread m t)))) (m_log m).
Definition next_op (t : nat) (r : list op) (m : machine) : machine :=
  mkM (parent m) (kids m) (proc m) (out m) (upd (m_thread m) t (mkT (at_ (m_thread m t)) r)) (m_log m).
Definition set_parent (x : nat) (v : option nat) (m : machine) : machine := mkM (upd (parent m) x v) (kids m) (proc m) (out m) (m_thread m) (m_log m).
Definition set_kids (p : nat) (l : list nat) (m : machine) : machine := mkM (parent m) (upd (kids m) p l) (proc m) (out m) (m_thread m) (m_log m).
Definition set_proc (x : nat) (v : option nat) (m : machine) : machine := mkM (parent m) (kids m) (upd (proc m) x v) (out m) (m_thread m) (m_log m).
Definition set_out (p : nat) (v : option nat) (m : machine) : machine := mkM (parent m) (kids m) (proc m) (upd (out m) p v) (m_thread m) (m_log m).
Definition say (o : op) (ok : bool) (m : machine) : machine := mkM (parent m) (kids m) (proc m) (out m) (m_thread m) (m_log m ++ [(o, ok)]).
(** del list[i] *)
Definition delete (i : nat) (l : list nat) : list nat := firstn i l ++ skipn (S i) l.
(** material_run.py:78-85: what comes after the old process has been dealt with *)
Definition claim (m : nat) (v : option nat) : place := match v with Some p => Claiming m p | None => Keeping m None end.

Definition step (t : nat) (m : machine) : machine :=
  match at_ (m_thread m t) with
  | Between =>
      match todo (m_thread m t) with
      | [] => m
      | Assign x v :: r => goto t (match parent m x with Some p => Removing x v p 0 | None => Storing x v end) (next_op t r m)   (* ingredient_run.py:126 *)
      | Produce x v :: r => goto t (match proc m x with Some p => Clearing x v p | None => claim x v end) (next_op t r m)        (* material_run.py:76 *)
      end
  | Removing x v p i =>                                                                          (* ingredient_run.py:128 *)
      match nth_error (kids m p) i with
      | None => say (Assign x v) false (goto t Between m)
      | Some y => if y =? x then goto t (Storing x v) (set_kids p (delete i (kids m p)) m) else goto t (Removing x v p (S i)) m
      end
  | Storing x v =>                                                                               (* ingredient_run.py:131 *)
      match v with
      | None => say (Assign x v) true (goto t Between (set_parent x v m))
      | Some p => goto t (Appending x p) (set_parent x v m)
      end
  | Appending x p => say (Assign x (Some p)) true (goto t Between (set_kids p (kids m p ++ [x]) m))   (* ingredient_run.py:133 *)
  | Clearing x v p => goto t (claim x v) (set_out p None m)                                      (* material_run.py:77 *)
  | Claiming x p => goto t (Keeping x (Some p)) (set_out p (Some x) m)                           (* material_run.py:83 *)
  | Keeping x v => say (Produce x v) true (goto t Between (set_proc x v m))                      (* material_run.py:79, 81, 84 *)
  end.
Definition run (s : list nat) (m : machine) : machine := fold_left (fun m t => step t m) s m.
(** A start: objects as they are, and a program for each thread. *)
Definition start (pa : nat -> option nat) (ki : nat -> list nat) (pr ou : nat -> option nat) (progs : nat -> list op) : machine :=
  mkM pa ki pr ou (fun t => mkT Between (progs t)) [].
