(** When calls and changes of definitions overlap, and which file should be in force. *)
From Coq Require Import List Bool Arith.
From Verif Require Import RaceModel.
Import ListNotations.

(** A thread is inside a call, or inside a change; it is its turn to take a step of one. *)
Definition calling (m : machine) (t : nat) : Prop := match at_ (m_thread m t) with Computing _ _ _ => True | _ => False end.
Definition changing (m : machine) (t : nat) : Prop := match at_ (m_thread m t) with Between | Computing _ _ _ => False | _ => True end.
Definition turn_of_call (m : machine) (t : nat) : Prop := calling m t \/ (at_ (m_thread m t) = Between /\ exists k key r, todo (m_thread m t) = Call k key :: r).
Definition turn_of_change (m : machine) (t : nat) : Prop := changing m t \/ (at_ (m_thread m t) = Between /\ exists f r, todo (m_thread m t) = Change f :: r).

(** Calls and changes do not overlap (calls may overlap with calls, changes with changes). *)
Definition calls_apart (m : machine) (t : nat) : Prop :=
  (turn_of_change m t -> forall u, u <> t -> ~ calling m u) /\ (turn_of_call m t -> forall u, u <> t -> ~ changing m u).
(** Changes do not overlap with changes. *)
Definition changes_apart (m : machine) (t : nat) : Prop := turn_of_change m t -> forall u, u <> t -> ~ changing m u.

Section Always.
  Context (F : files) (reads : kind -> nat -> nat) (P : machine -> nat -> Prop).
  Inductive always : machine -> list act -> Prop :=
  | always_end m : always m []
  | always_go m t r : P m t -> always (step F reads t m) r -> always m (Go t :: r)
  | always_drop m k key r : always (perform F reads (Drop k key) m) r -> always m (Drop k key :: r).
End Always.

(** Resolved paths are canonical: their directory can be entered, and the file is found there. *)
Definition canonical (F : files) : Prop := forall c f p, resolve F c f = Some p -> is_dir F (fst p) = true /\ child F (fst p) (snd p) = Some p.

(** The file in force after a history: that of the last change that worked, found from the working directory [c0]; a change
    fails only if there is no such file or it cannot be read, and then changes nothing. *)
Inductive in_force (F : files) (c0 : dir) (p0 : path) : list event -> path -> Prop :=
| force_start : in_force F c0 p0 [] p0
| force_call h k key got p : in_force F c0 p0 h p -> in_force F c0 p0 (h ++ [Answered k key got]) p
| force_changed h f q p : in_force F c0 p0 h q -> resolve F c0 f = Some p -> loads F p = true -> in_force F c0 p0 (h ++ [Changed f true]) p
| force_failed h f p : in_force F c0 p0 h p -> (forall q, resolve F c0 f = Some q -> loads F q = false) -> in_force F c0 p0 (h ++ [Changed f false]) p.

(** An event is what comes of an operation. *)
Definition answers (o : op) (e : event) : Prop := match o, e with Call k key, Answered k' key' _ => k = k' /\ key = key' | Change f, Changed f' _ => f = f' | _, _ => False end.
(** What a thread has returned in a schedule. *)
Fixpoint said_by (F : files) (reads : kind -> nat -> nat) (t : nat) (s : list act) (m : machine) : list event :=
  match s with
  | [] => []
  | a :: r => let m' := perform F reads a m in
              match a with Go u => if u =? t then skipn (length (m_log m)) (m_log m') else [] | Drop _ _ => [] end ++ said_by F reads t r m'
  end.
(** How many changes were told to be done. *)
Fixpoint told_done (l : list event) : nat := match l with [] => 0 | Changed _ true :: r => S (told_done r) | _ :: r => told_done r end.
