(** Model of the release gate: scripts/validate_version_bump.py:9-45, from the two versions on.

    Simplifications. Reading the two files is left out. Versions are those of packaging.version
    whose text the script's pattern (validate_version_bump.py:49) admits: it has no "!" and no "+",
    so there is no epoch and no local part. *)
From Coq Require Import List Bool Arith.
Import ListNotations.

Inductive prekind := Alpha | Beta | Candidate.   (* 'a' < 'b' < 'rc' *)
Record version := mkV { release : list nat; pre : option (prekind * nat); post : option nat; dev : option nat }.

(** [Version.major], [minor], [micro] *)
Definition major (v : version) : nat := nth 0 (release v) 0.
Definition minor (v : version) : nat := nth 1 (release v) 0.
Definition micro (v : version) : nat := nth 2 (release v) 0.

(** packaging.version._cmpkey: the release without trailing zeros, then pre, post and dev with
    infinities for absent parts, compared as tuples. *)
Fixpoint strip (l : list nat) : list nat :=
  match l with
  | [] => []
  | x :: r => match strip r with [] => if x =? 0 then [] else [x] | s => x :: s end
  end.
Inductive ext (A : Type) := MinusInf | At (a : A) | PlusInf.
Arguments MinusInf {A}. Arguments At {A}. Arguments PlusInf {A}.

Definition pre_key (v : version) : ext (prekind * nat) :=
  match pre v, post v, dev v with
  | None, None, Some _ => MinusInf
  | None, _, _ => PlusInf
  | Some p, _, _ => At p
  end.
Definition post_key (v : version) : ext nat := match post v with None => MinusInf | Some n => At n end.
Definition dev_key (v : version) : ext nat := match dev v with None => PlusInf | Some n => At n end.

Definition cmp_ext {A} (cmp : A -> A -> comparison) (x y : ext A) : comparison :=
  match x, y with
  | MinusInf, MinusInf => Eq | MinusInf, _ => Lt | _, MinusInf => Gt
  | PlusInf, PlusInf => Eq | PlusInf, _ => Gt | _, PlusInf => Lt
  | At a, At b => cmp a b
  end.
Definition kind_rank (k : prekind) : nat := match k with Alpha => 0 | Beta => 1 | Candidate => 2 end.
Definition cmp_pre (x y : prekind * nat) : comparison :=
  match kind_rank (fst x) ?= kind_rank (fst y) with Eq => snd x ?= snd y | c => c end.
(** Tuples of numbers. *)
Fixpoint cmp_list (x y : list nat) : comparison :=
  match x, y with
  | [], [] => Eq | [], _ => Lt | _, [] => Gt
  | a :: r, b :: s => match a ?= b with Eq => cmp_list r s | c => c end
  end.
Definition cmp (v w : version) : comparison :=
  match cmp_list (strip (release v)) (strip (release w)) with
  | Eq => match cmp_ext cmp_pre (pre_key v) (pre_key w) with
          | Eq => match cmp_ext Nat.compare (post_key v) (post_key w) with
                  | Eq => cmp_ext Nat.compare (dev_key v) (dev_key w)
                  | c => c
                  end
          | c => c
          end
  | c => c
  end.

(** validate_version_bump.py:25-45: the exit code. *)
Definition exit_code (new old : version) : nat :=
  let code := if negb (major new =? major old) then 1
              else if negb (minor new =? minor old) then 2
              else if negb (micro new =? micro old) then 3
              else 5 in
  match cmp new old with Gt => 0 | Lt => code | Eq => 4 end.
