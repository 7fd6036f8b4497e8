(** The order of versions (PEP 440, without epochs and local parts), and what the gate should say. *)
From Coq Require Import List Arith.
From Verif Require Import BumpModel.
Import ListNotations.

(** The [i]-th number of the release; absent ones are 0. *)
Definition part (v : version) (i : nat) : nat := nth i (release v) 0.

Definition same_release (v w : version) : Prop := forall i, part v i = part w i.
(** The first number in which the releases differ is smaller. *)
Definition smaller_release (v w : version) : Prop :=
  exists i, part v i < part w i /\ forall j, j < i -> part v j = part w j.

(** The stages of a release, in order: development without a pre-release, alpha, beta, candidate, and from the
    final release on; the number counts within a stage. *)
Definition stage (v : version) : nat * nat :=
  match pre v with
  | Some (Alpha, n) => (1, n) | Some (Beta, n) => (2, n) | Some (Candidate, n) => (3, n)
  | None => match post v, dev v with None, Some _ => (0, 0) | _, _ => (4, 0) end
  end.
(** A post-release follows what it amends; a development release precedes what it develops. *)
Definition post_rank (v : version) : nat := match post v with None => 0 | Some n => S n end.
Definition dev_before (v w : version) : Prop :=
  match dev v, dev w with
  | Some m, Some n => m < n
  | Some _, None => True
  | None, _ => False
  end.

Inductive pair_lt : nat * nat -> nat * nat -> Prop :=
| pl_fst : forall a b c d, a < c -> pair_lt (a, b) (c, d)
| pl_snd : forall a b d, b < d -> pair_lt (a, b) (a, d).

(** [v] comes before [w]. *)
Inductive before (v w : version) : Prop :=
| b_release : smaller_release v w -> before v w
| b_stage : same_release v w -> pair_lt (stage v) (stage w) -> before v w
| b_post : same_release v w -> stage v = stage w -> post_rank v < post_rank w -> before v w
| b_dev : same_release v w -> stage v = stage w -> post_rank v = post_rank w -> dev_before v w -> before v w.

(** The same version, up to trailing zeros of the release. *)
Definition same_version (v w : version) : Prop :=
  same_release v w /\ pre v = pre w /\ post v = post w /\ dev v = dev w.

(** [i] is the first of major, minor, micro in which the versions differ. *)
Definition first_difference (v w : version) (i : nat) : Prop :=
  i < 3 /\ part v i <> part w i /\ forall j, j < i -> part v j = part w j.
