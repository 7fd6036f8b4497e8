(** What a program sees of the lists of tags and labels, as values: no addresses. *)
From Coq Require Import String List Bool Arith.
From Verif Require Import Base AliasModel.
Import ListNotations.
Open Scope list_scope.

(** x.tags and x.labels as values; None if there is no such entity or list. *)
Definition tags (w : world) (x : nat) : option (list string) := content w (get_tags w x).
Definition labels (w : world) (x : nat) : option (list string) := content w (get_labels w x).
(** The spec a run shows the labels of, else the entity itself. *)
Definition shown_from (w : world) (x : nat) : nat := match ents w x with Some e => match e_spec e with SpecOf s => s | _ => x end | None => x end.
(** The worlds programs can reach. *)
Definition reachable (w : world) : Prop := exists ps, w = run ps start.

Definition same_tags_but (x : nat) (w w' : world) : Prop := forall y, y <> x -> tags w' y = tags w y.
Definition same_tags (w w' : world) : Prop := forall y, tags w' y = tags w y.
Definition same_labels (w w' : world) : Prop := forall y, labels w' y = labels w y.
(** Only what shows the labels of [x] has changed, to [l]. *)
Definition labels_shown (x : nat) (l : list string) (w w' : world) : Prop := forall y, labels w' y = if Nat.eqb (shown_from w y) x then (match ents w y with Some _ => Some l | None => None end) else labels w y.
(** An operation leaves the variable [v] alone. *)
Definition not_held (v : nat) (p : op) : Prop := match p with HoldTags u _ | HoldLabels u _ => u <> v | _ => True end.
