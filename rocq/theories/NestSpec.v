(** What reading back a nested text should give. *)
From Coq Require Import String List Bool Arith Permutation.
From Verif Require Import Base GraphModel GraphSpec EqSpec TravSpec SerialModel SerialSpec ReprSpec.
Import ListNotations.
Open Scope string_scope.
Open Scope list_scope.

(** [o] is written in full as part of [v]. *)
Definition inside (h : heap) (v : pv) (o : oid) : Prop := exists x, mentions v x /\ in_full h x o.

(** Every entity written can be represented. *)
Definition all_representable lower known construct (h : heap) (v : pv) : Prop :=
  forall o, inside h v o -> exists e, hget h o = Some e /\ representable lower known construct h o e.

(** The attributes written mention attribute templates only, and these mention nothing. *)
Definition plain_attributes (h : heap) (v : pv) : Prop :=
  forall o e f x, inside h v o -> hget h o = Some e -> In f (keys (e_fields e)) ->
    ~ reference (e_kind e) f -> ~ read_only (e_kind e) f -> mentions (read h o f) x ->
    attribute_template h x /\ ~ attribute_template h o.

(** [R] relates entities of [h] to copies in [g]: of the same class, with the same uids, and with the
    same attributes up to the order of dictionaries, the references among them leading to copies. *)
Definition resembles (h g : heap) (R : oid -> oid -> Prop) : Prop :=
  forall o c, R o c -> exists e e', hget h o = Some e /\ hget g c = Some e'
    /\ e_kind e' = e_kind e /\ Permutation (e_uids e') (e_uids e)
    /\ (forall f, In f (keys (e_fields e')) <-> In f (keys (e_fields e)))
    /\ (forall f, ~ read_only (e_kind e) f -> sim (renamed R) (read h o f) (read g c f)).

(** The objects from [n] on are referred to at most once by the references of objects from [n] on. *)
Definition unshared (n : nat) (g : heap) : Prop :=
  forall p k f p' k' f' c, n <= p -> n <= p' -> kind_at g p = Some k -> kind_at g p' = Some k' -> reference k f -> reference k' f' ->
    fval g p f = PRef c -> fval g p' f' = PRef c -> p = p' /\ f = f'.
