(** What identifiers and links should satisfy. *)
From Coq Require Import String List Bool.
From Verif Require Import Base CidModel CidSpec LinkModel.
Import ListNotations.
Open Scope list_scope.

Section LinkSpec.
  Variable lower : string -> string.

  (** The stored pairs give identifier [i] to scope [s] in some casing. *)
  Definition carries (items : list (string * string)) (s i : string) : Prop :=
    exists s', In (s', i) items /\ lower s' = lower s.

  Definition has_scope (items : list (string * string)) (s : string) : Prop := exists i, carries items s i.

  (** Dictionary operations covered by C01: not [setdefault], no update naming a scope twice. *)
  Definition allowed (o : uop) : Prop := match o with UDict o => covered lower string o | _ => True end.

  (** The uids an entity can have: whatever a history of assignments makes of a new entity's. *)
  Definition reachable (c : cid string) : Prop :=
    exists ops, Forall allowed ops /\ c = urun lower (mkCid [] []) ops.
End LinkSpec.
