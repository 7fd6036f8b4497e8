(** What a record written for an entity should be. *)
From Coq Require Import String List Bool Arith.
From Verif Require Import Base GraphModel GraphSpec SerialModel SerialSpec.
Import ListNotations.
Open Scope list_scope.

(** Read by itself, in whatever state of the program, the record gives one new entity: a copy of
    entity [o] with its references replaced by links. Nothing else changes. *)
Definition record_of lower known construct (h : heap) (o : oid) (j : json) : Prop :=
  forall g, lists_exist g -> exists e', raw_loads lower known construct g j = Ok (PRef (length g), g ++ [e']) /\ flat_copy h o e'.
