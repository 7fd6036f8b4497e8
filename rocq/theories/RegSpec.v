(** What the type registry should satisfy. *)
From Coq Require Import String List Bool.
From Verif Require Import Base RegModel.
Import ListNotations.
Open Scope string_scope.
Open Scope list_scope.

(** [a] is [c], or a base of [c], or a base of a base, and so on. *)
Inductive descends (w : world) (c : cid) : cid -> Prop :=
| d_self : class_at w c <> None -> descends w c c
| d_base : forall k b a, class_at w c = Some k -> In b (c_bases k) -> descends w b a -> descends w c a.

(** The class statement of [c] claimed the type name [t]. *)
Definition claims (w : world) (c : cid) (t : string) : Prop :=
  exists k, class_at w c = Some k /\ c_given k = Some t.

(** The class statement of [c] names the field [x] as unserialised. *)
Definition keeps_out (w : world) (c : cid) (x : string) : Prop :=
  exists k, class_at w c = Some k /\ In x (c_keep k).

(** The class serialisable objects of type [t] are read as. *)
Definition holder (w : world) (t : string) : option cid := dict_get t (registry w).

(** A program that never changes the mappings it is given does only this. *)
Definition leaves_mappings (o : op) : bool := match o with Define _ _ _ _ | Ask => true | _ => false end.
