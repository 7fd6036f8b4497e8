(** Sessions: a program that makes objects, assigns references and loads texts in any order. *)
From Coq Require Import String List Bool.
From Verif Require Import Base GraphModel GraphSpec SerialModel.
Import ListNotations.
Open Scope list_scope.

Inductive action :=
| Do (op : gop)            (* make an object, or assign a reference *)
| Load (j : json)          (* loads, whatever the text *)
| RawLoad (j : json).      (* raw_loads, build, ... *)

Section Session.
  Variable eq : heap -> pv -> oid -> bool.
  Variable lower : string -> string.
  Variable known : string -> bool.
  Variable construct : heap -> string -> list (string * pv) -> res (list (string * pv)).

  (** A text that cannot be loaded raises an exception, which the program catches. *)
  Definition act (h : heap) (a : action) : heap :=
    match a with
    | Do op => fst (gstep eq h op)
    | Load j => match loads lower known construct h j with Ok (_, h') => h' | Err _ => h end
    | RawLoad j => match raw_loads lower known construct h j with Ok (_, h') => h' | Err _ => h end
    end.

  Definition session (h : heap) (acts : list action) : heap := fold_left act acts h.

  (** A condition on every step. *)
  Fixpoint all_along (P : heap -> action -> Prop) (h : heap) (acts : list action) : Prop :=
    match acts with
    | [] => True
    | a :: r => P h a /\ all_along P (act h a) r
    end.
End Session.

(** The condition [P] on assignments; any text may be loaded. *)
Definition when_assigning (P : heap -> gop -> Prop) (h : heap) (a : action) : Prop :=
  match a with Do op => P h op | _ => True end.

(** Texts are loaded with raw_loads only. *)
Definition no_loads (a : action) : Prop := match a with Load _ => False | _ => True end.
