(** Model of CaseInsensitiveDict called with keyword arguments, as the uids setter calls it (gemd/entity/base_entity.py:57, 59:
    CaseInsensitiveDict( **uids )). A scope that is the name of a parameter of the constructor (case_insensitive_dict.py:27) is
    not stored: "self" makes Python raise TypeError, and the identifier of "seq" is taken for the sequence of pairs to start
    from. Identifiers are strings: an empty one counts as no sequence (line 28, seq or {}), any other one raises ValueError, for its characters are not pairs. *)
From Coq Require Import String List Bool.
From Verif Require Import Base CidModel.
Import ListNotations.
Open Scope string_scope.
Open Scope list_scope.

Definition keyword_init (lower : string -> string) (kw : list (string * string)) : res (cid string) :=
  if existsb (fun p => String.eqb (fst p) "self") kw then Err TypeError
  else if existsb (fun p => String.eqb (fst p) "seq" && negb (String.eqb (snd p) "")) kw then Err ValueError
  else init lower string (filter (fun p => negb (String.eqb (fst p) "seq")) kw).
