(** Model of writing objects to files and reading them back: GEMDJson.dump and load (gemd_json.py:90-128), the functions
    of gemd/json/__init__.py:30-109, which call them on one GEMDJson object, and DictSerializable.dump
    (dict_serializable.py:110-126).
    Simplifications: a file is a text with a position that is not past its end (a text stream without newline translation). *)
From Coq Require Import String List Bool Arith ZArith QArith.
From Verif Require Import Base GraphModel SerialModel JtextModel JtextTree.
Import ListNotations.
Open Scope list_scope.
Open Scope nat_scope.

Record file : Type := mkF { f_text : text; f_pos : nat }.
(** [fp.write]: over what is there, from the position on *)
Definition f_write (f : file) (t : text) : file :=
  mkF (firstn (f_pos f) (f_text f) ++ t ++ skipn (f_pos f + length t) (f_text f)) (f_pos f + length t).
(** [fp.read()] *)
Definition f_read (f : file) : text * file := (skipn (f_pos f) (f_text f), mkF (f_text f) (length (f_text f))).
Definition f_seek (f : file) (n : nat) : file := mkF (f_text f) n.
(** The program stops when [k] characters have reached the file. *)
Definition f_write_stopped (f : file) (t : text) (k : nat) : file := f_write f (firstn k t).

Section File.
  Variable show_float : Q -> text.
  Variable read_float : text -> Q.
  Variable lower : string -> string.
  Variable known : string -> bool.
  Variable construct : heap -> string -> list (string * pv) -> res (list (string * pv)).
  Variable sorted : list (string * pv) -> list (string * pv).
  Variable uuid4 : nat -> string.

  (** gemd_json.py:109-128 *)
  Definition dump (o : options) (h : heap) (n : nat) (obj : pv) (scope : string) (f : file) : file * res (heap * nat) :=
    match text_dumps show_float lower known construct sorted uuid4 o h n obj scope with
    | Ok (h', n', t) => (f_write f t, Ok (h', n'))
    | Err e => (f, Err e)
    end.
  (** gemd_json.py:90-107; [None] as in [of_tree] *)
  Definition load (g : heap) (f : file) : option (res (pv * heap)) * file :=
    let (t, f') := f_read f in (text_loads read_float lower known construct g t, f').
  (** dict_serializable.py:110-126 *)
  Definition dict_dump (h : heap) (x : oid) : res jt :=
    do t <- text_raw_dumps show_float (mkO true None (lit ", ") (lit ": ")) h (PRef x); parse read_float t.
End File.
