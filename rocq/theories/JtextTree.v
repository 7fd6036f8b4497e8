(** The trees of [SerialModel] as trees of [JtextModel], and the text functions of gemd_json.py on top of both.
    Simplification: the object hook runs on the tree of a text that has been read to its end, where Python runs it as each
    object closes. A text refused by both is refused here with the reader's ValueError, there with whichever comes first. *)
From Coq Require Import String Ascii List Bool ZArith QArith.
From Verif Require Import Base GraphModel SerialModel JtextModel.
Import ListNotations.
Open Scope list_scope.

(** The values Python's json gives to and takes from gemd_json.py. *)
Fixpoint to_tree (j : json) : jt :=
  match j with
  | JNull => TNull
  | JAtom (ABool b) => TBool b
  | JAtom (AInt z) => TInt z
  | JAtom (AFloat q) => TFloat q
  | JAtom (AStr s) => TStr (lit s)
  | JArr l => TArr (map to_tree l)
  | JObj l => TObj (map (fun p => (lit (fst p), to_tree (snd p))) l)
  end.
(** Back; [None] for what [SerialModel] has no value for: nan, the infinities and characters past 255. *)
Fixpoint of_text (t : text) : option string :=
  match t with
  | [] => Some EmptyString
  | c :: r => if ((0 <=? c) && (c <? 256))%Z then option_map (String (ascii_of_N (Z.to_N c))) (of_text r) else None
  end.
Fixpoint all_some {A} (l : list (option A)) : option (list A) :=
  match l with [] => Some [] | Some a :: r => option_map (cons a) (all_some r) | None :: _ => None end.
Fixpoint of_tree (t : jt) : option json :=
  match t with
  | TNull => Some JNull
  | TBool b => Some (JAtom (ABool b))
  | TInt z => Some (JAtom (AInt z))
  | TFloat q => Some (JAtom (AFloat q))
  | TSpecial _ => None
  | TStr s => option_map (fun s => JAtom (AStr s)) (of_text s)
  | TArr l => option_map JArr (all_some (map of_tree l))
  | TObj l => option_map JObj (all_some (map (fun p => match of_text (fst p), of_tree (snd p) with Some k, Some j => Some (k, j) | _, _ => None end) l))
  end.

Section Text.
  Variable show_float : Q -> text.
  Variable read_float : text -> Q.
  Variable lower : string -> string.
  Variable known : string -> bool.
  Variable construct : heap -> string -> list (string * pv) -> res (list (string * pv)).
  Variable sorted : list (string * pv) -> list (string * pv).
  Variable uuid4 : nat -> string.

  (** gemd_json.py:32-55 with its last line *)
  Definition text_dumps (o : options) (h : heap) (n : nat) (obj : pv) (scope : string) : res (heap * nat * text) :=
    do (h', n', j) <- dumps lower known construct sorted uuid4 h n obj scope; Ok (h', n', print show_float o (to_tree j)).
  (** gemd_json.py:147-164 *)
  Definition text_raw_dumps (o : options) (h : heap) (v : pv) : res text :=
    do j <- raw_dumps h v; Ok (print show_float o (to_tree j)).
  (** gemd_json.py:57-88; [None] as in [of_tree] *)
  Definition text_loads (h : heap) (t : text) : option (res (pv * heap)) :=
    match parse read_float t with
    | Ok tree => option_map (loads lower known construct h) (of_tree tree)
    | Err e => Some (Err e)
    end.
  (** gemd_json.py:187-212 *)
  Definition text_raw_loads (h : heap) (t : text) : option (res (pv * heap)) :=
    match parse read_float t with
    | Ok tree => option_map (raw_loads lower known construct h) (of_tree tree)
    | Err e => Some (Err e)
    end.
End Text.
