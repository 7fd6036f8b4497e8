(** Model of gemd/entity/case_insensitive_dict.py (class CaseInsensitiveDict).
    Simplifications: keys are strings; [str.lower] is the parameter [lower] (so nothing depends on
    what lower-casing does); values are an arbitrary type. The insertion order of both underlying
    tables is kept. *)
From Coq Require Import String List Bool.
From Verif Require Import Base.
Import ListNotations.
Open Scope list_scope.

Section Cid.
  Variable lower : string -> string.
  Variable V : Type.

  (** case_insensitive_dict.py:27-31: the [dict] content and [self.lowercase_dict]. *)
  Record cid : Type := mkCid { tbl : list (string * V); low : list (string * string) }.

  (** case_insensitive_dict.py:179-195 [_register_key]; touches only [lowercase_dict]. *)
  Definition register_key (k : string) (l : list (string * string)) : res (list (string * string)) :=
    match dict_get (lower k) l with
    | Some prev => if String.eqb prev k then Ok (dict_set (lower k) k l) else Err ValueError
    | None => Ok (dict_set (lower k) k l)
    end.

  (** The loops at case_insensitive_dict.py:30-31 and 176-177: register keys one by one, stopping
      at the first exception. Returns the table as it stands when the loop ends or raises. *)
  Fixpoint register_all (ks : list string) (l : list (string * string))
    : list (string * string) * option exn :=
    match ks with
    | [] => (l, None)
    | k :: r => match register_key k l with
                | Ok l' => register_all r l'
                | Err e => (l, Some e)
                end
    end.

  (** case_insensitive_dict.py:27-31 [__init__] on the key-value pairs of seq and kwargs. *)
  Definition init (seq : list (string * V)) : res cid :=
    let t := dict_update seq [] in
    match register_all (keys t) [] with
    | (l, None) => Ok (mkCid t l)
    | (_, Some e) => Err e
    end.

  (** case_insensitive_dict.py:33-34. Both lookups raise KeyError when missing. *)
  Definition getitem (c : cid) (k : string) : res V :=
    match dict_get (lower k) (low c) with
    | None => Err KeyError
    | Some k' => match dict_get k' (tbl c) with Some v => Ok v | None => Err KeyError end
    end.

  (** case_insensitive_dict.py:64-65 *)
  Definition contains (c : cid) (k : string) : bool := dict_mem (lower k) (low c).

  (** case_insensitive_dict.py:36-58; [None] is the default default. *)
  Definition get (c : cid) (k : string) (default : option V) : res (option V) :=
    if contains c k
    then match getitem c k with Ok v => Ok (Some v) | Err e => Err e end
    else Ok default.

  (** case_insensitive_dict.py:60-62 *)
  Definition setitem (c : cid) (k : string) (v : V) : cid * option exn :=
    match register_key k (low c) with
    | Ok l => (mkCid (dict_set k v (tbl c)) l, None)
    | Err e => (c, Some e)
    end.

  (** case_insensitive_dict.py:67-70. The second deletion raises after the first took effect
      when the tables disagree. *)
  Definition delitem (c : cid) (k : string) : cid * option exn :=
    let k' := match dict_get (lower k) (low c) with Some x => x | None => k end in
    if dict_mem k' (tbl c) then
      let t := dict_del k' (tbl c) in
      if dict_mem (lower k') (low c)
      then (mkCid t (dict_del (lower k') (low c)), None)
      else (mkCid t (low c), Some KeyError)
    else (c, Some KeyError).

  (** case_insensitive_dict.py:72-75 *)
  Definition clear (c : cid) : cid := mkCid [] [].

  (** case_insensitive_dict.py:77-107. [default = None] models the [_RaiseKeyError] sentinel,
      [Some d] a supplied default (itself possibly Python's None). When the key is unknown and a
      default is given, line 104 pops the key None, which is never a string key. *)
  Definition pop (c : cid) (k : string) (default : option (option V)) : cid * res (option V) :=
    let finish (t : list (string * V)) (r : option V) :=
      if contains c k
      then (mkCid t (dict_del (lower k) (low c)), Ok r)
      else (mkCid t (low c), Ok r) in
    match default with
    | None =>
        if contains c k then
          match dict_get (lower k) (low c) with
          | None => (c, Err KeyError)
          | Some k' => match dict_get k' (tbl c) with
                       | Some v => finish (dict_del k' (tbl c)) (Some v)
                       | None => (c, Err KeyError)
                       end
          end
        else (c, Err KeyError)
    | Some d =>
        match dict_get (lower k) (low c) with
        | None => finish (tbl c) d
        | Some k' => match dict_get k' (tbl c) with
                     | Some v => finish (dict_del k' (tbl c)) (Some v)
                     | None => finish (tbl c) d
                     end
        end
    end.

  (** case_insensitive_dict.py:109-128; [dict.popitem] removes the last pair. *)
  Definition popitem (c : cid) : cid * res (string * V) :=
    match rev (tbl c) with
    | [] => (c, Err KeyError)
    | (k, v) :: r =>
        if dict_mem (lower k) (low c)
        then (mkCid (rev r) (dict_del (lower k) (low c)), Ok (k, v))
        else (mkCid (rev r) (low c), Err KeyError)
    end.

  (** case_insensitive_dict.py:130-140 *)
  Definition copy (c : cid) : res cid := init (tbl c).

  (** case_insensitive_dict.py:142-177; [items] are the pairs of mapping followed by kwargs. *)
  Definition update_blocked (c : cid) (k : string) : bool :=
    match dict_get (lower k) (low c) with
    | Some prev => negb (String.eqb prev k)
    | None => false
    end.
  Definition update (c : cid) (items : list (string * V)) : cid * option exn :=
    if existsb (update_blocked c) (keys items) then (c, Some ValueError)
    else let t := dict_update items (tbl c) in
         let '(l, e) := register_all (keys items) (low c) in
         (mkCid t l, e).

  (** [dict.setdefault] is inherited unchanged: it consults and writes the underlying table
      only (class body of case_insensitive_dict.py has no override). *)
  Definition setdefault (c : cid) (k : string) (v : V) : cid * V :=
    match dict_get k (tbl c) with
    | Some v' => (c, v')
    | None => (mkCid (dict_set k v (tbl c)) (low c), v)
    end.

  (** [d |= items] (Python 3.9 on) is inherited as well: [dict.__ior__] writes the underlying table
      only (class body of case_insensitive_dict.py has no override). *)
  Definition ior (c : cid) (items : list (string * V)) : cid := mkCid (dict_update items (tbl c)) (low c).

  (** Operations a client can perform, and what it observes. *)
  Inductive op : Type :=
  | OSet (k : string) (v : V) | ODel (k : string) | OPop (k : string) (d : option (option V))
  | OPopitem | OClear | OCopy | OUpdate (items : list (string * V))
  | OGetitem (k : string) | OGet (k : string) (d : option V) | OContains (k : string)
  | OLen | OItems | OSetdefault (k : string) (v : V) | OIor (items : list (string * V)).

  Inductive out : Type :=
  | RNone | RVal (v : option V) | RBool (b : bool) | RItem (k : string) (v : V)
  | RLen (n : nat) | RItems (l : list (string * V)) | RExn (e : exn).

  Definition of_opt (e : option exn) : out := match e with None => RNone | Some x => RExn x end.

  Definition step (c : cid) (o : op) : cid * out :=
    match o with
    | OSet k v => let '(c', e) := setitem c k v in (c', of_opt e)
    | ODel k => let '(c', e) := delitem c k in (c', of_opt e)
    | OPop k d => let '(c', r) := pop c k d in
                  (c', match r with Ok v => RVal v | Err e => RExn e end)
    | OPopitem => let '(c', r) := popitem c in
                  (c', match r with Ok (k, v) => RItem k v | Err e => RExn e end)
    | OClear => (clear c, RNone)
    | OCopy => match copy c with Ok c' => (c', RNone) | Err e => (c, RExn e) end
    | OUpdate items => let '(c', e) := update c items in (c', of_opt e)
    | OGetitem k => (c, match getitem c k with Ok v => RVal (Some v) | Err e => RExn e end)
    | OGet k d => (c, match get c k d with Ok v => RVal v | Err e => RExn e end)
    | OContains k => (c, RBool (contains c k))
    | OLen => (c, RLen (length (tbl c)))
    | OItems => (c, RItems (tbl c))
    | OSetdefault k v => let '(c', v') := setdefault c k v in (c', RVal (Some v'))
    | OIor items => (ior c items, RNone)
    end.

  Fixpoint run (c : cid) (ops : list op) : cid * list out :=
    match ops with
    | [] => (c, [])
    | o :: r => let '(c1, x) := step c o in
                let '(c2, xs) := run c1 r in (c2, x :: xs)
    end.
End Cid.

Arguments mkCid {V}. Arguments tbl {V}. Arguments low {V}.
Arguments OSet {V}. Arguments ODel {V}. Arguments OPop {V}. Arguments OPopitem {V}.
Arguments OClear {V}. Arguments OCopy {V}. Arguments OUpdate {V}. Arguments OGetitem {V}.
Arguments OGet {V}. Arguments OContains {V}. Arguments OLen {V}. Arguments OItems {V}.
Arguments OSetdefault {V}. Arguments OIor {V}.
Arguments RNone {V}. Arguments RVal {V}. Arguments RBool {V}. Arguments RItem {V}.
Arguments RLen {V}. Arguments RItems {V}. Arguments RExn {V}.
