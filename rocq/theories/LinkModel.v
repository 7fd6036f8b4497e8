(** Model of the unique identifiers of an entity and of links to it:
    gemd/entity/base_entity.py (uids, add_uid, to_link, __eq__ with links and tuples) and
    gemd/entity/link_by_uid.py. The uids dictionary is [CidModel]'s; identifiers are strings;
    [lower] is [str.lower]. *)
From Coq Require Import String List Bool ZArith.
From Verif Require Import Base CidModel KeywordModel.
Import ListNotations.
Open Scope string_scope.
Open Scope list_scope.

Section Link.
  Variable lower : string -> string.
  Notation uids := (cid string).

  (** The accepted forms of the [uids] argument (base_entity.py:52-59). *)
  Inductive uids_arg := UNone | UMapping (items : list (string * string)) | UPair (scope id : string).

  (** base_entity.py:51-59. The attribute is assigned only when the construction succeeds. *)
  Definition set_uids (c : uids) (a : uids_arg) : uids * option exn :=
    match keyword_init lower (match a with UNone => [] | UMapping l => l | UPair s i => [(s, i)] end) with
    | Ok c' => (c', None)
    | Err e => (c, Some e)
    end.

  (** base_entity.py:61-73 *)
  Definition add_uid (c : uids) (scope id : string) : uids * option exn := setitem lower string c scope id.

  (** A LinkByUID object (link_by_uid.py:24-27): scope and id. *)
  Record link := mkLink { l_scope : string; l_id : string }.

  (** base_entity.py:75-106 *)
  Definition to_link (c : uids) (scope : option string) (fallback : bool) : res link :=
    match tbl c with
    | [] => Err ValueError
    | (first, _) :: _ =>
        let scope := match scope with
                     | None => first
                     | Some s => if fallback && negb (contains lower string c s) then first else s
                     end in
        match get lower string c scope None with
        | Ok (Some uid) => Ok (mkLink scope uid)
        | Ok None => Err ValueError
        | Err e => Err e
        end
    end.

  (** link_by_uid.py:32-65; [fresh] is the text of the UUID drawn at line 62 if one is. *)
  Definition from_entity (c : uids) (scope : option string) (fresh : string) : uids * res link :=
    let scope := match scope with None => "auto" | Some s => s end in
    if contains lower string c scope then
      (c, match getitem lower string c scope with Ok uid => Ok (mkLink scope uid) | Err e => Err e end)
    else
      let (c1, e) := match tbl c with
                     | [] => add_uid c scope fresh
                     | _ => (c, None)
                     end in
      match e with
      | Some e => (c1, Err e)
      | None => (c1, match tbl c1 with (s, i) :: _ => Ok (mkLink s i) | [] => Err ValueError end)
      end.

  (** base_entity.py:210-211: [entity == link]. *)
  Definition entity_eq_link (c : uids) (l : link) : bool :=
    match get lower string c (l_scope l) None with Ok (Some i) => String.eqb i (l_id l) | _ => false end.

  (** base_entity.py:212-213: [entity == (scope, id)]. *)
  Definition entity_eq_pair (c : uids) (s i : string) : bool :=
    contains lower string c s && match getitem lower string c s with Ok j => String.eqb j i | Err _ => false end.

  (** link_by_uid.py:70-74: [link == entity]. *)
  Definition link_eq_entity (l : link) (c : uids) : bool :=
    if contains lower string c (l_scope l)
    then match getitem lower string c (l_scope l) with Ok j => String.eqb j (l_id l) | Err _ => false end
    else false.

  (** link_by_uid.py:75-76: [link == (scope, id)]. *)
  Definition link_eq_pair (l : link) (s i : string) : bool := String.eqb (l_scope l) s && String.eqb (l_id l) i.

  (** link_by_uid.py:77-78 with dict_serializable.py:192-198: the dictionaries of both links agree. *)
  Definition link_eq (l l' : link) : bool := String.eqb (l_scope l) (l_scope l') && String.eqb (l_id l) (l_id l').

  (** link_by_uid.py:80-81; [hash] is Python's hash of a pair of strings. *)
  Definition link_hash (hash : string * string -> Z) (l : link) : Z := hash (l_scope l, l_id l).

  (** What can happen to the uids of one entity: assignments, additions, and the dictionary's own
      operations. *)
  Inductive uop := UAssign (a : uids_arg) | UAdd (scope id : string) | UDict (o : op string).

  Definition ustep (c : uids) (o : uop) : uids * option exn :=
    match o with
    | UAssign a => set_uids c a
    | UAdd s i => add_uid c s i
    | UDict o => let (c', r) := step lower string c o in (c', match r with RExn e => Some e | _ => None end)
    end.

  Fixpoint urun (c : uids) (ops : list uop) : uids :=
    match ops with [] => c | o :: r => urun (fst (ustep c o)) r end.
End Link.
