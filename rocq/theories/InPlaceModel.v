(** Model of the substitutions that change their argument, and of substitute_objects:
    _substitute_inplace, make_index, substitute_links with [inplace=True] and substitute_objects of
    gemd/util/impl.py. (substitute_links without [inplace] is in [SerialModel].)

    Simplifications. Lists, dictionaries and serialisable objects that are not entities occur in one
    place only, so that changing one in place is the same as returning its new contents. Dictionary
    keys are strings. The attributes of an object are taken in the order in which it stores them
    (in Python in that of a set). After an exception the entities are not looked at. *)
From Coq Require Import String List Bool Arith ZArith QArith.
From Verif Require Import Base GraphModel EqModel TravModel SerialModel.
Import ListNotations.
Open Scope string_scope.
Open Scope list_scope.
Open Scope nat_scope.

(** ** The table [visited] *)

(** A tuple of two strings, which a link compares equal to (link_by_uid.py:73-74). *)
Definition two_strings (l : list pv) : option (string * string) :=
  match l with
  | [PAtom (AStr s); PAtom (AStr i)] => Some (s, i)
  | _ => None
  end.

(** Whether two hashable things are the same dictionary key. Links and tuples are compared by
    their contents (link_by_uid.py:66-81), entities by identity (dict_serializable.py:205-206, as
    equal entities have different hashes), numbers by value; two serialisable objects are
    different ones. *)
Fixpoint key_eq (a b : pv) {struct a} : bool :=
  match a, b with
  | PNone, PNone => true
  | PAtom x, PAtom y => atom_eq x y
  | PRef o, PRef o' => Nat.eqb o o'
  | PLink s i, PLink s' i' => String.eqb s s' && String.eqb i i'
  | PLink s i, PTuple m => match two_strings m with Some (s', i') => String.eqb s s' && String.eqb i i' | None => false end
  | PTuple l, PLink s i => match two_strings l with Some (s', i') => String.eqb s s' && String.eqb i i' | None => false end
  | PTuple l, PTuple m =>
      (fix go (l m : list pv) : bool :=
         match l, m with
         | [], [] => true
         | x :: l', y :: m' => key_eq x y && go l' m'
         | _, _ => false
         end) l m
  | _, _ => false
  end.

Definition memo := list (pv * pv).
Definition memo_get (m : memo) (k : pv) : option pv := option_map snd (find (fun e => key_eq (fst e) k) m).

(** Whether the new value of an attribute is another object than the old one (impl.py:205): a
    list, a dictionary and an object have been changed in place, a tuple has been made anew
    (impl.py:182-184). *)
Definition replaced (v w : pv) : bool :=
  match v, w with
  | PTuple _, _ => true
  | PRef o, PRef o' => negb (Nat.eqb o o')
  | PLink s i, PLink s' i' => negb (String.eqb s s' && String.eqb i i')
  | PRef _, _ | PLink _ _, _ => true
  | _, _ => false
  end.

(** A value whose contents are changed in place. *)
Definition container (v : pv) : bool := match v with PList _ | PDict _ | PObj _ _ => true | _ => false end.

Definition istate := (heap * memo)%type.

Section InPlace.
  Variable lower : string -> string.
  (** Whether the setter of an attribute of an object of this type with these attributes raises an
      exception on a value (base_attribute.py:88-110 and the like); for the attributes of entities
      that are not references between entities as well. *)
  Variable refuses : heap -> string -> list (string * pv) -> string -> pv -> option exn.
  (** Whether the list in an attribute of an entity raises an exception when an item is assigned:
      valid_list.py:84-89 with the triggers of has_conditions.py:30-34, has_condition_templates.py:65-68
      and the like. *)
  Variable rejects : heap -> oid -> string -> pv -> option exn.

  Section Walk.
    (** What is done at an entity or a link. *)
    Variable at_ref : istate -> pv -> res (pv * istate).

    (** impl.py:140-208 on a value. A tuple that cannot be hashed raises at line 170. The entry that
        line 176 makes for a tuple before its members are taken is never used, as no tuple
        contains one equal to itself. *)
    Fixpoint change (st : istate) (v : pv) {struct v} : res (pv * istate) :=
      match v with
      | PNone | PAtom _ => Ok (v, st)
      | PRef _ | PLink _ _ => at_ref st v
      | PList l =>
          do (vs, st') <- (fix go (st : istate) (l : list pv) : res (list pv * istate) :=
               match l with
               | [] => Ok ([], st)
               | x :: r => do (y, s1) <- change st x; do (ys, s2) <- go s1 r; Ok (y :: ys, s2)
               end) st l;
          Ok (PList vs, st')
      | PTuple l =>
          if negb (hashable v) then Err TypeError else
          match memo_get (snd st) v with
          | Some w => Ok (w, st)
          | None =>
              do (vs, st') <- (fix go (st : istate) (l : list pv) : res (list pv * istate) :=
                   match l with
                   | [] => Ok ([], st)
                   | x :: r => do (y, s1) <- change st x; do (ys, s2) <- go s1 r; Ok (y :: ys, s2)
                   end) st l;
              Ok (PTuple vs, (fst st', (v, PTuple vs) :: snd st'))
          end
      | PDict d =>
          do (vs, st') <- (fix go (st : istate) (l : list (string * pv)) : res (list (string * pv) * istate) :=
               match l with
               | [] => Ok ([], st)
               | (k, x) :: r => do (y, s1) <- change st x; do (ys, s2) <- go s1 r; Ok ((k, y) :: ys, s2)
               end) st d;
          Ok (PDict vs, st')
      | PObj t fs =>
          do (vs, st') <- (fix go (st : istate) (l : list (string * pv)) : res (list (string * pv) * istate) :=
               match l with
               | [] => Ok ([], st)
               | (k, x) :: r =>
                   do (y, s1) <- change st x;
                   match (if replaced x y then refuses (fst s1) t fs k y else None) with
                   | Some e => Err e
                   | None => do (ys, s2) <- go s1 r; Ok ((k, y) :: ys, s2)
                   end
               end) st fs;
          Ok (PObj t vs, st')
      end.

    (** impl.py:179-181 on a list in attribute [f] of entity [o]. *)
    Fixpoint change_items (o : oid) (f : string) (st : istate) (l : list pv) : res (list pv * istate) :=
      match l with
      | [] => Ok ([], st)
      | x :: r =>
          do (y, s1) <- change st x;
          match rejects (fst s1) o f y with
          | Some e => Err e
          | None => do (ys, s2) <- change_items o f s1 r; Ok (y :: ys, s2)
          end
      end.

    Definition change_attr (o : oid) (f : string) (st : istate) (v : pv) : res (pv * istate) :=
      match v with
      | PList l => do (vs, st') <- change_items o f st l; Ok (PList vs, st')
      | _ => change st v
      end.

    (** impl.py:205-206 and _setter_by_attribute (impl.py:211-243): the setter is called if the value is
        another object than before. *)
    Definition store (h : heap) (o : oid) (f : string) (v w : pv) : res heap :=
      match hget h o with
      | None => Ok h
      | Some e =>
          if replaced v w then
            match role_of (e_kind e) f with
            | Some _ => match assign (item_eq lower) h o f w with (h', None) => Ok h' | (_, Some x) => Err x end
            | None => match refuses h (typ_of (e_kind e)) (e_fields e) f w with
                      | Some x => Err x
                      | None => Ok (set_field h o f w)
                      end
            end
          else if container v then Ok (set_field h o f w) else Ok h
      end.

    (** impl.py:203-206 on the attributes of an entity. *)
    Fixpoint change_attrs (o : oid) (st : istate) (fs : list (string * pv)) : res istate :=
      match fs with
      | [] => Ok st
      | (f, v) :: r =>
          do (w, st1) <- change_attr o f st v;
          do h2 <- store (fst st1) o f v w;
          change_attrs o (h2, snd st1) r
      end.

    (** The attributes gone through, as as_dict lists them: not the read-only sides of references.
        The uids of an entity and the name and labels of an ingredient run, which are strings,
        are left out, as strings stay what they are. *)
    Definition own_text (k : ekind) (f : string) : bool :=
      match k with KIngR => String.eqb f "name" || String.eqb f "labels" | _ => false end.
    Definition attrs (h : heap) (o : oid) : list (string * pv) :=
      match hget h o with
      | Some e => filter (fun kv => negb (skipped (e_kind e) (fst kv) || own_text (e_kind e) (fst kv))) (e_fields e)
      | None => []
      end.

    Definition change_entity (st : istate) (o : oid) : res istate := change_attrs o st (attrs (fst st) o).
  End Walk.

  (** ** substitute_links in place *)
  Section Links.
    Variable scope : option string.
    Variable fallback : bool.

    (** impl.py:170-176 with the functions of impl.py:299-301: what is visited is known, an entity
        becomes its link, a link stays. *)
    Definition to_link_at (st : istate) (v : pv) : res (pv * istate) :=
      match memo_get (snd st) v with
      | Some w => Ok (w, st)
      | None =>
          match v with
          | PRef o => do l <- link_of lower (fst st) scope fallback o; Ok (l, (fst st, (v, l) :: snd st))
          | _ => Ok (v, (fst st, (v, v) :: snd st))
          end
      end.

    (** impl.py:270-301 with [inplace=True]. The argument itself is not replaced if it is an entity. *)
    Definition substitute_links_in (h : heap) (v : pv) : res (pv * heap) :=
      match v with
      | PRef o => do (h', _) <- change_entity to_link_at (h, [(v, v)]) o; Ok (v, h')
      | _ => do (w, (h', _)) <- change to_link_at (h, []) v; Ok (w, h')
      end.
  End Links.

  (** ** substitute_objects *)
  Section Objects.
    (** The index: keys are links or pairs of strings (impl.py:246-267), the casing of the scope counts.
        The entry met first counts. *)
    Variable ix : index.

    (** impl.py:170-206 with the functions of impl.py:329-331, at an entity or a link: a link in the index
        becomes the entity there, which is then gone through itself. [n] bounds the depth. *)
    Fixpoint to_object_at (n : nat) (st : istate) (v : pv) : res (pv * istate) :=
      match memo_get (snd st) v with
      | Some w => Ok (w, st)
      | None =>
          let w := match v with
                   | PLink s i => match index_get ix s i with Some o => PRef o | None => v end
                   | _ => v
                   end in
          let st' := (fst st, (v, w) :: snd st) in
          match w with
          | PRef o => match n with
                      | O => Err RecursionError
                      | S n' => do st2 <- change_entity (to_object_at n') st' o; Ok (w, st2)
                      end
          | _ => Ok (w, st')
          end
      end.

    (** Occurrences of links. *)
    Fixpoint links_in (v : pv) : list (string * string) :=
      match v with
      | PLink s i => [(s, i)]
      | PList l | PTuple l => (fix go (l : list pv) := match l with [] => [] | x :: r => links_in x ++ go r end) l
      | PDict l | PObj _ l => (fix go (l : list (string * pv)) := match l with [] => [] | (_, x) :: r => links_in x ++ go r end) l
      | _ => []
      end.
    Definition depth (h : heap) (v : pv) : nat :=
      S (length h + length (links_in v ++ flat_map (fun e => flat_map (fun kv => links_in (snd kv)) (e_fields e)) h)).

    (** impl.py:304-331 with [inplace=True] *)
    Definition substitute_objects_in (h : heap) (v : pv) : res (pv * heap) :=
      do (w, (h', _)) <- change (to_object_at (depth h v)) (h, []) v; Ok (w, h').
  End Objects.

  (** ** make_index *)
  Section MakeIndex.
    Variable sorted : list (string * pv) -> list (string * pv).

    (** impl.py:246-267: all uids of the entities that the one-directional traversal visits; a later entry
        replaces an earlier one. *)
    Definition make_index (h : heap) (obj : pv) : res index :=
      do l <- of_outcome (flatmap sorted true h obj);
      Ok (rev (flat_map (fun o => match hget h o with
                                  | Some e => map (fun p => (p, o)) (e_uids e)
                                  | None => []
                                  end) l)).
  End MakeIndex.
End InPlace.

(** ** substitute_objects with a copy as its result *)
Section Copying.
  Variable lower : string -> string.
  Variable known : string -> bool.
  Variable construct : heap -> string -> list (string * pv) -> res (list (string * pv)).
  Variable ix : index.

  (** dict_serializable.py:128-149 on a dictionary that may hold entities, which are written out as
      they are met and read back. *)
  Definition rebuild (h : heap) (d : list (string * pv)) : res (pv * heap) :=
    do j <- raw_dumps h (PDict d); raw_loads lower known construct h j.

  (** impl.py:88-137 with the functions of impl.py:329-331. The entries made here for lists, dictionaries
      and objects that are not entities are never found again. *)
  Fixpoint copy (n : nat) (st : istate) (v : pv) {struct n} : res (pv * istate) :=
    match n with
    | O => Err RecursionError
    | S n' =>
        let copy_list := fix go (st : istate) (l : list pv) : res (list pv * istate) :=
          match l with
          | [] => Ok ([], st)
          | x :: r => do (y, s1) <- copy n' st x; do (ys, s2) <- go s1 r; Ok (y :: ys, s2)
          end in
        let copy_pairs := fix go (st : istate) (l : list (string * pv)) : res (list (string * pv) * istate) :=
          match l with
          | [] => Ok ([], st)
          | (k, x) :: r => do (y, s1) <- copy n' st x; do (ys, s2) <- go s1 r; Ok ((k, y) :: ys, s2)
          end in
        let made st d :=
          do (d', s1) <- copy_pairs st d;
          do (w, h2) <- rebuild (fst s1) d';
          Ok (w, (h2, snd s1)) in
        if match v with PTuple _ => negb (hashable v) | _ => false end then Err TypeError else
        match memo_get (snd st) v with
        | Some w => Ok (w, st)
        | None =>
            let '(r, st) := match v with
                            | PLink s i => let r := match index_get ix s i with Some o => PRef o | None => v end in
                                           (r, (fst st, (v, r) :: snd st))
                            | _ => (v, st)
                            end in
            do (w, st) <- match r with
                          | PList l => do (vs, st') <- copy_list st l; Ok (PList vs, st')
                          | PTuple l => do (vs, st') <- copy_list st l; Ok (PTuple vs, st')
                          | PDict d => do (vs, st') <- copy_pairs st d; Ok (PDict vs, st')
                          | PObj t fs => made st (fs ++ [("type", str t)])
                          | PRef o => made st (as_dict (fst st) o)
                          | PLink _ _ | PNone | PAtom _ => Ok (r, st)
                          end;
            Ok (w, (fst st, (v, w) :: snd st))
        end
    end.

  (** impl.py:304-331. [n] bounds the depth of the recursion. *)
  Definition substitute_objects (n : nat) (h : heap) (v : pv) : res (pv * heap) :=
    do (w, (h', _)) <- copy n (h, []) v; Ok (w, h').
End Copying.
