(** Model of entity equality: gemd/entity/base_entity.py:120-218 (_cached_equals, __eq__), with the
    equality of plain values and dictionary-serializable objects (dict_serializable.py:188-198,
    link_by_uid.py:68-78).

    Python's recursion limit is not modelled. The order in which Python visits the fields (that of
    a set of strings) is the order of the fields in the model's entity; the theorems hold for every
    order. *)
From Coq Require Import String List Bool Arith ZArith QArith.
From Verif Require Import Base GraphModel.
Import ListNotations.
Open Scope string_scope.
Open Scope list_scope.
Open Scope nat_scope.

(** base_entity.py:130-137: True, False, or None for "in progress". *)
Inductive tern := TT | FF | UU.

(** Python's [==] on plain scalars: numbers compare by value whatever their type. *)
Definition number_of (a : atom) : option Q :=
  match a with
  | ABool b => Some (if b then 1 else 0)%Q
  | AInt z => Some (inject_Z z)
  | AFloat q => Some q
  | AStr _ => None
  end.

Definition atom_eq (a b : atom) : bool :=
  match a, b with
  | AStr s, AStr t => String.eqb s t
  | _, _ => match number_of a, number_of b with
            | Some p, Some q => Qeq_bool p q
            | _, _ => false
            end
  end.

(** [dict.__eq__] on string-to-string dictionaries (the uids; CaseInsensitiveDict does not override
    it, so scopes are compared with their casing). *)
Definition same_uids (u w : list (string * string)) : bool :=
  (length u =? length w) &&
  forallb (fun kv => existsb (fun kw => String.eqb (fst kv) (fst kw) && String.eqb (snd kv) (snd kw)) w) u.

Section Eq.
  Variable lower : string -> string.
  Variable h : heap.

  (** [uids.get(scope)] (case_insensitive_dict.py:36-58). *)
  Definition uid_get (s : string) (us : list (string * string)) : option string :=
    option_map snd (find (fun kv => String.eqb (lower s) (lower (fst kv))) us).

  (** base_entity.py:210-213, link_by_uid.py:70-74: entity against link or pair. *)
  Definition carries_uid (o : oid) (s i : string) : bool :=
    match hget h o with
    | Some e => match uid_get s (e_uids e) with Some j => String.eqb j i | None => false end
    | None => false
    end.

  (** One level of nesting of entity comparisons inside plain values. *)
  Section Level.
    (** [a == b] for entities met inside a plain value (the template of an attribute). *)
    Variable eeq : oid -> oid -> bool.

    (** Python's [v == w] for field values. Sets, which only occur in bounds, are lists here. *)
    Fixpoint peq (v w : pv) {struct v} : bool :=
      match v, w with
      | PNone, PNone => true
      | PAtom a, PAtom b => atom_eq a b
      | PLink s i, PLink t j => String.eqb s t && String.eqb i j
      | PLink s i, PRef o => carries_uid o s i
      | PRef o, PLink s i => carries_uid o s i
      | PLink s i, PTuple [PAtom (AStr t); PAtom (AStr j)] => String.eqb s t && String.eqb i j
      | PTuple [PAtom (AStr t); PAtom (AStr j)], PLink s i => String.eqb s t && String.eqb i j
      | PRef o, PTuple [PAtom (AStr s); PAtom (AStr i)] => carries_uid o s i
      | PTuple [PAtom (AStr s); PAtom (AStr i)], PRef o => carries_uid o s i
      | PRef a, PRef b => eeq a b
      | PList l, PList m | PTuple l, PTuple m =>
          (fix go (l m : list pv) : bool :=
             match l, m with
             | [], [] => true
             | x :: l', y :: m' => peq x y && go l' m'
             | _, _ => false
             end) l m
      | PDict l, PDict m =>
          (length l =? length m) &&
          (fix go (l : list (string * pv)) : bool :=
             match l with
             | [] => true
             | (k, x) :: r => existsb (fun kw => String.eqb k (fst kw) && peq x (snd kw)) m && go r
             end) l
      | PObj t l, PObj t' m =>
          String.eqb t t' && (length l =? length m) &&
          (fix go (l : list (string * pv)) : bool :=
             match l with
             | [] => true
             | (k, x) :: r => existsb (fun kw => String.eqb k (fst kw) && peq x (snd kw)) m && go r
             end) l
      | _, _ => false
      end.

    (** The cache: finished or running comparisons by unordered pair (frozenset of two ids). *)
    Definition cache := list ((oid * oid) * tern).
    Definition ckey (a b : oid) : oid * oid := (Nat.min a b, Nat.max a b).
    Definition key_eqb (p q : oid * oid) : bool := (fst p =? fst q) && (snd p =? snd q).
    Definition lookup (c : cache) (a b : oid) : option tern :=
      option_map snd (find (fun e => key_eqb (ckey a b) (fst e)) c).
    Definition put (c : cache) (a b : oid) (t : tern) : cache := (ckey a b, t) :: c.

    (** What [_dict_for_compare] holds besides uids and type: every field but the skipped ones, of
        which measurements and ingredients are put back (dict_serializable.py:95-108,
        material_run.py:113-117, process_run.py:106-110, process_spec.py:104-108). *)
    Definition compared (e : entity) : list string :=
      filter (fun f => negb (String.eqb f "output_material")) (keys (e_fields e)).

    Definition same_names (l m : list string) : bool :=
      forallb (fun f => existsb (String.eqb f) m) l && forallb (fun f => existsb (String.eqb f) l) m.

    (** base_entity.py:160-165: [list(v)] for iterables that are not strings (a mapping gives its keys). *)
    Definition items_of (v : pv) : option (list pv) :=
      match v with
      | PList l | PTuple l => Some l
      | PDict d => Some (map (fun kv => PAtom (AStr (fst kv))) d)
      | _ => None
      end.

    Section Loops.
      (** The recursive call; [None] when it runs out of fuel. *)
      Variable rec : cache -> oid -> oid -> option (tern * cache).

      Inductive scanned := Matched (rest : list pv) | Pending | Missing.

      (** base_entity.py:178-190: looks for a partner of entity [x], passing over pending
          comparisons; a match is deleted from the list. A member that is not an entity is a link,
          whose fields differ. [pre] holds the members already passed, last first. *)
      Fixpoint scan (c : cache) (x : oid) (pre that : list pv) (pending : bool) : option (scanned * cache) :=
        match that with
        | [] => Some (if pending then Pending else Missing, c)
        | y :: r =>
            match (match y with PRef o => rec c x o | _ => Some (FF, c) end) with
            | None => None
            | Some (TT, c') => Some (Matched (rev pre ++ r), c')
            | Some (UU, c') => scan c' x (y :: pre) r true
            | Some (FF, c') => scan c' x (y :: pre) r pending
            end
        end.

      (** base_entity.py:176-198; [v in that_list] compares each member with [v]. *)
      Fixpoint list_loop (c : cache) (this that : list pv) : option (bool * cache) :=
        match this with
        | [] => Some (true, c)
        | PRef x :: r =>
            match scan c x [] that false with
            | None => None
            | Some (Matched rest, c') => list_loop c' r rest
            | Some (Pending, c') => list_loop c' r that
            | Some (Missing, c') => Some (false, c')
            end
        | v :: r => if existsb (fun w => peq w v) that then list_loop c r that else Some (false, c)
        end.

      (** base_entity.py:155-201: one field; [tu] and [uu] say that the entities have uids. *)
      Definition field_cmp (c : cache) (tu uu : bool) (v w : pv) : option (bool * cache) :=
        match v, w with
        | PRef a, PRef b => match rec c a b with
                            | None => None
                            | Some (FF, c') => Some (false, c')
                            | Some (_, c') => Some (true, c')
                            end
        | _, _ =>
            match items_of v, items_of w with
            | Some l, Some m =>
                if length l =? length m then list_loop c l m
                else Some (((length l =? 0) && tu) || ((length m =? 0) && uu), c)
            | _, _ => Some (peq v w, c)
            end
        end.

      Fixpoint fields_loop (c : cache) (tu uu : bool) (a b : oid) (fs : list string) : option (bool * cache) :=
        match fs with
        | [] => Some (true, c)
        | f :: r => match field_cmp c tu uu (read h a f) (read h b f) with
                    | None => None
                    | Some (false, c') => Some (false, c')
                    | Some (true, c') => fields_loop c' tu uu a b r
                    end
        end.
    End Loops.

    Definition nonempty {A} (l : list A) : bool := negb (length l =? 0).

    (** base_entity.py:120-205. [n] bounds the depth of the recursion. The type name, an ordinary
        entry of the compared dictionaries, is looked at last here. Addresses outside the heap,
        which no program has, are compared by identity. *)
    Fixpoint cached_equals (n : nat) (c : cache) (a b : oid) : option (tern * cache) :=
      match hget h a, hget h b with
      | Some ea, Some eb =>
          match lookup c a b with
          | Some t => Some (t, c)
          | None =>
              match n with
              | O => None
              | S n' =>
                  let c1 := put c a b UU in
                  if negb (same_names (compared ea) (compared eb)) then Some (FF, put c1 a b FF)
                  else if negb (same_uids (e_uids ea) (e_uids eb)) then Some (FF, put c1 a b FF)
                  else
                    match fields_loop (cached_equals n') c1 (nonempty (e_uids ea)) (nonempty (e_uids eb)) a b (compared ea) with
                    | None => None
                    | Some (true, c') =>
                        if ekind_eqb (e_kind ea) (e_kind eb) then Some (TT, put c' a b TT) else Some (FF, put c' a b FF)
                    | Some (false, c') => Some (FF, put c' a b FF)
                    end
              end
          end
      | _, _ => Some (if a =? b then TT else FF, c)
      end.
  End Level.

  (** More recursion depth than there are pairs of entities. *)
  Definition depth : nat := S (length h * length h).

  (** base_entity.py:208-218 between two entities, [k] bounding how deep comparisons nest through
      plain values; at the bottom entities are compared by identity. *)
  Fixpoint equals_at (k : nat) (a b : oid) : bool :=
    match k with
    | O => Nat.eqb a b
    | S k' => match cached_equals (equals_at k') depth [] a b with Some (TT, _) => true | _ => false end
    end.

  (** [a == b]. Attributes hold attribute templates, and those hold no entities, so two levels
      suffice (EqProperties, [equality_levels]). *)
  Definition entity_eq (a b : oid) : bool := equals_at 2 a b.

  (** [v == w] for any two values. *)
  Definition value_eq (v w : pv) : bool := peq (equals_at 2) v w.
End Eq.
