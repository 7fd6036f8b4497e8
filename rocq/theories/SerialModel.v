(** Model of serialisation: gemd/json/gemd_json.py, gemd/json/gemd_encoder.py, the dictionary
    conversions of gemd/entity/dict_serializable.py, and substitute_links, flatten and
    writable_sort_order of gemd/util/impl.py.

    Simplifications. JSON text is a tree; the writer and the reader of the text are modelled in
    [JtextModel] and joined to these trees in [JtextTree]. Enumeration
    members are the strings they are. What the constructors do with arguments that are not
    references between entities is a parameter, [construct]. *)
From Coq Require Import String List Bool Arith ZArith QArith.
From Verif Require Import Base CidModel KeywordModel GraphModel EqModel TravModel.
Import ListNotations.
Open Scope string_scope.
Open Scope list_scope.
Open Scope nat_scope.

Inductive json :=
| JNull
| JAtom (a : atom)
| JArr (l : list json)
| JObj (l : list (string * json)).

(** [sort_keys=True]: members by key. *)
Fixpoint insert_key {A} (kv : string * A) (l : list (string * A)) : list (string * A) :=
  match l with
  | [] => [kv]
  | kw :: r => if String.leb (fst kv) (fst kw) then kv :: kw :: r else kw :: insert_key kv r
  end.
Definition sort_keys {A} (l : list (string * A)) : list (string * A) := fold_right insert_key [] l.

(** The [typ] of each entity class (its class statement, e.g. material_run.py:17). *)
Definition typ_of (k : ekind) : string :=
  match k with
  | KPropT => "property_template" | KCondT => "condition_template" | KParamT => "parameter_template"
  | KMatT => "material_template" | KProcT => "process_template" | KMeasT => "measurement_template"
  | KMatS => "material_spec" | KProcS => "process_spec" | KMeasS => "measurement_spec" | KIngS => "ingredient_spec"
  | KMatR => "material_run" | KProcR => "process_run" | KMeasR => "measurement_run" | KIngR => "ingredient_run"
  end.

Definition all_kinds : list ekind :=
  [KPropT; KCondT; KParamT; KMatT; KProcT; KMeasT; KMatS; KProcS; KMeasS; KIngS; KMatR; KProcR; KMeasR; KIngR].

(** [clazz_index[typ]] for the entity classes. *)
Definition kind_of (t : string) : option ekind := find (fun k => String.eqb (typ_of k) t) all_kinds.

Definition str (s : string) : pv := PAtom (AStr s).

(** ** Dictionaries of objects *)

(** dict_serializable.py:95-108: every attribute but the skipped ones, read through its getter,
    and the type. The order, that of a Python set, is that of the attributes here. *)
Definition as_dict (h : heap) (o : oid) : list (string * pv) :=
  match hget h o with
  | Some e => ("uids", PDict (map (fun p => (fst p, str (snd p))) (e_uids e)))
              :: map (fun kv => (fst kv, read h o (fst kv))) (filter (fun kv => negb (skipped (e_kind e) (fst kv))) (e_fields e))
              ++ [("type", str (typ_of (e_kind e)))]
  | None => []
  end.

(** ** Encoding *)
Section Encode.
  (** How an entity inside the value is encoded. *)
  Variable nested : oid -> res json.

  (** gemd_encoder.py:12-19 with [json.dumps(..., sort_keys=True)]. *)
  Fixpoint encode (v : pv) : res json :=
    match v with
    | PNone => Ok JNull
    | PAtom a => Ok (JAtom a)
    | PLink s i => Ok (JObj [("id", JAtom (AStr i)); ("scope", JAtom (AStr s)); ("type", JAtom (AStr "link_by_uid"))])
    | PRef o => nested o
    | PList l | PTuple l =>
        do js <- (fix go (l : list pv) : res (list json) :=
                    match l with [] => Ok [] | x :: r => do j <- encode x; do js <- go r; Ok (j :: js) end) l;
        Ok (JArr js)
    | PDict d =>
        do js <- (fix go (l : list (string * pv)) : res (list (string * json)) :=
                    match l with [] => Ok [] | (k, x) :: r => do j <- encode x; do js <- go r; Ok ((k, j) :: js) end) d;
        Ok (JObj (sort_keys js))
    | PObj t fs =>
        do js <- (fix go (l : list (string * pv)) : res (list (string * json)) :=
                    match l with [] => Ok [] | (k, x) :: r => do j <- encode x; do js <- go r; Ok ((k, j) :: js) end) fs;
        Ok (JObj (sort_keys (js ++ [("type", JAtom (AStr t))])))
    end.
End Encode.

(** An entity and the entities nested in it; nesting deeper than there are entities is a circular
    reference, which [json.dumps] rejects with ValueError. *)
Fixpoint encode_nested (h : heap) (n : nat) (o : oid) : res json :=
  match n with
  | O => Err ValueError
  | S n' => encode (encode_nested h n') (PDict (as_dict h o))
  end.

(** gemd_json.py:147-164 *)
Definition raw_dumps (h : heap) (v : pv) : res json := encode (encode_nested h (S (length h))) v.

(** ** Decoding *)
Section Decode.
  Variable lower : string -> string.
  (** The registered types that are neither entities nor links. *)
  Variable known : string -> bool.
  (** What the constructor of a type makes of its keyword arguments other than uids and the
      reference fields of [role_of]: the attributes that result (unknown arguments are dropped),
      or an exception. It may look at the entities among the arguments. *)
  Variable construct : heap -> string -> list (string * pv) -> res (list (string * pv)).

  (** gemd_json.py:250-252: entities by lower-case scope and id; later entries shadow earlier ones. *)
  Definition index := list ((string * string) * oid).
  Definition index_get (ix : index) (s i : string) : option oid :=
    option_map snd (find (fun e => String.eqb (fst (fst e)) s && String.eqb (snd (fst e)) i) ix).

  Definition state := (heap * index)%type.

  (** The reference arguments of each constructor, in the order in which it assigns them
      (material_run.py:62-67, material_spec.py:64-68, process_run.py:73, process_spec.py:69,
      measurement_run.py:78-85, measurement_spec.py:63, ingredient_run.py:75-84,
      ingredient_spec.py:85-86). *)
  Definition ref_args (k : ekind) : list string :=
    match k with
    | KMatR => ["spec"; "process"] | KMatS => ["template"; "process"]
    | KProcR => ["spec"] | KProcS => ["template"]
    | KMeasR => ["spec"; "material"] | KMeasS => ["template"]
    | KIngR => ["spec"; "material"; "process"] | KIngS => ["material"; "process"]
    | _ => []
    end.

  Definition mem_str (s : string) (l : list string) : bool := existsb (String.eqb s) l.

  (** base_entity.py:51-59. The values of a mapping are strings here. *)
  Fixpoint strings_of (d : list (string * pv)) : option (list (string * string)) :=
    match d with
    | [] => Some []
    | (k, PAtom (AStr s)) :: r => option_map (cons (k, s)) (strings_of r)
    | _ => None
    end.
  Definition uids_of (v : pv) : res (list (string * string)) :=
    match v with
    | PNone => Ok []
    | PDict d => match strings_of d with
                 | Some u => match keyword_init lower u with Ok c => Ok (tbl c) | Err e => Err e end
                 | None => Err TypeError
                 end
    | PList (PAtom (AStr s) :: PAtom (AStr i) :: _) => match keyword_init lower [(s, i)] with Ok c => Ok (tbl c) | Err e => Err e end
    | _ => Err TypeError
    end.

  Definition item_eq (h : heap) (v : pv) (x : oid) : bool := value_eq lower h v (PRef x).

  Fixpoint assign_all (h : heap) (o : oid) (args : list (string * pv)) : res heap :=
    match args with
    | [] => Ok h
    | (f, v) :: r => match assign item_eq h o f v with
                     | (h', None) => assign_all h' o r
                     | (_, Some e) => Err e
                     end
    end.

  Definition arg (d : list (string * pv)) (f : string) : pv := match dict_get f d with Some v => v | None => PNone end.

  (** from_dict (dict_serializable.py:58-85, ingredient_run.py:157-181) and the constructors of the
      entity classes. The attributes that are not references are set first here; name and labels of
      an ingredient run, assigned last in Python, are among them. Checks of attributes against
      templates are not modelled here (see [ValidationModel]). *)
  Definition make_entity (st : state) (k : ekind) (d : list (string * pv)) : res (pv * state) :=
    let '(h, ix) := st in
    do u <- uids_of (arg d "uids");
    do fs <- construct h (typ_of k) (filter (fun kv => negb (String.eqb (fst kv) "uids" || mem_str (fst kv) (ref_args k))) d);
    let o := length h in
    do h' <- assign_all (h ++ [mkE k u (blank k ++ fs)]) o (map (fun f => (f, arg d f)) (ref_args k));
    Ok (PRef o, (h', map (fun p => ((lower (fst p), snd p), o)) (rev u) ++ ix)).

  (** link_by_uid.py:24-27 through from_dict, and gemd_json.py:254-256. A scope or id that is not
      a string, which Python accepts as long as it need not look it up, is rejected here. *)
  Definition make_link (substitute : bool) (st : state) (d : list (string * pv)) : res (pv * state) :=
    match dict_get "scope" d, dict_get "id" d with
    | Some (PAtom (AStr s)), Some (PAtom (AStr i)) =>
        match (if substitute then index_get (snd st) (lower s) i else None) with
        | Some o => Ok (PRef o, st)
        | None => Ok (PLink s i, st)
        end
    | _, _ => Err TypeError
    end.

  (** gemd_json.py:214-258 *)
  Definition load_and_index (substitute : bool) (st : state) (d : list (string * pv)) : res (pv * state) :=
    match dict_get "type" d with
    | None => Ok (PDict d, st)
    | Some (PAtom (AStr t)) =>
        let d := dict_del "type" d in
        if String.eqb t "link_by_uid" then make_link substitute st d
        else match kind_of t with
             | Some k => make_entity st k d
             | None => if known t then do fs <- construct (fst st) t d; Ok (PObj t fs, st) else Err TypeError
             end
    | Some _ => Err TypeError
    end.

  (** [json.loads] with an object hook: members first, in the order of the text; of members with the
      same key the last counts. *)
  Fixpoint decode (substitute : bool) (st : state) (j : json) {struct j} : res (pv * state) :=
    match j with
    | JNull => Ok (PNone, st)
    | JAtom a => Ok (PAtom a, st)
    | JArr l =>
        do (vs, st') <- (fix go (st : state) (l : list json) : res (list pv * state) :=
             match l with
             | [] => Ok ([], st)
             | x :: r => do (v, st1) <- decode substitute st x; do (vs, st2) <- go st1 r; Ok (v :: vs, st2)
             end) st l;
        Ok (PList vs, st')
    | JObj l =>
        do (kvs, st') <- (fix go (st : state) (l : list (string * json)) : res (list (string * pv) * state) :=
             match l with
             | [] => Ok ([], st)
             | (k, x) :: r => do (v, st1) <- decode substitute st x; do (vs, st2) <- go st1 r; Ok ((k, v) :: vs, st2)
             end) st l;
        load_and_index substitute st' (dict_update kvs [])
    end.

  (** gemd_json.py:187-212 *)
  Definition raw_loads (h : heap) (j : json) : res (pv * heap) :=
    do (v, st) <- decode false (h, []) j; Ok (v, fst st).

  (** gemd_json.py:57-88 *)
  Definition loads (h : heap) (j : json) : res (pv * heap) :=
    do (v, st) <- decode true (h, []) j;
    match v with
    | PDict d => match dict_get "object" d with Some x => Ok (x, fst st) | None => Err KeyError end
    | _ => Err TypeError
    end.

  (** dict_serializable.py:128-149 on a dictionary without entities: what it builds is a value, or
      an entity, given here by its contents. *)
  Definition build (d : list (string * pv)) : res (pv * heap) :=
    do j <- encode (fun _ => Err ValueError) (PDict d); raw_loads [] j.

  (** ** Replacing entities by links *)

  Section Links.
    Variable h : heap.
    Variable scope : option string.
    Variable allow_fallback : bool.

    (** base_entity.py:75-106; see also [LinkModel.to_link]. *)
    Definition link_of (o : oid) : res pv :=
      match hget h o with
      | Some e =>
          match e_uids e with
          | [] => Err ValueError
          | (first, _) :: _ =>
              let s := match scope with
                       | None => first
                       | Some s => if allow_fallback && match uid_get lower s (e_uids e) with None => true | _ => false end then first else s
                       end in
              match uid_get lower s (e_uids e) with Some i => Ok (PLink s i) | None => Err ValueError end
          end
      | None => Err ValueError
      end.

    (** impl.py:108-137: the dictionary [visited] gives a number the representative met first, so
        that 1, 1.0 and True are not told apart. Strings, None and links are their own
        representatives; entities give their links, and other objects count by identity. *)
    Definition visit (seen : list atom) (a : atom) : atom * list atom :=
      match find (fun b => atom_eq a b) seen with Some b => (b, seen) | None => (a, seen ++ [a]) end.

    (** impl.py:88-137 as called by substitute_links (impl.py:270-301), on a value that is not an
        entity. A tuple that cannot be hashed raises at line 110. *)
    Fixpoint subst (seen : list atom) (v : pv) {struct v} : res (pv * list atom) :=
      match v with
      | PNone => Ok (PNone, seen)
      | PAtom a => let '(b, seen') := visit seen a in Ok (PAtom b, seen')
      | PLink s i => Ok (PLink s i, seen)
      | PRef o => do l <- link_of o; Ok (l, seen)
      | PList l =>
          do (vs, seen') <- (fix go (seen : list atom) (l : list pv) : res (list pv * list atom) :=
               match l with
               | [] => Ok ([], seen)
               | x :: r => do (y, s1) <- subst seen x; do (ys, s2) <- go s1 r; Ok (y :: ys, s2)
               end) seen l;
          Ok (PList vs, seen')
      | PTuple l =>
          if negb (hashable v) then Err TypeError else
          do (vs, seen') <- (fix go (seen : list atom) (l : list pv) : res (list pv * list atom) :=
               match l with
               | [] => Ok ([], seen)
               | x :: r => do (y, s1) <- subst seen x; do (ys, s2) <- go s1 r; Ok (y :: ys, s2)
               end) seen l;
          Ok (PTuple vs, seen')
      | PDict d =>
          do (vs, seen') <- (fix go (seen : list atom) (l : list (string * pv)) : res (list (string * pv) * list atom) :=
               match l with
               | [] => Ok ([], seen)
               | (k, x) :: r => do (y, s1) <- subst seen x; do (ys, s2) <- go s1 r; Ok ((k, y) :: ys, s2)
               end) seen d;
          Ok (PDict vs, seen')
      | PObj t fs =>
          do (vs, seen') <- (fix go (seen : list atom) (l : list (string * pv)) : res (list (string * pv) * list atom) :=
               match l with
               | [] => Ok ([], seen)
               | (k, x) :: r => do (y, s1) <- subst seen x; do (ys, s2) <- go s1 r; Ok ((k, y) :: ys, s2)
               end) seen fs;
          do (w, _) <- build (vs ++ [("type", str t)]);
          Ok (w, seen')
      end.

    (** substitute_links on a value that is not an entity. *)
    Definition substitute_links (v : pv) : res pv := do (w, _) <- subst [] v; Ok w.

    (** substitute_links on an entity: the new entity, by its contents. *)
    Definition substitute_links_entity (o : oid) : res entity :=
      do (w, _) <- subst [] (PDict (as_dict h o));
      match w with
      | PDict d => do (_, hb) <- build d; match hb with [e] => Ok e | _ => Err TypeError end
      | _ => Err TypeError
      end.
  End Links.

  (** ** flatten *)

  (** impl.py:506-533 *)
  Definition rank (k : ekind) : nat :=
    match k with
    | KPropT | KCondT | KParamT => 0
    | KMatT | KProcT | KMeasT => 1
    | KProcS | KMeasS => 2
    | KProcR | KMatS => 3
    | KIngS | KMatR => 4
    | KIngR | KMeasR => 5
    end.

  Fixpoint insert_by {A} (key : A -> nat) (x : A) (l : list A) : list A :=
    match l with
    | [] => [x]
    | y :: r => if key x <=? key y then x :: y :: r else y :: insert_by key x r
    end.
  (** Python's stable [sorted]. *)
  Definition sort_by {A} (key : A -> nat) (l : list A) : list A := fold_right (insert_by key) [] l.

  Definition pair_eqb (p q : string * string) : bool := String.eqb (fst p) (fst q) && String.eqb (snd p) (snd q).

  (** impl.py:366-385: those of the visited entities none of whose uids is known yet. *)
  Fixpoint new_by_uid (h : heap) (seen : list (string * string)) (l : list oid) : res (list oid) :=
    match l with
    | [] => Ok []
    | o :: r =>
        let us := match hget h o with Some e => e_uids e | None => [] end in
        match us with
        | [] => Err ValueError
        | _ => do rest <- new_by_uid h (us ++ seen) r;
               Ok (if existsb (fun u => existsb (pair_eqb u) seen) us then rest else o :: rest)
        end
    end.

  Fixpoint traverse {A B} (f : A -> res B) (l : list A) : res (list B) :=
    match l with [] => Ok [] | x :: r => do y <- f x; do ys <- traverse f r; Ok (y :: ys) end.

  Section Flatten.
    (** [sorted(__dict__.items())], see [TravModel.flatmap]. *)
    Variable sorted : list (string * pv) -> list (string * pv).
    Variable uuid4 : nat -> string.

    Definition of_outcome {A} (r : outcome A) : res A :=
      match r with Done a => Ok a | Raised e => Err e | Exhausted => Err RecursionError end.

    (** impl.py:366-388, after uids have been set. The order of the two possible exceptions, a
        missing uid and an unhashable tuple, is not modelled. *)
    Definition flatten_set (h : heap) (obj : pv) : res (list entity) :=
      do l <- of_outcome (flatmap sorted false h obj);
      do us <- new_by_uid h [] l;
      do es <- traverse (substitute_links_entity h None true) us;
      Ok (sort_by (fun e => rank (e_kind e)) es).

    (** impl.py:334-388. Returns the heap with the uids set, the next uuid and the list. *)
    Definition flatten (h : heap) (n : nat) (obj : pv) (scope : option string) : res (heap * nat * list entity) :=
      do (h', n') <- match scope with Some s => of_outcome (set_uuids uuid4 h n obj s) | None => Ok (h, n) end;
      do es <- flatten_set h' obj;
      Ok (h', n', es).

    (** gemd_json.py:32-55 with scope [scope]. *)
    Definition dumps (h : heap) (n : nat) (obj : pv) (scope : string) : res (heap * nat * json) :=
      do (h', n', es) <- flatten h n (PDict [("object", obj)]) (Some scope);
      do v <- substitute_links h' None true obj;
      do context <- traverse (fun e => encode_nested [e] 1 0) es;
      do object <- encode (fun _ => Err ValueError) v;
      Ok (h', n', JObj (sort_keys [("object", object); ("context", JArr context)])).
  End Flatten.
End Decode.
