(** What the substitutions that change their argument should do. *)
From Coq Require Import String List Bool Arith.
From Verif Require Import Base GraphModel GraphSpec EqSpec TravSpec SerialModel SerialSpec.
Import ListNotations.
Open Scope string_scope.
Open Scope list_scope.

(** [v] with every entity and link in it replaced as [g] says, and nothing else changed. *)
Fixpoint replace (g : pv -> pv) (v : pv) : pv :=
  match v with
  | PNone | PAtom _ => v
  | PRef _ | PLink _ _ => g v
  | PList l => PList (map (replace g) l)
  | PTuple l => PTuple (map (replace g) l)
  | PDict l => PDict (map (fun kv => (fst kv, replace g (snd kv))) l)
  | PObj t l => PObj t (map (fun kv => (fst kv, replace g (snd kv))) l)
  end.

(** The attributes that may hold references and can be assigned: not the read-only sides of
    references, and not the texts that an ingredient run takes from its spec. *)
Definition assignable (k : ekind) (f : string) : Prop :=
  ~ read_only k f /\ ~ (k = KIngR /\ (f = "name" \/ f = "labels")).

(** ... of the entity at [o]. *)
Definition field_of (h : heap) (o : oid) (f : string) : Prop :=
  exists k, kind_at h o = Some k /\ assignable k f.

(** ** Entities to links *)

(** [g] gives the entities that [P] holds of their links, and leaves the links as they are. *)
Definition to_links_of (lower : string -> string) (h : heap) (scope : option string) (fallback : bool) (P : oid -> Prop) (g : pv -> pv) : Prop :=
  (forall o, P o -> exists s i, g (PRef o) = PLink s i /\ link_for lower h scope fallback o s i)
  /\ forall s i, g (PLink s i) = PLink s i.

(** ** Links to entities *)

(** A link in the index gives the entity there. *)
Definition resolve (names : string -> string -> option oid) (r : pv) : pv :=
  match r with
  | PLink s i => match names s i with Some o => PRef o | None => r end
  | _ => r
  end.
Definition resolved (names : string -> string -> option oid) (v : pv) : pv := replace (resolve names) v.

(** The entities in [v] or named there by links, those in or named in their attributes, and so on. *)
Inductive involved (h : heap) (names : string -> string -> option oid) (v : pv) : oid -> Prop :=
| in_value : forall o, mentions (resolved names v) o -> involved h names v o
| in_field : forall o f o', involved h names v o -> field_of h o f -> mentions (resolved names (fval h o f)) o' -> involved h names v o'.

(** A tuple in [v] has no numbers, which Python equates with numbers of other types, and is not a
    pair of strings, which it equates with a link. *)
Definition plain_tuples (v : pv) : Prop :=
  forall l, within (PTuple l) v -> (forall s i, l <> [PAtom (AStr s); PAtom (AStr i)])
    /\ (forall a, within (PAtom a) (PTuple l) -> exists s, a = AStr s) .


Definition hashable_in (v : pv) : Prop := forall l, within (PTuple l) v -> can_hash (PTuple l).

(** No attribute is stored twice. *)
Definition distinct_fields (h : heap) : Prop := forall o e, hget h o = Some e -> NoDup (map fst (e_fields e)).

(** The values that are gone through: the argument and the attributes of the entities involved. *)
Definition gone_through (h : heap) (names : string -> string -> option oid) (v t : pv) : Prop :=
  t = v \/ exists o f, involved h names v o /\ field_of h o f /\ t = fval h o f.

(** ** Setters *)
Section Accepting.
  Variable refuses : heap -> string -> list (string * pv) -> string -> pv -> option exn.
  Variable rejects : heap -> oid -> string -> pv -> option exn.
  Definition same_kinds (h h' : heap) : Prop := forall o, kind_at h' o = kind_at h o.

  (** The serialisable objects in [v] accept the new values of their attributes. *)
  Definition parts_accept (h : heap) (g : pv -> pv) (v : pv) : Prop :=
    forall h' t fs fs' k x, same_kinds h h' -> within (PObj t fs) v -> In (k, x) fs -> refuses h' t fs' k (replace g x) = None.

  (** ... and so do the entity [o], where its attributes are no references to entities, and its lists. *)
  Definition entity_accepts (h : heap) (g : pv -> pv) (o : oid) : Prop :=
    (forall f, field_of h o f -> parts_accept h g (fval h o f))
    /\ (forall h' k fs f, same_kinds h h' -> kind_at h o = Some k -> field_of h o f -> (forall pk, ~ asked_kind k f pk) ->
          refuses h' (typ_of k) fs f (replace g (fval h o f)) = None)
    /\ (forall h' f l x, same_kinds h h' -> field_of h o f -> fval h o f = PList l -> In x l -> rejects h' o f (replace g x) = None).
End Accepting.

(** ** After substitute_links in place on the entity [o] *)
Record links_effect (g : pv -> pv) (h : heap) (o : oid) (h' : heap) : Prop := mkEffect {
  le_top : g (PRef o) = PRef o;
  le_fields : forall f, field_of h o f -> fval h' o f = replace g (fval h o f);
  le_others : forall x f, x <> o -> field_of h x f -> fval h' x f = fval h x f;
  le_kinds : same_kinds h h';
  le_uids : forall x, option_map e_uids (hget h' x) = option_map e_uids (hget h x);
  le_lists : lists_mirror h';
  le_processes : processes_agree h';
  le_texts : kind_at h o = Some KIngR -> forall f, f = "name" \/ f = "labels" -> read h' o f = read h o f
}.

(** ** Copies *)

(** [x] is the value, or an item of the lists and dictionaries it consists of. *)
Inductive item_of : pv -> oid -> Prop :=
| it_ref : forall x, item_of (PRef x) x
| it_list : forall l v x, In v l -> item_of v x -> item_of (PList l) x
| it_dict : forall d k v x, In (k, v) d -> item_of v x -> item_of (PDict d) x.
