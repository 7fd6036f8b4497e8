(** What serialisation should do. *)
From Coq Require Import String List Bool Arith Permutation.
From Verif Require Import Base GraphModel GraphSpec EqModel EqSpec TravSpec SerialModel.
Import ListNotations.
Open Scope string_scope.
Open Scope list_scope.

(** The same value up to the order of dictionaries and of the attributes of objects, the references
    in it (entities and links) being related by [L]. *)
Section Sim.
  Variable L : pv -> pv -> Prop.

  Fixpoint sim (v w : pv) {struct v} : Prop :=
    match v, w with
    | PNone, PNone => True
    | PAtom a, PAtom b => a = b
    | PRef _, PRef _ | PRef _, PLink _ _ | PLink _ _, PRef _ | PLink _ _, PLink _ _ => L v w
    | PList l, PList m | PTuple l, PTuple m =>
        (fix go (l m : list pv) : Prop :=
           match l, m with
           | [], [] => True
           | x :: l', y :: m' => sim x y /\ go l' m'
           | _, _ => False
           end) l m
    | PDict l, PDict m => NoDup (keys l) /\ NoDup (keys m) /\ length l = length m /\
        (fix go (l : list (string * pv)) : Prop :=
           match l with
           | [] => True
           | (k, x) :: r => (exists y, In (k, y) m /\ sim x y) /\ go r
           end) l
    | PObj t l, PObj u m => t = u /\ NoDup (keys l) /\ NoDup (keys m) /\ length l = length m /\
        (fix go (l : list (string * pv)) : Prop :=
           match l with
           | [] => True
           | (k, x) :: r => (exists y, In (k, y) m /\ sim x y) /\ go r
           end) l
    | _, _ => False
    end.
End Sim.

(** Entities are replaced by links or by entities of the same class; links stay. *)
Definition relinked (h g : heap) (v w : pv) : Prop :=
  match v, w with
  | PRef o, PRef o' => kind_at h o = kind_at g o'
  | PRef _, PLink _ _ => True
  | PLink s i, PLink t j => s = t /\ i = j
  | _, _ => False
  end.

Section Storable.
  Variable known : string -> bool.
  Variable construct : heap -> string -> list (string * pv) -> res (list (string * pv)).
  Variable h : heap.

  (** The constructor of type [t] stores these attribute values as they are, also when entities among
      them are replaced by links or by other entities of the same class. *)
  Definition accepts (t : string) (fs : list (string * pv)) : Prop :=
    forall g d, sim (relinked h g) (PDict fs) (PDict d) -> exists fs', construct g t d = Ok fs' /\ Permutation fs' d.

  (** A value that JSON and the constructors can represent: no tuples, no dictionary with a key
      "type", and objects of registered types whose constructor gives them back. *)
  Inductive storable : pv -> Prop :=
  | st_none : storable PNone
  | st_atom : forall a, storable (PAtom a)
  | st_link : forall s i, storable (PLink s i)
  | st_ref : forall o, storable (PRef o)
  | st_list : forall l, Forall storable l -> storable (PList l)
  | st_dict : forall d, NoDup (keys d) -> ~ In "type" (keys d) -> Forall (fun kv => storable (snd kv)) d -> storable (PDict d)
  | st_obj : forall t fs, known t = true -> kind_of t = None -> t <> "link_by_uid" -> NoDup (keys fs) -> ~ In "type" (keys fs) ->
      Forall (fun kv => storable (snd kv)) fs -> accepts t fs -> storable (PObj t fs).
End Storable.

Section WellFormed.
  Variable lower : string -> string.
  Variable known : string -> bool.
  Variable construct : heap -> string -> list (string * pv) -> res (list (string * pv)).
  Variable h : heap.

  (** A field that refers to another entity. *)
  Definition reference (k : ekind) (f : string) : Prop := exists pk, asked_kind k f pk.

  (** A scalar in a serialised field. *)
  Definition atom_of (o : oid) (e : entity) (a : atom) : Prop :=
    exists f, In f (keys (e_fields e)) /\ ~ read_only (e_kind e) f /\ within (PAtom a) (read h o f).

  (** Entity [o], whose contents are [e], is as the constructors make entities: *)
  Record representable (o : oid) (e : entity) : Prop := mkRep {
    (* its attributes are distinct and include the reference fields of its class; *)
    rp_keys : NoDup (keys (e_fields e));
    rp_names : ~ In "uids" (keys (e_fields e)) /\ ~ In "type" (keys (e_fields e));
    rp_blank : forall f, In f (keys (blank (e_kind e))) -> In f (keys (e_fields e));
    (* its scopes are distinct whatever their casing, and none is "type" or a parameter of the dictionary's constructor; *)
    rp_uids : NoDup (map (fun p => lower (fst p)) (e_uids e));
    rp_scopes : ~ In "type" (keys (e_uids e));
    rp_words : ~ In "seq" (keys (e_uids e)) /\ ~ In "self" (keys (e_uids e));
    (* its references have the right types; *)
    rp_refs : forall f, reference (e_kind e) f -> well_typed h o f (fval h o f);
    (* its serialised values can be represented, *)
    rp_values : forall f, In f (keys (e_fields e)) -> ~ read_only (e_kind e) f -> storable known construct h (read h o f);
    (* and its constructor gives them back. *)
    rp_plain : forall d, NoDup (keys d) ->
      (forall f v, In (f, v) d <-> In f (keys (e_fields e)) /\ ~ reference (e_kind e) f /\ ~ read_only (e_kind e) f /\ v = read h o f) ->
      accepts construct h (typ_of (e_kind e)) d
  }.

  (** Besides, equal numbers in its attributes have the same type. *)
  Record well_formed (o : oid) (e : entity) : Prop := mkWf {
    wf_rep : representable o e;
    wf_atoms : forall a b, atom_of o e a -> atom_of o e b -> atom_eq a b = true -> a = b
  }.
  Definition wf_keys o e (W : well_formed o e) := rp_keys o e (wf_rep o e W).
  Definition wf_names o e (W : well_formed o e) := rp_names o e (wf_rep o e W).
  Definition wf_blank o e (W : well_formed o e) := rp_blank o e (wf_rep o e W).
  Definition wf_uids o e (W : well_formed o e) := rp_uids o e (wf_rep o e W).
  Definition wf_scopes o e (W : well_formed o e) := rp_scopes o e (wf_rep o e W).
  Definition wf_refs o e (W : well_formed o e) := rp_refs o e (wf_rep o e W).
  Definition wf_values o e (W : well_formed o e) := rp_values o e (wf_rep o e W).
  Definition wf_plain o e (W : well_formed o e) := rp_plain o e (wf_rep o e W).
End WellFormed.

(** A scope that does not get in the way: not the name of a record's type, nor a parameter of the constructor of the uids. *)
Definition plain_scope (s : string) : Prop := s <> "type" /\ s <> "seq" /\ s <> "self".

(** [(s, i)] is one of the uids of [o]. *)
Definition uid_of (h : heap) (o : oid) (s i : string) : Prop := exists e, hget h o = Some e /\ In (s, i) (e_uids e).

(** Entities are replaced by links to one of their uids; links stay. *)
Definition as_link (h : heap) (a b : pv) : Prop :=
  match a, b with
  | PRef o, PLink s i => uid_of h o s i
  | PLink s i, PLink t j => s = t /\ i = j
  | _, _ => False
  end.

(** [e'] is entity [o] with its references replaced by links and the read-only sides of its
    two-sided references left out. *)
Definition flat_copy (h : heap) (o : oid) (e' : entity) : Prop :=
  exists e, hget h o = Some e /\ e_kind e' = e_kind e /\ Permutation (e_uids e') (e_uids e)
    /\ NoDup (keys (e_fields e')) /\ (forall f, In f (keys (e_fields e')) <-> In f (keys (e_fields e)))
    /\ (forall f, In f (keys (e_fields e)) -> ~ read_only (e_kind e) f -> sim (as_link h) (read h o f) (fget e' f))
    /\ (forall f, read_only (e_kind e) f -> fget e' f = PNone \/ fget e' f = PList []).

(** What the traversal from [obj] reaches. *)
Definition reachable (h : heap) (obj : pv) (o : oid) : Prop := reach h everything obj o.

(** No two reachable entities have a uid in common, scopes being compared after [fold]. *)
Definition own_uids (fold : string -> string) (h : heap) (obj : pv) : Prop :=
  forall o o' s s' i, reachable h obj o -> reachable h obj o' -> uid_of h o s i -> uid_of h o' s' i -> fold s = fold s' -> o = o'.

(** The uuids generated from the [n]-th on differ from each other and from the ids in use. *)
Definition fresh_uuids (uuid4 : nat -> string) (n : nat) (h : heap) (obj : pv) : Prop :=
  (forall a b, n <= a -> n <= b -> uuid4 a = uuid4 b -> a = b)
  /\ forall a o s, n <= a -> reachable h obj o -> ~ uid_of h o s (uuid4 a).

(** Every reachable entity is well formed. *)
Definition all_well_formed lower known construct (h : heap) (obj : pv) : Prop :=
  forall o, reachable h obj o -> exists e, hget h o = Some e /\ well_formed lower known construct h o e.

(** Attributes mention attribute templates only, and these mention nothing. *)
Definition attributes_typed (h : heap) (obj : pv) : Prop :=
  forall o e f x, reachable h obj o -> hget h o = Some e -> In f (keys (e_fields e)) ->
    ~ reference (e_kind e) f -> ~ read_only (e_kind e) f -> mentions (read h o f) x ->
    attribute_template h x /\ ~ attribute_template h o.

(** ** Links *)

(** [(s, i)] is the link made for entity [o]: under the scope asked for if the entity has a uid
    there, whatever the casing of its name, with that uid; otherwise, if no scope was asked for or a
    replacement is allowed, the first uid. *)
Definition link_for (lower : string -> string) (h : heap) (scope : option string) (fallback : bool) (o : oid) (s i : string) : Prop :=
  exists e, hget h o = Some e /\
    match scope with
    | Some sc => (s = sc /\ exists t, In (t, i) (e_uids e) /\ lower t = lower sc)
                 \/ (fallback = true /\ (forall t j, In (t, j) (e_uids e) -> lower t <> lower sc) /\ exists r, e_uids e = (s, i) :: r)
    | None => exists r, e_uids e = (s, i) :: r
    end.

(** Entities are replaced by their links; links stay. *)
Definition linked (lower : string -> string) (h : heap) (scope : option string) (fallback : bool) (a b : pv) : Prop :=
  match a, b with
  | PRef o, PLink s i => link_for lower h scope fallback o s i
  | PLink s i, PLink t j => s = t /\ i = j
  | _, _ => False
  end.

(** A value in which entities can be replaced by links: storable values, also in tuples, which Python
    must be able to hash, and in dictionaries with any keys. *)
Inductive substitutable known construct (h : heap) : pv -> Prop :=
| sub_storable : forall v, storable known construct h v -> substitutable known construct h v
| sub_list : forall l, Forall (substitutable known construct h) l -> substitutable known construct h (PList l)
| sub_tuple : forall l, can_hash (PTuple l) -> Forall (substitutable known construct h) l -> substitutable known construct h (PTuple l)
| sub_dict : forall d, NoDup (keys d) -> Forall (fun kv => substitutable known construct h (snd kv)) d -> substitutable known construct h (PDict d).

(** Equal numbers in [v] have the same type. *)
Definition coherent_numbers (v : pv) : Prop :=
  forall a b, within (PAtom a) v -> within (PAtom b) v -> atom_eq a b = true -> a = b.

(** ** Round trips *)

(** Entities are replaced by related ones; links stay. *)
Definition renamed (R : oid -> oid -> Prop) (v w : pv) : Prop :=
  match v, w with PRef a, PRef b => R a b | PLink s i, PLink t j => s = t /\ i = j | _, _ => False end.

(** The graph reachable from [obj] in [h] and the one reachable from [obj'] in [g] are the same up to
    the one-to-one correspondence [R] of their entities, the order of dictionaries, and the order
    of the lists on the read-only sides of two-sided references. *)
Record isomorphic (h : heap) (obj : pv) (g : heap) (obj' : pv) (R : oid -> oid -> Prop) : Prop := mkIso {
  iso_left : forall o, reachable h obj o <-> exists c, R o c;
  iso_right : forall c, reachable g obj' c <-> exists o, R o c;
  iso_function : forall o c c', R o c -> R o c' -> c = c';
  iso_injective : forall o o' c, R o c -> R o' c -> o = o';
  iso_object : sim (renamed R) obj obj';
  iso_entity : forall o c, R o c -> exists e e', hget h o = Some e /\ hget g c = Some e'
    /\ e_kind e' = e_kind e /\ Permutation (e_uids e') (e_uids e)
    /\ (forall f, In f (keys (e_fields e')) <-> In f (keys (e_fields e)))
    /\ (forall f, ~ read_only (e_kind e) f -> sim (renamed R) (read h o f) (read g c f))
    /\ (forall f, read_only (e_kind e) f ->
          (f = "output_material" /\ sim (renamed R) (fval h o f) (fval g c f))
          \/ (f <> "output_material" /\ exists l m m', fval h o f = PList l /\ fval g c f = PList m
              /\ Permutation m' m /\ Forall2 (sim (renamed R)) l m'))
}.

(** The links in the graph of [obj] do not name entities of the graph, nor the uuids to come. *)
Definition loose_links (lower : string -> string) (uuid4 : nat -> string) (n : nat) (h : heap) (obj : pv) : Prop :=
  forall s i, met h everything obj (PLink s i) ->
    (forall o s', reachable h obj o -> uid_of h o s' i -> lower s' <> lower s) /\ (forall a, n <= a -> i <> uuid4 a).

(** Two-sided references agree, and the output of a process is None or an entity. *)
Definition mirrored (h : heap) : Prop :=
  processes_agree h /\ lists_mirror h
  /\ forall p, kind_at h p = Some KProcR \/ kind_at h p = Some KProcS ->
       fval h p "output_material" = PNone \/ exists m, fval h p "output_material" = PRef m.

(** The lists on the read-only sides exist. *)
Definition lists_exist (g : heap) : Prop :=
  forall ck cf pk lf p, listed ck cf pk lf -> kind_at g p = Some pk -> exists l, fval g p lf = PList l.

(** The name and labels stored in an ingredient run (which its spec hides, if it has one) hold no entities. *)
Definition plain_names (h : heap) (obj : pv) : Prop :=
  forall o f x, reachable h obj o -> kind_at h o = Some KIngR -> f = "name" \/ f = "labels" -> ~ mentions (fval h o f) x.

(** No reference points outside the heap. *)
Definition closed (h : heap) : Prop :=
  forall o e f v x, hget h o = Some e -> In (f, v) (e_fields e) -> mentions v x -> hget h x <> None.
