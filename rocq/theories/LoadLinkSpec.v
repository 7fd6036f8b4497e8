(** What loading does with links. *)
From Coq Require Import String List Bool Arith.
From Verif Require Import Base GraphModel GraphSpec EqModel EqSpec TravSpec SerialModel SerialSpec.
Import ListNotations.
Open Scope string_scope.
Open Scope list_scope.

Section Spec.
  Variable lower : string -> string.
  Variable known : string -> bool.
  Variable construct : heap -> string -> list (string * pv) -> res (list (string * pv)).

  (** Entity [c] has uid [i] under scope [s], in some casing of [s]. *)
  Definition has_uid (g : heap) (c : oid) (s i : string) : Prop := exists s', uid_of g c s' i /\ lower s' = lower s.

  (** [c] is the last such entity that this call of loads has made; those before [n0] existed already. *)
  Definition latest (n0 : nat) (g : heap) (s i : string) (c : oid) : Prop :=
    n0 <= c /\ has_uid g c s i /\ forall c', c < c' -> ~ has_uid g c' s i.

  (** A link is replaced by that entity; if there is none it stays. *)
  Definition resolves (n0 : nat) (g : heap) (s i : string) (v : pv) : Prop :=
    (exists c, v = PRef c /\ latest n0 g s i c)
    \/ (v = PLink s i /\ forall c, n0 <= c -> ~ has_uid g c s i).

  (** [d] holds the argument [v] for [f] (None if it is left out). *)
  Definition given (d : list (string * pv)) (f : string) (v : pv) : Prop :=
    match dict_get f d with Some w => v = w | None => v = PNone end.

  (** The uids written in a record: a mapping or a pair. A scope "seq" is left out (and must have an empty identifier), a scope "self" is refused. *)
  Definition written_uids (v : pv) (u : list (string * string)) : Prop :=
    (v = PNone /\ u = []) \/ (exists w, (v = PDict (map (fun p => (fst p, PAtom (AStr (snd p)))) w) \/ exists s i r, v = PList (PAtom (AStr s) :: PAtom (AStr i) :: r) /\ w = [(s, i)])
      /\ ~ In "self" (keys w) /\ (forall i, In ("seq", i) w -> i = "") /\ u = dict_update (filter (fun p => negb (String.eqb (fst p) "seq")) w) []).

  (** A record of class [k] with members [d] becomes a new entity that has the uids and the references of the
      record (whatever links in [d] have become), and its other attributes as the constructor makes
      them. The other entities keep their classes, their uids and all their fields but the read-only sides
      of two-sided references. *)
  Record makes (g : heap) (k : ekind) (d : list (string * pv)) (g' : heap) : Prop := mkMakes {
    mk_length : length g' = S (length g);
    mk_old : forall o e, hget g o = Some e -> exists e', hget g' o = Some e' /\ e_kind e' = e_kind e /\ e_uids e' = e_uids e
                /\ forall f, ~ read_only (e_kind e) f -> fget e' f = fget e f;
    mk_new : exists e u, hget g' (length g) = Some e /\ e_kind e = k /\ given d "uids" u /\ written_uids u (e_uids e)
                /\ (forall f, reference k f -> given d f (fget e f))
                /\ exists args fs, (forall f v, In (f, v) args <-> In (f, v) d /\ f <> "uids" /\ ~ reference k f)
                     /\ construct g (typ_of k) args = Ok fs
                     /\ forall f, ~ reference k f -> ~ read_only k f -> given fs f (fget e f)
  }.

  (** Reading a document, in the order of the text, takes the entities [g] to [g'] and gives [v]. *)
  Inductive reads (n0 : nat) : heap -> json -> pv -> heap -> Prop :=
  | rd_null : forall g, reads n0 g JNull PNone g
  | rd_atom : forall g a, reads n0 g (JAtom a) (PAtom a) g
  | rd_array : forall g js vs g', reads_all n0 g js vs g' -> reads n0 g (JArr js) (PList vs) g'
  | rd_object : forall g js kvs g' v g'', reads_members n0 g js kvs g' -> hooks n0 g' (dict_update kvs []) v g'' -> reads n0 g (JObj js) v g''
  with reads_all (n0 : nat) : heap -> list json -> list pv -> heap -> Prop :=
  | ra_nil : forall g, reads_all n0 g [] [] g
  | ra_cons : forall g j v g1 js vs g2, reads n0 g j v g1 -> reads_all n0 g1 js vs g2 -> reads_all n0 g (j :: js) (v :: vs) g2
  with reads_members (n0 : nat) : heap -> list (string * json) -> list (string * pv) -> heap -> Prop :=
  | rm_nil : forall g, reads_members n0 g [] [] g
  | rm_cons : forall g k j v g1 js kvs g2, reads n0 g j v g1 -> reads_members n0 g1 js kvs g2 -> reads_members n0 g ((k, j) :: js) ((k, v) :: kvs) g2
  (** What an object stands for, given its members. *)
  with hooks (n0 : nat) : heap -> list (string * pv) -> pv -> heap -> Prop :=
  | hk_dict : forall g d, ~ In "type" (keys d) -> hooks n0 g d (PDict d) g
  | hk_link : forall g d s i v, dict_get "type" d = Some (PAtom (AStr "link_by_uid")) ->
      dict_get "scope" d = Some (PAtom (AStr s)) -> dict_get "id" d = Some (PAtom (AStr i)) -> resolves n0 g s i v -> hooks n0 g d v g
  | hk_entity : forall g d k g', dict_get "type" d = Some (PAtom (AStr (typ_of k))) -> makes g k (dict_del "type" d) g' ->
      hooks n0 g d (PRef (length g)) g'
  | hk_value : forall g d t fs, dict_get "type" d = Some (PAtom (AStr t)) -> known t = true -> kind_of t = None -> t <> "link_by_uid" ->
      construct g t (dict_del "type" d) = Ok fs -> hooks n0 g d (PObj t fs) g.
End Spec.
