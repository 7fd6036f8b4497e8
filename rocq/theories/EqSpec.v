(** What equality of entities should satisfy. *)
From Coq Require Import String List Bool Arith Permutation.
From Verif Require Import Base GraphModel EqModel.
Import ListNotations.
Open Scope string_scope.
Open Scope list_scope.

(** The same identifiers, whatever their order. *)
Definition same_pairs (u w : list (string * string)) : Prop := forall kv, In kv u <-> In kv w.

(** [v] mentions entity [o], at any depth. *)
Inductive mentions : pv -> oid -> Prop :=
| m_ref : forall o, mentions (PRef o) o
| m_list : forall l v o, In v l -> mentions v o -> mentions (PList l) o
| m_tuple : forall l v o, In v l -> mentions v o -> mentions (PTuple l) o
| m_dict : forall l k v o, In (k, v) l -> mentions v o -> mentions (PDict l) o
| m_obj : forall t l k v o, In (k, v) l -> mentions v o -> mentions (PObj t l) o.

(** ... deeper than as the value itself or as a member of the list that the value is. *)
Definition mentions_inside (v : pv) (o : oid) : Prop :=
  match items_of v with
  | Some l => exists x, In x l /\ (forall p, x <> PRef p) /\ mentions x o
  | None => (forall p, v <> PRef p) /\ mentions v o
  end.

Definition attribute_template (h : heap) (o : oid) : Prop :=
  kind_at h o = Some KPropT \/ kind_at h o = Some KCondT \/ kind_at h o = Some KParamT.

(** GEMD object graphs: attributes mention attribute templates only, and these mention nothing. *)
Definition layered (h : heap) : Prop :=
  (forall o f x, mentions_inside (read h o f) x -> attribute_template h x)
  /\ (forall o f x, attribute_template h o -> ~ mentions (read h o f) x).

(** A relation between entities that look the same: [R a b] makes [a] and [b] agree on type, uids
    and fields, related entities standing for each other. *)
Section Copies.
  Variable h : heap.
  Variable R : oid -> oid -> Prop.

  (** The same value, up to replacing entities by related ones and to the order of dictionaries. *)
  Fixpoint twin (v w : pv) {struct v} : Prop :=
    match v, w with
    | PNone, PNone => True
    | PAtom a, PAtom b => a = b
    | PLink s i, PLink t j => s = t /\ i = j
    | PRef a, PRef b => R a b
    | PList l, PList m | PTuple l, PTuple m =>
        (fix go (l m : list pv) : Prop :=
           match l, m with
           | [], [] => True
           | x :: l', y :: m' => twin x y /\ go l' m'
           | _, _ => False
           end) l m
    | PDict l, PDict m => NoDup (keys l) /\ NoDup (keys m) /\ length l = length m /\
        (fix go (l : list (string * pv)) : Prop :=
           match l with
           | [] => True
           | (k, x) :: r => (exists y, In (k, y) m /\ twin x y) /\ go r
           end) l
    | PObj t l, PObj u m => t = u /\ NoDup (keys l) /\ NoDup (keys m) /\ length l = length m /\
        (fix go (l : list (string * pv)) : Prop :=
           match l with
           | [] => True
           | (k, x) :: r => (exists y, In (k, y) m /\ twin x y) /\ go r
           end) l
    | _, _ => False
    end.

  (** Collections may differ in order; no two members of the second have the same uids. *)
  Definition alike (v w : pv) : Prop :=
    match items_of v, items_of w with
    | Some l, Some m =>
        (exists m', Permutation m' m /\ Forall2 twin l m')
        /\ (forall x y ex ey, In (PRef x) m -> In (PRef y) m -> hget h x = Some ex -> hget h y = Some ey ->
              same_pairs (e_uids ex) (e_uids ey) -> x = y)
    | _, _ => twin v w
    end.

  Definition copies : Prop :=
    (forall a b, R a b -> R b a)
    /\ forall a b, R a b -> exists ea eb, hget h a = Some ea /\ hget h b = Some eb /\
         e_kind ea = e_kind eb /\ same_pairs (e_uids ea) (e_uids eb) /\
         (forall f, In f (keys (e_fields ea)) <-> In f (keys (e_fields eb))) /\
         forall f, In f (keys (e_fields ea)) -> f <> "output_material" -> alike (read h a f) (read h b f).
End Copies.

(** Every entity's uids form a dictionary. *)
Definition uids_ok (h : heap) : Prop := forall o e, hget h o = Some e -> NoDup (keys (e_uids e)).
