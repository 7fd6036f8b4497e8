(** What the text shown for an object should contain. *)
From Coq Require Import String List Bool Arith.
From Verif Require Import Base GraphModel GraphSpec EqSpec TravSpec SerialModel SerialSpec ViewModel ViewSpec ReprModel.
Import ListNotations.
Open Scope string_scope.
Open Scope list_scope.

(** What the classes are called. *)
Definition called : list (ekind * string) :=
  [ (KPropT, "PropertyTemplate"); (KCondT, "ConditionTemplate"); (KParamT, "ParameterTemplate")
  ; (KMatT, "MaterialTemplate"); (KMatS, "MaterialSpec"); (KMatR, "MaterialRun")
  ; (KProcT, "ProcessTemplate"); (KProcS, "ProcessSpec"); (KProcR, "ProcessRun")
  ; (KMeasT, "MeasurementTemplate"); (KMeasS, "MeasurementSpec"); (KMeasR, "MeasurementRun")
  ; (KIngS, "IngredientSpec"); (KIngR, "IngredientRun") ].

Section Shown.
  Variable h : heap.

  (** Entities shown by class and name only. *)
  Inductive by_name : pv -> rtree -> Prop :=
  | bn_none : by_name PNone RNone
  | bn_entity : forall o k c s, kind_at h o = Some k -> In (k, c) called -> (forall n, read h o "name" = PAtom (AStr n) -> s = n) ->
      by_name (PRef o) (RAtom (AStr ("<" ++ c ++ " '" ++ s ++ "'>")))
  | bn_list : forall l ts, Forall2 by_name l ts -> by_name (PList l) (RList ts).

  (** Objects in full: every attribute, the entities it holds in full as well, except that the
      read-only sides of two-sided references are shown by name. *)
  Inductive shown : pv -> rtree -> Prop :=
  | sh_none : shown PNone RNone
  | sh_atom : forall a, shown (PAtom a) (RAtom a)
  | sh_link : forall s i, shown (PLink s i) (RDict [("scope", RAtom (AStr s)); ("id", RAtom (AStr i))])
  | sh_list : forall l ts, Forall2 shown l ts -> shown (PList l) (RList ts)
  | sh_tuple : forall l ts, Forall2 shown l ts -> shown (PTuple l) (RTuple ts)
  | sh_dict : forall d ts, keys d = keys ts -> Forall2 shown (map snd d) (map snd ts) -> shown (PDict d) (RDict ts)
  | sh_obj : forall t fs ts, keys fs = keys ts -> Forall2 shown (map snd fs) (map snd ts) ->
      shown (PObj t fs) (RDict (ts ++ [("type", RAtom (AStr t))]))
  | sh_entity : forall o e ts, hget h o = Some e ->
      (forall f, In f (keys ts) <-> f = "uids" \/ f = "type" \/ In f (keys (e_fields e)) \/ read_only (e_kind e) f) ->
      dict_get "type" ts = Some (RAtom (AStr (typ_of (e_kind e)))) ->
      dict_get "uids" ts = Some (RDict (map (fun p => (fst p, RAtom (AStr (snd p)))) (e_uids e))) ->
      (forall f, In f (keys (e_fields e)) -> ~ read_only (e_kind e) f -> exists t, dict_get f ts = Some t /\ shown (read h o f) t) ->
      (forall f, read_only (e_kind e) f -> exists t, dict_get f ts = Some t /\ by_name (read h o f) t) ->
      shown (PRef o) (RDict ts).
End Shown.

(** [x] is shown in full as part of [o]. *)
Inductive in_full (h : heap) (o : oid) : oid -> Prop :=
| if_self : in_full h o o
| if_field : forall x e f y, in_full h o x -> hget h x = Some e -> ~ read_only (e_kind e) f -> mentions (read h x f) y -> in_full h o y.

(** The graph [h'] differs from [h] only in entities that are not shown in full as part of [o], and
    those shown by name keep class and name. *)
Definition same_view (h h' : heap) (o : oid) : Prop :=
  (forall x, in_full h o x -> hget h' x = hget h x)
  /\ forall x e f y, in_full h o x -> hget h x = Some e -> read_only (e_kind e) f -> mentions (read h x f) y ->
       kind_at h' y = kind_at h y /\ read h' y "name" = read h y "name".

(** The tree [j] writes a value in full, the read-only sides left out; keys in any order. *)
Section Written.
  Variable h : heap.
  Inductive written : pv -> json -> Prop :=
  | wr_none : written PNone JNull
  | wr_atom : forall a, written (PAtom a) (JAtom a)
  | wr_link : forall s i, written (PLink s i)
      (JObj [("id", JAtom (AStr i)); ("scope", JAtom (AStr s)); ("type", JAtom (AStr "link_by_uid"))])
  | wr_list : forall l js, Forall2 written l js -> written (PList l) (JArr js)
  | wr_tuple : forall l js, Forall2 written l js -> written (PTuple l) (JArr js)
  | wr_dict : forall d js, (forall k j, In (k, j) js -> exists v, In (k, v) d /\ written v j) ->
      (forall k v, In (k, v) d -> exists j, In (k, j) js /\ written v j) -> written (PDict d) (JObj js)
  | wr_obj : forall t fs js, (forall k j, In (k, j) js -> (k = "type" /\ j = JAtom (AStr t)) \/ exists v, In (k, v) fs /\ written v j) ->
      (forall k v, In (k, v) fs -> exists j, In (k, j) js /\ written v j) -> In ("type", JAtom (AStr t)) js ->
      written (PObj t fs) (JObj js)
  | wr_entity : forall o e js, hget h o = Some e ->
      (forall f, In f (keys js) <-> f = "uids" \/ f = "type" \/ (In f (keys (e_fields e)) /\ ~ read_only (e_kind e) f)) ->
      In ("type", JAtom (AStr (typ_of (e_kind e)))) js ->
      (forall f j, In (f, j) js -> In f (keys (e_fields e)) -> f <> "uids" -> f <> "type" -> written (read h o f) j) ->
      (exists us, In ("uids", JObj us) js /\ forall s j, In (s, j) us <-> exists i, j = JAtom (AStr i) /\ In (s, i) (e_uids e)) ->
      written (PRef o) (JObj js).
End Written.

(** The data a program gives besides references hold no entities other than attribute templates; those
    of attribute templates, and names, hold none. *)
Definition plain_data (h : heap) (op : nop) : Prop :=
  match op with
  | NNew k _ name _ extra =>
      (forall x, ~ mentions name x) /\ ~ In "uids" (keys extra) /\ ~ In "type" (keys extra) /\
      forall f v x, In (f, v) extra -> mentions v x -> attribute_template h x /\ ~ In k [KPropT; KCondT; KParamT]
  | NName _ v => forall x, ~ mentions v x
  | _ => True
  end.

(** A history of constructions and assignments in which they do. *)
Fixpoint plain_history (eq : heap -> pv -> oid -> bool) (h : heap) (ops : list nop) : Prop :=
  match ops with
  | [] => True
  | op :: r => plain_data h op /\ plain_history eq (fst (nstep eq h op)) r
  end.
