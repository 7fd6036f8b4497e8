(** What the builders should do with every argument. *)
From Coq Require Import String List Bool Arith ZArith QArith.
From Verif Require Import Base BoundsModel BoundsSpec ValuesSpec GraphModel GraphSpec BuildModel BuildSpec.
From Verif Require DictModel.
Import ListNotations.
Open Scope string_scope.
Open Scope nat_scope.
Open Scope list_scope.

(** ** make_value *)

(** The value made of a number, a string or None (which is [MNum PyNone]) for given bounds. An integer
    for real bounds becomes the nearest double. *)
Inductive makes : primitive -> bounds -> value -> Prop :=
| mk_real_int : forall z lo hi u, (Z.abs (DictModel.round53 z) < 2 ^ 1024)%Z ->
    makes (MNum (PyInt z)) (BReal lo hi u) (VNominalReal (PyFloat (inject_Z (DictModel.round53 z))) u)
| mk_real_float : forall x lo hi u, x <> PyNone -> (forall z, x <> PyInt z) -> makes (MNum x) (BReal lo hi u) (VNominalReal x u)
| mk_integer : forall x q z lo hi, num_value x = Some q -> (q == inject_Z z)%Q -> makes (MNum x) (BInt lo hi) (VNominalInteger z)
| mk_category : forall s cs, makes (MStr s) (BCat cs) (VNominalCategorical (Some s))
| mk_no_category : forall cs, makes (MNum PyNone) (BCat cs) (VNominalCategorical None)
| mk_formula : forall s cs, (forall t, element_token s t -> In t symbols) -> makes (MStr s) (BComp cs) (VEmpiricalFormula (Some s))
| mk_no_formula : forall cs, makes (MNum PyNone) (BComp cs) (VEmpiricalFormula None)
| mk_inchi : forall r, makes (MStr ("InChI=" ++ r)) BMol (VInChI (Some ("InChI=" ++ r)%string))
| mk_smiles : forall s, (forall r, s <> ("InChI=" ++ r)%string) -> makes (MStr s) BMol (VSmiles (Some s))
| mk_no_smiles : makes (MNum PyNone) BMol (VSmiles None).

Definition a_number (x : primitive) : Prop := exists n, x = MNum n /\ n <> PyNone.
Definition neither (x : primitive) : Prop := a_number x \/ x = MOther.

(** The exception raised instead. *)
Inductive makes_none : primitive -> bounds -> exn -> Prop :=
| no_real : forall x lo hi u, ~ a_number x -> makes_none x (BReal lo hi u) AssertionError
| no_real_large : forall z lo hi u, (2 ^ 1024 <= Z.abs (DictModel.round53 z))%Z -> makes_none (MNum (PyInt z)) (BReal lo hi u) OverflowError
| no_integer : forall x lo hi, ~ a_number x -> makes_none x (BInt lo hi) TypeError
| no_integer_between : forall q lo hi, (forall z, ~ (q == inject_Z z)%Q) -> makes_none (MNum (PyFloat q)) (BInt lo hi) TypeError
| no_integer_nan : forall lo hi, makes_none (MNum PyNaN) (BInt lo hi) ValueError
| no_integer_inf : forall x lo hi, x = PyInf \/ x = PyNegInf -> makes_none (MNum x) (BInt lo hi) OverflowError
| no_category : forall x cs, neither x -> makes_none x (BCat cs) TypeError
| no_formula : forall x cs, neither x -> makes_none x (BComp cs) TypeError
| no_element : forall s t cs, element_token s t -> ~ In t symbols -> makes_none (MStr s) (BComp cs) ValueError
| no_structure : forall x, neither x -> makes_none x BMol TypeError.

(** ** add_edge with an input that is no material run *)

(** The classes whose objects have a spec. *)
Definition is_run (k : ekind) : Prop := In k [KMatR; KProcR; KMeasR; KIngR].

(** [g] is [h] with an ingredient spec [s] more, which consumes [m] in the process of the spec of [b] and
    is added at the end of its ingredients; nothing else of [h] changes. *)
Record half_edge (h : heap) (b : oid) (n m : pv) (g : heap) (s : oid) : Prop := mkHalf {
  he_new : length h <= s < length g /\ kind_at g s = Some KIngS;
  he_name : read g s "name" = n;
  he_material : fval g s "material" = m;
  he_process : forall bs, fval h b "spec" = PRef bs -> fval g s "process" = fval h bs "process";
  he_list : forall bs q, fval h b "spec" = PRef bs -> fval h bs "process" = PRef q ->
    exists l, fval h q "ingredients" = PList l /\ fval g q "ingredients" = PList (l ++ [PRef s]);
  he_kept : forall o, o < length h -> kind_at g o = kind_at h o /\ option_map e_uids (hget g o) = option_map e_uids (hget h o);
  he_frame : forall o f, o < length h ->
    fval g o f = fval h o f \/ (f = "ingredients" /\ exists bs, fval h b "spec" = PRef bs /\ fval h bs "process" = PRef o) }.

(** ** add_attribute *)

(** The attribute lists of an object. *)
Definition attribute_lists (h : heap) : Prop := forall o k f, kind_at h o = Some k ->
  (exists t, goes_to k t f) \/ (k = KMatS /\ f = "properties") -> exists l, fval h o f = PList l.

(** The attribute [a] of type [t] is added to the target. *)
Inductive takes (rejects : heap -> oid -> string -> pv -> option exn) (h : heap) (t : string) (a : pv) : pv -> Prop :=
| tk_list : forall o k f, kind_at h o = Some k -> goes_to k t f -> rejects h o f a = None -> takes rejects h t a (PRef o)
| tk_property : forall o, kind_at h o = Some KMatS -> t = "property" -> rejects h o "properties" (alone a) = None -> takes rejects h t a (PRef o)
| tk_condition : forall o p l, kind_at h o = Some KMatS -> t = "condition" -> fval h o "properties" = PList (p :: l) -> takes rejects h t a (PRef o).

(** It is not, and [e] is raised: by the list, or because there is no list for it. *)
Inductive takes_not (rejects : heap -> oid -> string -> pv -> option exn) (h : heap) (t : string) (a : pv) : pv -> exn -> Prop :=
| tn_list : forall o k f e, kind_at h o = Some k -> goes_to k t f -> rejects h o f a = Some e -> takes_not rejects h t a (PRef o) e
| tn_property : forall o e, kind_at h o = Some KMatS -> t = "property" -> rejects h o "properties" (alone a) = Some e -> takes_not rejects h t a (PRef o) e
| tn_condition : forall o, kind_at h o = Some KMatS -> t = "condition" -> fval h o "properties" = PList [] -> takes_not rejects h t a (PRef o) ValueError
| tn_no_list : forall o k, kind_at h o = Some k -> (forall f, ~ goes_to k t f) -> ~ (k = KMatS /\ In t ["property"; "condition"]) ->
    takes_not rejects h t a (PRef o) ValueError
| tn_no_object : forall v, (forall o k, v = PRef o -> kind_at h o <> Some k) -> takes_not rejects h t a v ValueError.
