(** C38: objects survive their dictionaries. *)
From Coq Require Import String List Bool ZArith QArith Lia.
From Verif Require Import Base BaseFacts PyStr BoundsModel ValuesModel DictModel DictSpec DictFloat DictProofs.
From Verif Require RegModel RegSpec.
Import ListNotations.
Open Scope string_scope.
Open Scope list_scope.

(** from_dict(as_dict(x)) equals x for every class, every construction and every history of assignments, accepted or
    rejected, as long as the object's constructor would take its fields: its unit is shown as a text that is shown as
    itself, a UniformReal is in order, the nominal of a NominalReal is a float or an integer that is one, a set of
    categories has only strings, and the template of an attribute accepts its value now.

    Missing: the objects that are not so, for which it is false (below). *)
Theorem assigned_round_trip_partial : forall units check c s,
  object units check c s -> still_valid units check c s -> round_trips units check c s.
Proof.
  intros units check c s (kw & s0 & ops & F & C & O & ->) V. apply shape_round_trip; auto. apply history_shape; auto. now apply (call_shape units check c kw s0 F C).
Qed.
Print Assumptions assigned_round_trip_partial.

(** An object as it was constructed always survives, provided that texts of units are shown as themselves. *)
Theorem new_round_trip_partial : forall units check c s, (forall x t, units x = Ok t -> units t = Ok t) ->
  new_object units check c s -> round_trips units check c s.
Proof.
  intros units check c s St (kw & F & C). destruct (call_shape units check c kw s F C) as [Hs V]. apply shape_round_trip; auto. now apply new_valid.
Qed.
Print Assumptions new_round_trip_partial.

(** Of the classes without units, numbers that are plain attributes, sets or templates, every object survives. *)
Theorem plain_round_trip : forall units check c s, object units check c s ->
  In c [IntegerBounds; MolecularStructureBounds; NominalInteger; UniformInteger; NominalCategorical; DiscreteCategorical; NominalComposition;
        EmpiricalFormula; InChI; Smiles; PropertyAndConditions; FileLink; LinkByUID; PerformedSource] ->
  round_trips units check c s.
Proof.
  intros units check c s O I. apply assigned_round_trip_partial; auto. cbn in I. repeat (destruct I as [<- | I]; [exact Logic.I|]). contradiction.
Qed.
Print Assumptions plain_round_trip.

(** from_dict depends only on the entries named like arguments of the constructor: other keys, their values and the
    order of the entries make no difference. The entry "self" is an exception. *)
Theorem unknown_keys_ignored_partial : forall units check c d d',
  (forall k, In k (map fst (sig c)) -> get k d = get k d') -> get "self" d = None -> get "self" d' = None ->
  from_dict units check c d = from_dict units check c d'.
Proof.
  intros units check c d d' H S S'. unfold from_dict, call. rewrite !kept_keys by auto.
  rewrite (bind_args_get (sig c) _ (filter (fun p => mem (fst p) (init_sig c)) d')); auto.
  intros k I. rewrite !(get_filter _ (fun x => mem x (init_sig c))); auto; apply mem_In; now right.
Qed.
Print Assumptions unknown_keys_ignored_partial.
(** An unknown key "self" is not ignored, whatever the rest of the dictionary is. *)
Theorem self_key_refuted : forall units check c d v,
  ~ In "self" (map fst (sig c)) /\ from_dict units check c (("self", v) :: d) = Err TypeError.
Proof.
  intros units check c d v. assert (N : mem "self" (map fst (sig c)) = false) by (destruct c; reflexivity). split; [intros I; apply mem_In in I; congruence|].
  unfold from_dict, call. cbn [filter fst init_sig mem existsb]. rewrite String.eqb_refl. cbn [orb forallb fst]. now rewrite N.
Qed.
Print Assumptions self_key_refuted.

(** The type entry is the name under which the class is registered. *)
Theorem type_entry : forall units check c s d, as_dict units check c s = Ok d -> get "type" d = Some (DStr (typ c)).
Proof.
  intros units check c s d H. destruct c; cbn [as_dict] in H;
  try (destruct (getattr _ _ _ _ _) as [[]|]; try discriminate H; cbn [bind] in H; destruct (sort_set _); [|discriminate]; injection H as <-; reflexivity);
  try (injection H as <-; reflexivity);
  (destruct (read_all _ _ _ _ _) as [e|]; [|discriminate]; cbn [bind] in H; injection H as <-; now rewrite get_put).
Qed.
Print Assumptions type_entry.

(** The class statements of the package that lead to these classes, in the order of their execution: bases and typ. The classes
    of the package without a typ on the way: DictSerializable (0), BaseBounds (1), BaseValue (2), ContinuousValue (3),
    IntegerValue (4), CategoricalValue (5), CompositionValue (6), MolecularValue (7), BaseAttribute (8). *)
Definition class_statements : list RegModel.op :=
  [RegModel.Define true [] None []]
  ++ map (fun b => RegModel.Define false [b] None []) [0; 0; 2; 2; 2; 2; 2; 0]%nat
  ++ map (fun p => RegModel.Define false [fst p] (Some (snd p)) [])
       [(1, "real_bounds"); (1, "integer_bounds"); (1, "categorical_bounds"); (1, "composition_bounds"); (1, "molecular_structure_bounds");
        (3, "nominal_real"); (3, "normal_real"); (3, "uniform_real"); (4, "nominal_integer"); (4, "uniform_integer");
        (5, "nominal_categorical"); (5, "discrete_categorical"); (6, "nominal_composition"); (6, "empirical_formula"); (7, "inchi"); (7, "smiles");
        (8, "property"); (8, "condition"); (8, "parameter"); (0, "property_and_conditions"); (0, "file_link"); (0, "link_by_uid"); (0, "performed_source")]%nat.
Definition classes : list cls :=
  [RealBounds; IntegerBounds; CategoricalBounds; CompositionBounds; MolecularStructureBounds; NominalReal; NormalReal; UniformReal; NominalInteger;
   UniformInteger; NominalCategorical; DiscreteCategorical; NominalComposition; EmpiricalFormula; InChI; Smiles; AProperty; ACondition; AParameter;
   PropertyAndConditions; FileLink; LinkByUID; PerformedSource].
Theorem type_registered : forall c, exists i, nth_error classes i = Some c /\
  RegSpec.holder (RegModel.run RegModel.start class_statements) (typ c) = Some (9 + i)%nat /\
  RegModel.typ_of_class (RegModel.run RegModel.start class_statements) (9 + i)%nat = Some (typ c).
Proof.
  intros c. destruct c;
  [exists 0%nat|exists 1%nat|exists 2%nat|exists 3%nat|exists 4%nat|exists 5%nat|exists 6%nat|exists 7%nat|exists 8%nat|exists 9%nat|exists 10%nat|exists 11%nat
  |exists 12%nat|exists 13%nat|exists 14%nat|exists 15%nat|exists 16%nat|exists 17%nat|exists 18%nat|exists 19%nat|exists 20%nat|exists 21%nat|exists 22%nat];
  vm_compute; repeat split; reflexivity.
Qed.
Theorem types_distinct : forall a b, typ a = typ b -> a = b.
Proof. intros a b H. destruct a, b; try reflexivity; discriminate H. Qed.

(** ** Where it fails *)
Definition plain_units (s : string) : res string := Ok s.
Definition no_check (t v : dv) : option exn := None.
Definition made (c : cls) (kw : vars) (ops : list (string * dv)) : vars :=
  match call plain_units no_check c kw with Ok s => history plain_units no_check c s ops | Err _ => [] end.
Definition again (c : cls) (s : vars) : res vars := do d <- as_dict plain_units no_check c s; from_dict plain_units no_check c d.

(** A composition given as a list of pairs: each component has the quantity that was given for it last. *)
Theorem composition_of_pairs : forall (l : list (string * dv)) (tuples : bool),
  let pair (p : string * dv) := let kv := [DStr (fst p); snd p] in if tuples then DTuple kv else DList kv in
  exists d, call plain_units no_check NominalComposition [("quantities", DList (map pair l))] = Ok [("_quantities", DDict d)] /\
  forall k v, In (DStr k, v) d <-> exists before after, l = before ++ (k, v) :: after /\ ~ In k (map fst after).
Proof.
  intros l tuples pair.
  set (ps := map (fun p => (DStr (fst p), snd p)) l).
  assert (P : pairs_of (map pair l) = Ok ps).
  { unfold ps. clear ps. induction l as [|[k v] l IH]; cbn [map pairs_of]; auto.
    assert (E : pair_of (pair (k, v)) = Ok (DStr k, v)) by (unfold pair; destruct tuples; reflexivity).
    rewrite E. cbn [bind]. rewrite IH. reflexivity. }
  exists (keep_last ps). split.
  { unfold call. cbn -[quantities keep_last map]. unfold checked. cbn [quantities]. rewrite P. reflexivity. }
  unfold ps. clear P ps. induction l as [|[k v] l IH]; intros k' v'; cbn [map keep_last fst snd].
  - split; [intros []|]. intros ([|? ?] & ? & H & _); discriminate.
  - assert (X : existsb (fun p => same_text (DStr k) (fst p)) (map (fun p => (DStr (fst p), snd p)) l) = true <-> In k (map fst l)).
    { rewrite existsb_exists. split.
      - intros (p & I & Q). apply in_map_iff in I as ((k2 & v2) & <- & I). cbn in Q. apply String.eqb_eq in Q. subst.
        apply in_map_iff. exists (k2, v2). auto.
      - intros I. apply in_map_iff in I as ((k2 & v2) & E & I). cbn in E. subst. exists (DStr k, v2). split; [|apply String.eqb_refl].
        apply in_map_iff. exists (k, v2). auto. }
    destruct (existsb _ _) eqn:E.
    + rewrite IH. split.
      * intros (b & a & -> & N). exists ((k, v) :: b), a. auto.
      * intros ([|p b] & a & H & N); cbn in H; injection H; intros; subst; [|eauto].
        destruct N. apply X; auto.
    + cbn [In]. rewrite IH. split.
      * intros [H|(b & a & -> & N)]; [|exists ((k, v) :: b), a; auto]. injection H as <- <-. exists [], l. split; auto.
        intros I. apply X in I. discriminate.
      * intros ([|p b] & a & H & N); cbn in H; injection H; intros; subst; [auto|]. right. eauto.
Qed.
Print Assumptions composition_of_pairs.

(** A UniformReal whose lower bound was raised over its upper bound is not accepted back. *)
Theorem uniform_real_refuted : again UniformReal (made UniformReal [("lower_bound", DInt 0); ("upper_bound", DInt 1); ("units", DStr "m")] [("lower_bound", DInt 2)]) = Err AssertionError.
Proof. vm_compute. reflexivity. Qed.
(** A NominalReal that was assigned a large integer comes back as another number. *)
Theorem nominal_real_refuted :
  let x := made NominalReal [("nominal", DInt 0); ("units", DStr "m")] [("nominal", DInt (2 ^ 53 + 1))] in
  getattr plain_units no_check NominalReal "nominal" x = Ok (DInt (2 ^ 53 + 1)) /\
  (do y <- again NominalReal x; getattr plain_units no_check NominalReal "nominal" y) = Ok (DFloat (Fin (inject_Z (2 ^ 53)))).
Proof. vm_compute. split; reflexivity. Qed.
(** Categories that were refused are there nonetheless; the object is not accepted back, or cannot be written at all. *)
Theorem categories_refuted :
  again CategoricalBounds (made CategoricalBounds [("categories", DList [DStr "a"])] [("categories", DList [DInt 1])]) = Err ValueError /\
  again CategoricalBounds (made CategoricalBounds [("categories", DList [DStr "a"])] [("categories", DList [DStr "b"; DInt 1])]) = Err TypeError.
Proof. vm_compute. split; reflexivity. Qed.
(** A property that was accepted when it was made is not accepted back once its template (or the validation level)
    refuses its value. *)
Theorem template_changed_refuted :
  let x := made AProperty [("name", DStr "p"); ("template", DEntity PropertyTemplate 0); ("value", DObj NominalInteger [("_nominal", DInt 7)])] [] in
  getattr plain_units no_check AProperty "template" x = Ok (DEntity PropertyTemplate 0) /\
  (do d <- as_dict plain_units no_check AProperty x; from_dict plain_units (fun _ _ => Some ValueError) AProperty d) = Err ValueError.
Proof. vm_compute. split; reflexivity. Qed.

(** *** The hypotheses are met *)
Lemma int_float : forall z, float_exact z = true -> (Z.abs z < 2 ^ 1024)%Z -> is_float (inject_Z z).
Proof. intros z F B. rewrite <- (round53_exact z F) in B |- *. now apply round53_float. Qed.
Definition ex_ops : list (string * dv) :=
  [("upper_bound", DInt 10); ("lower_bound", DInt 20); ("lower_bound", DFloat (Fin (5 # 1))); ("default_units", DStr "kg"); ("default_units", DNone)].
Definition ex_args : vars := [("default_units", DStr "m"); ("upper_bound", DInt 3); ("lower_bound", DInt (-1))].
Example assigned_ex : let s := made RealBounds ex_args ex_ops in
  object plain_units no_check RealBounds s /\ still_valid plain_units no_check RealBounds s /\
  s = [("_default_units", DStr "kg"); ("_lower_bound", DFloat (Fin (5 # 1))); ("_upper_bound", DFloat (Fin (10 # 1)))] /\
  as_dict plain_units no_check RealBounds s =
    Ok [("default_units", DStr "kg"); ("lower_bound", DFloat (Fin (5 # 1))); ("upper_bound", DFloat (Fin (10 # 1))); ("type", DStr "real_bounds")].
Proof.
  cbv zeta. split; [|split; [intros u U; reflexivity|split; vm_compute; reflexivity]].
  exists ex_args, (made RealBounds ex_args []), ex_ops.
  split; [repeat constructor|]. split; [vm_compute; reflexivity|]. split; [|vm_compute; reflexivity].
  assert (is_float (5 # 1)) by (apply (int_float 5); reflexivity).
  unfold ex_ops. repeat (apply Forall_cons; [split; [cbn; tauto|cbn; auto]|]). constructor.
Qed.
Definition ex_value := DObj NominalReal [("_units", DStr "m"); ("nominal", DFloat (Fin 1))].
Definition ex_link := DObj FileLink [("filename", DStr "f"); ("url", DStr "u")].
Definition ex_property : vars := [("name", DStr "p"); ("value", ex_value); ("template", DEntity PropertyTemplate 3); ("origin", DStr " Measured"); ("file_links", ex_link)].
Definition ex_dict : vars :=
  [("name", DStr "p"); ("notes", DNone); ("value", ex_value); ("template", DEntity PropertyTemplate 3); ("origin", DEnum "measured"); ("file_links", DList [ex_link]); ("type", DStr "property")].
Example property_ex : let s := made AProperty ex_property [] in
  new_object plain_units no_check AProperty s /\ as_dict plain_units no_check AProperty s = Ok ex_dict /\
  from_dict plain_units no_check AProperty (("colour", DInt 1) :: ex_dict) = Ok s.
Proof.
  cbv zeta. split; [|split; vm_compute; reflexivity]. exists ex_property. split; [repeat constructor|vm_compute; reflexivity].
Qed.
Example categories_ex : again CategoricalBounds (made CategoricalBounds [("categories", DSet [DStr "b"; DStr "a"; DStr "b"])] []) = Ok [("_categories", DSet [DStr "a"; DStr "b"])].
Proof. vm_compute. reflexivity. Qed.

Print Assumptions type_registered.
Print Assumptions types_distinct.
Print Assumptions uniform_real_refuted.
Print Assumptions nominal_real_refuted.
Print Assumptions categories_refuted.
Print Assumptions template_changed_refuted.
