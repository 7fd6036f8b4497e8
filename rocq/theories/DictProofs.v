(** What objects look like after any history, and that they go through their dictionaries. *)
From Coq Require Import String List Bool ZArith QArith Qabs Lia.
From Verif Require Import Base BaseFacts PyStr BoundsModel ValuesModel ValuesProofs ValuesProperties DictModel DictSpec DictFloat.
Import ListNotations.
Open Scope string_scope.
Open Scope list_scope.

(** ** Sorted texts *)
Inductive ascending : list string -> Prop :=
| asc_nil : ascending []
| asc_one s : ascending [s]
| asc_cons s t r : String.compare s t = Lt -> ascending (t :: r) -> ascending (s :: t :: r).
Lemma compare_flip : forall s t, String.compare s t = Gt -> String.compare t s = Lt.
Proof. intros s t H. rewrite String.compare_antisym, H. reflexivity. Qed.
Lemma insert_ascending : forall s l, ascending l -> ascending (insert_text s l).
Proof.
  intros s l H. induction H as [|t|t u r C A IH]; cbn [insert_text].
  - constructor.
  - destruct (String.compare s t) eqn:E; repeat constructor; auto. now apply compare_flip.
  - destruct (String.compare s t) eqn:E.
    + now constructor.
    + constructor; auto. now constructor.
    + cbn [insert_text] in IH. destruct (String.compare s u) eqn:F; constructor; auto. now apply compare_flip.
Qed.
Lemma sort_ascending : forall l, ascending (sort_texts l).
Proof. induction l as [|s l IH]; [constructor|]. now apply insert_ascending. Qed.
Lemma sort_sorted : forall l, ascending l -> sort_texts l = l.
Proof.
  induction l as [|s l IH]; intros H; auto. change (sort_texts (s :: l)) with (insert_text s (sort_texts l)). inversion H; subst; auto.
  rewrite IH by auto. cbn [insert_text]. now rewrite H2.
Qed.
Lemma texts_strings : forall l, texts (map DStr l) = Some l.
Proof. induction l as [|s l IH]; cbn; auto. now rewrite IH. Qed.
Lemma strings_are_str : forall l, forallb is_str (map DStr l) = true.
Proof. induction l; cbn; auto. Qed.
Lemma strings_hashable : forall l, forallb hashable (map DStr l) = true.
Proof. induction l; cbn; auto. Qed.
Lemma str_texts : forall l, forallb is_str l = true -> exists t, texts l = Some t.
Proof.
  induction l as [|v l IH]; intros H; [now exists []|]. cbn in H. apply andb_true_iff in H. destruct H as [V H]. destruct (IH H) as [t T].
  unfold is_str in V. cbn [texts]. destruct (text_of v) as [s|]; [|discriminate]. exists (s :: t). now rewrite T.
Qed.

Section Proofs.
  Variable units : string -> res string.
  Variable check : dv -> dv -> option exn.

  Definition unit_like (u : dv) : Prop := exists v, parse units v = Ok u.
  Lemma parse_like : forall v u, parse units v = Ok u -> unit_like u.
  Proof. intros v u H. now exists v. Qed.
  Lemma unit_like_cases : forall u, unit_like u -> (exists n, u = DUnit n) \/ exists x t, u = DStr t /\ units x = Ok t.
  Proof.
    intros u [v H]. destruct v; cbn in H; try discriminate; try (destruct (forallb _ _); discriminate).
    1-2: (destruct (units s) as [t|] eqn:E; [|discriminate]; injection H as <-; right; eauto).
    injection H as <-. eauto.
  Qed.
  Definition good_entry (v : dv) : Prop := v = DNone \/ is_str v = true.
  Definition good_probs (v : dv) : Prop := probabilities v = Ok v.

  (** The instance variables of an object. *)
  Definition shape (c : cls) (s : vars) : Prop :=
    match c with
    | RealBounds => exists u lo hi, s = [("_default_units", u); ("_lower_bound", DFloat (Fin lo)); ("_upper_bound", DFloat (Fin hi))] /\
        unit_like u /\ (lo <= hi)%Q /\ is_float lo /\ is_float hi
    | IntegerBounds => exists lo hi, s = [("_lower_bound", DInt lo); ("_upper_bound", DInt hi)] /\
        (lo <= hi)%Z /\ is_float (inject_Z lo) /\ is_float (inject_Z hi)
    | CategoricalBounds => exists l, s = [("_categories", DSet l)]
    | CompositionBounds => exists l, s = [("_components", DSet l)]
    | MolecularStructureBounds => s = []
    | NominalReal => exists u n, s = [("_units", u); ("nominal", n)] /\ unit_like u
    | NormalReal => exists u m d, s = [("_units", u); ("mean", m); ("std", d)] /\ unit_like u
    | UniformReal => exists u a b, s = [("_units", u); ("lower_bound", a); ("upper_bound", b)] /\ unit_like u
    | NominalInteger => exists z, s = [("_nominal", DInt z)]
    | UniformInteger => exists lo hi, s = [("_lower_bound", DInt lo); ("_upper_bound", DInt hi)] /\ (lo <= hi)%Z
    | NominalCategorical => exists v, s = [("_category", v)] /\ good_entry v
    | DiscreteCategorical => exists v, s = [("_probabilities", v)] /\ good_probs v
    | NominalComposition => exists l, s = [("_quantities", DDict l)]
    | EmpiricalFormula => exists v, s = [("_formula", v)] /\ formula v = Ok v
    | InChI => exists v, s = [("_inchi", v)] /\ inchi v = Ok v
    | Smiles => exists v, s = [("_smiles", v)] /\ good_entry v
    | AProperty | ACondition | AParameter => exists nm nt v t o l,
        s = [("name", nm); ("notes", nt); ("_value", v); ("_template", t); ("_origin", DEnum o); ("_file_links", DList l)] /\
        (v = DNone \/ is_value v = true) /\
        (t = DNone \/ (exists n, t = DEntity (template_of c) n) \/ is_a LinkByUID t = true) /\
        In o (map mvalue origins) /\ forallb (is_a FileLink) l = true
    | PropertyAndConditions => exists p l, s = [("_property", p); ("_conditions", DList l)] /\ is_a AProperty p = true /\ forallb (is_a ACondition) l = true
    | FileLink => exists a b, s = [("filename", a); ("url", b)]
    | LinkByUID => exists a b, s = [("scope", a); ("id", b)]
    | PerformedSource => exists a b, s = [("_performed_by", a); ("_performed_date", b)] /\ good_entry a /\ good_entry b
    end.

  (** ** What the setters store *)
  Lemma optional_str_good : forall v w, optional_str v = Ok w -> good_entry w.
  Proof. intros v w H. unfold optional_str in H. destruct v; try discriminate; injection H as <-; unfold good_entry; auto. Qed.
  Lemma good_optional_str : forall v, good_entry v -> optional_str v = Ok v.
  Proof. intros v [-> | H]; auto. unfold optional_str. rewrite H. now destruct v. Qed.
  Lemma probabilities_good : forall v w, probabilities v = Ok w -> good_probs w.
  Proof.
    intros v w H. unfold good_probs. destruct v; cbn [probabilities] in H; try discriminate; try (injection H as <-); auto.
    destruct (sum_values _ l) as [t|] eqn:S; [|discriminate]. cbn [bind] in H. destruct (off_one t) eqn:O; [discriminate|]. destruct (forallb _ l) eqn:F; [|discriminate].
    injection H as <-. cbn [probabilities]. now rewrite S; cbn [bind]; rewrite O, F.
  Qed.
  Lemma quantities_good : forall v w, quantities v = Ok w -> exists l, w = DDict l.
  Proof.
    intros v w H. destruct v; cbn [quantities] in H; try discriminate; try (injection H as <-; eauto).
    destruct (pairs_of l); [|discriminate]. injection H as <-. eauto.
  Qed.
  Lemma formula_good : forall v w, formula v = Ok w -> formula w = Ok w.
  Proof.
    intros v w H. unfold formula in H. destruct v; try discriminate; try (injection H as <-; reflexivity); cbn [text_of] in H;
    (destruct (subset _ _) eqn:S; [|discriminate]); injection H as <-; unfold formula; cbn [text_of]; now rewrite S.
  Qed.
  Lemma inchi_starts : forall s, startswith "InChI" (normal_inchi s) = true.
  Proof.
    intros s. destruct (inchi_prefix None s) as [b H]. cbn [set_inchi] in H. injection H as ->. exact (startswith_app "InChI" b).
  Qed.
  Lemma inchi_good : forall v w, inchi v = Ok w -> inchi w = Ok w.
  Proof.
    intros v w H. unfold inchi in H. destruct v; try discriminate; try (injection H as <-; reflexivity); cbn [text_of] in H;
    (destruct (startswith "InChI" s) eqn:S; injection H as <-; unfold inchi; cbn [text_of]; rewrite ?inchi_starts, ?S; reflexivity).
  Qed.
  Lemma integral_good : forall v w, integral v = Ok w -> exists z, w = DInt z /\ exists x, num v = Some x /\ int_like x = Ok z.
  Proof.
    intros v w H. unfold integral in H. destruct (num v) as [x|] eqn:N; [|discriminate]. destruct (int_like x) as [z|] eqn:I; [|discriminate]. injection H as <-. eauto 6.
  Qed.
  Lemma valid_list_good : forall c v w, valid_list c v = Ok w -> exists l, w = DList l /\ forallb (is_a c) l = true.
  Proof.
    intros c v w H. unfold valid_list in H. destruct v; try (injection H as <-; exists []; auto); cbv zeta in H;
    destruct (forallb _ _) eqn:F in H; try discriminate; injection H as <-; eexists; split; eauto; exact F.
  Qed.
  Lemma origin_good : forall v w, origin v = Ok w -> exists o, w = DEnum o /\ In o (map mvalue origins).
  Proof.
    intros v w H. assert (X : exists s, (do m <- from_str origins (Some s) true; match m with Some m => Ok (DEnum (mvalue m)) | None => Err ValueError end) = Ok w).
    { unfold origin in H. destruct v; cbn [text_of] in H; try discriminate; eauto. }
    destruct X as [s X]. unfold from_str in X. destruct (find _ origins) as [m|] eqn:F; [|discriminate]. cbn [bind] in X. injection X as <-. eexists. split; eauto.
    apply in_map. apply find_some in F. apply F.
  Qed.
  Lemma origin_back : forall o, In o (map mvalue origins) -> origin (DEnum o) = Ok (DEnum o).
  Proof. intros o H. cbn in H. repeat destruct H as [<- | H]; try destruct H; vm_compute; reflexivity. Qed.

  (** Bounds that are real numbers. *)
  Lemma above_false : forall v h, above v (DFloat (Fin h)) = Ok false -> isfinite v = Ok true -> exists q, (match v with DInt z => q = inject_Z z | DFloat (Fin x) => q = x | _ => False end) /\ (q <= h)%Q.
  Proof.
    intros v h H F. unfold above, py_le in H. destruct v as [|z|f| | | | | | | | |]; cbn in F; try discriminate.
    - cbn [num text_of] in H. unfold pynum_le in H. cbn [num_value bind] in H. exists (inject_Z z). split; auto. apply Qle_bool_iff. destruct (Qle_bool _ _); auto; discriminate.
    - destruct f as [x| | |]; try discriminate. cbn [num text_of] in H. unfold pynum_le in H. cbn [num_value bind] in H. exists x. split; auto. apply Qle_bool_iff. destruct (Qle_bool _ _); auto; discriminate.
  Qed.
  Lemma below_false : forall v h, below v (DFloat (Fin h)) = Ok false -> isfinite v = Ok true -> exists q, (match v with DInt z => q = inject_Z z | DFloat (Fin x) => q = x | _ => False end) /\ (h <= q)%Q.
  Proof.
    intros v h H F. unfold below, py_le in H. destruct v as [|z|f| | | | | | | | |]; cbn in F; try discriminate.
    - cbn [num text_of] in H. unfold pynum_le in H. cbn [num_value bind] in H. exists (inject_Z z). split; auto. apply Qle_bool_iff. destruct (Qle_bool _ _); auto; discriminate.
    - destruct f as [x| | |]; try discriminate. cbn [num text_of] in H. unfold pynum_le in H. cbn [num_value bind] in H. exists x. split; auto. apply Qle_bool_iff. destruct (Qle_bool _ _); auto; discriminate.
  Qed.
  Definition other_free (o : option dv) : Prop := o = None \/ o = Some DNone.
  Lemma set_real_stored : forall k other bad s v s' e, real_float v -> set_real k other bad s v = (s', e) ->
    (s' = s /\ e <> None) \/
    (exists q, e = None /\ s' = put ("_" ++ k)%string (DFloat (Fin q)) s /\ is_float q /\
       (other_free (get other s) \/ exists h, get other s = Some h /\ bad v h = Ok false) /\ isfinite v = Ok true /\
       match v with DInt z => q = inject_Z (round53 z) | DFloat (Fin x) => q = x | _ => False end).
  Proof.
    intros k other bad s v s' e R H. unfold set_real, checked in H.
    match type of H with match ?t with _ => _ end = _ => destruct t as [w|x] eqn:E end; injection H as <- <-; [right|left; split; [auto|discriminate]].
    assert (N : v <> DNone) by (intros ->; discriminate). replace (match v with DNone => true | _ => false end) with false in E by (destruct v; congruence).
    destruct (isfinite v) as [[]|] eqn:F; try discriminate. cbn [bind negb] in E.
    assert (B : (other_free (get other s) \/ exists h, get other s = Some h /\ bad v h = Ok false) /\ to_float v = Ok w).
    { unfold other_free. destruct (get other s) as [h|]; [|now auto]. destruct h; cbn [bind] in E; auto;
      match type of E with context [bad v ?h] => destruct (bad v h) as [[]|] eqn:G; try discriminate; split; [right; exists h; auto|exact E] end. }
    destruct B as [B T]. destruct v as [|z|f| | | | | | | | |]; cbn in F; try discriminate.
    - cbn [to_float] in T. destruct (Z.abs (round53 z) <? 2 ^ 1024)%Z eqn:L; [|discriminate]. injection T as <-. exists (inject_Z (round53 z)). repeat split; auto. apply round53_float. now apply Z.ltb_lt.
    - destruct f as [x| | |]; try discriminate. injection T as <-. exists x. repeat split; auto.
  Qed.
  (** Bounds that are integers. *)
  Lemma int_checked_float : forall v z, real_float v -> (match num v with Some x => int_checked x | None => Err TypeError end) = Ok z ->
    is_float (inject_Z z) /\ (exists x p, num v = Some x /\ num_value x = Some p /\ (p == inject_Z z)%Q /\ (forall h, pynum_le x (PyInt h) = Ok (Qle_bool p (inject_Z h)) /\ pynum_le (PyInt h) x = Ok (Qle_bool (inject_Z h) p))).
  Proof.
    intros v z R H. destruct v as [|y|f| | | | | | | | |]; cbn [num] in *; try discriminate.
    - cbn [int_checked] in H. destruct (Z.abs y <? 2 ^ 1024 - 2 ^ 970)%Z eqn:L; [|discriminate]. destruct (float_exact y) eqn:F; [|discriminate]. injection H as <-. split.
      + rewrite <- (round53_exact y F). apply round53_float. rewrite (round53_exact y F). apply BoundsProofs.exact_below. now apply Z.ltb_lt.
      + exists (PyInt y), (inject_Z y). repeat split; auto.
    - destruct f as [x| | |]; cbn [int_checked] in H; try discriminate. destruct (Z.eqb (Zpos (Qden (Qred x))) 1) eqn:D; [|discriminate]. injection H as <-. destruct (float_is_int x R D) as [Q F]. split; auto.
      exists (PyFloat x), x. repeat split; auto.
  Qed.
  Lemma integral_value : forall v w, integral v = Ok w -> exists z, w = DInt z /\
    (exists x p, num v = Some x /\ num_value x = Some p /\ (p == inject_Z z)%Q /\ (forall h, pynum_le x (PyInt h) = Ok (Qle_bool p (inject_Z h)) /\ pynum_le (PyInt h) x = Ok (Qle_bool (inject_Z h) p))).
  Proof.
    intros v w H. destruct (integral_good v w H) as (z & -> & x & N & I). exists z. split; auto. exists x.
    destruct x as [|y|q| | |]; cbn [int_like] in I; try discriminate.
    - injection I as ->. exists (inject_Z z). repeat split; auto.
    - destruct (Z.eqb _ 1) eqn:D; [|discriminate]. injection I as <-. exists q. repeat split; auto.
      rewrite <- (Qred_correct q) at 1. destruct (Qred q) as [n d]. cbn in *. destruct d; try discriminate. reflexivity.
  Qed.
  Lemma above_int : forall v x p h z, num v = Some x -> (forall h, pynum_le x (PyInt h) = Ok (Qle_bool p (inject_Z h)) /\ pynum_le (PyInt h) x = Ok (Qle_bool (inject_Z h) p)) ->
    (p == inject_Z z)%Q -> above v (DInt h) = Ok (h <? z)%Z.
  Proof.
    intros v x p h z N L P. unfold above, py_le. rewrite N. cbn [num]. destruct (L h) as [-> _]. cbn [bind]. f_equal.
    destruct (Qle_bool p (inject_Z h)) eqn:E; cbn [negb].
    - apply Qle_bool_iff in E. rewrite P, <- Zle_Qle in E. symmetry. apply Z.ltb_ge. lia.
    - symmetry. apply Z.ltb_lt. apply Z.lt_nge. intros C. rewrite Zle_Qle, <- P in C. apply Qle_bool_iff in C. congruence.
  Qed.
  Lemma below_int : forall v x p h z, num v = Some x -> (forall h, pynum_le x (PyInt h) = Ok (Qle_bool p (inject_Z h)) /\ pynum_le (PyInt h) x = Ok (Qle_bool (inject_Z h) p)) ->
    (p == inject_Z z)%Q -> below v (DInt h) = Ok (z <? h)%Z.
  Proof.
    intros v x p h z N L P. unfold below, py_le. rewrite N. cbn [num]. destruct (L h) as [_ ->]. cbn [bind]. f_equal.
    destruct (Qle_bool (inject_Z h) p) eqn:E; cbn [negb].
    - apply Qle_bool_iff in E. rewrite P, <- Zle_Qle in E. symmetry. apply Z.ltb_ge. lia.
    - symmetry. apply Z.ltb_lt. apply Z.lt_nge. intros C. rewrite Zle_Qle, <- P in C. apply Qle_bool_iff in C. congruence.
  Qed.
  Lemma set_int_stored : forall k other bad s v s' e, real_float v -> set_int k other bad s v = (s', e) ->
    (s' = s /\ e <> None) \/
    (exists z, e = None /\ s' = put ("_" ++ k)%string (DInt z) s /\ is_float (inject_Z z) /\
       (exists x p, num v = Some x /\ num_value x = Some p /\ (p == inject_Z z)%Q /\ (forall h, pynum_le x (PyInt h) = Ok (Qle_bool p (inject_Z h)) /\ pynum_le (PyInt h) x = Ok (Qle_bool (inject_Z h) p))) /\
       (other_free (get other s) \/ exists h, get other s = Some h /\ bad v h = Ok false)).
  Proof.
    intros k other bad s v s' e R H. unfold set_int, checked in H.
    match type of H with match ?t with _ => _ end = _ => destruct t as [w|x] eqn:E end; injection H as <- <-; [right|left; split; [auto|discriminate]].
    assert (N : v <> DNone) by (intros ->; discriminate).
    replace (match v with DNone => Err ValueError | _ => match num v with Some x => int_checked x | None => Err TypeError end end) with (match num v with Some x => int_checked x | None => Err TypeError end) in E by (destruct v; congruence).
    destruct (match num v with Some x => int_checked x | None => Err TypeError end) as [z|] eqn:C; [|discriminate]. cbn [bind] in E. destruct (int_checked_float v z R C) as [F G]. exists z.
    assert (B : (other_free (get other s) \/ exists h, get other s = Some h /\ bad v h = Ok false) /\ DInt z = w).
    { unfold other_free. destruct (get other s) as [h|]; [|injection E as <-; auto]. destruct h; cbn [bind] in E; try (injection E as <-; now auto);
      match type of E with context [bad v ?h] => destruct (bad v h) as [[]|] eqn:G'; try discriminate; injection E as <-; split; [right; exists h; auto|reflexivity] end. }
    destruct B as [B <-]. auto 6.
  Qed.

  Lemma set_value_stored : forall s v s' e, set_value check s v = (s', e) ->
    (s' = s /\ e <> None) \/ (e = None /\ s' = put "_value" v s /\ (v = DNone \/ is_value v = true)).
  Proof.
    intros s v s' e H. unfold set_value, checked in H.
    match type of H with match ?t with _ => _ end = _ => destruct t as [w|x] eqn:E end; injection H as <- <-; [right|left; split; [auto|discriminate]].
    assert (X : w = v /\ (v = DNone \/ is_value v = true)).
    { destruct v; cbn iota in E; try (injection E as <-; now auto); destruct (is_value _) eqn:V; try discriminate E; (split; [|now right]);
      (destruct (get "_template" s) as [t|]; [destruct t; try (now injection E); (destruct (check _ _); [discriminate|now injection E])|now injection E]). }
    destruct X as [-> V]. auto.
  Qed.
  Lemma set_template_stored : forall k s v s' e, set_template check k s v = (s', e) ->
    (s' = s /\ e <> None) \/ (e = None /\ s' = put "_template" v s /\ (v = DNone \/ (exists n, v = DEntity k n) \/ is_a LinkByUID v = true) /\
      forall j n w, v = DEntity j n -> get "_value" s = Some w -> w <> DNone -> check v w = None).
  Proof.
    intros k s v s' e H. unfold set_template, checked in H.
    match type of H with match ?t with _ => _ end = _ => destruct t as [w|x] eqn:E end; injection H as <- <-; [right|left; split; [auto|discriminate]].
    destruct v as [| | | | | | | | | |j n|c vs]; cbn iota in E; try discriminate.
    - injection E as <-. repeat split; auto. discriminate.
    - destruct (tkind_eqb k j) eqn:T; [|discriminate]. assert (j = k) by (destruct k, j; auto; discriminate). subst j.
      assert (X : w = DEntity k n /\ forall x, get "_value" s = Some x -> x <> DNone -> check (DEntity k n) x = None).
      { destruct (get "_value" s) as [x|]; [|split; [now injection E|discriminate]].
        destruct x; try (split; [now injection E|intros y Y N; injection Y as <-; contradiction]);
        (destruct (check _ _) eqn:C; [discriminate|]; split; [now injection E|intros y Y _; now injection Y as <-]). }
      destruct X as [-> X]. repeat split; eauto.
    - destruct (is_a LinkByUID _) eqn:L; [|discriminate]. injection E as <-. repeat split; auto. discriminate.
  Qed.

  (** ** Assignments keep the shape *)
  Ltac pick H := cbn [sig map fst] in H; repeat (destruct H as [<- | H]; [|]); try contradiction H.
  Definition is_attr (c : cls) : Prop := c = AProperty \/ c = ACondition \/ c = AParameter.
  Lemma setattr_attr : forall c k s v, is_attr c -> shape c s -> In k (map fst (sig c)) -> shape c (fst (setattr units check c k s v)).
  Proof.
    intros c k s v A Hs I. destruct A as [-> | [-> | ->]]; cbn [shape] in Hs |- *.
    all: destruct Hs as (nm & nt & w & t & o & l & -> & W & T & O & F); pick I; unfold setattr; cbn [setter String.eqb Ascii.eqb Bool.eqb readonly];
      [ cbn; do 6 eexists; eauto
      | match goal with |- context [set_template ?a ?b ?c ?d] => destruct (set_template a b c d) as [s' e] eqn:E end; apply set_template_stored in E;
        destruct E as [[-> _]|(_ & -> & T' & _)]; cbn; do 6 eexists; eauto 7
      | unfold checked; destruct (origin v) as [x|] eqn:P; cbn [fst]; [apply origin_good in P; destruct P as (y & -> & Y); cbn|]; do 6 eexists; eauto 7
      | match goal with |- context [set_value ?a ?b ?c] => destruct (set_value a b c) as [s' e] eqn:E end; apply set_value_stored in E;
        destruct E as [[-> _]|(_ & -> & T')]; cbn; do 6 eexists; eauto 7
      | cbn; do 6 eexists; eauto
      | unfold checked; destruct (valid_list FileLink v) as [x|] eqn:P; cbn [fst]; [apply valid_list_good in P; destruct P as (y & -> & Y); cbn|]; do 6 eexists; eauto 7 ].
  Qed.
  Lemma setattr_shape : forall c k s v, shape c s -> In k (map fst (sig c)) -> real_float v -> shape c (fst (setattr units check c k s v)).
  Proof.
    intros c k s v Hs I R. destruct c; cbn [shape] in Hs |- *.
    - destruct Hs as (u & lo & hi & -> & U & L & Fl & Fh). pick I; unfold setattr; cbn [setter String.eqb Ascii.eqb Bool.eqb].
      + destruct (set_real _ _ _ _ v) as [s' e] eqn:E. apply set_real_stored in E; auto. destruct E as [[-> _]|(q & _ & -> & F & O & Fi & Q)]; cbn [fst].
        * exists u, lo, hi. auto.
        * cbn. exists u, q, hi. repeat split; auto. destruct O as [[O|O]|(h & O & B)]; try discriminate O. injection O as <-.
          apply above_false in B; auto. destruct B as (x & X & B). destruct v as [|z|f| | | | | | | | |]; try contradiction; [subst; now apply round53_above|]. destruct f; try contradiction. now subst.
      + destruct (set_real _ _ _ _ v) as [s' e] eqn:E. apply set_real_stored in E; auto. destruct E as [[-> _]|(q & _ & -> & F & O & Fi & Q)]; cbn [fst].
        * exists u, lo, hi. auto.
        * cbn. exists u, lo, q. repeat split; auto. destruct O as [[O|O]|(h & O & B)]; try discriminate O. injection O as <-.
          apply below_false in B; auto. destruct B as (x & X & B). destruct v as [|z|f| | | | | | | | |]; try contradiction; [subst; now apply round53_below|]. destruct f; try contradiction. now subst.
      + unfold checked. destruct (parse units v) as [w|] eqn:P; cbn [fst]; [|exists u, lo, hi; auto]. cbn. exists w, lo, hi. apply parse_like in P. auto.
    - destruct Hs as (lo & hi & -> & L & Fl & Fh). pick I; unfold setattr; cbn [setter String.eqb Ascii.eqb Bool.eqb].
      + destruct (set_int _ _ _ _ v) as [s' e] eqn:E. apply set_int_stored in E; auto. destruct E as [[-> _]|(z & _ & -> & F & (x & p & N & V & P & C) & O)]; cbn [fst].
        * exists lo, hi. auto.
        * cbn. exists z, hi. repeat split; auto. destruct O as [[O|O]|(h & O & B)]; try discriminate O. injection O as <-.
          rewrite (above_int v x p hi z N C P) in B. injection B as B. apply Z.ltb_ge in B. lia.
      + destruct (set_int _ _ _ _ v) as [s' e] eqn:E. apply set_int_stored in E; auto. destruct E as [[-> _]|(z & _ & -> & F & (x & p & N & V & P & C) & O)]; cbn [fst].
        * exists lo, hi. auto.
        * cbn. exists lo, z. repeat split; auto. destruct O as [[O|O]|(h & O & B)]; try discriminate O. injection O as <-.
          rewrite (below_int v x p lo z N C P) in B. injection B as B. apply Z.ltb_ge in B. lia.
    - destruct Hs as (l & ->). pick I. unfold setattr. cbn [setter String.eqb Ascii.eqb Bool.eqb]. unfold set_texts.
      destruct v; try (destruct (forallb hashable _)); cbn [fst]; cbn; eauto.
    - destruct Hs as (l & ->). pick I. unfold setattr. cbn [setter String.eqb Ascii.eqb Bool.eqb]. unfold set_texts.
      destruct v; try (destruct (forallb hashable _)); cbn [fst]; cbn; eauto.
    - pick I.
    - destruct Hs as (u & n & -> & U). pick I; unfold setattr; cbn [setter String.eqb Ascii.eqb Bool.eqb readonly].
      + cbn. eauto.
      + unfold checked. destruct (parse units v) as [w|] eqn:P; cbn [fst]; [|eauto]. cbn. apply parse_like in P. eauto.
    - destruct Hs as (u & n & d & -> & U). pick I; unfold setattr; cbn [setter String.eqb Ascii.eqb Bool.eqb readonly].
      + cbn. eauto 6.
      + cbn. eauto 6.
      + unfold checked. destruct (parse units v) as [w|] eqn:P; cbn [fst]; [|eauto 6]. cbn. apply parse_like in P. eauto 6.
    - destruct Hs as (u & n & d & -> & U). pick I; unfold setattr; cbn [setter String.eqb Ascii.eqb Bool.eqb readonly].
      + cbn. eauto 6.
      + cbn. eauto 6.
      + unfold checked. destruct (parse units v) as [w|] eqn:P; cbn [fst]; [|eauto 6]. cbn. apply parse_like in P. eauto 6.
    - destruct Hs as (z & ->). pick I; unfold setattr; cbn [setter String.eqb Ascii.eqb Bool.eqb]. unfold checked. destruct (integral v) as [w|] eqn:P; cbn [fst]; [|eauto].
      apply integral_good in P. destruct P as (y & -> & _). cbn. eauto.
    - destruct Hs as (lo & hi & -> & L). pick I; unfold setattr; cbn [setter String.eqb Ascii.eqb Bool.eqb].
      + unfold set_uniform_lower, checked. destruct (integral v) as [w|] eqn:P; cbn [bind fst]; [|eauto]. apply integral_value in P. destruct P as (z & -> & x & p & N & V & P & C).
        cbn [get String.eqb Ascii.eqb Bool.eqb]. rewrite (above_int v x p hi z N C P). cbn [bind]. destruct (Z.ltb_spec hi z); cbn [fst]; [eauto|]. cbn. eauto.
      + unfold set_uniform_upper, checked. destruct (integral v) as [w|] eqn:P; cbn [bind fst]; [|eauto]. apply integral_value in P. destruct P as (z & -> & x & p & N & V & P & C).
        cbn [get String.eqb Ascii.eqb Bool.eqb]. rewrite (below_int v x p lo z N C P). cbn [bind]. destruct (Z.ltb_spec z lo); cbn [fst]; [eauto|]. cbn. eauto.
    - destruct Hs as (z & -> & G). pick I; unfold setattr; cbn [setter String.eqb Ascii.eqb Bool.eqb]. unfold checked. destruct (optional_str v) as [w|] eqn:P; cbn [fst]; [|eauto].
      apply optional_str_good in P. cbn. eauto.
    - destruct Hs as (z & -> & G). pick I; unfold setattr; cbn [setter String.eqb Ascii.eqb Bool.eqb]. unfold checked. destruct (probabilities v) as [w|] eqn:P; cbn [fst]; [|eauto].
      apply probabilities_good in P. cbn. eauto.
    - destruct Hs as (z & ->). pick I; unfold setattr; cbn [setter String.eqb Ascii.eqb Bool.eqb]. unfold checked. destruct (quantities v) as [w|] eqn:P; cbn [fst]; [|eauto].
      apply quantities_good in P. destruct P as (l & ->). cbn. eauto.
    - destruct Hs as (z & -> & G). pick I; unfold setattr; cbn [setter String.eqb Ascii.eqb Bool.eqb]. unfold checked. destruct (formula v) as [w|] eqn:P; cbn [fst]; [|eauto].
      apply formula_good in P. cbn. eauto.
    - destruct Hs as (z & -> & G). pick I; unfold setattr; cbn [setter String.eqb Ascii.eqb Bool.eqb]. unfold checked. destruct (inchi v) as [w|] eqn:P; cbn [fst]; [|eauto].
      apply inchi_good in P. cbn. eauto.
    - destruct Hs as (z & -> & G). pick I; unfold setattr; cbn [setter String.eqb Ascii.eqb Bool.eqb]. unfold checked. destruct (optional_str v) as [w|] eqn:P; cbn [fst]; [|eauto].
      apply optional_str_good in P. cbn. eauto.
    - apply (setattr_attr AProperty); unfold is_attr; auto.
    - apply (setattr_attr ACondition); unfold is_attr; auto.
    - apply (setattr_attr AParameter); unfold is_attr; auto.
    - destruct Hs as (p & l & -> & P & L). pick I; unfold setattr; cbn [setter String.eqb Ascii.eqb Bool.eqb]; unfold checked.
      + unfold property. destruct (is_a AProperty v) eqn:A; cbn; eauto 6.
      + destruct (valid_list ACondition v) as [x|] eqn:Q; cbn [fst]; [apply valid_list_good in Q; destruct Q as (y & -> & Y); cbn|]; eauto 6.
    - destruct Hs as (a & b & ->). pick I; cbn; eauto.
    - destruct Hs as (a & b & ->). pick I; cbn; eauto.
    - destruct Hs as (a & b & -> & A & B). pick I; unfold setattr; cbn [setter String.eqb Ascii.eqb Bool.eqb orb]; unfold checked;
      (destruct (optional_str v) as [w|] eqn:P; cbn [fst]; [apply optional_str_good in P; cbn|]; eauto 6).
  Qed.
  Lemma history_shape : forall c ops s, shape c s -> Forall (fun p => In (fst p) (map fst (sig c)) /\ real_float (snd p)) ops ->
    shape c (history units check c s ops).
  Proof.
    intros c ops. unfold history. induction ops as [|[k v] ops IH]; intros s Hs F; auto. inversion F as [|? ? [I R] F']; subst. cbn [fold_left]. apply IH; auto. unfold assign. cbn [fst snd] in *. now apply setattr_shape.
  Qed.

  (** ** Constructors *)
  Lemma arg_real : forall sg kw args k, bind_args sg kw = Ok args -> Forall (fun p => real_float (snd p)) kw ->
    Forall (fun p => match snd p with Some v => real_float v | None => True end) sg -> real_float (arg k args).
  Proof.
    assert (G : forall kw (k : string) v, Forall (fun p => real_float (snd p)) kw -> get k kw = Some v -> real_float v).
    { intros kw k v F. induction F as [|[k' v'] kw R _ IH]; cbn [get]; [discriminate|]. destruct (String.eqb k k'); auto. intros X. injection X as <-. exact R. }
    intros sg kw. induction sg as [|[k0 d] sg IH]; intros args k B F D; cbn [bind_args] in B; [injection B as <-; exact I|].
    inversion D as [|? ? D0 D']; subst. cbn [snd] in D0.
    assert (X : exists v rest, args = (k0, v) :: rest /\ real_float v /\ bind_args sg kw = Ok rest).
    { destruct (get k0 kw) as [v|] eqn:E; [|destruct d as [v|]; [|discriminate]]; (destruct (bind_args sg kw) as [rest|]; [|discriminate]); injection B as <-; exists v, rest; repeat split; auto. eapply G; eauto. }
    destruct X as (v & rest & -> & Rv & B'). unfold arg. cbn [get]. destruct (String.eqb k k0); auto. exact (IH rest k B' F D').
  Qed.
  Lemma sig_real : forall c, Forall (fun p => match snd p with Some v => real_float v | None => True end) (sig c).
  Proof. intros c. destruct c; repeat constructor. Qed.

  Definition valid_new (c : cls) (s : vars) : Prop :=
    match c with
    | CategoricalBounds | CompositionBounds => exists k l, s = [(k, DSet l)] /\ forallb is_str l = true
    | NominalReal => exists u f, s = [("_units", u); ("nominal", DFloat f)]
    | UniformReal => exists u a b, s = [("_units", u); ("lower_bound", a); ("upper_bound", b)] /\ py_le a b = Ok true
    | AProperty | ACondition | AParameter => forall j n v, get "_template" s = Some (DEntity j n) -> get "_value" s = Some v -> v <> DNone -> check (DEntity j n) v = None
    | _ => True
    end.
  Ltac step H := cbn [run_body exec bind] in H; try discriminate H.
  Lemma body_attr : forall c args s, is_attr c -> run_body units check c args (body c) [] = Ok s -> shape c s /\ valid_new c s.
  Proof.
    intros c args s A H. destruct A as [-> | [-> | ->]]; cbn [body] in H; cbn [run_body exec bind put String.eqb Ascii.eqb Bool.eqb] in H; unfold setattr in H; cbn [setter String.eqb Ascii.eqb Bool.eqb readonly bind put] in H.
    all: destruct (set_value check _ _) as [s1 e1] eqn:E1; apply set_value_stored in E1; destruct E1 as [[_ E1]|(-> & -> & V)]; [destruct e1; [discriminate|contradiction]|]; cbn [bind put append String.eqb Ascii.eqb Bool.eqb] in H.
    all: destruct (set_template check _ _ _) as [s1 e1] eqn:E1; apply set_template_stored in E1; destruct E1 as [[_ E1]|(-> & -> & T & K)]; [destruct e1; [discriminate|contradiction]|]; cbn [bind put append String.eqb Ascii.eqb Bool.eqb] in H.
    all: unfold checked at 1 in H; destruct (origin _) as [o|] eqn:O; [|discriminate]; apply origin_good in O; destruct O as (y & -> & Y); cbn [bind put append String.eqb Ascii.eqb Bool.eqb] in H.
    all: unfold checked at 1 in H; destruct (valid_list _ _) as [l|] eqn:L; [|discriminate]; apply valid_list_good in L; destruct L as (l' & -> & L); cbn [bind put append String.eqb Ascii.eqb Bool.eqb] in H.
    all: injection H as <-; split; [do 6 eexists; eauto 7|].
    all: cbn [valid_new get String.eqb Ascii.eqb Bool.eqb]; intros j n v X1 X2 N; injection X1 as X1; injection X2 as X2; rewrite <- X1, <- X2 in *; eapply K; eauto; reflexivity.
  Qed.
  Lemma call_shape : forall c kw s, Forall (fun p => real_float (snd p)) kw -> call units check c kw = Ok s -> shape c s /\ valid_new c s.
  Proof.
    intros c kw s F H. unfold call in H. destruct (forallb _ kw); [|discriminate]. destruct (bind_args (sig c) kw) as [args|] eqn:B; [|discriminate]. cbn [bind] in H.
    assert (R : forall k, real_float (arg k args)) by (intros k; eapply arg_real; eauto using sig_real). clear B F. pose proof H as H0.
    destruct c; cbn [body] in H; cbn [run_body exec bind put String.eqb Ascii.eqb Bool.eqb] in H; unfold setattr in H; cbn [setter String.eqb Ascii.eqb Bool.eqb readonly] in H.
    - unfold checked at 1 in H. destruct (parse units _) as [u|] eqn:P; [|discriminate]. apply parse_like in P. cbn [bind put append String.eqb Ascii.eqb Bool.eqb] in H.
      destruct (set_real _ _ above _ _) as [s1 e1] eqn:E1. apply set_real_stored in E1; auto. destruct E1 as [[_ E1]|(lo & -> & -> & F1 & _ & _)]; [destruct e1; [discriminate|contradiction]|]. cbn [bind put append String.eqb Ascii.eqb Bool.eqb] in H.
      destruct (set_real _ _ below _ _) as [s2 e2] eqn:E2. apply set_real_stored in E2; auto. destruct E2 as [[_ E2]|(hi & -> & -> & F2 & O & Fi & Q)]; [destruct e2; [discriminate|contradiction]|]. cbn [bind put append String.eqb Ascii.eqb Bool.eqb] in H. injection H as <-.
      split; [|exact I]. exists u, lo, hi. repeat split; auto. destruct O as [[O|O]|(h & O & C)]; try discriminate O. cbn in O. injection O as <-.
      apply below_false in C; auto. destruct C as (x & X & C). destruct (arg "upper_bound" args) as [|z|f| | | | | | | | |]; try contradiction; [subst; now apply round53_below|]. destruct f; try contradiction. now subst.
    - destruct (set_int _ _ above _ _) as [s1 e1] eqn:E1. apply set_int_stored in E1; auto. destruct E1 as [[_ E1]|(lo & -> & -> & F1 & _ & _)]; [destruct e1; [discriminate|contradiction]|]. cbn [bind put append String.eqb Ascii.eqb Bool.eqb] in H.
      destruct (set_int _ _ below _ _) as [s2 e2] eqn:E2. apply set_int_stored in E2; auto. destruct E2 as [[_ E2]|(hi & -> & -> & F2 & (x & p & N & V & P & C) & O)]; [destruct e2; [discriminate|contradiction]|]. cbn [bind put append String.eqb Ascii.eqb Bool.eqb] in H. injection H as <-.
      split; [|exact I]. exists lo, hi. repeat split; auto. destruct O as [[O|O]|(h & O & D)]; try discriminate O. cbn in O. injection O as <-.
      rewrite (below_int _ x p lo hi N C P) in D. injection D as D. apply Z.ltb_ge in D. lia.
    - unfold set_texts in H. destruct (arg "categories" args); try discriminate; try (destruct (forallb hashable _); [|discriminate]);
      (destruct (forallb is_str _) eqn:S in H; [|discriminate]); cbn in H; injection H as <-; (split; [eexists; reflexivity|do 2 eexists; split; [reflexivity|exact S]]).
    - unfold set_texts in H. destruct (arg "components" args); try discriminate; try (destruct (forallb hashable _); [|discriminate]);
      (destruct (forallb is_str _) eqn:S in H; [|discriminate]); cbn in H; injection H as <-; (split; [eexists; reflexivity|do 2 eexists; split; [reflexivity|exact S]]).
    - injection H as <-. split; reflexivity.
    - unfold checked in H. destruct (parse units _) as [u|] eqn:P; [|discriminate]. apply parse_like in P. cbn [bind put append String.eqb Ascii.eqb Bool.eqb] in H.
      destruct (num (arg "nominal" args)) eqn:N; [|discriminate]. cbn [bind] in H. destruct (to_float _) as [f|] eqn:T; [|discriminate]. cbn in H. injection H as <-.
      split; [exists u, f; auto|]. exists u. destruct (arg "nominal" args) eqn:G; cbn in T; try discriminate; [destruct (_ <? _)%Z; [|discriminate]|]; injection T as <-; eauto.
    - unfold checked in H. destruct (parse units _) as [u|] eqn:P; [|discriminate]. apply parse_like in P. cbn in H. injection H as <-. split; [|exact I]. exists u; eauto.
    - unfold checked in H. destruct (parse units _) as [u|] eqn:P; [|discriminate]. apply parse_like in P. cbn [bind put append String.eqb Ascii.eqb Bool.eqb] in H.
      destruct (py_le _ _) as [[]|] eqn:L; try discriminate. cbn in H. injection H as <-. split; [exists u; eauto|]. exists u. eauto.
    - unfold checked in H. destruct (integral _) as [w|] eqn:P; [|discriminate]. apply integral_good in P. destruct P as (z & -> & _). cbn in H. injection H as <-. split; [exists z; auto|exact I].
    - unfold set_uniform_lower in H; unfold checked at 1 in H. destruct (integral (arg "lower_bound" args)) as [w|] eqn:P; [|discriminate]. apply integral_good in P. destruct P as (lo & -> & _). cbn [bind put get append String.eqb Ascii.eqb Bool.eqb] in H.
      unfold set_uniform_upper in H; unfold checked at 1 in H. destruct (integral (arg "upper_bound" args)) as [w|] eqn:P; [|discriminate]. apply integral_value in P. destruct P as (hi & -> & x & p & N & V & P & C). cbn [bind put get append String.eqb Ascii.eqb Bool.eqb] in H.
      rewrite (below_int _ x p lo hi N C P) in H. cbn [bind] in H. destruct (Z.ltb_spec hi lo); [discriminate|]. cbn in H. injection H as <-. split; [exists lo, hi; auto|exact I].
    - unfold checked in H. destruct (optional_str _) as [w|] eqn:P; [|discriminate]. apply optional_str_good in P. cbn in H. injection H as <-. split; [exists w; auto|exact I].
    - unfold checked in H. destruct (probabilities _) as [w|] eqn:P; [|discriminate]. apply probabilities_good in P. cbn in H. injection H as <-. split; [exists w; auto|exact I].
    - unfold checked in H. destruct (quantities _) as [w|] eqn:P; [|discriminate]. apply quantities_good in P. destruct P as (l & ->). cbn in H. injection H as <-. split; [exists l; auto|exact I].
    - unfold checked in H. destruct (formula _) as [w|] eqn:P; [|discriminate]. apply formula_good in P. cbn in H. injection H as <-. split; [exists w; auto|exact I].
    - unfold checked in H. destruct (inchi _) as [w|] eqn:P; [|discriminate]. apply inchi_good in P. cbn in H. injection H as <-. split; [exists w; auto|exact I].
    - unfold checked in H. destruct (optional_str _) as [w|] eqn:P; [|discriminate]. apply optional_str_good in P. cbn in H. injection H as <-. split; [exists w; auto|exact I].
    - apply (body_attr AProperty args s); [unfold is_attr; auto|]. exact H0.
    - apply (body_attr ACondition args s); [unfold is_attr; auto|]. exact H0.
    - apply (body_attr AParameter args s); [unfold is_attr; auto|]. exact H0.
    - unfold checked at 1 in H. unfold property in H. destruct (is_a AProperty _) eqn:A; [|discriminate]. cbn [bind put append String.eqb Ascii.eqb Bool.eqb] in H.
      unfold checked in H. destruct (valid_list _ _) as [w|] eqn:V; [|discriminate]. apply valid_list_good in V. destruct V as (l & -> & V). cbn in H. injection H as <-. split; [eexists; exists l; auto|exact I].
    - cbn in H. injection H as <-. split; [do 2 eexists; reflexivity|exact I].
    - cbn in H. injection H as <-. split; [do 2 eexists; reflexivity|exact I].
    - cbn [orb] in H. unfold checked at 1 in H. destruct (optional_str (arg "performed_by" args)) as [w|] eqn:P; [|discriminate]. apply optional_str_good in P. cbn [bind put append String.eqb Ascii.eqb Bool.eqb orb] in H.
      unfold checked in H. destruct (optional_str (arg "performed_date" args)) as [x|] eqn:P'; [|discriminate]. apply optional_str_good in P'. cbn in H. injection H as <-. split; [exists w, x; auto|exact I].
  Qed.

  (** ** Round trips *)
  Lemma equals_refl : forall c s d, as_dict units check c s = Ok d -> equals units check c s s.
  Proof. intros c s d H. exists d, d. repeat split; auto. intros k. destruct (get k d); auto. now left. Qed.
  Lemma parse_back : forall u, unit_like u -> (forall x, u = DStr x -> units x = Ok x) -> parse units u = Ok u.
  Proof. intros u U H. destruct (unit_like_cases u U) as [[n ->]|(x & t & -> & _)]; cbn [parse]; auto. now rewrite (H t eq_refl). Qed.
  Lemma le_back : forall a b, (a <= b)%Z -> above (DInt a) (DInt b) = Ok false /\ below (DInt b) (DInt a) = Ok false.
  Proof.
    intros a b H. rewrite Zle_Qle in H. apply Qle_bool_iff in H. split.
    - unfold above, py_le. cbn [num]. unfold pynum_le. cbn [num_value]. rewrite H. reflexivity.
    - unfold below, py_le. cbn [num]. unfold pynum_le. cbn [num_value]. rewrite H. reflexivity.
  Qed.
  Lemma below_back : forall a b, (a <= b)%Q -> below (DFloat (Fin b)) (DFloat (Fin a)) = Ok false.
  Proof. intros a b H. apply Qle_bool_iff in H. unfold below, py_le. cbn [num]. unfold pynum_le. cbn [num_value]. rewrite H. reflexivity. Qed.
  Lemma int_checked_back : forall z, is_float (inject_Z z) -> int_checked (PyInt z) = Ok z.
  Proof. intros z F. apply float_exact_int in F. destruct F as [F B]. cbn [int_checked]. apply (BoundsProofs.exact_gap z F) in B. apply Z.ltb_lt in B. now rewrite B, F. Qed.
  Lemma valid_list_back : forall c l, forallb (is_a c) l = true -> valid_list c (DList l) = Ok (DList l).
  Proof. intros c l H. unfold valid_list. cbn [items]. now rewrite H. Qed.

  Lemma set_template_back : forall k s t v, t = DNone \/ (exists n, t = DEntity k n) \/ is_a LinkByUID t = true -> get "_value" s = Some v ->
    (forall n, t = DEntity k n -> v <> DNone -> check t v = None) -> set_template check k s t = (put "_template" t s, None).
  Proof.
    intros k s t v T G H. unfold set_template, checked. destruct T as [-> | [[n ->] | T]]; [reflexivity| |destruct t; try discriminate T; cbn iota; rewrite T; reflexivity].
    rewrite G. specialize (H n eq_refl). replace (tkind_eqb k k) with true by now destruct k.
    destruct v; try reflexivity; rewrite H by discriminate; reflexivity.
  Qed.
  Lemma attr_round_trip : forall c s, is_attr c -> shape c s -> accepted units check c s -> round_trips units check c s.
  Proof.
    intros c s A Hs V. unfold round_trips. destruct A as [-> | [-> | ->]]; cbn [shape] in Hs; destruct Hs as (nm & nt & v & t & o & l & -> & W & T & O & F).
    all: eexists; eexists; split; [cbn; reflexivity|]; split; [|eapply equals_refl; reflexivity]; unfold from_dict, call.
    all: assert (Sv : set_value check [("name", nm); ("notes", nt); ("_value", DNone); ("_template", DNone); ("_origin", DNone); ("_file_links", DNone)] v
             = ([("name", nm); ("notes", nt); ("_value", v); ("_template", DNone); ("_origin", DNone); ("_file_links", DNone)], None))
      by (destruct W as [-> | W]; [reflexivity|]; unfold set_value, checked; destruct v; try discriminate W; cbn iota; rewrite W; reflexivity).
    all: cbn -[set_value set_template origin valid_list]; unfold arg; cbn [get String.eqb Ascii.eqb Bool.eqb]; rewrite Sv; cbn -[set_value set_template origin valid_list].
    all: cbn [template_of] in T; erewrite (set_template_back _ _ _ v T); [|reflexivity|intros n Et N; subst; apply (V _ n v); [reflexivity|reflexivity|exact N]]; cbn -[set_value set_template origin valid_list].
    all: unfold checked; rewrite (origin_back o O); cbn -[set_value set_template origin valid_list]; rewrite (valid_list_back FileLink l F); reflexivity.
  Qed.
  Lemma shape_round_trip : forall c s, shape c s -> still_valid units check c s -> round_trips units check c s.
  Proof.
    intros c s Hs V. unfold round_trips. destruct c; cbn [shape still_valid] in Hs, V.
    - destruct Hs as (u & lo & hi & -> & U & L & Fl & Fh). assert (P : parse units u = Ok u) by (apply parse_back; auto; intros x ->; apply V; reflexivity).
      eexists. eexists. split; [cbn; reflexivity|]. split; [|eapply equals_refl; reflexivity].
      unfold from_dict, call. cbn -[parse set_real]. unfold checked. rewrite P. cbn -[parse set_real]. 
      unfold set_real, checked. cbn -[parse below]. rewrite below_back by auto. reflexivity.
    - destruct Hs as (lo & hi & -> & L & Fl & Fh). 
      eexists. eexists. split; [cbn; reflexivity|]. split; [|eapply equals_refl; reflexivity].
      unfold from_dict, call. cbn -[set_int int_checked]. unfold set_int, checked. cbn -[int_checked below]. rewrite !int_checked_back by auto. cbn -[int_checked below]. rewrite (proj2 (le_back lo hi L)). reflexivity.
    - destruct Hs as (l & ->). assert (F : forallb is_str l = true) by (apply V; reflexivity). destruct (str_texts l F) as [ts T].
      set (r := sort_texts ts). assert (Rs : sort_set l = Ok (DList (map DStr r))) by (unfold sort_set; now rewrite T).
      assert (Rr : sort_set (map DStr r) = Ok (DList (map DStr r))) by (unfold sort_set; rewrite texts_strings; unfold r; now rewrite (sort_sorted _ (sort_ascending ts))).
      clearbody r. eexists. exists [("_categories", DSet (map DStr r))]. split; [cbn -[sort_set]; rewrite Rs; cbn; reflexivity|]. split.
      + unfold from_dict, call. cbn -[set_texts]. unfold set_texts. rewrite strings_hashable, strings_are_str. reflexivity.
      + eexists. eexists. split; [cbn -[sort_set]; rewrite Rs; cbn; reflexivity|]. split; [cbn -[sort_set]; rewrite Rr; cbn; reflexivity|].
        intros k0. destruct (get k0 _); auto. now left.
    - destruct Hs as (l & ->). assert (F : forallb is_str l = true) by (apply V; reflexivity). destruct (str_texts l F) as [ts T].
      set (r := sort_texts ts). assert (Rs : sort_set l = Ok (DList (map DStr r))) by (unfold sort_set; now rewrite T).
      assert (Rr : sort_set (map DStr r) = Ok (DList (map DStr r))) by (unfold sort_set; rewrite texts_strings; unfold r; now rewrite (sort_sorted _ (sort_ascending ts))).
      clearbody r. eexists. exists [("_components", DSet (map DStr r))]. split; [cbn -[sort_set]; rewrite Rs; cbn; reflexivity|]. split.
      + unfold from_dict, call. cbn -[set_texts]. unfold set_texts. rewrite strings_hashable, strings_are_str. reflexivity.
      + eexists. eexists. split; [cbn -[sort_set]; rewrite Rs; cbn; reflexivity|]. split; [cbn -[sort_set]; rewrite Rr; cbn; reflexivity|].
        intros k0. destruct (get k0 _); auto. now left.
    - subst s. eexists. eexists. split; [cbn; reflexivity|]. split; [|eapply equals_refl; reflexivity]. unfold from_dict, call. reflexivity.
    - destruct Hs as (u & n & -> & U). destruct V as [Vu Vn]. assert (P : parse units u = Ok u) by (apply parse_back; auto; intros x ->; apply Vu; reflexivity).
      specialize (Vn n eq_refl). destruct n as [|z|f| | | | | | | | |]; try contradiction.
      + destruct Vn as [X B]. eexists. exists [("_units", u); ("nominal", DFloat (Fin (inject_Z z)))]. split; [cbn; reflexivity|]. split.
        * unfold from_dict, call. cbn -[parse to_float]. unfold checked. rewrite P. cbn -[to_float]. unfold to_float. rewrite (round53_exact z X). apply Z.ltb_lt in B. rewrite B. reflexivity.
        * eexists. eexists. split; [cbn; reflexivity|]. split; [cbn; reflexivity|]. intros k. cbn [get]. destruct (String.eqb k "units"); [now left|]. destruct (String.eqb k "nominal"); [|destruct (String.eqb k "type"); [now left|exact I]].
          right. exists (PyInt z), (PyFloat (inject_Z z)), (inject_Z z), (inject_Z z). repeat split; auto.
      + eexists. eexists. split; [cbn; reflexivity|]. split; [|eapply equals_refl; reflexivity]. unfold from_dict, call. cbn -[parse]. unfold checked. rewrite P. cbn. destruct f; reflexivity.
    - destruct Hs as (u & n & d & -> & U). assert (P : parse units u = Ok u) by (apply parse_back; auto; intros x ->; apply V; reflexivity).
      eexists. eexists. split; [cbn; reflexivity|]. split; [|eapply equals_refl; reflexivity]. unfold from_dict, call. cbn -[parse]. unfold checked. rewrite P. reflexivity.
    - destruct Hs as (u & a & b & -> & U). destruct V as [Vu Vn]. assert (P : parse units u = Ok u) by (apply parse_back; auto; intros x ->; apply Vu; reflexivity).
      specialize (Vn a b eq_refl eq_refl). eexists. eexists. split; [cbn; reflexivity|]. split; [|eapply equals_refl; reflexivity]. unfold from_dict, call. cbn -[parse py_le]. unfold checked. rewrite P. cbn -[py_le]. unfold arg. cbn [get String.eqb Ascii.eqb Bool.eqb]. rewrite Vn. reflexivity.
    - destruct Hs as (z & ->). eexists. eexists. split; [cbn; reflexivity|]. split; [|eapply equals_refl; reflexivity]. unfold from_dict, call. reflexivity.
    - destruct Hs as (lo & hi & -> & L). eexists. eexists. split; [cbn; reflexivity|]. split; [|eapply equals_refl; reflexivity]. unfold from_dict, call. cbn -[set_uniform_lower set_uniform_upper]. unfold set_uniform_lower, set_uniform_upper, checked. cbn -[below]. rewrite (proj2 (le_back lo hi L)). reflexivity.
    - destruct Hs as (v & -> & G). eexists. eexists. split; [cbn; reflexivity|]. split; [|eapply equals_refl; reflexivity]. unfold from_dict, call. cbn -[optional_str]. unfold checked. rewrite good_optional_str by auto. reflexivity.
    - destruct Hs as (v & -> & G). eexists. eexists. split; [cbn; reflexivity|]. split; [|eapply equals_refl; reflexivity]. unfold from_dict, call. cbn -[probabilities]. unfold checked. rewrite G. reflexivity.
    - destruct Hs as (v & ->). eexists. eexists. split; [cbn; reflexivity|]. split; [|eapply equals_refl; reflexivity]. unfold from_dict, call. reflexivity.
    - destruct Hs as (v & -> & G). eexists. eexists. split; [cbn; reflexivity|]. split; [|eapply equals_refl; reflexivity]. unfold from_dict, call. cbn -[formula]. unfold checked. rewrite G. reflexivity.
    - destruct Hs as (v & -> & G). eexists. eexists. split; [cbn; reflexivity|]. split; [|eapply equals_refl; reflexivity]. unfold from_dict, call. cbn -[inchi]. unfold checked. rewrite G. reflexivity.
    - destruct Hs as (v & -> & G). eexists. eexists. split; [cbn; reflexivity|]. split; [|eapply equals_refl; reflexivity]. unfold from_dict, call. cbn -[optional_str]. unfold checked. rewrite good_optional_str by auto. reflexivity.
    - apply (attr_round_trip AProperty); unfold is_attr; auto.
    - apply (attr_round_trip ACondition); unfold is_attr; auto.
    - apply (attr_round_trip AParameter); unfold is_attr; auto.
    - destruct Hs as (p & l & -> & P & L). eexists. eexists. split; [cbn; reflexivity|]. split; [|eapply equals_refl; reflexivity]. unfold from_dict, call. cbn -[property valid_list]. unfold checked, property. rewrite P. cbn -[valid_list]. rewrite valid_list_back by auto. reflexivity.
    - destruct Hs as (a & b & ->). eexists. eexists. split; [cbn; reflexivity|]. split; [|eapply equals_refl; reflexivity]. unfold from_dict, call. reflexivity.
    - destruct Hs as (a & b & ->). eexists. eexists. split; [cbn; reflexivity|]. split; [|eapply equals_refl; reflexivity]. unfold from_dict, call. reflexivity.
    - destruct Hs as (a & b & -> & A & B). eexists. eexists. split; [cbn; reflexivity|]. split; [|eapply equals_refl; reflexivity]. unfold from_dict, call. cbn -[optional_str]. unfold checked. rewrite good_optional_str by auto. cbn -[optional_str]. rewrite good_optional_str by auto. reflexivity.
  Qed.

  (** ** New objects *)
  Definition units_stable : Prop := forall s t, units s = Ok t -> units t = Ok t.
  Lemma new_valid : units_stable -> forall c s, shape c s -> valid_new c s -> still_valid units check c s.
  Proof.
    intros St c s Hs V.
    assert (G : forall u x, unit_like u -> u = DStr x -> units x = Ok x).
    { intros u x U ->. destruct (unit_like_cases _ U) as [[n E]|(y & t & E & P)]; [discriminate|]. injection E as ->. eauto. }
    destruct c; cbn [shape still_valid valid_new] in *; auto.
    - destruct Hs as (u & lo & hi & -> & U & _). intros x X. injection X as X. eauto.
    - destruct V as (k & l & E & F). destruct Hs as (l' & ->). injection E as _ ->. intros x X. injection X as ->. auto.
    - destruct V as (k & l & E & F). destruct Hs as (l' & ->). injection E as _ ->. intros x X. injection X as ->. auto.
    - destruct V as (u' & f & E). destruct Hs as (u & n & -> & U). injection E as -> ->. split; [intros x X; injection X as X; eauto|]. intros n X. injection X as <-. exact I.
    - destruct Hs as (u & a & b & -> & U). intros x X. injection X as X. eauto.
    - destruct V as (u' & a' & b' & E & L). destruct Hs as (u & a & b & -> & U). injection E as -> -> ->. split; [intros x X; injection X as X; eauto|]. intros p q X Y. injection X as <-. injection Y as <-. exact L.
    - intros j n w X Y. destruct Hs as (nm & nt & v & t & o & l & -> & _). injection X as X. injection Y as Y. apply V; cbn; congruence.
    - intros j n w X Y. destruct Hs as (nm & nt & v & t & o & l & -> & _). injection X as X. injection Y as Y. apply V; cbn; congruence.
    - intros j n w X Y. destruct Hs as (nm & nt & v & t & o & l & -> & _). injection X as X. injection Y as Y. apply V; cbn; congruence.
  Qed.

  (** ** Dictionaries *)
  Lemma get_put : forall (d : vars) k k' v, get k (put k' v d) = if String.eqb k k' then Some v else get k d.
  Proof.
    intros d k k' v. induction d as [|[x w] d IH]; cbn [put get]; [reflexivity|]. destruct (String.eqb k' x) eqn:E; cbn [get].
    - apply String.eqb_eq in E. subst x. destruct (String.eqb k k'); reflexivity.
    - rewrite IH. destruct (String.eqb k x) eqn:F; auto. apply String.eqb_eq in F. subst x. destruct (String.eqb k k') eqn:K; auto. apply String.eqb_eq in K. subst. rewrite String.eqb_refl in E. discriminate.
  Qed.
  Lemma get_filter : forall (d : vars) f k, f k = true -> get k (filter (fun p => f (fst p)) d) = get k d.
  Proof.
    intros d f k H. induction d as [|[x w] d IH]; cbn [filter get fst]; auto. destruct (f x) eqn:E; cbn [get]; [now rewrite IH|].
    rewrite IH. destruct (String.eqb k x) eqn:F; auto. apply String.eqb_eq in F. congruence.
  Qed.
  Lemma mem_In : forall k l, mem k l = true <-> In k l.
  Proof.
    intros k l. unfold mem. rewrite existsb_exists. split.
    - intros (x & I & E). apply String.eqb_eq in E. now subst.
    - intros I. exists k. split; auto. apply String.eqb_refl.
  Qed.
  Lemma bind_args_get : forall sg kw kw', (forall k, In k (map fst sg) -> get k kw = get k kw') -> bind_args sg kw = bind_args sg kw'.
  Proof.
    induction sg as [|[k d] sg IH]; intros kw kw' H; auto. cbn [bind_args]. rewrite (H k) by now left. rewrite (IH kw kw'); auto. intros x X. apply H. now right.
  Qed.
  Lemma kept_keys : forall c (d : vars), get "self" d = None -> forallb (fun p => mem (fst p) (map fst (sig c))) (filter (fun p => mem (fst p) (init_sig c)) d) = true.
  Proof.
    intros c d H. apply forallb_forall. intros [k v] I. apply filter_In in I. destruct I as [I M]. cbn [fst] in *. apply mem_In in M. apply mem_In. destruct M as [<- | M]; auto. exfalso.
    clear -H I. induction d as [|[x w] d IH]; [contradiction|]. cbn [get] in H. destruct (String.eqb "self" x) eqn:E; [discriminate|]. destruct I as [I|I]; auto. injection I as -> ->. rewrite String.eqb_refl in E. discriminate.
  Qed.
End Proofs.
