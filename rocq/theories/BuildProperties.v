(** C37: the builders. *)
From Coq Require Import String List Bool Arith ZArith QArith Lia.
From Verif Require Import Base BaseFacts PyStr BoundsModel BoundsSpec BoundsProofs ValuesModel ValidationModel ValidationProofs.
From Verif Require Import GraphModel GraphSpec GraphProofs InstSpec InstProperties BuildModel BuildSpec BuildProofs.
From Verif Require ValidationSpec DictModel.
Import ListNotations.
Open Scope string_scope.
Open Scope nat_scope.
Open Scope list_scope.

(** ** The graphs builders are called on *)

(** References of the right classes, and lists where the classes have lists. *)
Definition sound (h : heap) : Prop := refs_typed h /\ has_lists h.

Theorem histories_sound : forall eq ops, sound (grun eq [] ops).
Proof.
  intros. split; [apply references_typed|]. apply lists_run. intros [|o] k f K; discriminate.
Qed.

Definition keeps {A} (m : act A) : Prop := forall h, sound h -> sound (fst (m h)).

Lemma keeps_seq : forall A B (m : act A) (f : A -> act B), keeps m -> (forall a, keeps (f a)) -> keeps (seq m f).
Proof. intros A B m f Km Kf h H. unfold seq. specialize (Km h H). destruct (m h) as [g [a|e]]; auto. apply Kf. exact Km. Qed.
Lemma keeps_same : forall A (m : act A), (forall h, fst (m h) = h) -> keeps m.
Proof. intros A m E h H. now rewrite E. Qed.
Lemma keeps_new : forall k n, keeps (new k n).
Proof.
  intros k n h [T L]. unfold new.
  assert (X : forall n, sound (h ++ [mkE k [] (blank k ++ other_fields k n)])).
  { intros n0. split; [now apply typed_new|]. exact (lists_run (fun _ _ _ => false) [GNew k [] (other_fields k n0)] h L). }
  destruct k; cbn [fst]; try apply X; repeat break_match; cbn [fst]; try apply X; split; auto.
Qed.
Lemma keeps_set_ref : forall eq o f v, keeps (set_ref eq o f v).
Proof.
  intros eq o f v h [T L]. unfold set_ref. assert (A := typed_assign eq h o f v T). assert (B := lists_assign eq h o f v L).
  destruct (assign eq h o f v) as [g [e|]]; split; auto.
Qed.
Lemma keeps_getattr : forall v f, keeps (getattr v f).
Proof. intros. apply keeps_same. intros. unfold getattr. repeat break_match; reflexivity. Qed.
Lemma sound_set : forall h o f v, sound h -> (forall k pk, ~ asked_kind k f pk) -> f <> "ingredients" -> f <> "measurements" -> sound (set_field h o f v).
Proof. intros h o f v [T L] A N1 N2. split; [now apply typed_set_other|apply lists_set; auto]. Qed.
Lemma keeps_field : forall A (r : res A) o f v, In f ["mass_fraction"; "number_fraction"; "volume_fraction"; "absolute_quantity"; "properties"; "conditions"; "parameters"] ->
  keeps (fun h => (set_field h o f v, r)).
Proof.
  intros A r o f v I h H. cbn [fst]. apply sound_set; auto; cbn in I.
  - intros k pk X. unfold asked_kind in X. cbn in X. repeat destruct X as [E|X]; try contradiction; injection E as _ <- _; repeat destruct I as [E|I]; try discriminate; contradiction.
  - intros ->. repeat destruct I as [E|I]; try discriminate; contradiction.
  - intros ->. repeat destruct I as [E|I]; try discriminate; contradiction.
Qed.
Lemma keeps_append : forall rejects o f v, In f ["properties"; "conditions"; "parameters"] -> keeps (append rejects o f v).
Proof.
  intros rejects o f v I h H. unfold append. repeat break_match; auto. apply (keeps_field unit (Ok tt)); auto. cbn in *. tauto.
Qed.
Lemma list_for_in : forall v f, list_for v = Some f -> In f ["properties"; "conditions"; "parameters"].
Proof. intros v f H. destruct (list_for_cases v) as [(x & _ & E)|[(x & _ & E)|[(x & _ & E)|(E & _)]]]; rewrite E in H; inv H; cbn; tauto. Qed.

Ltac keeping := repeat (match goal with
  | |- keeps (seq _ _) => apply keeps_seq; [|intros]
  | |- keeps (match ?x with _ => _ end) => destruct x
  | |- keeps (getattr _ _) => apply keeps_getattr
  | |- keeps (new _ _) => apply keeps_new
  | |- keeps (set_ref _ _ _ _) => apply keeps_set_ref
  | |- keeps (fun h => (set_field h _ _ _, _)) => apply keeps_field; cbn; tauto
  | |- keeps _ => apply keeps_same; reflexivity
  end).

Theorem make_node_sound : forall eq name pname pt mt, keeps (make_node eq name pname pt mt).
Proof. intros. unfold make_node. keeping. Qed.
Lemma keeps_quantity : forall refuses r f v, In f ["mass_fraction"; "number_fraction"; "volume_fraction"; "absolute_quantity"] -> keeps (set_quantity refuses r f v).
Proof. intros refuses r f v I. unfold set_quantity, raise_if. keeping. apply keeps_field. cbn in *. tauto. Qed.
Theorem add_edge_sound : forall eq units refuses a b name mass number volume absolute u, keeps (add_edge eq units refuses a b name mass number volume absolute u).
Proof.
  intros. unfold add_edge.
  assert (F : forall r f v, In f ["mass_fraction"; "number_fraction"; "volume_fraction"; "absolute_quantity"] -> keeps (edge_fraction units refuses r f v)).
  { intros r f v I. unfold edge_fraction. repeat break_match; try (now apply keeps_quantity); try (apply keeps_same; reflexivity). apply keeps_seq; [now apply keeps_same|intros; now apply keeps_quantity]. }
  assert (Q : forall r v u, keeps (edge_absolute units refuses r v u)).
  { intros r v u'. unfold edge_absolute. repeat break_match; try (apply keeps_same; reflexivity); repeat (match goal with |- keeps (set_quantity _ _ _ _) => apply keeps_quantity; cbn; tauto | |- keeps (seq _ _) => apply keeps_seq; [|intros] end);
      apply keeps_same; reflexivity. }
  apply keeps_seq; [apply keeps_getattr|]. intros bs h H. destruct (is_kind h KMatS bs); [|exact H]. revert h H.
  match goal with |- forall h, sound h -> sound (fst (?m h)) => change (keeps m) end.
  repeat (match goal with
  | |- keeps (seq _ _) => apply keeps_seq; [|intros]
  | |- keeps (if ?x then _ else _) => destruct x
  | |- keeps (getattr _ _) => apply keeps_getattr
  | |- keeps (new _ _) => apply keeps_new
  | |- keeps (set_ref _ _ _ _) => apply keeps_set_ref
  | |- keeps (edge_fraction _ _ _ _ _) => apply F; cbn; tauto
  | |- keeps (edge_absolute _ _ _ _ _) => apply Q
  | |- keeps _ => apply keeps_same; reflexivity
  end).
Qed.
Theorem add_measurement_sound : forall eq rejects m name t attrs, keeps (add_measurement eq rejects m name t attrs).
Proof.
  intros. unfold add_measurement.
  assert (F : forall l r, keeps (append_all rejects r l)).
  { induction l as [|v l IH]; intros r; cbn [append_all]; [now apply keeps_same|]. destruct (list_for v) eqn:E; [|now apply keeps_same].
    apply keeps_seq; auto. apply keeps_append. eapply list_for_in; eauto. }
  repeat (match goal with |- keeps (append_all _ _ _) => apply F | |- _ => progress keeping end).
Qed.

(** ** make_node *)

(** C37, first part. *)
Theorem make_node_linked : forall eq h name process_name n process_template material_template,
  text name -> process_called h name process_name process_template n -> text n ->
  fits h KProcT process_template -> fits h KMatT material_template ->
  exists g m ms p ps, make_node eq name process_name process_template material_template h = (g, Ok m)
    /\ node g m name n process_template material_template ms p ps
    /\ kept h g /\ length g = length h + 4 /\ (forall o, In o [m; ms; p; ps] -> length h <= o) /\ NoDup [m; ms; p; ps].
Proof.
  intros eq h name pname n pt mt Tn C Tp Fp Fm. apply node_called_ok in C. assert (Kp := fits_known _ _ _ Fp). assert (Km := fits_known _ _ _ Fm).
  apply acceptable_fits in Fp, Fm.
  assert (E := make_node_ok eq h name pname n pt mt Tn C Tp Kp Km Fp Fm). cbv zeta in E.
  set (es := [_; _; _; _]) in E. exists (h ++ es), (length h + 3), (length h + 2), (length h + 1), (length h + 0). split; auto. split; [|split; [apply kept_app|]].
  - destruct Tn as [s ->], Tp as [t ->]. constructor; repeat split; unfold es, read; rewrite ?kind_app_r, ?fval_app_r; reflexivity.
  - rewrite app_length. split; [reflexivity|]. split; [cbn; intros o I; repeat destruct I as [<-|I]; try contradiction; lia|].
    repeat constructor; cbn; intros I; repeat destruct I as [I|I]; try contradiction; lia.
Qed.
Print Assumptions make_node_linked.

(** Otherwise it raises, and no object of the graph has changed. *)
Theorem make_node_raises : forall eq h name process_name process_template material_template,
  known h process_template -> known h material_template ->
  ~ (text name /\ fits h KProcT process_template /\ fits h KMatT material_template /\ exists n, process_called h name process_name process_template n /\ text n) ->
  exists g e, make_node eq name process_name process_template material_template h = (g, Err e) /\ kept h g.
Proof.
  intros eq h name pname pt mt Kp Km N. destruct (make_node_err eq h name pname pt mt Kp Km) as (es & e & E).
  - intros (n & Tn & C & Tp & Ap & Am). apply N. repeat split; auto; try (now apply acceptable_fits). exists n. split; auto. now apply node_called_ok.
  - exists (h ++ es), e. split; auto. apply kept_app.
Qed.
Print Assumptions make_node_raises.

(** ** add_edge *)

Lemma sound_acceptable : forall h o k f pk, refs_typed h -> kind_at h o = Some k -> asked_kind k f pk -> acceptable h pk (fval h o f) = true.
Proof.
  intros h o k f pk T K A. destruct (T o k f pk K A) as (k2 & pk2 & K2 & A2 & W). rewrite K in K2. injection K2 as <-.
  apply acceptable_fits. rewrite (asked_fun _ _ _ _ A2 A) in *. exact W.
Qed.
Lemma lists_listable : forall h pk lf v, has_lists h -> In (pk, lf) [(KProcR, "ingredients"); (KProcS, "ingredients"); (KMatR, "measurements")] ->
  acceptable h pk v = true -> listable h lf v.
Proof. intros h pk lf v L I A p ->. cbn in A. apply is_kind_ref in A. eapply L; eauto. Qed.

Section Edges.
  Variable eq : heap -> pv -> oid -> bool.
  Variable units : pv -> res pv.
  Variable refuses : string -> pv -> option exn.
  Notation add_edge := (add_edge eq units refuses).

  (** The quantities given can be what the ingredient should hold. *)
  Definition quantities (mass number volume absolute u ma nu vo ab : pv) : Prop :=
    fraction_given units refuses "mass_fraction" mass ma /\ fraction_given units refuses "number_fraction" number nu
    /\ fraction_given units refuses "volume_fraction" volume vo /\ absolute_given units refuses absolute u ab.

  Lemma add_edge_linked : forall h a b name n mass number volume absolute u, sound h -> can_take h b -> can_be_used h a -> ingredient_called h a name n -> text n ->
    exists bs, fval h b "spec" = PRef bs /\
    (forall ma nu vo ab, let g := linked h a n (fval h a "spec") (fval h bs "process") (fval h b "process") ma vo nu ab in
      edge h a b n g (length h + 1) (length h + 0)
      /\ fval g (length h + 1) "mass_fraction" = ma /\ fval g (length h + 1) "number_fraction" = nu
      /\ fval g (length h + 1) "volume_fraction" = vo /\ fval g (length h + 1) "absolute_quantity" = ab) /\
    add_edge (PRef a) (PRef b) name mass number volume absolute u h =
    fill units refuses (length h + 1) mass number volume absolute u (linked h a n (fval h a "spec") (fval h bs "process") (fval h b "process") PNone PNone PNone PNone).
  Proof.
    intros h a b name n mass number volume absolute u [T L] (Kb & Pb & bs & Sb & Kbs & Pbs) [Ka Sa] C Tn. exists bs. split; auto.
    assert (A1 : acceptable h KMatS (fval h a "spec") = true) by (eapply sound_acceptable; eauto; unfold asked_kind; cbn; tauto).
    assert (A2 : acceptable h KProcS (fval h bs "process") = true) by (eapply sound_acceptable; eauto; unfold asked_kind; cbn; tauto).
    assert (A3 : acceptable h KProcR (fval h b "process") = true) by (eapply sound_acceptable; eauto; unfold asked_kind; cbn; tauto).
    assert (L2 : listable h "ingredients" (fval h bs "process")) by (eapply lists_listable; eauto; cbn; tauto).
    assert (L3 : listable h "ingredients" (fval h b "process")) by (eapply lists_listable; eauto; cbn; tauto).
    split; [intros; now apply linked_edge|]. rewrite (add_edge_checked eq units refuses h a b bs name n) by auto.
    destruct Tn as [t ->]. now apply link_linked.
  Qed.

  (** C37, second part: exactly one ingredient, at both levels, with the quantities given. *)
  Theorem add_edge_adds : forall h a b name n mass number volume absolute u ma nu vo ab,
    sound h -> can_take h b -> can_be_used h a -> ingredient_called h a name n -> text n ->
    quantities mass number volume absolute u ma nu vo ab ->
    exists g r s, add_edge (PRef a) (PRef b) name mass number volume absolute u h = (g, Ok r) /\ edge h a b n g r s
      /\ fval g r "mass_fraction" = ma /\ fval g r "number_fraction" = nu /\ fval g r "volume_fraction" = vo /\ fval g r "absolute_quantity" = ab.
  Proof.
    intros h a b name n mass number volume absolute u ma nu vo ab S T U C Tn (Q1 & Q2 & Q3 & Q4).
    destruct (add_edge_linked h a b name n mass number volume absolute u S T U C Tn) as (bs & Sb & E & R).
    rewrite R. eexists _, _, _. split; [now apply (fill_ok units refuses h a n _ _ _ mass number volume absolute u ma nu vo ab)|]. apply E.
  Qed.

  (** Materials that are not linked as needed are rejected, and nothing changes. *)
  Theorem add_edge_unlinked_raises_partial : forall h a b name mass number volume absolute u,
    kind_at h a = Some KMatR -> kind_at h b = Some KMatR -> ~ (can_take h b /\ can_be_used h a) ->
    add_edge (PRef a) (PRef b) name mass number volume absolute u h = (h, Err ValueError).
  Proof. exact (add_edge_unlinked eq units refuses). Qed.

  (** An output, or for an output that can take ingredients an input, that is no run of any kind (a number, a link, a spec, a template)
      has no spec to look at: AttributeError, and nothing changes. *)
  Definition no_run (h : heap) (v : pv) : Prop := forall o k, v = PRef o -> kind_at h o = Some k -> ~ In k [KMatR; KProcR; KMeasR; KIngR].
  Theorem add_edge_no_run_raises : forall h v w name mass number volume absolute u,
    no_run h w \/ (no_run h v /\ exists b, w = PRef b /\ can_take h b) -> add_edge v w name mass number volume absolute u h = (h, Err AttributeError).
  Proof.
    intros h v w name mass number volume absolute u H.
    assert (G : forall x, no_run h x -> getattr x "spec" h = (h, Err AttributeError)).
    { intros x N. unfold getattr. destruct x as [| | |o| | | | ]; try reflexivity. destruct (kind_at h o) as [k|] eqn:K; [|reflexivity]. specialize (N o k eq_refl K).
      destruct k; try reflexivity; exfalso; apply N; cbn; tauto. }
    unfold BuildModel.add_edge. destruct H as [N|(N & b & -> & Kb & Pb & bs & Sb & Kbs & Pbs)]; [erewrite seq_err; [reflexivity|]; apply G, N|].
    erewrite seq_ok; [|eapply getattr_ref; eauto; discriminate]. cbn beta. rewrite Sb. rewrite (proj2 (is_kind_ref h KMatS bs) Kbs).
    erewrite seq_ok; [|eapply getattr_ref; eauto; discriminate]. erewrite seq_ok; [|eapply getattr_ref; eauto; discriminate].
    destruct (fval h bs "process") eqn:X; try congruence; destruct (fval h b "process") eqn:Y; try congruence; cbn [is_none orb]; (erewrite seq_err; [reflexivity|]; apply G, N).
  Qed.

  (** So are names that are no strings. *)
  Theorem add_edge_name_raises : forall h a b name n mass number volume absolute u,
    can_take h b -> can_be_used h a -> ingredient_called h a name n -> ~ text n ->
    add_edge (PRef a) (PRef b) name mass number volume absolute u h = (h, Err TypeError).
  Proof.
    intros h a b name n mass number volume absolute u (Kb & Pb & bs & Sb & Kbs & Pbs) [Ka Sa] C Tn.
    rewrite (add_edge_checked eq units refuses h a b bs name n) by auto. unfold link_and_fill. erewrite seq_err; [reflexivity|]. apply new_bad; auto. discriminate.
  Qed.

  (** An output that is no material run is rejected, and nothing changes. *)
  Theorem add_edge_output_raises : forall h a output name mass number volume absolute u, refs_typed h ->
    (forall b, output = PRef b -> kind_at h b <> Some KMatR) ->
    exists e, add_edge a output name mass number volume absolute u h = (h, Err e).
  Proof.
    intros h a output name mass number volume absolute u T N. unfold BuildModel.add_edge.
    destruct output as [| | |b| | | | ]; try (eexists; erewrite seq_err by reflexivity; reflexivity).
    destruct (kind_at h b) as [k|] eqn:K.
    2:{ eexists. erewrite seq_err; [reflexivity|]. cbn [getattr]. now rewrite K. }
    destruct (role_of k "spec") as [ro|] eqn:R.
    2:{ eexists. erewrite seq_err; [reflexivity|]. cbn [getattr]. rewrite K. cbn. now rewrite R. }
    erewrite seq_ok; [|eapply getattr_ref; eauto; congruence]. cbn beta.
    assert (X : is_kind h KMatS (fval h b "spec") = false); [|rewrite X; eexists; reflexivity].
    destruct (is_kind h KMatS (fval h b "spec")) eqn:I; auto. exfalso.
    assert (Y : exists pk, asked_kind k "spec" pk /\ (pk = KMatS -> k = KMatR)).
    { destruct k; cbn in R; try discriminate; eexists; (split; [unfold asked_kind; cbn; tauto|try reflexivity; discriminate]). }
    destruct Y as (pk & A & Y). assert (Z := sound_acceptable h b k "spec" pk T K A).
    destruct (fval h b "spec") as [| | |s| | | | ]; try discriminate. cbn [acceptable] in Z. apply is_kind_ref in I, Z.
    apply (N b eq_refl). rewrite Z in I. injection I as ->. now rewrite Y in K.
  Qed.

  (** But the quantities are only looked at after the ingredient has been added: bad ones raise and
      leave the ingredient behind. *)
  Theorem add_edge_bad_quantity : forall h a b name n mass number volume absolute u,
    sound h -> can_take h b -> can_be_used h a -> ingredient_called h a name n -> text n ->
    ~ (exists ma nu vo ab, quantities mass number volume absolute u ma nu vo ab) ->
    exists g r s e, add_edge (PRef a) (PRef b) name mass number volume absolute u h = (g, Err e) /\ edge h a b n g r s.
  Proof.
    intros h a b name n mass number volume absolute u S T U C Tn B.
    destruct (add_edge_linked h a b name n mass number volume absolute u S T U C Tn) as (bs & Sb & E & R).
    destruct (fill_bad units refuses h a n (fval h a "spec") (fval h bs "process") (fval h b "process") mass number volume absolute u) as (ma & nu & vo & ab & e & F).
    - intros (ma & nu & vo & ab & Q). apply B. exists ma, nu, vo, ab. exact Q.
    - rewrite R, F. eexists _, _, _, _. split; [reflexivity|]. apply E.
  Qed.
End Edges.
Print Assumptions add_edge_adds.
Print Assumptions add_edge_unlinked_raises_partial.
Print Assumptions add_edge_no_run_raises.
Print Assumptions add_edge_name_raises.
Print Assumptions add_edge_output_raises.
Print Assumptions add_edge_bad_quantity.

(** ** add_measurement *)

Section Measurements.
  Variable eq : heap -> pv -> oid -> bool.
  Variable rejects : heap -> oid -> string -> pv -> option exn.
  Notation add_measurement := (add_measurement eq rejects).

  Definition attribute_type (v : pv) : Prop := exists t fs, v = PObj t fs /\ In t ["property"; "condition"; "parameter"].

  Lemma list_for_type : forall v, attribute_type v -> list_for v <> None.
  Proof. intros v (t & fs & -> & I). cbn in I. repeat destruct I as [<-|I]; try contradiction; discriminate. Qed.

  (** C37, third part. Exactly one measurement of the material, holding exactly the attributes. *)
  Theorem add_measurement_adds : forall h m name n template attributes, sound h -> kind_at h m = Some KMatR ->
    measurement_called h name template n -> text n -> fits h KMeasT template -> Forall attribute_type attributes ->
    (forall g r lf v, In v attributes -> rejects g r lf v = None) ->
    exists g r s, add_measurement (PRef m) name template attributes h = (g, Ok r) /\ measured h m n template attributes g r s.
  Proof.
    intros h m name n t attrs [T L] K C Tn F At NR. assert (Kt := fits_known _ _ _ F). apply acceptable_fits in F.
    destruct (add_measurement_effect eq rejects h m name n t attrs K) as (d & rest & g & E & _ & M & [[-> R]|(v & rest' & -> & e & R & X)]); auto.
    - intros p [= <-]. eapply L; eauto. cbn. tauto.
    - now apply measure_called_ok.
    - rewrite app_nil_r in E. subst d. eauto.
    - exfalso. assert (I : In v attrs) by (rewrite E; apply in_or_app; right; left; auto). destruct X as [[X _]|(lf & _ & X)].
      + rewrite Forall_forall in At. apply (list_for_type v); auto.
      + rewrite NR in X; [discriminate|auto].
  Qed.

  (** Any other name, template or material is rejected, and no object of the graph has changed. *)
  Theorem add_measurement_raises_partial : forall h m name template attributes, known h template -> known h m ->
    ~ ((exists n, measurement_called h name template n /\ text n) /\ fits h KMeasT template /\ fits h KMatR m) ->
    exists g e, add_measurement m name template attributes h = (g, Err e) /\ kept h g.
  Proof.
    intros h m name t attrs Kt Km N. destruct (add_measurement_bad eq rejects h m name t attrs Kt Km) as (es & e & E).
    - intros (n & C & Tn & A1 & A2). apply N. split; [exists n; split; auto; now apply measure_called_ok|]. split; now apply acceptable_fits.
    - exists (h ++ es), e. split; auto. apply kept_app.
  Qed.

  (** But attributes are looked at one by one after the measurement has been attached: a bad one raises
      and leaves the measurement behind, with the attributes before it. *)
  Theorem add_measurement_bad_attribute : forall h m name n template before v after, sound h -> kind_at h m = Some KMatR ->
    measurement_called h name template n -> text n -> fits h KMeasT template ->
    Forall attribute_type before -> (forall g r lf x, In x before -> rejects g r lf x = None) ->
    (~ attribute_type v \/ forall g r lf, rejects g r lf v <> None) ->
    exists g r s e, add_measurement (PRef m) name template (before ++ v :: after) h = (g, Err e) /\ measured h m n template before g r s.
  Proof.
    intros h m name n t before v after [T L] K C Tn F At NR B. assert (Kt := fits_known _ _ _ F). apply acceptable_fits in F.
    assert (Bv : list_for v = None \/ forall g r lf, rejects g r lf v <> None).
    { destruct B as [B|B]; auto. left. destruct (list_for_cases v) as [(x & -> & _)|[(x & -> & _)|[(x & -> & _)|(E & _)]]]; auto; destruct B; eexists _, _; (split; [reflexivity|cbn; tauto]). }
    destruct (add_measurement_effect eq rejects h m name n t (before ++ v :: after) K) as (d & rest & g & E & Fd & M & X); auto.
    { intros p [= <-]. eapply L; eauto. cbn. tauto. }
    { now apply measure_called_ok. }
    assert (Nv : ~ In v d).
    { intros I. rewrite Forall_forall in Fd. destruct (Fd v I) as (lf & g' & H1 & H2). destruct Bv as [Bv|Bv]; [congruence|]. eapply Bv; eauto. }
    assert (Ed : (rest = [] \/ exists w rest', rest = w :: rest' /\ ~ (In w before)) -> d = before).
    { intros Hr. assert (Rr : rest = [] -> False) by (intros ->; apply Nv; rewrite app_nil_r in E; rewrite <- E; apply in_or_app; right; left; auto).
      destruct Hr as [->|(w & rest' & -> & Nw)]; [destruct Rr; auto|]. clear - E Nv Nw. revert before E Nw. induction d as [|x d IH]; intros [|y before] E Nw; cbn in E; inv E; auto.
      - destruct Nw. left; auto.
      - destruct Nv. left; auto.
      - f_equal. apply IH; auto; intros I; [apply Nv|apply Nw]; now right. }
    destruct X as [[-> X]|(w & rest' & -> & e & X & Y)].
    - destruct Nv. rewrite app_nil_r in E. rewrite <- E. apply in_or_app; right; left; auto.
    - assert (Nw : ~ In w before).
      { intros I. destruct Y as [[Y _]|(lf & _ & Y)]; [rewrite Forall_forall in At; apply (list_for_type w); auto|rewrite NR in Y; [discriminate|auto]]. }
      rewrite Ed in M by (right; exists w, rest'; auto). eexists _, _, _, _. split; [exact X|exact M].
  Qed.
End Measurements.
Print Assumptions add_measurement_adds.
Print Assumptions add_measurement_raises_partial.
Print Assumptions add_measurement_bad_attribute.

(** ** add_attribute *)

(** The attribute it returns is in the one list it belongs to and nothing else has changed; when it
    raises, nothing has. *)
Theorem add_attribute_adds : forall rejects attribute h target template value g out, properties_shaped h ->
  add_attribute rejects attribute target template value h = (g, out) ->
  match out with
  | Err _ => g = h
  | Ok a => attribute h template value = Ok a /\ exists o k t fs f l l', target = PRef o /\ kind_at h o = Some k /\ a = PObj t fs
      /\ fval h o f = PList l /\ fval g o f = PList l' /\ extended k t a f l l' /\ one_changed h g o f
  end.
Proof. exact add_attribute_effect. Qed.
Print Assumptions add_attribute_adds.

(** It is added whenever the target has a list for it that does not reject it. *)
Theorem add_attribute_accepts : forall rejects attribute h o k t fs f l template value, kind_at h o = Some k ->
  attribute h template value = Ok (PObj t fs) -> goes_to k t f -> fval h o f = PList l -> rejects h o f (PObj t fs) = None ->
  exists g, add_attribute rejects attribute (PRef o) template value h = (g, Ok (PObj t fs)).
Proof.
  intros rejects attribute h o k t fs f l template value K A G F R. rewrite (add_attribute_target rejects attribute h o k template value _ K A).
  destruct (goes_has_list k t fs f G) as (-> & H & N). rewrite H.
  assert (E : seq (append rejects o f (PObj t fs)) (fun _ => ret (PObj t fs)) h = (set_field h o f (PList (l ++ [PObj t fs])), Ok (PObj t fs))).
  { unfold append, seq. rewrite F, R. reflexivity. }
  rewrite E. destruct k; try congruence; eauto.
Qed.
Print Assumptions add_attribute_accepts.

(** ** make_value and make_attribute *)

(** The value is of the kind the bounds are of, real values in their units. *)
Theorem make_value_kind : forall x b v, make_value x b = Ok v ->
  value_kind v = bounds_kind b /\ (forall lo hi u, b = BReal lo hi u -> exists n, v = VNominalReal n u).
Proof.
  intros x b v H. destruct b; cbn [make_value] in H.
  - destruct (to_float x); cbn in H; inv H. split; [reflexivity|]. intros ? ? ? E. inv E. eauto.
  - destruct x as [n| |]; try discriminate. destruct (int_like n); cbn in H; inv H. split; [reflexivity|discriminate].
  - destruct (as_pystr x); inv H; (split; [reflexivity|discriminate]).
  - unfold fresh in H. destruct (set_formula None (as_pystr x)) as [f [e|]]; inv H. split; [reflexivity|discriminate].
  - destruct (as_pystr x) as [|s|]; try discriminate; try (inv H; split; [reflexivity|discriminate]).
    destruct (startswith "InChI=" s); cbn in H; inv H; (split; [reflexivity|discriminate]).
Qed.
Print Assumptions make_value_kind.

Lemma Qred_int : forall z, Qred (z # 1) = z # 1.
Proof.
  intros z. unfold Qred. destruct (Z.ggcd z 1) as [g [a b]] eqn:G. generalize (Z.ggcd_gcd z 1), (Z.ggcd_correct_divisors z 1). rewrite G. cbn. rewrite Z.gcd_1_r. intros -> [E1 E2].
  rewrite Z.mul_1_l in E1, E2. subst. reflexivity.
Qed.

(** What make_value refuses, and with which exception: for real bounds anything but a number (AssertionError) and an integer no
    double can hold (OverflowError); for integer bounds what is no whole number (TypeError, ValueError for nan, OverflowError for
    an infinity); for the other kinds what is neither a text nor None (TypeError), and for compositions a text with a word that
    is no element (ValueError). *)
Theorem make_value_refused : forall x b e, make_value x b = Err e ->
  match b with
  | BReal _ _ _ => (e = AssertionError /\ forall n, x = MNum n -> n = PyNone) \/ (e = OverflowError /\ exists z, x = MNum (PyInt z))
  | BInt _ _ => (e = TypeError /\ ((forall n, x <> MNum n) \/ x = MNum PyNone \/ exists q, x = MNum (PyFloat q) /\ forall z, ~ (q == inject_Z z)%Q))
                \/ (e = ValueError /\ x = MNum PyNaN) \/ (e = OverflowError /\ (x = MNum PyInf \/ x = MNum PyNegInf))
  | BComp _ => (e = TypeError /\ (forall s, x <> MStr s) /\ x <> MNum PyNone) \/ (e = ValueError /\ exists s, x = MStr s)
  | BCat _ | BMol => e = TypeError /\ (forall s, x <> MStr s) /\ x <> MNum PyNone
  end.
Proof.
  intros x b e H. destruct b.
  - cbn [make_value] in H. destruct x as [[]| |]; cbn in H; try discriminate; try (injection H as <-; left; split; [reflexivity|congruence]).
    right. destruct (_ <? _)%Z; [discriminate|]. injection H as <-. eauto.
  - cbn [make_value] in H. destruct x as [n| |]; [|injection H as <-; left; split; [reflexivity|left; discriminate]..].
    destruct n; unfold int_like in H; cbn [bind] in H; try discriminate; try (injection H as <-; auto 6).
    destruct (Z.eqb_spec (Zpos (Qden (Qred q))) 1) as [D|D]; cbn [bind] in H; [discriminate|]. injection H as <-. left. split; [reflexivity|]. right. right. exists q. split; [reflexivity|].
    intros z E. apply D. apply Qred_complete in E. rewrite E. unfold inject_Z. now rewrite Qred_int.
  - cbn [make_value] in H. destruct x as [[]| |]; cbn in H; try discriminate; injection H as <-; repeat split; discriminate.
  - cbn [make_value] in H. destruct x as [[]|s|]; cbn [as_pystr set_formula fresh] in H; try discriminate; try (injection H as <-; left; repeat split; discriminate).
    right. destruct (subset _ _); [discriminate|]. injection H as <-. eauto.
  - cbn [make_value] in H. destruct x as [[]|s|]; cbn [as_pystr] in H; try discriminate; try (injection H as <-; repeat split; discriminate).
    destruct (startswith "InChI=" s); discriminate.
Qed.
Print Assumptions make_value_refused.

Lemma int_like_value : forall n z, int_like n = Ok z -> exists q, num_value n = Some q /\ (q == inject_Z z)%Q.
Proof.
  intros n z E. destruct n; try discriminate; unfold int_like in E; [inv E; eexists; split; reflexivity|].
  destruct (Z.eqb_spec (Zpos (Qden (Qred q))) 1) as [D|]; [|discriminate]. injection E as <-.
  exists q. split; auto. rewrite <- (Qred_correct q) at 1. unfold inject_Z. destruct (Qred q) as [a d]; cbn in *. now injection D as ->.
Qed.

(** C37, last part, as far as it goes: the value is accepted by the bounds exactly when the number or string is
    inside them. *)
Theorem make_value_fits_partial : forall x b v, good_bounds b -> make_value x b = Ok v -> good_value v ->
  (ValidationSpec.fits v b <-> inside x b).
Proof.
  intros x b v Gb H Gv. unfold ValidationSpec.fits. assert (K := proj1 (make_value_kind x b v H)).
  split; [intros [_ F]|intros I; split; [exact K|]].
  - destruct b; cbn [make_value] in H; cbn [inside].
    + destruct x as [n| |]; try discriminate. destruct Gb as [_ Gu].
      assert (D : exists m q, to_float (MNum n) = Ok m /\ num_value m = Some q /\ double_of n q /\ v = VNominalReal m u).
      { destruct (to_float (MNum n)) as [m|] eqn:E; cbn in H; inv H. destruct Gv as [[q Gq] _]. exists m, q. repeat split; auto.
        destruct n; cbn in E; try discriminate; try (destruct (_ <? _)%Z; [|discriminate]); inv E; cbn in Gq |- *; congruence. }
      destruct D as (m & q & _ & Q & D & ->). exists q. split; auto.
      destruct (F (PQuantity (udim u) (q * uscale u + uoff u)%Q)) as (y & L1 & L2 & _ & E).
      * cbn. exists q. split; auto. split; reflexivity.
      * assert (q == y)%Q. { unfold good_unit in Gu. apply (Qmult_inj_r _ _ (uscale u)). intros Z. rewrite Z in Gu. discriminate Gu. apply (Qplus_inj_r _ _ (uoff u)). exact E. }
        split; rewrite H0; auto.
    + destruct x as [n| |]; try discriminate. destruct (int_like n) as [z|] eqn:E; cbn in H; inv H.
      specialize (F (PInteger z) eq_refl). cbn in F.
      assert (Q := int_like_value _ _ E).
      destruct Q as (q & Q1 & Q2). exists q. split; auto. rewrite Q2, <- !Zle_Qle. exact F.
    + destruct x as [[]|s|]; cbn in H; try discriminate; inv H; try (destruct Gv; reflexivity). apply (F (PCategory s)). reflexivity.
    + unfold fresh in H. destruct x as [[]|s|]; cbn [as_pystr set_formula] in H; try discriminate; try (inv H; destruct Gv; reflexivity).
      destruct (subset (elements s) all_elements); inv H. intros t Ht.
      assert (A := F (PComposition [t])). apply A; cbn; [|auto]. intros c [<-|[]]. exact Ht.
    + destruct x as [[]|s|]; exact Logic.I.
  - intros p T. destruct b; cbn [make_value] in H; cbn [inside] in I.
    + destruct x as [n| |]; try contradiction. destruct I as (q & D & L1 & L2).
      destruct (to_float (MNum n)) as [m|] eqn:E; cbn in H; inv H. destruct p; cbn [takes] in T; try contradiction. destruct T as (q' & Q & Iq).
      exists q'. assert (q' = q); [|subst; auto]. destruct n; cbn in E, D; try contradiction.
      * destruct (_ <? _)%Z; inv E. cbn in Q. congruence.
      * inv E. cbn in Q. congruence.
    + destruct x as [n| |]; try contradiction. destruct I as (q & Q & L1 & L2). destruct (int_like n) as [z|] eqn:E; cbn in H; inv H.
      destruct p; cbn [takes] in T; try contradiction. subst. cbn. rewrite !Zle_Qle.
      destruct (int_like_value _ _ E) as (q' & Q' & Z). rewrite Q in Q'. injection Q' as <-.
      rewrite <- Z. auto.
    + destruct x as [|s|]; try contradiction. cbn in H. inv H. destruct p; cbn [takes] in T; try contradiction. subst. exact I.
    + destruct x as [|s|]; try contradiction. unfold fresh in H. cbn [as_pystr set_formula] in H. destruct (subset (elements s) all_elements); inv H.
      destruct p; cbn [takes] in T; try contradiction. intros c Ic. apply I. now apply T.
    + destruct v; cbn [value_kind bounds_kind] in K; try discriminate; destruct p; cbn in T; try contradiction; exact Logic.I.
Qed.
Print Assumptions make_value_fits_partial.

(** But nothing checks that it is: "builds a value accepted by the given bounds or raises" is false. *)
Theorem make_value_bounds_refuted : exists x b v, good_bounds b /\ make_value x b = Ok v /\ good_value v /\ ~ ValidationSpec.fits v b.
Proof.
  exists (MNum (PyFloat (5#1))), (BReal 0 1 (mkUnit [] 1 0)), (VNominalReal (PyFloat (5#1)) (mkUnit [] 1 0)).
  assert (G : good_bounds (BReal 0 1 (mkUnit [] 1 0))) by (split; [discriminate|reflexivity]).
  assert (V : good_value (VNominalReal (PyFloat (5#1)) (mkUnit [] 1 0))) by (split; [eexists; reflexivity|reflexivity]).
  assert (E : make_value (MNum (PyFloat (5#1))) (BReal 0 1 (mkUnit [] 1 0)) = Ok (VNominalReal (PyFloat (5#1)) (mkUnit [] 1 0))) by reflexivity.
  repeat split; auto; [discriminate|eexists; reflexivity|]. rewrite (make_value_fits_partial _ _ _ G E V). intros (q & D & _ & H). cbn in D. subst q. apply H. reflexivity.
Qed.
Print Assumptions make_value_bounds_refuted.

(** The value given for an attribute, or the one made from the number or string. *)
Definition value_given (t : tmpl) (x : attr_value) (v : value) : Prop :=
  match x with GivenValue w => v = w | Primitive p => make_value p (t_bounds t) = Ok v end.

(** The attribute is of the template's kind, with its name, the template and the value; at FATAL it is built
    exactly when the value is inside the bounds of the template, at WARNING one message is logged exactly
    when it is not. *)
Theorem make_attribute_checked : forall t x v log, good_bounds (t_bounds t) -> value_given t x v -> good_value v ->
  let a := mkAttr (t_name t) (Some v) (Some (RTmpl t)) in
  make_attribute IGNORE (Some t) x log = (Ok (t_kind t, a), log) /\
  ((ValidationSpec.fits v (t_bounds t) /\ make_attribute FATAL (Some t) x log = (Ok (t_kind t, a), log)
      /\ make_attribute WARNING (Some t) x log = (Ok (t_kind t, a), log))
   \/ (~ ValidationSpec.fits v (t_bounds t) /\ make_attribute FATAL (Some t) x log = (Err ValueError, log)
      /\ make_attribute WARNING (Some t) x log = (Ok (t_kind t, a), S log))).
Proof.
  intros t x v log Gb Gx Gv a.
  assert (E : forall l, make_attribute l (Some t) x log = match init_attr (t_kind t) l (t_name t) (VVal v) (TRef (RTmpl t)) log with
    | (Ok a, log') => (Ok (t_kind t, a), log') | (Err e, log') => (Err e, log') end).
  { intros l. unfold make_attribute. destruct x; cbn [value_given] in Gx; rewrite <- ?Gx; [reflexivity|]. now rewrite Gx. }
  assert (I : forall l, init_attr (t_kind t) l (t_name t) (VVal v) (TRef (RTmpl t)) log =
    match check l (RTmpl t) v log with (Some e, log') => (Err e, log') | (None, log') => (Ok a, log') end).
  { intros l. unfold init_attr, set_value, set_template, a. cbn [a_template a_value a_name]. destruct (t_kind t); cbn [akind_eqb]; destruct (check l (RTmpl t) v log) as [[e|] log']; reflexivity. }
  rewrite !E, !I.
  split; [reflexivity|]. destruct (contains_fits _ _ Gb Gv) as [[C F]|[C F]]; [left|right]; (split; [exact F|]); cbn [check]; rewrite C; split; reflexivity.
Qed.
Print Assumptions make_attribute_checked.

(** Without an attribute template, or with something no value for it can be made of, nothing is made and nothing is logged. *)
Theorem make_attribute_refused : forall l x log,
  make_attribute l None x log = (Err ValueError, log) /\
  forall t p e, x = Primitive p -> make_value p (t_bounds t) = Err e -> make_attribute l (Some t) x log = (Err e, log).
Proof. intros l x log. split; [reflexivity|]. intros t p e -> E. unfold make_attribute. now rewrite E. Qed.
Print Assumptions make_attribute_refused.

(** A number or string no value can be made of, or what is no attribute template, raises. *)
Theorem make_attribute_raises : forall l t x log, (forall t' v, t = Some t' -> ~ value_given t' x v) ->
  exists e, make_attribute l t x log = (Err e, log).
Proof.
  intros l t x log N. destruct t as [t|]; [|eexists; reflexivity]. unfold make_attribute. destruct x as [v|p].
  - destruct (N t v eq_refl). reflexivity.
  - destruct (make_value p (t_bounds t)) eqn:E; [|eexists; reflexivity]. destruct (N t a eq_refl). exact E.
Qed.
Print Assumptions make_attribute_raises.

(** ** Examples *)

Definition txt (s : string) : pv := PAtom (AStr s).
Definition no_eq : heap -> pv -> oid -> bool := fun _ _ _ => false.
Definition any_unit : pv -> res pv := fun u => Ok u.
Definition takes_all : string -> pv -> option exn := fun _ _ => None.

(** Flour and dough: 0-3 and 4-7; a template at 8. *)
Definition materials : heap :=
  fst (make_node no_eq (txt "dough") (txt "mixing") PNone PNone (fst (make_node no_eq (txt "flour") PNone PNone PNone []))).
Definition kitchen : heap := Eval vm_compute in materials ++ [mkE KMeasT [] [("name", txt "density")]].
Lemma kitchen_built : kitchen = materials ++ [mkE KMeasT [] [("name", txt "density")]].
Proof. vm_compute. reflexivity. Qed.

Lemma nothing_sound : sound [].
Proof. split; [intros [|o] k f pk K; discriminate|intros [|o] k f K; discriminate]. Qed.
Lemma materials_sound : sound materials.
Proof. unfold materials. apply make_node_sound. apply make_node_sound. exact nothing_sound. Qed.
Lemma kitchen_sound : sound kitchen.
Proof.
  rewrite kitchen_built. generalize materials_sound. generalize materials. intros h [T L].
  split; [apply (typed_new h KMeasT [] [("name", txt "density")] T)|exact (lists_run no_eq [GNew KMeasT [] [("name", txt "density")]] h L)].
Qed.

Example flour_can_be_used : can_take kitchen 7 /\ can_be_used kitchen 3 /\ ingredient_called kitchen 3 PNone (txt "flour").
Proof.
  split; [split; [reflexivity|]; split; [discriminate|]; exists 6; repeat split; discriminate|]. split; [split; [reflexivity|discriminate]|].
  right. split; reflexivity.
Qed.

Example dough_needs_flour : exists g r s, add_edge no_eq any_unit takes_all (PRef 3) (PRef 7) PNone (PAtom (AFloat (1#2))) PNone PNone PNone PNone kitchen = (g, Ok r)
  /\ edge kitchen 3 7 (txt "flour") g r s
  /\ fval g r "mass_fraction" = PObj "nominal_real" [("nominal", PAtom (AFloat (1#2))); ("units", txt "")].
Proof.
  destruct flour_can_be_used as (T & U & C).
  destruct (add_edge_adds no_eq any_unit takes_all kitchen 3 7 PNone (txt "flour") (PAtom (AFloat (1#2))) PNone PNone PNone PNone
    (PObj "nominal_real" [("nominal", PAtom (AFloat (1#2))); ("units", txt "")]) PNone PNone PNone) as (g & r & s & E & Ed & M & _); auto.
  - apply kitchen_sound.
  - eexists; reflexivity.
  - repeat split; try (left; repeat split; reflexivity). right. split; auto. left. eexists. split; [reflexivity|]. exists (txt ""). split; reflexivity.
  - exists g, r, s. auto.
Qed.

(** C37 read literally is false: [add_edge] with an absolute quantity but no units raises and yet has added
    the ingredient, at both levels. *)
Theorem add_edge_unmodified_refuted : exists h a b absolute, sound h /\ can_take h b /\ can_be_used h a /\
  forall eq units refuses, exists g r s, add_edge eq units refuses (PRef a) (PRef b) PNone PNone PNone PNone absolute PNone h = (g, Err ValueError)
    /\ edge h a b (txt "flour") g r s.
Proof.
  exists kitchen, 3, 7, (PAtom (AFloat (2#1))). destruct flour_can_be_used as (T & U & C).
  split; [apply kitchen_sound|]. split; auto. split; auto. intros eq units refuses.
  destruct (add_edge_bad_quantity eq units refuses kitchen 3 7 PNone (txt "flour") PNone PNone PNone (PAtom (AFloat (2#1))) PNone) as (g & r & s & e & E & Ed); auto.
  - apply kitchen_sound.
  - eexists; reflexivity.
  - intros (ma & nu & vo & ab & _ & _ & _ & [[D _]|[_ [(q & _ & N & _)|[[_ N] _]]]]); [discriminate|congruence|]. eapply N; reflexivity.
  - exists g, r, s. split; auto. rewrite E. f_equal. f_equal.
    assert (X : snd (add_edge eq units refuses (PRef 3) (PRef 7) PNone PNone PNone PNone (PAtom (AFloat (2#1))) PNone kitchen) = Err ValueError) by reflexivity.
    rewrite E in X. now injection X.
Qed.
Print Assumptions add_edge_unmodified_refuted.

(** Likewise [add_measurement] with an attribute that is none. *)
Theorem add_measurement_unmodified_refuted : exists h m attribute, sound h /\ kind_at h m = Some KMatR /\
  forall eq rejects, exists g r s e, add_measurement eq rejects (PRef m) (txt "density") PNone [attribute] h = (g, Err e)
    /\ measured h m (txt "density") PNone [] g r s.
Proof.
  exists kitchen, 7, (txt "1 g/ml"). split; [apply kitchen_sound|]. split; [reflexivity|]. intros eq rejects.
  apply (add_measurement_bad_attribute eq rejects kitchen 7 (txt "density") (txt "density") PNone [] (txt "1 g/ml") []); auto.
  - apply kitchen_sound.
  - left. split; [discriminate|reflexivity].
  - eexists; reflexivity.
  - left. reflexivity.
  - intros ? ? ? ? [].
  - left. intros (t & fs & E & _). discriminate.
Qed.
Print Assumptions add_measurement_unmodified_refuted.

Example dough_measured : exists g r s, add_measurement no_eq (fun _ _ _ _ => None) (PRef 7) PNone (PRef 8)
    [PObj "property" []; PObj "condition" []; PObj "property" [("name", txt "colour")]] kitchen = (g, Ok r)
  /\ measured kitchen 7 (txt "density") (PRef 8) [PObj "property" []; PObj "condition" []; PObj "property" [("name", txt "colour")]] g r s.
Proof.
  apply add_measurement_adds.
  - apply kitchen_sound.
  - reflexivity.
  - right. split; auto. exists 8. repeat split. discriminate.
  - eexists; reflexivity.
  - right. right. exists 8. split; reflexivity.
  - repeat constructor; eexists _, _; (split; [reflexivity|cbn; tauto]).
  - reflexivity.
Qed.

Example density_made : let t := mkTmpl AProperty "t1" "density" (BReal 0 20 (mkUnit [(-3)%Z; 1%Z] 1000 0)) in
  value_given t (Primitive (MNum (PyInt 7))) (VNominalReal (PyFloat (7#1)) (mkUnit [(-3)%Z; 1%Z] 1000 0)) /\ good_bounds (t_bounds t).
Proof. split; [vm_compute; reflexivity|split; [discriminate|reflexivity]]. Qed.

Print Assumptions histories_sound.
Print Assumptions make_node_sound.
Print Assumptions add_edge_sound.
Print Assumptions add_measurement_sound.
