(** C10-C14: template validation and the validation level. *)
From Coq Require Import String List Bool ZArith QArith Lia.
From Verif Require Import Base BaseFacts BoundsModel BoundsSpec BoundsProofs VlModel VlSpec VlProofs
  ValidationModel ValidationSpec ValidationProofs.
Import ListNotations.
Open Scope string_scope.
Open Scope list_scope.

(** ** C10 *)

(** At FATAL, from construction on and through any history of assignments (failing ones included),
    an attribute with a value and a template object has its value inside the template's bounds.
    Partial: values are complete and bounds as constructors leave them (see C08). *)
Theorem attribute_fatal_partial : forall k name v t log a log' ops log2,
  good_varg v -> good_targ t -> Forall good_aop ops ->
  init_attr k FATAL name v t log = (Ok a, log') ->
  respects (fst (arun k FATAL a ops log2)).
Proof.
  intros k name v t log a log' ops log2 Gv Gt Go H. unfold init_attr in H.
  set (a0 := mkAttr name None None) in *.
  assert (G0 : good_attr a0) by (split; intros; discriminate).
  assert (R0 : respects a0) by (intros ? ? E; discriminate).
  destruct (set_value FATAL a0 v log) as [[a1 [e|]] log1] eqn:E1; [discriminate|].
  destruct (set_template k FATAL a1 t log1) as [[a2 [e|]] log3] eqn:E2; inv H.
  assert (G1 := astep_good k FATAL a0 (ASetValue v) _ _ _ _ Gv G0 E1).
  assert (R1 := astep_fatal k a0 (ASetValue v) _ _ _ _ Gv G0 R0 E1).
  assert (G2 := astep_good k FATAL a1 (ASetTemplate t) _ _ _ _ Gt G1 E2).
  assert (R2 := astep_fatal k a1 (ASetTemplate t) _ _ _ _ Gt G1 R1 E2).
  now apply arun_fatal.
Qed.
Print Assumptions attribute_fatal_partial.

(** A rejected assignment, at any level, changes nothing. *)
Theorem attribute_rejected_unchanged : forall k l a o log a' e log',
  astep k l a o log = (a', Some e, log') -> a' = a.
Proof. exact astep_err. Qed.
Print Assumptions attribute_rejected_unchanged.

(** An accepted one stores what was supplied and nothing else, and was well typed. *)
Theorem attribute_accepted_stored : forall k l a o log a' log',
  astep k l a o log = (a', None, log') -> a' = assigned o a /\ well_typed k o.
Proof. exact astep_ok. Qed.
Print Assumptions attribute_accepted_stored.

(** IGNORE and WARNING reject no well-typed assignment; WARNING logs one message exactly when FATAL
    rejects, which is exactly when the new value and template would disagree. Partial: complete
    values, and no value assigned while the template is a link. *)
Theorem attribute_levels_partial : forall k a o log,
  well_typed k o -> good_aop o -> good_attr a -> respects a -> ~ unresolved a o ->
  astep k IGNORE a o log = (assigned o a, None, log) /\
  exists log', astep k WARNING a o log = (assigned o a, None, log') /\
    ((respects (assigned o a) /\ log' = log /\ astep k FATAL a o log = (assigned o a, None, log)) \/
     (~ respects (assigned o a) /\ log' = S log /\ astep k FATAL a o log = (a, Some ValueError, log))).
Proof.
  intros k a o log W G A R U. destruct (astep_outcome k a o log W G A U) as (_ & I & [[Hw Hf]|(Hw & Hf & N)]);
    split; auto; eexists; split; eauto.
  left. split; [exact (astep_fatal k a o log _ _ _ G A R Hf)|auto].
Qed.
Print Assumptions attribute_levels_partial.

(** Concrete case: a temperature property. *)
Definition kelvin : uunit := mkUnit [1%Z] 1 0.
Definition celsius : uunit := mkUnit [1%Z] 1 (27315 # 100).
Definition t_melt : tmpl := mkTmpl AProperty "u1" "melting point" (BReal 0 100 celsius).
Definition v_ok : value := VNominalReal (PyInt 300) kelvin.
Definition v_bad : value := VNominalReal (PyInt 400) kelvin.

Example attribute_ex : 
  let '(r, log) := init_attr AProperty FATAL "melting point" (VVal v_ok) (TRef (RTmpl t_melt)) O in
  match r with
  | Ok a => arun AProperty FATAL a [ASetValue (VVal v_bad); ASetTemplate TNone; ASetValue (VVal v_bad);
                                    ASetTemplate (TRef (RTmpl t_melt))] log
  | Err _ => (mkAttr "" None None, O)
  end = (mkAttr "melting point" (Some v_bad) None, O).
Proof. vm_compute. reflexivity. Qed.

Example attribute_ex_hyps : good_varg (VVal v_ok) /\ good_targ (TRef (RTmpl t_melt)) /\
  Forall good_aop [ASetValue (VVal v_bad); ASetTemplate TNone].
Proof.
  repeat split; cbn; try (eexists; reflexivity); try reflexivity; try discriminate.
  repeat constructor; cbn; try (eexists; reflexivity); reflexivity.
Qed.

Example attribute_levels_ex :
  let a := mkAttr "melting point" (Some v_ok) (Some (RTmpl t_melt)) in
  astep AProperty WARNING a (ASetValue (VVal v_bad)) 7 = (assigned (ASetValue (VVal v_bad)) a, None, 8%nat) /\
  astep AProperty FATAL a (ASetValue (VVal v_bad)) 7 = (a, Some ValueError, 7%nat).
Proof. vm_compute. split; reflexivity. Qed.

(** Finding: a value cannot be assigned to an attribute whose template is a link, even at WARNING. *)
Theorem attribute_link_template_refuted : exists k a o log e,
  well_typed k o /\ good_aop o /\ good_attr a /\ respects a /\
  snd (fst (astep k WARNING a o log)) = Some e.
Proof.
  exists AProperty, (mkAttr "melting point" None (Some (RLink "id" "u1"))), (ASetValue (VVal v_ok)), O, AttributeError.
  repeat split; try (intros; discriminate). exists (300#1)%Q; reflexivity.
Qed.
Print Assumptions attribute_link_template_refuted.

(** ** C11 *)

(** Starting from nothing, through any history of list operations (other than [+=], see
    vl_iadd_refuted), assignments, and changes of level and of object template: each attribute in the
    list was put there by some operation and, if the level was FATAL then, the object template of
    that moment admits it. Partial: complete values and bounds as constructors leave them. *)
Theorem object_template_history_partial : forall same k ops s a,
  Forall oop_no_iadd ops -> Forall (fun o => Forall complete (oop_supplied o)) ops ->
  In a (items (fst (orun same k (no_attrs same k) ops s))) ->
  exists pre o post, ops = pre ++ o :: post /\ In a (oop_supplied o) /\
    let now := snd (orun same k (no_attrs same k) pre s) in
    (e_level now = FATAL -> forall es, e_entries now = Some es -> good_entries k es -> admitted same k es a).
Proof.
  intros same k ops s a N C I.
  destruct (orun_entered same k ops (no_attrs same k) s eq_refl N a I) as [[]|(pre & o & post & -> & J & H)].
  exists pre, o, post. split; [reflexivity|]. split; auto. cbn zeta. intros L es E G. apply validate_true; auto.
  rewrite Forall_forall in C. specialize (C o (in_elt _ _ _)). rewrite Forall_forall in C. auto.
Qed.
Print Assumptions object_template_history_partial.

(** At FATAL under one template throughout, every attribute in the list is admitted by it. *)
Theorem object_template_fatal_partial : forall same k es log ops a,
  good_entries k es -> Forall no_iadd ops -> Forall (fun o => Forall complete (supplied o)) ops ->
  In a (items (fst (orun same k (no_attrs same k) (map LList ops) (mkEnv FATAL (Some es) log)))) ->
  admitted same k es a.
Proof.
  intros same k es log ops a G N C I.
  destruct (object_template_history_partial same k (map LList ops) (mkEnv FATAL (Some es) log) a) as (pre & o & post & E & J & H); auto.
  - rewrite Forall_map. eapply Forall_impl; [|exact N]. auto.
  - rewrite Forall_map. eapply Forall_impl; [|exact C]. auto.
  - assert (K : forall l v s, e_level s = FATAL /\ e_entries s = Some es -> trig v = Some (template_check same k) ->
       let s1 := snd (orun same k v (map LList l) s) in e_level s1 = FATAL /\ e_entries s1 = Some es).
    { intros l; induction l as [|x l IH]; intros v s P T; cbn [map orun]; auto. cbn [ostep].
      destruct (step attr unit env attr_instance v x s) as [[v1 r] s1] eqn:S1.
      destruct (step_entered attr unit env attr_instance (fun s0 => e_level s0 = FATAL /\ e_entries s0 = Some es) _
        (template_check_env same k FATAL (Some es)) _ _ _ _ _ _ T P S1) as (P1 & T1 & _). apply IH; auto. }
    apply map_eq_app in E as (l1 & l2 & -> & <- & _).
    destruct (K l1 (no_attrs same k) (mkEnv FATAL (Some es) log) (conj eq_refl eq_refl) eq_refl) as [K1 K2].
    apply H; auto.
Qed.
Print Assumptions object_template_fatal_partial.

(** Nothing else is rejected: when the level is IGNORE, or there is no template, or at WARNING
    whatever is supplied, or at FATAL when everything supplied is admitted, a list operation fails
    only as any Python list would. Partial: at WARNING and FATAL, complete values, and no entries
    that are links when the attribute has no template. *)
Theorem object_template_accepts_partial : forall same k v o s v' e s',
  trig v = Some (template_check same k) -> ctypes v = [tt] ->
  (e_level s <> IGNORE -> forall es, e_entries s = Some es ->
     good_entries k es /\ forall a, In a (supplied o) ->
       complete a /\ (a_template a = None -> resolved es) /\ (e_level s = FATAL -> admitted same k es a)) ->
  step attr unit env attr_instance v o s = (v', Some e, s') -> list_failure e o.
Proof.
  intros same k v o s v' e s' T C H E.
  refine (step_total_inv _ _ _ _ _ _ _ _ _ _ (fun s0 => e_level s0 = e_level s /\ e_entries s0 = e_entries s) _ T _ (conj eq_refl eq_refl) _ _ E).
  - intros x s0. apply template_check_env.
  - intros x _. rewrite C. reflexivity.
  - intros x s0 [L En] I. rewrite T. apply template_check_total. rewrite L, En. intros N es Es.
    destruct (H N es Es) as [G X]. destruct (X x I) as (C1 & R1 & A1). auto.
Qed.
Print Assumptions object_template_accepts_partial.

(** An attribute the template does not mention is admitted. *)
Theorem unmentioned_admitted : forall same k es a, ~ mentioned same es a -> admitted same k es a.
Proof. intros same k es a N e b F. exfalso. apply N. eapply first_mentioned; eauto. Qed.
Print Assumptions unmentioned_admitted.

(** At FATAL an attribute the template does not admit is refused with ValueError. *)
Theorem object_template_rejects_partial : forall same k v a s es,
  trig v = Some (template_check same k) -> ctypes v = [tt] ->
  e_level s = FATAL -> e_entries s = Some es -> good_entries k es -> complete a ->
  (a_template a = None -> resolved es) -> ~ admitted same k es a ->
  step attr unit env attr_instance v (OAppend a) s = (v, Some ValueError, s).
Proof.
  intros same k v a s es T C L E G Co R N. cbn [step]. unfold append. rewrite C. cbn [accepts existsb attr_instance orb].
  rewrite T. cbn [fire]. unfold template_check. rewrite L, E.
  destruct (validate_total same k es a G Co R) as (r & V & I). rewrite V. destruct r; [exfalso; now apply N, I|]. reflexivity.
Qed.
Print Assumptions object_template_rejects_partial.

(** Concrete case: a range narrower than the template's own bounds. *)
Definition ex_same (a b : tref) : bool :=
  match a, b with
  | RTmpl s, RTmpl t => String.eqb (t_uid s) (t_uid t)
  | RLink s i, RLink s' i' => String.eqb s s' && String.eqb i i'
  | _, _ => false
  end.
Definition ex_entries : list entry := [(RTmpl t_melt, Some (BReal 0 50 celsius))].
Definition p_ok : attr := mkAttr "melting point" (Some v_ok) (Some (RTmpl t_melt)).
Definition p_named : attr := mkAttr "melting point" (Some (VNominalReal (PyInt 340) kelvin)) None.
Definition p_free : attr := mkAttr "colour" None None.
Example object_template_ex :
  items (fst (orun ex_same AProperty (no_attrs ex_same AProperty)
    [LAssign (AIter (Reusable [p_ok; p_free])); LList (OAppend p_named); LLevel WARNING; LList (OInsert 0 p_named)]
    (mkEnv FATAL (Some ex_entries) O))) = [p_named; p_ok; p_free].
Proof. vm_compute. reflexivity. Qed.
Example object_template_ex_hyps : good_entries AProperty ex_entries /\ complete p_ok /\ complete p_named /\ resolved ex_entries.
Proof.
  repeat split.
  - intros e b [<-|[]] I. inv I. split; [discriminate|reflexivity].
  - intros v E. inv E. split; [eexists; reflexivity|reflexivity].
  - intros v E. inv E. split; [eexists; reflexivity|reflexivity].
  - intros s i b [E|[]]. discriminate.
Qed.

(** Finding: when the object template lists a link, an attribute that has no template and that the
    list does not mention is rejected, even at WARNING. *)
Theorem object_template_link_refuted : exists same k es a log e,
  complete a /\ good_entries k es /\ ~ mentioned same es a /\
  snd (fst (step attr unit env attr_instance (no_attrs same k) (OAppend a) (mkEnv WARNING (Some es) log))) = Some e.
Proof.
  exists ex_same, AProperty, [(RLink "id" "u1", None)], p_free, O, AttributeError. repeat split.
  - intros v E; discriminate.
  - intros e b [<-|[]] I; inv I.
  - intros (e & [<-|[]] & t & H & _). discriminate.
Qed.
Print Assumptions object_template_link_refuted.

(** ** C12 *)

(** Whatever is assigned and whatever list operations follow, every recorded entry is a
    (template or link, range) pair whose range, if any, is inside the template's bounds. *)
Theorem template_ranges_refine_partial : forall k x v ops y,
  set_entries k x = Ok v -> Forall no_iadd ops ->
  In y (items (fst (run hval hty unit h_instance v ops tt))) ->
  exists e, as_entry y = Some e /\ (good_entry e -> refines e).
Proof.
  intros k x v ops y H N I. destruct (set_entries_ok k x v H) as [T F].
  assert (X := entries_run ops v T N F). rewrite Forall_forall in X. destruct (X y I) as (e & E & C).
  exists e. split; auto. intros G. destruct e as [[t|s i] [b|]]; cbn; auto.
  apply refines_contains; auto.
Qed.
Print Assumptions template_ranges_refine_partial.

(** An entry in any spelling is accepted exactly when it refines, and recorded as the pair it
    stands for; otherwise the list is left as it was. *)
Theorem template_range_append : forall k v x e,
  trig v = Some h_trigger -> ctypes v = h_types k -> spells k x e -> good_entry e ->
  (refines e /\ exists y, as_entry y = Some e /\
     step hval hty unit h_instance v (OAppend x) tt = (mkVl (ctypes v) (trig v) (items v ++ [y]), None, tt)) \/
  (~ refines e /\ step hval hty unit h_instance v (OAppend x) tt = (v, Some ValueError, tt)).
Proof.
  intros k v x e T C S G. destruct (spells_as_entry k x e S) as (y & E & A & H).
  cbn [step]. unfold append. rewrite C, A, T. cbn [fire]. unfold h_trigger at 1 3. rewrite H.
  destruct e as [[t|s i] [b|]]; try (left; split; [exact I|]; exists y; split; auto; unfold with_items; now rewrite C, T).
  assert (R := refines_contains t b G). destruct (contains_bounds (t_bounds t) b).
  - left. split; [now apply R|]. exists y. split; auto. unfold with_items. now rewrite C, T.
  - right. split; auto. intros X. apply R in X. discriminate.
Qed.
Print Assumptions template_range_append.

(** Assigning a single (template, range) pair, not wrapped in a list. *)
Theorem template_range_single_pair : forall k t b,
  good_bounds b -> good_bounds (t_bounds t) ->
  (inside b (t_bounds t) /\ exists v, set_entries k (HSeq [HTmpl t; HBounds b]) = Ok v /\
     map as_entry (items v) = [Some (RTmpl t, Some b)]) \/
  (~ inside b (t_bounds t) /\ set_entries k (HSeq [HTmpl t; HBounds b]) = Err ValueError).
Proof.
  intros k t b Gb Gt. assert (R := refines_contains t b (conj Gb Gt)).
  cbn. unfold h_trigger. cbn [homogenize]. destruct (contains_bounds (t_bounds t) b).
  - left. split; [now apply R|]. eexists; split; reflexivity.
  - right. split; auto. intros X. apply R in X. discriminate.
Qed.
Print Assumptions template_range_single_pair.

(** Assigning a list of spellings: accepted exactly when all refine. *)
Theorem template_ranges_assign : forall k xs es,
  Forall2 (spells k) xs es -> Forall good_entry es ->
  (Forall refines es /\ exists v, set_entries k (HSeq xs) = Ok v /\ map as_entry (items v) = map Some es) \/
  (~ Forall refines es /\ set_entries k (HSeq xs) = Err ValueError).
Proof.
  intros k xs es F G.
  assert (NB : existsb is_bounds xs = false).
  { clear G. induction F as [|x e xs es S F IH]; auto. cbn. rewrite IH. destruct S; reflexivity. }
  unfold set_entries. rewrite NB. cbn [validate_list]. unfold init. cbn [first_pass later_pass].
  assert (A : forallb (accepts hval hty h_instance (h_types k)) xs = true).
  { clear G NB. induction F as [|x e xs es S F IH]; auto. cbn [forallb]. rewrite IH.
    destruct (spells_as_entry k x e S) as (y & _ & -> & _). reflexivity. }
  rewrite A.
  assert (X : (Forall refines es /\ exists ys, fire_all hval unit (Some h_trigger) xs tt = (Ok ys, tt) /\ map as_entry ys = map Some es)
           \/ (~ Forall refines es /\ fire_all hval unit (Some h_trigger) xs tt = (Err ValueError, tt))).
  { clear NB A. induction F as [|x e xs es S F IH].
    - left. split; auto. exists []. auto.
    - inv G. cbn [fire_all]. destruct (spells_as_entry k x e S) as (y & E & _ & H).
      cbn [fire]. unfold h_trigger at 1 3. rewrite H.
      assert (Y : (refines e /\ homogenize x = Ok y) \/ (~ refines e /\ homogenize x = Err ValueError)).
      { rewrite H. destruct e as [[t|s i] [b|]]; try (left; split; [exact I|reflexivity]).
        assert (R := refines_contains t b H1). destruct (contains_bounds (t_bounds t) b).
        - left. split; auto. now apply R. - right. split; auto. intros Z. apply R in Z. discriminate. }
      destruct Y as [[R Y]|[R Y]]; rewrite <- H, Y.
      + destruct (IH H2) as [(Rs & ys & Z & M)|(Rs & Z)]; rewrite Z.
        * left. split; auto. exists (y :: ys). split; auto. cbn [map]. now rewrite E, M.
        * right. split; auto. intros W. inv W. auto.
      + right. split; auto. intros W. inv W. auto. }
  destruct X as [(R & ys & -> & M)|(R & ->)]; [left|right]; split; auto. cbn. eauto.
Qed.
Print Assumptions template_ranges_assign.

Example template_ranges_ex :
  exists v, set_entries AProperty (HSeq [HTmpl t_melt; HSeq [HTmpl t_melt; HBounds (BReal 280 300 kelvin)]; HLink "id" "z"]) = Ok v
  /\ length (items v) = 3%nat.
Proof. eexists. split; vm_compute; reflexivity. Qed.
Example template_ranges_ex_bad :
  set_entries AProperty (HSeq [HTmpl t_melt; HBounds (BReal 200 300 kelvin)]) = Err ValueError.
Proof. vm_compute. reflexivity. Qed.

(** Finding: in the pair spelling the template may be of another kind. *)
Theorem template_kind_refuted : exists k t v,
  t_kind t <> k /\ set_entries k (HSeq [HSeq [HTmpl t; HNone]]) = Ok v /\
  map as_entry (items v) = [Some (RTmpl t, None)].
Proof. exists ACondition, t_melt. eexists. split; [discriminate|]. split; reflexivity. Qed.
Print Assumptions template_kind_refuted.

(** ** C13 *)

(** A fraction assignment at FATAL succeeds exactly for dimensionless values within [0,1], and
    otherwise raises ValueError and keeps the old value. *)
Theorem fraction_fatal_partial : forall d old v log, dimensionless_unit d -> good_value v -> continuous v = true ->
  (is_fraction v /\ set_fraction d FATAL old (VVal v) log = (Some v, None, log)) \/
  (~ is_fraction v /\ set_fraction d FATAL old (VVal v) log = (old, Some ValueError, log)).
Proof.
  intros d old v log D G C. cbn [set_fraction]. rewrite C.
  destruct (contains_fits _ _ (fraction_good d D) G) as [[E F]|[E F]]; rewrite E; [left|right]; split; auto;
    rewrite <- (fits_fraction d v D C); auto.
Qed.
Print Assumptions fraction_fatal_partial.

(** At IGNORE and WARNING every complete continuous value is accepted, as fraction or as absolute
    quantity; at every level None is accepted and anything that is not a continuous value refused. *)
Theorem quantity_lenient : forall d l q f v log, dimensionless_unit d -> l <> FATAL ->
  good_value v -> continuous v = true ->
  exists log', qstep d l q f (VVal v) log =
    (match f with
     | QMass => mkQ (Some v) (q_volume q) (q_number q) (q_absolute q)
     | QVolume => mkQ (q_mass q) (Some v) (q_number q) (q_absolute q)
     | QNumber => mkQ (q_mass q) (q_volume q) (Some v) (q_absolute q)
     | QAbsolute => mkQ (q_mass q) (q_volume q) (q_number q) (Some v)
     end, None, log').
Proof.
  intros d l q f v log D L G C.
  assert (Fr : forall old, exists log', set_fraction d l old (VVal v) log = (Some v, None, log')).
  { intros old. cbn [set_fraction]. rewrite C. destruct l; try congruence; eauto.
    destruct (contains_fits _ _ (fraction_good d D) G) as [[E _]|[E _]]; rewrite E; eauto. }
  destruct f; cbn [qstep]; try (destruct (Fr (q_mass q)) as [? ->]; eauto; fail);
    try (destruct (Fr (q_volume q)) as [? ->]; eauto; fail); try (destruct (Fr (q_number q)) as [? ->]; eauto; fail).
  cbn [set_absolute]. rewrite C. destruct l; try congruence; eauto.
  assert (U : good_unit (value_unit d v)). { destruct v; try discriminate; cbn in *; tauto. }
  assert (U' : good_unit d). { destruct D as (_ & S & _). unfold good_unit. rewrite S. reflexivity. }
  assert (P : 0 <= float_max) by discriminate.
  destruct (continuous_contains 0 float_max _ v P U G) as [r ->].
  destruct (continuous_contains 0 float_max _ v P U' G) as [r' ->]. eauto.
Qed.
Print Assumptions quantity_lenient.

Theorem quantity_none : forall d l q f log, exists q', qstep d l q f VNone log = (q', None, log) /\ get_q q' f = None /\
  forall f', f' <> f -> get_q q' f' = get_q q f'.
Proof. intros d l q f log. destruct f; eexists; (repeat split); intros [] N; auto; congruence. Qed.
Print Assumptions quantity_none.

Theorem quantity_other : forall d l q f x log, (x = VOther \/ exists v, x = VVal v /\ continuous v = false) ->
  qstep d l q f x log = (q, Some TypeError, log).
Proof.
  intros d l [a b c e] f x log [->|(v & -> & C)]; destruct f; cbn; rewrite ?C; reflexivity.
Qed.
Print Assumptions quantity_other.

(** A rejected assignment changes nothing; a successful one changes only its own field. *)
Theorem quantity_frame : forall d l q f x log q' r log', qstep d l q f x log = (q', r, log') ->
  (r <> None -> q' = q) /\ (forall f', f' <> f -> get_q q' f' = get_q q f').
Proof.
  intros d l q f x log q' r log' H.
  assert (A : forall old y r log', set_fraction d l old x log = (y, r, log') -> r <> None -> y = old).
  { intros old y r0 log0 E N. destruct x as [|v|]; cbn [set_fraction] in E; repeat break_match; inv E; congruence. }
  assert (B : forall old y r log', set_absolute d l old x log = (y, r, log') -> r <> None -> y = old).
  { intros old y r0 log0 E N. destruct x as [|v|]; cbn [set_absolute] in E; repeat break_match; inv E; congruence. }
  destruct q as [qa qb qc qd].
  destruct f; cbn [qstep q_mass q_volume q_number q_absolute] in H;
    [destruct (set_fraction d l qa x log) as [[y e] lg] eqn:E | destruct (set_fraction d l qb x log) as [[y e] lg] eqn:E
    |destruct (set_fraction d l qc x log) as [[y e] lg] eqn:E | destruct (set_absolute d l qd x log) as [[y e] lg] eqn:E];
    inv H; (split; [intros N; (apply A in E || apply B in E); subst; auto | intros [] N; auto; congruence]).
Qed.
Print Assumptions quantity_frame.

(** At FATAL, whatever the history, the three fractions stay fractions. *)
Theorem fraction_history_partial : forall d ops q log, dimensionless_unit d ->
  Forall (fun o => good_varg (snd o)) ops ->
  (forall f v, f <> QAbsolute -> get_q q f = Some v -> is_fraction v) ->
  forall f v, f <> QAbsolute -> get_q (fst (qrun d FATAL q ops log)) f = Some v -> is_fraction v.
Proof.
  intros d ops; induction ops as [|[f x] r IH]; intros q log D G H; cbn [qrun]; auto.
  inv G. destruct (qstep d FATAL q f x log) as [[q1 e] log1] eqn:E. apply IH; auto.
  intros f' v' N' E'.
  destruct (quantity_frame _ _ _ _ _ _ _ _ _ E) as [R Fr].
  destruct e as [e|]; [rewrite R in E' by congruence; eauto|].
  assert (Dec : f' = f \/ f' <> f) by (destruct f', f; auto; right; discriminate).
  destruct Dec as [->|Ne]; [|rewrite Fr in E' by auto; eauto].
  destruct x as [|v|].
  - destruct (quantity_none d FATAL q f log) as (q2 & E2 & N2 & _). rewrite E2 in E. inv E. congruence.
  - destruct (continuous v) eqn:C; [|rewrite (quantity_other d FATAL q f (VVal v)) in E by eauto; discriminate].
    assert (St : get_q q1 f = Some v /\ is_fraction v).
    { destruct f; try congruence; cbn [qstep] in E;
        (destruct (set_fraction d FATAL _ (VVal v) log) as [[y ee] ll] eqn:S; inv E; cbn;
         match goal with S : set_fraction _ _ ?old _ _ = _ |- _ =>
           destruct (fraction_fatal_partial d old v log D H2 C) as [[X Y]|[X Y]]; rewrite Y in S; inv S; auto end). }
    destruct St as [St1 St2]. rewrite St1 in E'. now inv E'.
  - rewrite (quantity_other d FATAL q f VOther) in E by auto. discriminate.
Qed.
Print Assumptions fraction_history_partial.

Definition one : uunit := mkUnit [] 1 0.
Definition percent : uunit := mkUnit [] (1 # 100) 0.
Example quantities_ex :
  qrun one FATAL (mkQ None None None None)
    [(QMass, VVal (VUniformReal (PyInt 20) (PyInt 30) percent)); (QMass, VVal (VNominalReal (PyInt 2) one));
     (QVolume, VVal (VNominalReal (PyInt 1) kelvin)); (QNumber, VVal (VNominalReal (PyFloat (1#2)) one))] O
  = (mkQ (Some (VUniformReal (PyInt 20) (PyInt 30) percent)) None (Some (VNominalReal (PyFloat (1#2)) one)) None, O).
Proof. vm_compute. reflexivity. Qed.
Example quantities_ex_hyps : dimensionless_unit one /\ good_varg (VVal (VUniformReal (PyInt 20) (PyInt 30) percent)) /\
  continuous (VUniformReal (PyInt 20) (PyInt 30) percent) = true.
Proof. repeat split; cbn; try reflexivity. exists 20, 30. repeat split; discriminate. Qed.

(** Finding: at FATAL every absolute quantity is refused, valid ones too. *)
Theorem absolute_quantity_fatal_refuted : exists d v log, dimensionless_unit d /\ good_value v /\
  continuous v = true /\ set_absolute d FATAL None (VVal v) log = (None, Some ValueError, log) /\
  set_absolute d WARNING None (VVal v) log = (Some v, None, log).
Proof.
  exists one, (VNominalReal (PyInt 3) kelvin), O. repeat split; try reflexivity. exists 3; reflexivity.
Qed.
Print Assumptions absolute_quantity_fatal_refuted.

(** ** C14 *)

(** A with-block that ends normally, or that never starts because its level is invalid, leaves the
    level as it was, whatever its body does. Partial: bodies that raise are not covered. *)
Theorem validation_level_restored_partial : forall l x body,
  snd (exec (PWith x body) l) = false \/ x = None -> fst (exec (PWith x body) l) = l.
Proof.
  intros l [x|] body H; cbn [exec] in *; auto. destruct (exec body x) as [l2 []]; cbn in *; auto.
  destruct H; discriminate.
Qed.
Print Assumptions validation_level_restored_partial.

(** So a program all of whose level changes are in such blocks never changes the level, if every
    exception is caught inside the block it is raised in. *)
Fixpoint scoped (p : prog) : Prop :=
  match p with
  | PSkip | PRaise => True
  | PSet _ => False
  | PWith _ body => forall l, snd (exec body l) = false
  | PSeq p q | PTry p q | PFinally p q => scoped p /\ scoped q
  end.
Theorem validation_level_scoped : forall p l, scoped p -> fst (exec p l) = l.
Proof.
  intros p; induction p; intros l0 S; cbn [exec scoped] in *; auto.
  - contradiction.
  - destruct l as [l|]; auto. specialize (S l). destruct (exec p l) as [l2 []]; cbn in *; auto. discriminate.
  - destruct S as [S1 S2]. specialize (IHp1 l0 S1). destruct (exec p1 l0) as [l1 []]; cbn in *; subst; auto.
  - destruct S as [S1 S2]. specialize (IHp1 l0 S1). destruct (exec p1 l0) as [l1 []]; cbn in *; subst; auto.
  - destruct S as [S1 S2]. specialize (IHp1 l0 S1). destruct (exec p1 l0) as [l1 e1]; cbn in *; subst.
    specialize (IHp2 l0 S2). destruct (exec p2 l0) as [l2 e2]; cbn in *; auto.
Qed.
Print Assumptions validation_level_scoped.

Example validation_level_ex :
  exec (PWith (Some FATAL) (PSeq (PSet (Some IGNORE)) (PSeq (PWith (Some FATAL) PSkip) (PTry PRaise (PSet (Some FATAL)))))) WARNING
  = (WARNING, false).
Proof. reflexivity. Qed.

(** Finding: when the body raises, the level stays changed, even if the exception is caught around
    the block. *)
Theorem validation_level_restored_refuted : exists x body l,
  exec (PTry (PWith (Some x) body) PSkip) l = (x, false) /\ x <> l.
Proof. exists FATAL, PRaise, WARNING. split; [reflexivity|discriminate]. Qed.
Print Assumptions validation_level_restored_refuted.
