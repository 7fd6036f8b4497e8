(** C28: make_instance. *)
From Coq Require Import String List Bool Arith Lia.
From Verif Require Import Base BaseFacts GraphModel GraphSpec GraphProofs GraphProperties TravModel SerialEntity InstModel InstSpec InstProofs.
Import ListNotations.
Open Scope string_scope.
Open Scope list_scope.

Section P.
  Variable eq : heap -> pv -> oid -> bool.
  Variable defaults : ekind -> list (string * pv).

  Lemma inv_start : forall h, Inv defaults h [] (fun _ => []) h.
  Proof.
    intros h. constructor.
    - auto.
    - cbn. lia.
    - intros [|i] o r E; discriminate.
    - constructor.
    - intros o [].
    - intros o x [].
    - intros o. exists 0. reflexivity.
    - intros o r E. discriminate.
  Qed.

  Lemma step_edges : forall h, lists_mirror h -> forall a b, spec_step h a b -> In b (edges h a).
  Proof.
    intros h L a b S. destruct S as [m p K F|x m K F|p l x K F I]; unfold edges; rewrite K.
    - rewrite F. now left.
    - rewrite F. now left.
    - rewrite F. cbn. apply in_flat_map. exists (PRef x). split; auto. now left.
  Qed.

  (** For a spec in a graph without links, make_instance makes one run for every spec that can be
      reached (by way of processes, ingredients and materials), however often it is shared and
      also if the way is cyclic, and nothing else; the runs refer to each other as their specs do. Without agreement of
      both sides of the references among the specs, or with links, see the theorems below. *)
  Theorem make_instance_partial : forall h root, processes_agree h -> lists_mirror h -> refs_typed h ->
    is_spec h root -> ~ link_on_the_way h root ->
    exists r g run, make_instance eq defaults h (PRef root) = Done (r, g) /\ instance h root g r run.
  Proof.
    intros h root A L T Sr N. unfold make_instance.
    destruct (crawler_ok eq defaults h A L T (S (length h)) [] (fun _ => []) h root (inv_start h) Sr) as [(r & g & s & out & E & Er & [I (more & Es & Hm) _])|[_ Lk]];
      [unfold room; cbn; lia| |contradiction].
    cbn [app] in Es. subst more. rewrite E. cbn [obind]. exists r, g, (fun o c => seen_get s o = Some c). split; auto.
    assert (Cl : forall a b, In a (map fst s) -> spec_step h a b -> In b (map fst s)).
    { intros a b Ia St. apply (step_edges h L) in St. destruct (Hm a Ia) as [Oa _]. rewrite <- Oa in St. now apply (i_out _ _ _ _ _ I) in St. }
    assert (Re : forall o, reaches h root o -> In o (map fst s)).
    { intros o R. induction R; eauto. eapply seen_In; eauto. }
    assert (Ex : forall o c, seen_get s o = Some c -> exists k rk, kind_at h o = Some k /\ run_class k rk /\ hget g c = Some (expected defaults h s out o) /\ out o = edges h o).
    { intros o c Eo. assert (Io := seen_In _ _ _ Eo). destruct (i_spec _ _ _ _ _ I _ Io) as (k & rk & K & C). exists k, rk.
      split; auto. split; auto. split; [eapply i_ent; eauto|]. now apply Hm. }
    assert (F : forall o c f, seen_get s o = Some c -> fval g c f = fget (expected defaults h s out o) f).
    { intros o c f Eo. destruct (Ex _ _ Eo) as (_ & _ & _ & _ & Hc & _). unfold fval. now rewrite Hc. }
    assert (Unseen : forall o, ~ In o (map fst s) -> out o = []) by (intros; eapply out_unseen; eauto).
    assert (Single : forall o c f, seen_get s o = Some c -> (kind_at h o = Some KMatS /\ f = "process") \/ (kind_at h o = Some KIngS /\ f = "material") ->
      mirror (fun o c => seen_get s o = Some c) (fval h o f) (fval g c f)).
    { intros o c f Eo Cf. rewrite (F _ _ _ Eo). destruct (Ex _ _ Eo) as (k & rk & K & C & Hc & Oo).
      assert (V : fget (expected defaults h s out o) f = hd PNone (map (ref s) (edges h o))).
      { unfold expected, fget. destruct Cf as [[K' ->]|[K' ->]]; rewrite K', Oo; reflexivity. }
      rewrite V. destruct (fval h o f) as [| | |p|l| | |] eqn:Fv;
        try (right; split; [unfold edges; destruct Cf as [[K' ->]|[K' ->]]; rewrite K', Fv; reflexivity|intros p' q' X; discriminate]).
      - assert (Ed : edges h o = [p]) by (unfold edges; destruct Cf as [[K' ->]|[K' ->]]; rewrite K', Fv; reflexivity).
        rewrite Ed in *. assert (Ip : In p (map fst s)) by (apply (i_out _ _ _ _ _ I o); rewrite Oo; now left). apply seen_get_some in Ip as [q Ip].
        left. exists p, q. split; auto. split; auto. cbn. unfold ref. now rewrite Ip.
      - exfalso. destruct Cf as [[K' ->]|[K' ->]].
        + destruct (T _ _ "process" KProcS K') as (? & ? & _ & _ & [W|[(? & ? & W)|(? & W & _)]]); [unfold asked_kind; cbn; tauto| | |]; rewrite Fv in W; discriminate.
        + destruct (T _ _ "material" KMatS K') as (? & ? & _ & _ & [W|[(? & ? & W)|(? & W & _)]]); [unfold asked_kind; cbn; tauto| | |]; rewrite Fv in W; discriminate. }
    assert (Back : forall o v w, (w = match v with PRef m => if mem o (out m) then ref s m else PNone | _ => PNone end) ->
      (forall m, v = PRef m -> In o (edges h m)) -> mirror (fun o c => seen_get s o = Some c) v w).
    { intros o v w W H. destruct v as [| | |m| | | |]; try (right; split; [auto|intros p' q' X; discriminate]).
      destruct (seen_get s m) as [q|] eqn:Em.
      - left. exists m, q. split; auto. split; auto. assert (mem o (out m) = true) as M.
        { apply mem_In. destruct (Ex _ _ Em) as (_ & _ & _ & _ & _ & ->). now apply H. }
        rewrite M in W. unfold ref in W. now rewrite Em in W.
      - right. split; [|intros p q X; injection X as <-; congruence]. rewrite W. apply seen_get_none in Em. rewrite (Unseen _ Em). reflexivity. }
    constructor; auto.
    - intros o. split.
      + intros R. apply seen_get_some. auto.
      + intros [c Eo]. apply seen_In in Eo. now apply Hm.
    - intros c. split.
      + intros [L1 L2]. rewrite (i_len _ _ _ _ _ I) in L2. destruct (nth_error s (c - length h)) as [[o q]|] eqn:Q; [|apply nth_error_None in Q; lia].
        assert (X := i_pos _ _ _ _ _ I _ _ _ Q). exists o. apply In_seen_get; [apply (i_nodup _ _ _ _ _ I)|]. replace c with q by lia. eapply nth_error_In; eauto.
      + intros [o Eo]. eapply seen_ge; eauto.
    - intros. congruence.
    - intros. eapply seen_inj; eauto.
    - apply (i_old _ _ _ _ _ I).
    - intros o c Eo. destruct (Ex _ _ Eo) as (k & rk & K & C & Hc & _). exists k, rk. split; auto. split; auto.
      unfold kind_at. rewrite Hc. cbn. f_equal. eapply expected_kind; eauto.
    - intros o c Eo. rewrite (F _ _ _ Eo). destruct (Ex _ _ Eo) as (k & rk & K & C & _ & _). unfold expected, fget. rewrite K. destruct k; reflexivity.
    - intros o c Eo. destruct (Ex _ _ Eo) as (k & rk & K & C & Hc & _). assert (Kc : kind_at g c = Some rk) by (unfold kind_at; rewrite Hc; cbn; f_equal; eapply expected_kind; eauto).
      unfold read. rewrite Kc, K. apply run_kind_class in C. assert (Lo := kind_lt _ _ _ K). destruct k; inv C; rewrite ?(F _ _ _ Eo); unfold expected, fget; rewrite K.
      + cbn. unfold name_of, read. now rewrite K.
      + cbn. unfold name_of, read. now rewrite K.
      + cbn. unfold name_of, read. now rewrite K.
      + cbn [e_fields dict_get String.eqb Ascii.eqb Bool.eqb orb]. unfold is_kind, kind_at. rewrite (i_old _ _ _ _ _ I o Lo). unfold kind_at in K. destruct (hget h o) as [e|] eqn:He; [|discriminate]. cbn in K. injection K as K. cbn [option_map]. rewrite K.
        unfold fval. now rewrite (i_old _ _ _ _ _ I o Lo).
    - intros p c Eo K. apply (Back p); [|].
      + rewrite (F _ _ _ Eo). unfold expected, fget. rewrite K. reflexivity.
      + intros m Fm. destruct (output_material h A _ _ K Fm) as [Km Fp]. unfold edges. rewrite Km, Fp. now left.
    - intros p c l Eo K Fl. destruct (Ex _ _ Eo) as (_ & _ & _ & _ & _ & Oo). rewrite (F _ _ _ Eo). unfold expected, fget. rewrite K. cbn.
      assert (Ed : edges h p = l) by (unfold edges; rewrite K, Fl; apply refs_list). rewrite Oo, Ed.
      assert (Il : forall x, In x l -> In x (map fst s)) by (intros x J; apply (i_out _ _ _ _ _ I p); now rewrite Oo, Ed).
      clear - Il. induction l as [|x l IH]; [exists []; split; [reflexivity|constructor]|].
      destruct IH as (l' & E & F2); [intros; apply Il; now right|]. destruct (seen_get_some s x (Il x (or_introl eq_refl))) as [q Eq].
      exists (q :: l'). split; [|constructor; auto]. cbn. injection E as E. rewrite E. f_equal. f_equal. unfold ref. now rewrite Eq.
    - intros x c Eo K. apply (Back x).
      + rewrite (F _ _ _ Eo). unfold expected, fget. rewrite K. reflexivity.
      + intros p Fp. assert (Kp := user_kind eq h L _ _ K Fp). destruct (ingredients_of eq h L _ Kp) as (xs & _ & -> & _ & H). apply H. auto.
    - intros m c Eo K. rewrite (F _ _ _ Eo). unfold expected, fget. rewrite K. reflexivity.
    - intros m c Eo K. rewrite (F _ _ _ Eo). unfold expected, fget. rewrite K. reflexivity.
    - intros o c e Eo He. destruct (Ex _ _ Eo) as (k & rk & K & C & Hc & _). rewrite Hc in He. injection He as <-. unfold expected. destruct (kind_at h o) as [[]|]; reflexivity.
  Qed.

  (** With a link on the way it raises TypeError. *)
  Theorem make_instance_link : forall h root, processes_agree h -> lists_mirror h -> refs_typed h -> is_spec h root ->
    link_on_the_way h root -> make_instance eq defaults h (PRef root) = Raised TypeError.
  Proof.
    intros h root A L T Sr (o & sc & i & R & St). unfold make_instance.
    destruct (crawler_ok eq defaults h A L T (S (length h)) [] (fun _ => []) h root (inv_start h) Sr) as [(r & g & s & out & E & Er & [I (more & Es & Hm) _])|[E _]];
      [unfold room; cbn; lia| |now rewrite E].
    exfalso. cbn [app] in Es. subst more.
    assert (Io : In o (map fst s)).
    { clear St. induction R as [|a b R IH St]; [eapply seen_In; eauto|]. apply (step_edges h L) in St. destruct (Hm a IH) as [Oa _]. rewrite <- Oa in St. now apply (i_out _ _ _ _ _ I) in St. }
    apply (Hm o Io). exists sc, i. auto.
  Qed.

  (** What is no spec is rejected. *)
  Theorem make_instance_rejects : forall h v, (forall o, v = PRef o -> ~ is_spec h o) -> make_instance eq defaults h v = Raised TypeError.
  Proof.
    intros h v H. unfold make_instance. cbn. destruct v; auto. cbn. specialize (H _ eq_refl).
    destruct (kind_at h o) as [k|] eqn:K; auto. destruct k; auto; exfalso; apply H; eexists; eexists; (split; [exact K|unfold run_class; cbn; tauto]).
  Qed.
End P.

(** ** Every history keeps references well typed *)

Lemma well_typed_kinds : forall h h' o f v, (forall x, kind_at h' x = kind_at h x) -> well_typed h o f v -> well_typed h' o f v.
Proof.
  intros h h' o f v E (k & pk & K & A & W). exists k, pk. rewrite E. split; auto. split; auto.
  destruct W as [W|[W|(p & W & Kp)]]; auto. right. right. exists p. now rewrite E.
Qed.
Lemma typed_set : forall h o f v, refs_typed h ->
  (forall k pk, kind_at h o = Some k -> asked_kind k f pk -> well_typed h o f v) -> refs_typed (set_field h o f v).
Proof.
  intros h o f v T H q k f' pk K A. rewrite kind_set_field in K. apply (well_typed_kinds h); [intros; apply kind_set_field|].
  destruct (fval_set_field_name h o f v q f') as [->|(-> & -> & ->)]; eauto.
Qed.
Lemma typed_set_other : forall h o f v, refs_typed h -> (forall k pk, ~ asked_kind k f pk) -> refs_typed (set_field h o f v).
Proof. intros h o f v T H. apply typed_set; auto. intros k pk _ A. destruct (H _ _ A). Qed.
Lemma not_asked : forall f, In f ["output_material"; "ingredients"; "measurements"; "name"; "labels"] -> forall k pk, ~ asked_kind k f pk.
Proof.
  intros f I k pk A. unfold asked_kind in A. cbn in A, I. repeat destruct A as [E|A]; try contradiction; injection E as _ <- _;
  repeat destruct I as [E|I]; try discriminate; contradiction.
Qed.
Lemma typed_value : forall h o f k pk v, kind_at h o = Some k -> asked_kind k f pk -> is_kind h pk v = true \/ v = PNone \/ (exists s i, v = PLink s i) -> well_typed h o f v.
Proof.
  intros h o f k pk v K A H. exists k, pk. split; auto. split; auto. destruct H as [H|[H|H]]; auto. right. right.
  destruct v; try discriminate. exists o0. split; auto. now apply is_kind_ref.
Qed.

Section H.
  Variable eq : heap -> pv -> oid -> bool.

  Lemma typed_plain : forall h o f v k pk, kind_at h o = Some k -> asked_kind k f pk -> refs_typed h -> refs_typed (fst (set_plain pk f h o v)).
  Proof.
    intros h o f v k pk K A T. unfold set_plain.
    assert (X : is_kind h pk v = true \/ v = PNone \/ (exists s i, v = PLink s i) -> refs_typed (set_field h o f v)).
    { intros H. apply typed_set; auto. intros. apply (typed_value h o f k pk); auto. }
    destruct v; try (destruct (is_kind h pk _) eqn:E; cbn [fst]; auto); cbn [fst]; apply X; eauto.
  Qed.

  Lemma typed_assign : forall h o f v, refs_typed h -> refs_typed (fst (assign eq h o f v)).
  Proof.
    intros h o f v T. unfold assign. destruct (kind_at h o) as [k|] eqn:K; auto. destruct (role_of k f) as [ro|] eqn:R; auto.
    assert (A : match ro with Produce pk | Owned pk _ | Plain pk => asked_kind k f pk | IngRunSpec => asked_kind k f KIngS /\ f = "spec" end).
    { destruct k; cbn in R; try discriminate; repeat break_if; try discriminate; str_eq; inv R; unfold asked_kind; cbn; tauto. }
    assert (Fp : forall pk, ro = Produce pk -> f = "process") by (intros pk ->; destruct k; cbn in R; try discriminate; repeat break_if; try discriminate; now str_eq).
    assert (Fl : forall pk lf, ro = Owned pk lf -> In lf ["output_material"; "ingredients"; "measurements"; "name"; "labels"]).
    { intros pk lf ->. apply listed_role in R. destruct R as [E|[E|E]]; inv E; cbn; tauto. }
    destruct ro as [pk|pk lf|pk|].
    - rewrite (Fp pk eq_refl) in *. unfold set_process.
      set (h1 := match fval h o "process" with PRef p => if is_kind h pk (PRef p) then set_field h p "output_material" PNone else h | _ => h end).
      assert (T1 : refs_typed h1) by (unfold h1; repeat break_match; auto; apply typed_set_other; auto; apply not_asked; cbn; tauto).
      assert (K1 : forall x, kind_at h1 x = kind_at h x) by (intros; unfold h1; repeat break_match; auto using kind_set_field).
      clearbody h1. cbv zeta.
      assert (X : forall w, is_kind h1 pk w = true \/ w = PNone \/ (exists s i, w = PLink s i) -> forall g, refs_typed g -> (forall x, kind_at g x = kind_at h1 x) -> refs_typed (set_field g o "process" w)).
      { intros w H g Tg Kg. apply typed_set; auto. intros. apply (well_typed_kinds h1); auto. apply (typed_value h1 o "process" k pk); auto. now rewrite K1. }
      destruct v; try exact T1; cbn [fst].
      + apply X; auto.
      + apply X; eauto.
      + destruct (is_kind h1 pk (PRef o0)) eqn:E; cbn [fst]; auto. apply X; auto; [|intros; apply kind_set_field].
        apply typed_set_other; auto. apply not_asked. cbn. tauto.
    - assert (Lf := Fl _ _ eq_refl). unfold set_owned.
      match goal with |- context [match ?x with Ok h1 => _ | Err e => (h, Some e) end] => set (d := x) end.
      assert (D : match d with Ok h1 => refs_typed h1 /\ forall x, kind_at h1 x = kind_at h x | Err _ => True end).
      { unfold d. destruct (fval h o f); auto. destruct (is_kind _ _ _); auto. destruct (fval h o0 lf); auto. destruct (remove _ _ _ _); auto.
        split; [|intros; apply kind_set_field]. apply typed_set_other; auto. now apply not_asked. }
      clearbody d. cbv zeta. destruct d as [h1|e]; auto. destruct D as [T1 K1].
      assert (X : forall w, is_kind h1 pk w = true \/ w = PNone \/ (exists s i, w = PLink s i) -> refs_typed (set_field h1 o f w)).
      { intros w H. apply typed_set; auto. intros. apply (typed_value h1 o f k pk); auto. now rewrite K1. }
      destruct v; try exact T1; cbn [fst]; try (apply X; eauto; fail).
      destruct (is_kind h1 pk (PRef o0)) eqn:E; cbn [fst]; auto. destruct (fval _ o0 lf); cbn [fst]; auto.
      apply typed_set_other; auto. now apply not_asked.
    - eapply typed_plain; eauto.
    - destruct A as [A ->]. unfold set_ing_spec.
      match goal with |- context [set_plain KIngS "spec" ?x o v] => set (h1 := x) end.
      assert (T1 : refs_typed h1).
      { unfold h1. repeat break_match; auto. apply typed_set_other; [apply typed_set_other; auto|]; apply not_asked; cbn; tauto. }
      assert (K1 : forall x, kind_at h1 x = kind_at h x) by (intros; unfold h1; repeat break_match; auto; now rewrite !kind_set_field).
      clearbody h1. cbv zeta. apply (typed_plain h1 o "spec" v k KIngS); auto. now rewrite K1.
  Qed.

  Lemma typed_new : forall h k u extra, refs_typed h -> refs_typed (h ++ [mkE k u (blank k ++ extra)]).
  Proof.
    intros h k u extra T o k' f pk K A. destruct (Nat.lt_trichotomy o (length h)) as [L|[->|L]].
    - rewrite kind_app1 in K by auto. rewrite fval_app1 by auto. destruct (T _ _ _ _ K A) as (k2 & pk2 & K2 & A2 & W). exists k2, pk2.
      rewrite kind_app1 by auto. split; auto. split; auto. destruct W as [W|[W|(p & W & Kp)]]; auto. right. right. exists p. split; auto.
      rewrite kind_app1; auto. eapply kind_lt; eauto.
    - rewrite kind_app2 in K. cbn in K. injection K as <-. rewrite fval_app2. exists k, pk. rewrite kind_app2. split; auto. split; auto. left.
      unfold fget. cbn [e_fields]. rewrite dict_get_app. unfold asked_kind in A. cbn in A.
      repeat destruct A as [E|A]; try contradiction; injection E as <- <- <-; reflexivity.
    - apply kind_lt in K. rewrite app_length in K. cbn in K. lia.
  Qed.

  (** Whatever a program does, a reference field holds None, a link or an object of the right class. *)
  Theorem references_typed : forall ops, refs_typed (grun eq [] ops).
  Proof.
    intros ops. assert (T : refs_typed []) by (intros [|o] k f pk K; discriminate). revert T. generalize (@nil entity).
    induction ops as [|op ops IH]; intros h T; [exact T|]. cbn [grun]. apply IH. destruct op as [k u extra|o f v]; cbn [gstep fst].
    - now apply typed_new.
    - now apply typed_assign.
  Qed.
End H.

(** C28 for every program that does not meet the findings of C15 and C16. *)
Theorem make_instance_history_partial : forall eq defaults ops root, let h := grun eq [] ops in
  throughout eq (fun h op => not_stolen h op /\ no_reject h op /\ no_twin eq h op) [] ops -> is_spec h root ->
  (~ link_on_the_way h root -> exists r g run, make_instance eq defaults h (PRef root) = Done (r, g) /\ instance h root g r run)
  /\ (link_on_the_way h root -> make_instance eq defaults h (PRef root) = Raised TypeError).
Proof.
  intros eq defaults ops root h Th S.
  assert (W : forall (P Q : heap -> gop -> Prop), (forall h op, P h op -> Q h op) -> forall ops h, throughout eq P h ops -> throughout eq Q h ops).
  { intros P Q H l. induction l as [|x l IH]; intros g; cbn; auto. intros [A B]. split; auto. }
  assert (A : processes_agree h) by (apply material_process_agree_partial; eapply W; [|exact Th]; cbn; tauto).
  assert (L : lists_mirror h) by (apply lists_mirror_references_partial; eapply W; [|exact Th]; cbn; tauto).
  assert (T : refs_typed h) by apply references_typed.
  split; intros H; [now apply make_instance_partial|now apply make_instance_link].
Qed.

(** Two ingredients that share a material, whose own process uses the first material again. *)
Definition ex_specs : list gop :=
  [ GNew KMatS [] [("name", PAtom (AStr "m"))]; GNew KProcS [] [("name", PAtom (AStr "p"))];
    GNew KIngS [] [("name", PAtom (AStr "i"))]; GNew KIngS [] [("name", PAtom (AStr "j"))]; GNew KMatS [] [("name", PAtom (AStr "n"))];
    GNew KProcS [] [("name", PAtom (AStr "q"))]; GNew KIngS [] [("name", PAtom (AStr "k"))];
    GSet 0 "process" (PRef 1); GSet 2 "process" (PRef 1); GSet 3 "process" (PRef 1); GSet 2 "material" (PRef 4); GSet 3 "material" (PRef 4);
    GSet 4 "process" (PRef 5); GSet 6 "process" (PRef 5); GSet 6 "material" (PRef 0) ].
Definition never : heap -> pv -> oid -> bool := fun _ _ _ => false.

Example make_instance_ex : let h := grun never [] ex_specs in
  throughout never (fun h op => not_stolen h op /\ no_reject h op /\ no_twin never h op) [] ex_specs /\ is_spec h 0
  /\ exists g, make_instance never (fun _ => []) h (PRef 0) = Done (7, g) /\ length g = 14
     /\ fval g 7 "process" = PRef 8 /\ fval g 8 "output_material" = PRef 7 /\ fval g 8 "ingredients" = PList [PRef 9; PRef 13]
     /\ fval g 9 "material" = PRef 10 /\ fval g 13 "material" = PRef 10 /\ fval g 12 "material" = PRef 7 /\ read g 13 "name" = PAtom (AStr "j").
Proof.
  split.
  - unfold ex_specs. history ltac:(split; [first [ok_stolen | intros m0 p0 mk0 m1 Hop; inversion Hop; subst; vm_compute; intros Hk [Hm|Hm]; congruence] | split; [ok_reject | ok_twin]]).
  - split; [exists KMatS, KMatR; split; [reflexivity|unfold run_class; cbn; tauto]|].
    eexists. split; [vm_compute; reflexivity|]. repeat split; reflexivity.
Qed.

(** The full C28 is false: with a link on the way make_instance raises, *)
Theorem make_instance_link_refuted : exists ops, forall eq defaults, let h := grun eq [] ops in
  graised eq [] ops = [] /\ is_spec h 0 /\ make_instance eq defaults h (PRef 0) = Raised TypeError.
Proof.
  exists [GNew KMatS [] []; GSet 0 "process" (PLink "id" "p")]. intros eq defaults. split; [reflexivity|]. split; [|reflexivity].
  exists KMatS, KMatR. split; [reflexivity|]. unfold run_class. cbn. tauto.
Qed.
(** and when two materials name the same process, the run of the process names the run of the material from which
    it was reached instead of that of its output. *)
Theorem make_instance_shared_process_refuted : exists ops, forall eq, let h := grun eq [] ops in
  graised eq [] ops = [] /\ fval h 2 "output_material" = PRef 1
  /\ exists g, make_instance eq (fun _ => []) h (PRef 0) = Done (3, g) /\ fval g 4 "spec" = PRef 2
     /\ fval g 4 "output_material" = PRef 3 /\ fval g 3 "spec" = PRef 0.
Proof.
  exists [GNew KMatS [] []; GNew KMatS [] []; GNew KProcS [] []; GSet 0 "process" (PRef 2); GSet 1 "process" (PRef 2)].
  intros eq. split; [reflexivity|]. split; [reflexivity|]. eexists. split; [vm_compute; reflexivity|]. repeat split; reflexivity.
Qed.

Print Assumptions make_instance_partial.
Print Assumptions make_instance_link.
Print Assumptions make_instance_rejects.
Print Assumptions references_typed.
Print Assumptions make_instance_history_partial.
Print Assumptions make_instance_link_refuted.
Print Assumptions make_instance_shared_process_refuted.
