(** Lemmas for C61. *)
From Coq Require Import String List Bool Arith ZArith QArith Lia.
From Verif Require Import Base BaseFacts BoundsModel BoundsSpec BoundsFullSpec VlModel VlSpec VlProofs ValidationModel ValidationSpec ValidationProofs ValidFullSpec ValidFullProofs ShareModel ShareSpec.
Import ListNotations.
Open Scope list_scope.

Lemma upd_same : forall A (f : ref -> A) r x, upd f r x r = x. Proof. intros. unfold upd. now rewrite Nat.eqb_refl. Qed.
Lemma upd_other : forall A (f : ref -> A) r q x, q <> r -> upd f r x q = f q. Proof. intros A f r q x H. unfold upd. apply Nat.eqb_neq in H. now rewrite H. Qed.
Lemma upd_id : forall A (f : ref -> A) r q, upd f r (f r) q = f q. Proof. intros A f r q. unfold upd. destruct (Nat.eqb q r) eqn:E; auto. apply Nat.eqb_eq in E. now subst. Qed.

Section Share.
  Variable same : tref -> tref -> bool.
  Variable k : akind.
  Notation sstep := (sstep same k). Notation srun := (srun same k). Notation list_check := (list_check same k).

  Lemma check_log : forall o a w, exists n, snd (list_check o a w) = with_log w n.
  Proof. intros o a w. unfold list_check. destruct (template_check _ _ _ _) as [r s]. cbn. eauto. Qed.
  Definition at_log (w s : world) : Prop := exists n, s = with_log w n.
  Lemma check_inv : forall w o a s, at_log w s -> at_log w (snd (list_check o a s)).
  Proof. intros w o a s (n & ->). destruct (check_log o a (with_log w n)) as (m & ->). exists m. reflexivity. Qed.
  Lemma at_log_refl : forall w, at_log w w. Proof. intros w. exists (w_log w). now destruct w. Qed.

  (** What a list operation leaves. *)
  Lemma list_step : forall w o x v e w', step ref unit world any_instance (list_of same k w o) x w = (v, e, w') ->
    at_log w w' /\ (e <> None -> items v = c_list (w_objects w o)) /\
    forall a, In a (items v) -> In a (c_list (w_objects w o)) \/ entered ref world (at_log w) (list_check o) (supplied x) a \/ exists l, x = OIadd l /\ In a l.
  Proof.
    intros w o x v e w' H.
    destruct (step_entered ref unit world any_instance (at_log w) (list_check o) (fun a s => check_inv w o a s) (list_of same k w o) x w v e w' eq_refl (at_log_refl w) H) as (A & _ & B).
    split; auto. split; auto. intros E. destruct e as [e|]; [|congruence]. apply step_err_unchanged in H. now subst v.
  Qed.
  Lemma assign_step : forall w o x r w', validate_list ref unit world any_instance x [tt] (Some (list_check o)) w = (r, w') ->
    at_log w w' /\ forall v, r = Ok v -> Forall (entered ref world (at_log w) (list_check o) (arg_supplied x)) (items v).
  Proof.
    intros w o x r w' H. destruct r as [v|e].
    - destruct (validate_entered ref unit world any_instance (at_log w) (list_check o) (fun a s => check_inv w o a s) x [tt] w v w' (at_log_refl w) H) as (_ & A & B).
      split; auto. intros v' E. injection E as <-. eapply Forall_impl; [|exact B]. intros a. apply entered_incl. destruct x as [| |[]]; apply incl_refl.
    - split; [|discriminate]. eapply (validate_err ref unit world any_instance (at_log w) (list_check o) (fun a s => check_inv w o a s)); eauto using at_log_refl.
  Qed.

  Lemma entered_passes : forall w o xs a, sound w -> w_level w = FATAL -> entered ref world (at_log w) (list_check o) xs a -> In a xs /\ passes same k w o a.
  Proof.
    intros w o xs a (GB & GV) L (x & s1 & s2 & I & (n & ->) & St).
    assert (X : a = x /\ exists y, fst (list_check o x (with_log w n)) = Ok y).
    { inversion St; subst.
      - match goal with H : Some _ = None |- _ => discriminate H | _ => idtac end.
        all: try (split; [reflexivity|]; match goal with H : list_check _ _ _ = _ |- _ => rewrite H end; cbn; eauto).
      - match goal with H : ?f = (_, _) |- _ => unfold list_check in H; destruct (template_check _ _ _ _) as [[?|?] ?]; discriminate H end. }
    destruct X as (-> & y & E). split; auto. unfold list_check in E. change (read_attr (with_log w n) x) with (read_attr w x) in E.
    change (read_entries (with_log w n) o) with (read_entries w o) in E. change (w_level (with_log w n)) with (w_level w) in E. rewrite template_check_test in E. cbn [e_level e_entries] in E.
    unfold passes. rewrite L in E. apply object_verdict_iff.
    - intros es Es e b Ie Im. unfold read_entries in Es. destruct (c_otemplate (w_objects w o)) as [ot|]; [|discriminate]. injection Es as <-.
      apply in_map_iff in Ie as ((l & r) & <- & _). unfold read_entry in Im. cbn [fst snd] in Im. inversion Im; subst; [destruct r; [|discriminate]; match goal with H : Some _ = _ |- _ => injection H as -> end; apply GB|].
      destruct l; [|discriminate]. match goal with H : RTmpl _ = _ |- _ => injection H as -> end. apply GB.
    - intros v V. cbn [read_attr a_value] in V. destruct (c_value (w_attrs w x)); [|discriminate]. injection V as <-. apply GV.
    - destruct (object_test same k FATAL (read_entries w o) (read_attr w x)) eqn:T; auto.
      + exfalso. unfold object_test in T. repeat break_match; try discriminate. all: unfold test in *; repeat break_match; discriminate.
      + discriminate E.
  Qed.

  (** ** What an operation leaves alone *)
  Definition kept (w w' : world) : Prop :=
    w_bounds w' = w_bounds w /\ w_values w' = w_values w /\ w_templates w' = w_templates w /\ w_attrs w' = w_attrs w /\ w_entries w' = w_entries w /\ w_level w' = w_level w.
  Lemma list_result : forall w o x, exists l e, sstep w (SList o x) = (fst (sstep w (SList o x)), e) /\ kept w (fst (sstep w (SList o x))) /\
    w_objects (fst (sstep w (SList o x))) = upd (w_objects w) o (mkOC (c_otemplate (w_objects w o)) l) /\ (e <> None -> l = c_list (w_objects w o)) /\
    forall a, In a l -> In a (c_list (w_objects w o)) \/ entered ref world (at_log w) (list_check o) (supplied x) a \/ exists l, x = OIadd l /\ In a l.
  Proof.
    intros w o x. cbn [ShareModel.sstep]. destruct (step _ _ _ _ _ _ _) as [[v e] w'] eqn:E. destruct (list_step _ _ _ _ _ _ E) as ((n & ->) & A & B).
    exists (items v), e. cbn [fst]. repeat split; auto.
  Qed.
  Lemma assign_result : forall w o x, exists l e, sstep w (SAssign o x) = (fst (sstep w (SAssign o x)), e) /\ kept w (fst (sstep w (SAssign o x))) /\
    (forall r, w_objects (fst (sstep w (SAssign o x))) r = upd (w_objects w) o (mkOC (c_otemplate (w_objects w o)) l) r) /\ (e <> None -> l = c_list (w_objects w o)) /\
    (e = None -> Forall (entered ref world (at_log w) (list_check o) (arg_supplied x)) l).
  Proof.
    intros w o x. cbn [ShareModel.sstep]. destruct (validate_list _ _ _ _ _ _ _ _) as [[v|e] w'] eqn:E; destruct (assign_step _ _ _ _ _ E) as ((n & ->) & B).
    - exists (items v), None. cbn [fst]. repeat split; auto; congruence.
    - exists (c_list (w_objects w o)), (Some e). cbn [fst]. repeat split; auto; try discriminate. intros r. cbn. replace (mkOC _ _) with (w_objects w o) by now destruct (w_objects w o).
      now rewrite upd_id.
  Qed.
  (** Setting a field of an attribute, as in [ValidationModel] on what is read. *)
  Definition attr_op (w : world) (x : sop) : option (ref * aop) :=
    match x with SAttrValue a v => Some (a, ASetValue (varg_of w v)) | SAttrTemplate a t => Some (a, ASetTemplate (targ_of w t)) | _ => None end.
  Lemma attr_result : forall w x a o, attr_op w x = Some (a, o) ->
    match attr_test k (w_level w) (read_attr w a) o with
    | Reject e => exists n, sstep w x = (with_log w n, Some e)
    | _ => exists n c, sstep w x = (with_log (with_attr w a c) n, None) /\ c_name c = c_name (w_attrs w a) /\
             read_attr (with_log (with_attr w a c) n) a = assigned o (read_attr w a) /\
             (c_value c, c_template c) = match x with SAttrValue _ v => (match v with VRef v => Some v | _ => None end, c_template (w_attrs w a))
                                         | SAttrTemplate _ t => (c_value (w_attrs w a), match t with LRef t => Some t | _ => None end) | _ => (None, None) end
    end.
  Proof.
    intros w x a o H. destruct x; try discriminate; injection H as <- <-.
    - pose proof (attr_test_step k (w_level w) (read_attr w a0) (ASetValue (varg_of w x)) (w_log w)) as T. cbn [astep] in T. cbn [ShareModel.sstep]. rewrite T.
      destruct x; cbn [varg_of targ_of] in *; [|destruct (attr_test _ _ _ _)|]; cbn [attr_test carried]; try (eexists; reflexivity).
      all: do 2 eexists; repeat split; unfold read_attr; cbn; rewrite ?upd_same; reflexivity.
    - pose proof (attr_test_step k (w_level w) (read_attr w a0) (ASetTemplate (targ_of w x)) (w_log w)) as T. cbn [astep] in T. cbn [ShareModel.sstep]. rewrite T.
      destruct x; cbn [varg_of targ_of] in *; [|destruct (attr_test _ _ _ _)|]; cbn [attr_test carried]; try (eexists; reflexivity).
      all: do 2 eexists; repeat split; unfold read_attr; cbn; rewrite ?upd_same; reflexivity.
  Qed.

  Lemma refused_same : forall w x e, snd (sstep w x) = Some e -> same_world w (fst (sstep w x)).
  Proof.
    intros w x e H. destruct (attr_op w x) as [[a o]|] eqn:A.
    { pose proof (attr_result w x a o A) as R. destruct (attr_test _ _ _ _).
      1,2: destruct R as (n & c & R & _); rewrite R in H; discriminate. destruct R as (n & ->). cbn. repeat split. }
    destruct x; try discriminate.
    - destruct (list_result w o x) as (l & e' & E & (K1 & K2 & K3 & K4 & K5 & K6) & O & B & _). rewrite E in H. cbn [snd] in H.
      repeat split; intros; rewrite ?K1, ?K2, ?K3, ?K4, ?K5, ?K6, ?O; auto. rewrite B by congruence.
      replace (mkOC _ _) with (w_objects w o) by now destruct (w_objects w o). now rewrite upd_id.
    - destruct (assign_result w o x) as (l & e' & E & (K1 & K2 & K3 & K4 & K5 & K6) & O & B & _). rewrite E in H. cbn [snd] in H.
      repeat split; intros; rewrite ?K1, ?K2, ?K3, ?K4, ?K5, ?K6, ?O; auto. rewrite B by congruence.
      replace (mkOC _ _) with (w_objects w o) by now destruct (w_objects w o). now rewrite upd_id.
  Qed.

  Lemma sound_step : forall w x, sound w -> sound_op x -> sound (fst (sstep w x)).
  Proof.
    intros w x (A & B) O. destruct (attr_op w x) as [[a o]|] eqn:E.
    { pose proof (attr_result w x a o E) as R. destruct (attr_test _ _ _ _).
      1,2: destruct R as (n & c & -> & _); split; auto. destruct R as (n & ->). split; auto. }
    destruct x; try discriminate.
    3-7: split; auto.
    1,2: split; auto; intros r; cbn; unfold upd; destruct (Nat.eqb _ _); auto.
    - destruct (list_result w o x) as (l & e' & _ & (K1 & K2 & _) & _). split; intros; rewrite ?K1, ?K2; auto.
    - destruct (assign_result w o x) as (l & e' & _ & (K1 & K2 & _) & _). split; intros; rewrite ?K1, ?K2; auto.
    - split; auto.
  Qed.
  Lemma sound_run : forall h w, sound w -> Forall sound_op h -> sound (srun w h).
  Proof. induction h as [|x h IH]; intros w G F; cbn; auto. inversion F; subst. apply IH; auto. now apply sound_step. Qed.

  (** ** Frames *)
  Lemma attr_frame : forall w x a, ~ changes_attr w a x ->
    w_attrs (fst (sstep w x)) a = w_attrs w a /\
    (forall t, c_template (w_attrs w a) = Some (TObj t) -> w_templates (fst (sstep w x)) t = w_templates w t /\ w_bounds (fst (sstep w x)) (c_bounds (w_templates w t)) = w_bounds w (c_bounds (w_templates w t))) /\
    (forall v, c_value (w_attrs w a) = Some v -> w_values (fst (sstep w x)) v = w_values w v).
  Proof.
    intros w x a N. destruct (attr_op w x) as [[a' o]|] eqn:E.
    { assert (D : a <> a') by (intros ->; apply N; destruct x; try discriminate; injection E as <- _; reflexivity).
      pose proof (attr_result w x a' o E) as R. destruct (attr_test _ _ _ _).
      1,2: destruct R as (n & c & -> & _); cbn; rewrite upd_other by auto; auto. destruct R as (n & ->). cbn. auto. }
    destruct x; try discriminate; cbn [changes_attr] in N.
    1-7: cbn [ShareModel.sstep fst with_template with_object with_attr w_attrs w_templates w_bounds w_values]; repeat split; intros; auto.
    - rewrite upd_other; auto. intros <-. apply N. eauto.
    - rewrite upd_other; auto. intros <-. now apply N.
    - rewrite upd_other; auto. intros <-. now apply N.
    - rewrite upd_other; auto. intros <-. now apply N.
    - rewrite upd_other; auto.
    - destruct (list_result w o x) as (l & e' & _ & (K1 & K2 & K3 & K4 & _) & _). rewrite K1, K2, K3, K4. auto.
    - destruct (assign_result w o x) as (l & e' & _ & (K1 & K2 & K3 & K4 & _) & _). rewrite K1, K2, K3, K4. auto.
    - cbn. auto.
  Qed.
  Lemma attr_read_frame : forall w x a, ~ changes_attr w a x -> read_attr (fst (sstep w x)) a = read_attr w a.
  Proof.
    intros w x a N. destruct (attr_frame w x a N) as (A & T & V). unfold read_attr. rewrite A. f_equal.
    - destruct (c_value (w_attrs w a)) as [v|]; cbn; auto. now rewrite V.
    - destruct (c_template (w_attrs w a)) as [[t|s i]|]; cbn; auto. destruct (T t eq_refl) as (T1 & T2). unfold read_template. now rewrite T1, T2.
  Qed.
  Lemma attr_changes_frame : forall w x a y, ~ changes_attr w a x -> (changes_attr (fst (sstep w x)) a y <-> changes_attr w a y).
  Proof.
    intros w x a y N. destruct (attr_frame w x a N) as (A & T & V). destruct y; cbn [changes_attr]; rewrite ?A; try tauto.
    split; intros (t & H & B); exists t; split; auto; destruct (T t H) as (T1 & _); rewrite ?T1 in *; auto.
  Qed.
  Lemma attr_read_run : forall h w a, Forall (fun x => ~ changes_attr w a x) h -> read_attr (srun w h) a = read_attr w a.
  Proof.
    induction h as [|x h IH]; intros w a F; cbn [ShareModel.srun]; auto. inversion F as [|? ? N F']; subst. rewrite IH.
    - now apply attr_read_frame.
    - eapply Forall_impl; [|exact F']. intros y. cbn. now rewrite (attr_changes_frame w x a y N).
  Qed.

  Lemma rules_frame : forall w x o, ~ changes_rules w o x ->
    c_otemplate (w_objects (fst (sstep w x)) o) = c_otemplate (w_objects w o) /\
    forall ot, c_otemplate (w_objects w o) = Some ot -> w_entries (fst (sstep w x)) ot = w_entries w ot /\
      forall e, In e (w_entries w ot) ->
        (forall t, fst e = TObj t -> w_templates (fst (sstep w x)) t = w_templates w t /\ w_bounds (fst (sstep w x)) (c_bounds (w_templates w t)) = w_bounds w (c_bounds (w_templates w t))) /\
        (forall b, snd e = Some b -> w_bounds (fst (sstep w x)) b = w_bounds w b).
  Proof.
    intros w x o N. destruct (attr_op w x) as [[a' o']|] eqn:E.
    { pose proof (attr_result w x a' o' E) as R. destruct (attr_test _ _ _ _).
      1,2: destruct R as (n & c & -> & _); cbn; auto 10. destruct R as (n & ->). cbn. auto 10. }
    destruct x; try discriminate; cbn [changes_rules] in N.
    1-7: cbn [ShareModel.sstep fst with_template with_object with_attr w_attrs w_templates w_bounds w_values w_objects w_entries].
    - split; auto. intros ot Ho. split; auto. intros e Ie. split.
      + intros t Ht. split; auto. rewrite upd_other; auto. intros Hb. apply N. exists ot, e. split; auto. split; auto. right. eauto.
      + intros b' Hb. rewrite upd_other; auto. intros ->. apply N. exists ot, e. auto.
    - repeat split; auto.
    - split; auto. intros ot Ho. split; auto. intros e Ie. split; auto. intros t' Ht. split; auto. rewrite upd_other; auto. intros ->. apply N. destruct e as [e r]. cbn in Ht. subst e. eauto.
    - split; auto. intros ot Ho. split; auto. intros e Ie. split; auto. intros t' Ht. split; auto. rewrite upd_other; auto. intros ->. apply N. destruct e as [e r]. cbn in Ht. subst e. eauto.
    - repeat split; auto.
    - split; auto. intros ot Ho. split; auto. rewrite upd_other; auto. intros ->. now apply N.
    - rewrite upd_other by auto. repeat split; auto.
    - destruct (list_result w o0 x) as (l & e' & _ & (K1 & K2 & K3 & K4 & K5 & _) & O & _). rewrite K1, K3, K5, O. split; [|auto 10]. unfold upd. destruct (Nat.eqb_spec o o0); cbn; congruence.
    - destruct (assign_result w o0 x) as (l & e' & _ & (K1 & K2 & K3 & K4 & K5 & _) & O & _). rewrite K1, K3, K5, O. split; [|auto 10]. unfold upd. destruct (Nat.eqb_spec o o0); cbn; congruence.
    - cbn. auto 10.
  Qed.
  Lemma rules_read_frame : forall w x o, ~ changes_rules w o x -> read_entries (fst (sstep w x)) o = read_entries w o.
  Proof.
    intros w x o N. destruct (rules_frame w x o N) as (A & B). unfold read_entries. rewrite A. destruct (c_otemplate (w_objects w o)) as [ot|]; cbn; auto. destruct (B ot eq_refl) as (C & D). rewrite C.
    f_equal. apply map_ext_in. intros e I. destruct (D e I) as (D1 & D2). unfold read_entry. f_equal.
    - destruct (fst e) as [t|s i]; cbn; auto. destruct (D1 t eq_refl) as (T1 & T2). unfold read_template. now rewrite T1, T2.
    - destruct (snd e) as [b|]; cbn; auto. now rewrite D2.
  Qed.
  Lemma rules_changes_frame : forall w x o y, ~ changes_rules w o x -> (changes_rules (fst (sstep w x)) o y <-> changes_rules w o y).
  Proof.
    intros w x o y N. destruct (rules_frame w x o N) as (A & B). destruct y; cbn [changes_rules]; rewrite ?A; try tauto.
    - split; intros (ot & e & Ho & Ie & H); exists ot, e; destruct (B ot Ho) as (C & D); rewrite ?C in *; (split; [auto|split; [auto|]]);
        destruct (D e Ie) as (D1 & _); destruct H as [H|(t' & Ht & Hb)]; auto; right; exists t'; split; auto; destruct (D1 t' Ht) as (T1 & _); now rewrite ?T1 in *.
    - split; intros (ot & r & Ho & Ie); exists ot, r; destruct (B ot Ho) as (C & D); rewrite ?C in *; auto.
    - split; intros (ot & r & Ho & Ie); exists ot, r; destruct (B ot Ho) as (C & D); rewrite ?C in *; auto.
  Qed.
  Lemma rules_read_run : forall h w o, Forall (fun x => ~ changes_rules w o x) h -> read_entries (srun w h) o = read_entries w o.
  Proof.
    induction h as [|x h IH]; intros w o F; cbn [ShareModel.srun]; auto. inversion F as [|? ? N F']; subst. rewrite IH.
    - now apply rules_read_frame.
    - eapply Forall_impl; [|exact F']. intros y. cbn. now rewrite (rules_changes_frame w x o y N).
  Qed.

  (** ** Agreement *)
  Lemma agrees_read : forall w a, agrees w a <-> (forall v t, a_value (read_attr w a) = Some v -> a_template (read_attr w a) = Some (RTmpl t) -> good_value v /\ fits v (t_bounds t)).
  Proof.
    intros w a. unfold agrees. cbn [read_attr a_value a_template]. split.
    - intros H v t Hv Ht. destruct (c_value (w_attrs w a)) as [r|]; [|discriminate]. injection Hv as <-.
      destruct (c_template (w_attrs w a)) as [[q|s i]|]; try discriminate. injection Ht as <-. exact (H r q eq_refl eq_refl).
    - intros H v t Hv Ht. rewrite Hv, Ht in H. exact (H _ _ eq_refl eq_refl).
  Qed.
  Lemma assigned_agrees : forall w x a o, sound w -> sound_op x -> w_level w = FATAL -> attr_op w x = Some (a, o) -> snd (sstep w x) = None -> agrees (fst (sstep w x)) a.
  Proof.
    intros w x a o G So L E H. pose proof (attr_result w x a o E) as R. pose proof G as (GB & GV).
    assert (Ao : attr_ok (read_attr w a)).
    { split; cbn [read_attr a_value a_template].
      - intros v Hv. destruct (c_value (w_attrs w a)); [|discriminate]. injection Hv as <-. apply GV.
      - intros t Ht. destruct (c_template (w_attrs w a)) as [[q|s i]|]; try discriminate. injection Ht as <-. apply GB. }
    assert (Oo : aop_ok o). { destruct x; try discriminate; injection E as <- <-; destruct x; cbn; auto. destruct t; cbn; auto. }
    assert (T : attr_test k (w_level w) (read_attr w a) o = Accept \/ attr_test k (w_level w) (read_attr w a) o = Warn \/ exists e, attr_test k (w_level w) (read_attr w a) o = Reject e) by (destruct (attr_test _ _ _ _); eauto).
    destruct T as [T|[T|(e & T)]]; rewrite T in R.
    2:{ exfalso. rewrite L in T. unfold attr_test, test in T. repeat break_match; discriminate. }
    2:{ destruct R as (n & R). rewrite R in H. discriminate. }
    destruct R as (n & c & R & _ & Rd & _). rewrite R. cbn [fst]. apply agrees_read. rewrite Rd. intros v t Hv Ht.
    symmetry in T. apply attr_verdict_iff in T; auto. rewrite L in T.
    remember Accept as d eqn:D. destruct T as [o N|o W F|s i|v' X _|v' X (s & i & Y)|o v' t' d W Ev Et J]; try discriminate; subst.
    - destruct F; congruence.
    - rewrite Hv in Ev. rewrite Ht in Et. injection Ev as <-. injection Et as <-. inversion J; auto.
  Qed.
  Lemma settled_agrees : forall w x a, sound w -> settled x -> w_level w = FATAL -> (forall a, agrees w a) -> agrees (fst (sstep w x)) a.
  Proof.
    intros w x a G Se L Ag. destruct (attr_op w x) as [[a' o]|] eqn:E.
    { assert (So : sound_op x) by (destruct x; try discriminate; exact I).
      destruct (Nat.eq_dec a a') as [->|D].
      - destruct (snd (sstep w x)) as [e|] eqn:H.
        + apply refused_same in H as (H1 & H2 & H3 & H4 & _). intros v t. rewrite H4. intros Hv Ht. rewrite H2, H3, H1. exact (Ag a' v t Hv Ht).
        + eapply assigned_agrees; eauto.
      - apply agrees_read. rewrite attr_read_frame; [now apply agrees_read|]. destruct x; try discriminate; injection E as <- _; cbn; congruence. }
    destruct x; try discriminate; try contradiction.
    - intros v t'. cbn. intros Hv Ht. destruct (Ag a v t' Hv Ht) as (A1 & A2). split; auto. unfold upd. destruct (Nat.eqb_spec t' t) as [->|]; auto.
    - intros v t'. cbn. unfold upd. destruct (Nat.eqb_spec a a0) as [->|]; cbn; apply Ag.
    - apply agrees_read. rewrite attr_read_frame; [now apply agrees_read|]. cbn. auto.
    - apply agrees_read. rewrite attr_read_frame; [now apply agrees_read|]. cbn. auto.
    - apply agrees_read. rewrite attr_read_frame; [now apply agrees_read|]. cbn. auto.
    - apply agrees_read. rewrite attr_read_frame; [now apply agrees_read|]. cbn. auto.
  Qed.
  Lemma level_step : forall w x, settled x -> w_level (fst (sstep w x)) = w_level w.
  Proof.
    intros w x Se. destruct (attr_op w x) as [[a o]|] eqn:E.
    { pose proof (attr_result w x a o E) as R. destruct (attr_test _ _ _ _).
      1,2: destruct R as (n & c & -> & _); auto. destruct R as (n & ->). auto. }
    destruct x; try discriminate; try contradiction; auto.
    - destruct (list_result w o x) as (l & e' & _ & (K1 & K2 & K3 & K4 & K5 & K6) & _). auto.
    - destruct (assign_result w o x) as (l & e' & _ & (K1 & K2 & K3 & K4 & K5 & K6) & _). auto.
  Qed.
  Lemma settled_run : forall h w, sound w -> Forall settled h -> w_level w = FATAL -> (forall a, agrees w a) -> forall a, agrees (srun w h) a.
  Proof.
    induction h as [|x h IH]; intros w G F L Ag; cbn; auto. inversion F; subst. apply IH; auto.
    - apply sound_step; auto. destruct x; cbn in *; tauto.
    - rewrite level_step; auto.
    - intros a. now apply settled_agrees.
  Qed.

  (** ** Lists *)
  Lemma enters_step : forall w x o a, sound w -> In a (c_list (w_objects (fst (sstep w x)) o)) ->
    In a (c_list (w_objects w o)) \/ supplies x o a /\ (unchecked x \/ w_level w <> FATAL \/ passes same k (fst (sstep w x)) o a).
  Proof.
    intros w x o a G I. destruct (attr_op w x) as [[a' o']|] eqn:E.
    { left. pose proof (attr_result w x a' o' E) as R. destruct (attr_test _ _ _ _).
      1,2: destruct R as (n & c & R & _); now rewrite R in I. destruct R as (n & R). now rewrite R in I. }
    assert (Lv : forall P : Prop, (w_level w = FATAL -> P) -> w_level w <> FATAL \/ P) by (intros P HP; destruct (w_level w); auto; left; discriminate).
    destruct x; try discriminate; auto.
    - cbn in I. unfold upd in I. destruct (Nat.eqb_spec o o0) as [<-|]; auto.
    - destruct (list_result w o0 x) as (l & e' & _ & (K1 & K2 & K3 & K4 & K5 & K6) & O & _ & B). rewrite O in I. unfold upd in I.
      destruct (Nat.eqb_spec o o0) as [<-|]; auto. cbn in I. destruct (B a I) as [|[En|(l' & -> & I')]]; auto; right.
      + assert (Su : In a (supplied x)) by (destruct En as (y & s1 & s2 & Iy & _ & St); revert Iy; inversion St; subst; auto; match goal with H : list_check _ _ _ = (Ok (Some _), _) |- _ => unfold list_check in H; destruct (template_check _ _ _ _) as [[?|?] ?]; discriminate H end).
        split; [now split|]. right. apply Lv. intros L. destruct (entered_passes w o _ a G L En) as (_ & P). unfold passes in *.
        rewrite rules_read_frame, attr_read_frame; auto; cbn; auto.
      + split; [now split|]. left. exact Logic.I.
    - destruct (assign_result w o0 x) as (l & e' & _ & (K1 & K2 & K3 & K4 & K5 & K6) & O & R & B). rewrite O in I. unfold upd in I.
      destruct (Nat.eqb_spec o o0) as [<-|]; auto. cbn in I. destruct e' as [e'|]; [left; rewrite <- R; auto; discriminate|]. right.
      specialize (B eq_refl). rewrite Forall_forall in B. pose proof (B a I) as En.
      assert (Su : In a (arg_supplied x)) by (destruct En as (y & s1 & s2 & Iy & _ & St); revert Iy; inversion St; subst; auto; match goal with H : list_check _ _ _ = (Ok (Some _), _) |- _ => unfold list_check in H; destruct (template_check _ _ _ _) as [[?|?] ?]; discriminate H end).
      split; [now split|]. right. apply Lv. intros L. destruct (entered_passes w o _ a G L En) as (_ & P). unfold passes in *.
      rewrite rules_read_frame, attr_read_frame; auto; cbn; auto.
  Qed.
  Lemma srun_app : forall h h' w, srun w (h ++ h') = srun (srun w h) h'.
  Proof. induction h as [|x h IH]; intros; cbn; auto. Qed.
  Lemma enters_run : forall h w o a, sound w -> Forall sound_op h -> c_list (w_objects w o) = [] -> In a (c_list (w_objects (srun w h) o)) ->
    exists pre x post, h = pre ++ x :: post /\ supplies x o a /\ (unchecked x \/ w_level (srun w pre) <> FATAL \/ passes same k (srun w (pre ++ [x])) o a).
  Proof.
    intros h. induction h as [|x h IH] using rev_ind; intros w o a G F E I.
    - cbn in I. rewrite E in I. destruct I.
    - apply Forall_app in F as (F & Fx). rewrite srun_app in I. cbn [ShareModel.srun] in I. apply enters_step in I; [|now apply sound_run].
      destruct I as [I|(Su & D)].
      + destruct (IH w o a G F E I) as (pre & y & post & -> & Su & D). exists pre, y, (post ++ [x]). split; auto. now rewrite <- app_assoc.
      + exists h, x, []. split; auto. split; auto. rewrite srun_app. cbn. auto.
  Qed.

  (** ** What the list operations do *)
  Lemma with_log_log : forall w n m, with_log (with_log w n) m = with_log w m. Proof. reflexivity. Qed.
  Lemma fire_all_list : forall o xs w, fire_all ref world (Some (list_check o)) xs w =
    let (n, e) := tests same k (w_level w) (read_entries w o) (map (read_attr w) xs) in
    (match e with None => Ok xs | Some e => Err e end, with_log w (n + w_log w)).
  Proof.
    intros o. induction xs as [|a r IH]; intros w; cbn [fire_all tests map].
    - now destruct w.
    - unfold fire. unfold ShareModel.list_check at 1. rewrite template_check_test. cbn [e_level e_entries].
      destruct (object_test same k (w_level w) (read_entries w o) (read_attr w a)); cbn [fired e_log].
      + rewrite IH. change (w_level (with_log w (w_log w))) with (w_level w). change (read_entries (with_log w (w_log w)) o) with (read_entries w o).
        change (map (read_attr (with_log w (w_log w))) r) with (map (read_attr w) r). destruct (tests _ _ _ _ (map _ r)) as [n [e|]]; reflexivity.
      + rewrite IH. change (w_level (with_log w ?n)) with (w_level w). change (read_entries (with_log w (S (w_log w))) o) with (read_entries w o).
        change (w_level (with_log w (S (w_log w)))) with (w_level w).
        change (map (read_attr (with_log w (S (w_log w)))) r) with (map (read_attr w) r). destruct (tests _ _ _ _ (map _ r)) as [n [e|]]; cbn; now rewrite Nat.add_succ_r.
      + reflexivity.
  Qed.
  Lemma sound_entries : forall w o, sound w -> entries_ok k (read_entries w o).
  Proof.
    intros w o (GB & GV) es Es e b Ie Im. unfold read_entries in Es. destruct (c_otemplate (w_objects w o)) as [ot|]; [|discriminate]. injection Es as <-.
    apply in_map_iff in Ie as ((l & r) & <- & _). unfold read_entry in Im. cbn [fst snd] in Im. inversion Im; subst; [destruct r; [|discriminate]; match goal with H : Some _ = _ |- _ => injection H as -> end; apply GB|].
    destruct l; [|discriminate]. match goal with H : RTmpl _ = _ |- _ => injection H as -> end. apply GB.
  Qed.
  Lemma sound_value : forall w a, sound w -> value_ok (read_attr w a).
  Proof. intros w a (GB & GV) v V. cbn [read_attr a_value] in V. destruct (c_value (w_attrs w a)); [|discriminate]. injection V as <-. apply GV. Qed.
  Lemma verdicts_fire : forall w o xs n e, sound w -> all_verdicts same k (w_level w) (read_entries w o) (map (read_attr w) xs) n e ->
    fire_all ref world (Some (list_check o)) xs w = (match e with None => Ok xs | Some e => Err e end, with_log w (n + w_log w)).
  Proof.
    intros w o xs n e G V. apply all_verdicts_iff in V; [|now apply sound_entries|apply Forall_forall; intros x I; apply in_map_iff in I as (a & <- & _); now apply sound_value].
    rewrite fire_all_list, <- V. reflexivity.
  Qed.
  Lemma all_any : forall l, forallb (accepts ref unit any_instance [tt]) l = true.
  Proof. intros l. apply forallb_forall. reflexivity. Qed.
End Share.
