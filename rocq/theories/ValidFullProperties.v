(** C53. What validation does with every attribute, object, quantity and level change.
    Nothing is asked of the values but units of positive scale, and of the bounds that they are
    what the constructors make: values without content, links and missing values are included. *)
From Coq Require Import String List Bool ZArith QArith Lia.
From Verif Require Import Base BaseFacts BoundsModel BoundsSpec BoundsProofs BoundsFullSpec BoundsFullProofs VlModel VlSpec VlProofs
  ValidationModel ValidationSpec ValidationProofs ValidationProperties ValidFullSpec ValidFullProofs.
Import ListNotations.
Open Scope list_scope.

(** A value against bounds gets exactly one verdict at each level. *)
Theorem judged_once : forall b v l, good_bounds b -> BoundsFullSpec.value_unit v ->
  exists d, judged b v l d /\ forall d', judged b v l d' -> d' = d.
Proof.
  intros b v l G U. exists (test b v l). split; [now apply judged_iff|]. intros d' J. apply judged_iff in J; auto.
Qed.
Print Assumptions judged_once.

(** Assigning a value or a template to an attribute. *)
Theorem attribute_outcome : forall k l a o log, attr_ok a -> aop_ok o ->
  exists d, attr_verdict k l a o d /\ (forall d', attr_verdict k l a o d' -> d' = d) /\
    astep k l a o log = carried a (assigned o a) log d.
Proof.
  intros k l a o log A O. exists (attr_test k l a o). split; [now apply attr_verdict_iff|]. split.
  - intros d' V. apply attr_verdict_iff in V; auto.
  - apply attr_test_step.
Qed.
Print Assumptions attribute_outcome.

(** Histories that are at FATAL throughout: a value and a template object that are both there agree,
    and the value has content. *)
Definition in_agreement (a : attr) : Prop :=
  attr_ok a /\ forall v t, a_value a = Some v -> a_template a = Some (RTmpl t) -> good_value v /\ fits v (t_bounds t).
Theorem attribute_fatal_history : forall k ops a log, Forall aop_ok ops -> in_agreement a -> in_agreement (fst (arun k FATAL a ops log)).
Proof.
  intros k ops; induction ops as [|o r IH]; intros a log F A; cbn [arun]; auto.
  inversion F as [|o' r' O R]; subst. destruct (astep k FATAL a o log) as [[a1 x] log1] eqn:E. apply IH; auto.
  destruct A as [A B]. split; [eapply attr_ok_step; eauto|].
  destruct (attribute_outcome k FATAL a o log A O) as (d & V & _ & S). rewrite E in S.
  destruct d as [| |e]; inv S; auto.
  - intros v t Ev Et. inversion V as [|o0 W X|s i|v0 X|v0 X|o0 v0 t0 d W X Y J]; subst.
    + destruct X as [X|X]; congruence.
    + cbn in Et. discriminate.
    + discriminate.
    + rewrite X in Ev. rewrite Y in Et. inv Ev. inv Et. inversion J; subst; auto; discriminate.
  - inversion V as [|o0 W X|s i|v0 X|v0 X|o0 v0 t0 d W X Y J]; subst. inversion J.
Qed.
Print Assumptions attribute_fatal_history.
(** In particular after construction. *)
Theorem attribute_fatal_made : forall k name v t log a log' ops log2, aop_ok (ASetValue v) -> aop_ok (ASetTemplate t) -> Forall aop_ok ops ->
  init_attr k FATAL name v t log = (Ok a, log') -> in_agreement (fst (arun k FATAL a ops log2)).
Proof.
  intros k name v t log a log' ops log2 V T F H. apply attribute_fatal_history; auto.
  assert (B : in_agreement (fst (arun k FATAL (mkAttr name None None) [ASetValue v; ASetTemplate t] log))).
  { apply attribute_fatal_history; auto. split; [split; discriminate | discriminate]. }
  unfold init_attr in H. cbn [arun astep] in B.
  destruct (set_value FATAL (mkAttr name None None) v log) as [[a1 [e1|]] log1] eqn:E1; [discriminate|].
  destruct (set_template k FATAL a1 t log1) as [[a2 [e2|]] log2'] eqn:E2; inv H. exact B.
Qed.
Print Assumptions attribute_fatal_made.

(** ** Lists of attributes of an object *)

(** The verdict on an attribute exists, is unique, and is what putting it in the list does. *)
Theorem object_append_outcome : forall same k v a s, trig v = Some (template_check same k) -> ctypes v = [tt] ->
  entries_ok k (e_entries s) -> value_ok a ->
  exists d, object_verdict same k (e_level s) (e_entries s) a d /\
    (forall d', object_verdict same k (e_level s) (e_entries s) a d' -> d' = d) /\
    ostep same k v (LList (OAppend a)) s =
      match d with
      | Accept => (mkVl [tt] (trig v) (items v ++ [a]), None, s)
      | Warn => (mkVl [tt] (trig v) (items v ++ [a]), None, mkEnv (e_level s) (e_entries s) (S (e_log s)))
      | Reject e => (v, Some e, s)
      end.
Proof.
  intros same k v a s T C G U. exists (object_test same k (e_level s) (e_entries s) a). split; [now apply object_verdict_iff|]. split.
  - intros d' V. apply object_verdict_iff in V; auto.
  - cbn [ostep step]. unfold append. rewrite C. cbn [accepts existsb attr_instance orb]. rewrite T. unfold fire. rewrite template_check_test.
    unfold with_items. rewrite C, T. destruct (object_test _ _ _ _ _); reflexivity.
Qed.
Print Assumptions object_append_outcome.

(** Assigning a list, or extending by one: the attributes are judged in order, up to the first
    refusal; then nothing is stored, but the messages so far were given. *)
Theorem object_assign_outcome : forall same k v xs s, entries_ok k (e_entries s) -> Forall value_ok xs ->
  exists n e, all_verdicts same k (e_level s) (e_entries s) xs n e /\
    (forall n' e', all_verdicts same k (e_level s) (e_entries s) xs n' e' -> n' = n /\ e' = e) /\
    ostep same k v (LAssign (AIter (Reusable xs))) s =
      (match e with None => mkVl [tt] (Some (template_check same k)) xs | Some _ => v end, e,
       mkEnv (e_level s) (e_entries s) (n + e_log s)).
Proof.
  intros same k v xs s G F. destruct (tests same k (e_level s) (e_entries s) xs) as [n e] eqn:E. exists n, e. split; [apply all_verdicts_iff; auto|]. split.
  - intros n' e' V. apply all_verdicts_iff in V; auto. rewrite E in V. now inv V.
  - cbn [ostep]. unfold set_attrs, validate_list, init. cbn [first_pass later_pass]. rewrite accepts_all, fire_all_tests, E. destruct e; reflexivity.
Qed.
Print Assumptions object_assign_outcome.

Theorem object_extend_outcome : forall same k v xs s, trig v = Some (template_check same k) -> ctypes v = [tt] ->
  entries_ok k (e_entries s) -> Forall value_ok xs ->
  exists n e, all_verdicts same k (e_level s) (e_entries s) xs n e /\
    (forall n' e', all_verdicts same k (e_level s) (e_entries s) xs n' e' -> n' = n /\ e' = e) /\
    ostep same k v (LList (OExtend (Some (Reusable xs)))) s =
      (match e with None => mkVl [tt] (trig v) (items v ++ xs) | Some _ => v end, e,
       mkEnv (e_level s) (e_entries s) (n + e_log s)).
Proof.
  intros same k v xs s T C G F. destruct (tests same k (e_level s) (e_entries s) xs) as [n e] eqn:E. exists n, e. split; [apply all_verdicts_iff; auto|]. split.
  - intros n' e' V. apply all_verdicts_iff in V; auto. rewrite E in V. now inv V.
  - cbn [ostep step]. unfold extend. cbn [first_pass later_pass]. rewrite C, accepts_all, T, fire_all_tests, E. unfold with_items. rewrite C, T. destruct e; reflexivity.
Qed.
Print Assumptions object_extend_outcome.

(** After any history, changes of level and of template included: an attribute in the list was put
    there by +=, or got no refusal under the level and the template of the moment it was put there. *)
Theorem object_history_judged : forall same k ops s a, In a (items (fst (orun same k (no_attrs same k) ops s))) ->
  exists pre o post, ops = pre ++ o :: post /\ In a (oop_supplied o) /\
    (~ oop_no_iadd o \/
     forall now, now = snd (orun same k (no_attrs same k) pre s) -> entries_ok k (e_entries now) -> value_ok a ->
       forall e, ~ object_verdict same k (e_level now) (e_entries now) a (Reject e)).
Proof.
  intros same k ops s a I. destruct (orun_let_in same k ops (no_attrs same k) s eq_refl a I) as [[]|(pre & o & post & E & J & X)].
  exists pre, o, post. split; auto. split; auto. destruct X as [X|X]; auto. right.
  intros now -> G U e V. apply object_verdict_iff in V; auto. apply (X e). auto.
Qed.
Print Assumptions object_history_judged.

(** ** Quantities *)
Theorem quantity_outcome : forall d l q f x log, dimensionless_unit d -> (forall v, x = VVal v -> BoundsFullSpec.value_unit v) ->
  exists e n q', quantity_does d l f x e n /\ (forall e' n', quantity_does d l f x e' n' -> e' = e /\ n' = n) /\
    qstep d l q f x log = (q', e, (log + n)%nat) /\
    (e <> None -> q' = q) /\ (e = None -> get_q q' f = stored_value x) /\ (forall g, g <> f -> get_q q' g = get_q q g).
Proof.
  intros d l q f x log D U.
  assert (H : exists e n, quantity_does d l f x e n /\ (forall e' n', quantity_does d l f x e' n' -> e' = e /\ n' = n) /\
    exists q', qstep d l q f x log = (q', e, (log + n)%nat) /\ (e = None -> get_q q' f = stored_value x)).
  { destruct x as [|v|].
    - exists None, 0%nat. split; [constructor|]. split; [intros e' n' H; inversion H; auto|]. rewrite Nat.add_0_r. destruct f; eexists; split; reflexivity.
    - assert (Uv := U v eq_refl). destruct (continuous v) eqn:C.
      2:{ exists (Some TypeError), 0%nat. assert (K : value_kind v <> KReal) by (rewrite <- continuous_kind; congruence). split; [now constructor|].
          split; [intros e' n' H; inversion H; subst; auto; congruence|]. exists q. rewrite Nat.add_0_r. split; [|discriminate]. apply quantity_other. eauto. }
      assert (K := proj1 (continuous_kind v) C). assert (Dg := dimless_good d D). destruct (continuous_unit v C Uv) as (u & Eu & Ug).
      assert (Vu : ValidationModel.value_unit d v = u) by (destruct v; cbn in *; congruence).
      assert (L : l = IGNORE \/ l <> IGNORE) by (destruct l; [left | right | right]; congruence). destruct L as [->|L].
      { exists None, 0%nat. split; [now constructor|]. split; [intros e' n' H; inversion H; subst; auto; congruence|]. rewrite Nat.add_0_r.
        destruct f; cbn [qstep set_fraction set_absolute]; rewrite C; eexists; split; reflexivity. }
      destruct (to_bounds_cases v Uv) as [[V N]|(V & x & N & E & X)].
      2:{ exists (Some x), 0%nat. split; [now constructor|]. split; [intros e' n' H; inversion H; subst; try congruence; try tauto; split; auto; f_equal; auto|]. rewrite Nat.add_0_r.
          exists q. split; [|discriminate]. destruct q as [qa qb qc qd]. destruct f; cbn [qstep set_fraction set_absolute q_mass q_volume q_number q_absolute]; rewrite C; unfold fraction_bounds; cbn [contains];
          rewrite E; cbn [bind]; destruct l; try reflexivity; congruence. }
      destruct (match f with QAbsolute => true | _ => false end) eqn:Q.
      + assert (f = QAbsolute) by (destruct f; congruence). subst f.
        assert (LM : largest_double = float_max) by (vm_compute; reflexivity).
        assert (I : exists b : bool, contains (BReal 0 float_max u) (AValue v) = Ok b /\ (in_own_units v /\ (if b then 0 else 1) = 0 \/ ~ in_own_units v /\ (if b then 0 else 1) = 1)%nat).
        { destruct (contains_fits _ _ (absolute_good u Ug) V) as [[Y F]|[Y F]]; rewrite Y; eexists; split; try reflexivity; cbn; [left | right]; split; auto.
          - exists u. rewrite LM. auto.
          - intros (u' & E' & F'). rewrite Eu in E'. inv E'. rewrite LM in F'. contradiction. }
        assert (J : exists b : bool, contains (BReal 0 float_max d) (AValue v) = Ok b /\ (pure_number d v /\ (if b then 1 else 0) = 1 \/ ~ pure_number d v /\ (if b then 1 else 0) = 0)%nat).
        { destruct (contains_fits _ _ (absolute_good d Dg) V) as [[Y F]|[Y F]]; rewrite Y; eexists; split; try reflexivity; cbn; [left | right]; split; auto; unfold pure_number; rewrite LM; auto. }
        destruct I as (b1 & I1 & I2), J as (b2 & J1 & J2).
        destruct l; [congruence| |].
        * exists None, ((if b1 then 0 else 1) + (if b2 then 1 else 0))%nat. split; [now apply qd_absolute_warn|]. split.
          -- intros e' n' H. inversion H as [| |a K'|a Z|a e0 L' K' Z|a L' Z|a Z1 Z2|a Z|a Z|a n m Z1 Z2 K' V' Hn Hm]; subst; try congruence; try (now destruct (N e0)).
             split; auto. destruct I2 as [[? ->]|[? ->]], J2 as [[? ->]|[? ->]], Hn as [[? ->]|[? ->]], Hm as [[? ->]|[? ->]]; auto; contradiction.
          -- cbn [qstep]. unfold set_absolute. rewrite C, Vu, I1, J1. eexists. split; [rewrite Nat.add_assoc; reflexivity|]. reflexivity.
        * exists (Some ValueError), 0%nat. split; [now apply qd_absolute_fatal|]. split.
          -- intros e' n' H. inversion H as [| |a K'|a Z|a e0 L' K' Z|a L' Z|a Z1 Z2|a Z|a Z|a n m Z1 Z2 K' V' Hn Hm]; subst; auto; try congruence; now destruct (N e0).
          -- exists q. rewrite Nat.add_0_r. cbn [qstep]. unfold set_absolute. rewrite C, Vu, I1, J1. destruct q; split; [reflexivity|discriminate].
      + assert (Nf : f <> QAbsolute) by (destruct f; congruence).
        assert (St : forall old log, set_fraction d l old (VVal v) log = match contains (fraction_bounds d) (AValue v) with Err e => (old, Some e, log) | Ok true => (Some v, None, log)
            | Ok false => match l with WARNING => (Some v, None, S log) | _ => (old, Some ValueError, log) end end).
        { intros old lg. cbn [set_fraction]. rewrite C. destruct l; congruence. }
        destruct (contains_fits _ _ (fraction_good d D) V) as [[Y F]|[Y F]]; rewrite (fits_fraction d v D C) in F.
        * exists None, 0%nat. split; [now apply qd_fraction|]. split.
          -- intros e' n' H. inversion H as [| |a K'|a Z|a e0 L' K' Z|a L' Z|a Z1 Z2|a Z1 Z2|a Z1 Z2|a n m Z1 Z2 K' V' Hn Hm]; subst; auto; try congruence; try contradiction; now destruct (N e0).
          -- rewrite Nat.add_0_r. destruct f; try congruence; cbn [qstep]; rewrite St, Y; eexists; split; reflexivity.
        * destruct l; [congruence| |].
          -- exists None, 1%nat. split; [now apply qd_fraction_warn|]. split.
             ++ intros e' n' H. inversion H as [| |a K'|a Z|a e0 L' K' Z|a L' Z|a Z1 Z2|a Z1 Z2|a Z1 Z2|a n m Z1 Z2 K' V' Hn Hm]; subst; auto; try congruence; try contradiction; now destruct (N e0).
             ++ rewrite Nat.add_1_r. destruct f; try congruence; cbn [qstep]; rewrite St, Y; eexists; split; reflexivity.
          -- exists (Some ValueError), 0%nat. split; [now apply qd_fraction_fatal|]. split.
             ++ intros e' n' H. inversion H as [| |a K'|a Z|a e0 L' K' Z|a L' Z|a Z1 Z2|a Z1 Z2|a Z1 Z2|a n m Z1 Z2 K' V' Hn Hm]; subst; auto; try congruence; try contradiction; now destruct (N e0).
             ++ rewrite Nat.add_0_r. destruct f; try congruence; cbn [qstep]; rewrite St, Y; eexists; (split; [reflexivity|discriminate]).
    - exists (Some TypeError), 0%nat. split; [constructor|]. split; [intros e' n' H; inversion H; auto|]. rewrite Nat.add_0_r. exists q. split; [|discriminate]. apply quantity_other. auto. }
  destruct H as (e & n & A & B & q' & S & G). exists e, n, q'. split; auto. split; auto. split; auto.
  destruct (quantity_frame _ _ _ _ _ _ _ _ _ S) as [Fr1 Fr2]. auto.
Qed.
Print Assumptions quantity_outcome.

(** ** Levels *)

(** A program leaves the level it found, or one it names. *)
Theorem level_known : forall p l, fst (exec p l) = l \/ names_level p (fst (exec p l)).
Proof. exact exec_names. Qed.
Print Assumptions level_known.

(** If no exception leaves a with-block, all with-blocks put the level back, ... *)
Theorem level_as_intended : forall p l, none_leaves p l -> exec p l = intended p l.
Proof. exact exec_intended. Qed.
Print Assumptions level_as_intended.
(** ... and a block that one does leave, leaves the level its body had reached. *)
Theorem level_left : forall x p l, snd (exec p x) = true -> exec (PWith (Some x) p) l = exec p x.
Proof. intros x p l H. cbn [exec]. destruct (exec p x) as [l2 e]. cbn in H. now subst. Qed.
Print Assumptions level_left.

(** Concrete cases: warnings counted, refusals after warnings, values without content, links, levels. *)
Definition w_ok : attr := mkAttr "melting point" (Some v_ok) None.
Definition w_high : attr := mkAttr "melting point" (Some v_bad) None.
Definition w_no_value : attr := mkAttr "melting point" None None.
Definition w_empty : attr := mkAttr "melting point" (Some (VNominalCategorical None)) None.
Definition env_w : env := mkEnv WARNING (Some ex_entries) 7.
Example validation_ex :
  ostep ex_same AProperty (no_attrs ex_same AProperty) (LAssign (AIter (Reusable [w_high; w_ok; w_no_value]))) env_w
    = (mkVl [tt] (Some (template_check ex_same AProperty)) [w_high; w_ok; w_no_value], None, mkEnv WARNING (Some ex_entries) 9)
  /\ ostep ex_same AProperty (no_attrs ex_same AProperty) (LAssign (AIter (Reusable [w_high; w_empty; w_no_value]))) env_w
    = (no_attrs ex_same AProperty, Some ValueError, mkEnv WARNING (Some ex_entries) 8)
  /\ astep AProperty WARNING (mkAttr "m" None (Some (RTmpl t_melt))) (ASetValue (VVal v_bad)) 3 = (mkAttr "m" (Some v_bad) (Some (RTmpl t_melt)), None, 4%nat)
  /\ qstep one WARNING (mkQ None None None None) QAbsolute (VVal (VNominalReal (PyInt (-3)) kelvin)) 0 = (mkQ None None None (Some (VNominalReal (PyInt (-3)) kelvin)), None, 1%nat)
  /\ qstep one WARNING (mkQ None None None None) QAbsolute (VVal (VNominalReal (PyInt 3) percent)) 0 = (mkQ None None None (Some (VNominalReal (PyInt 3) percent)), None, 1%nat)
  /\ exec (PTry (PWith (Some FATAL) (PSeq (PSet (Some IGNORE)) PRaise)) PSkip) WARNING = (IGNORE, false)
  /\ intended (PTry (PWith (Some FATAL) (PSeq (PSet (Some IGNORE)) PRaise)) PSkip) WARNING = (WARNING, false).
Proof. repeat split; vm_compute; reflexivity. Qed.
Example validation_ex_hyps : entries_ok AProperty (e_entries env_w) /\ Forall value_ok [w_high; w_ok; w_no_value; w_empty] /\
  none_leaves (PWith (Some FATAL) (PTry PRaise (PSet (Some IGNORE)))) WARNING.
Proof.
  split; [|split].
  - intros x E. inv E. intros e b [<-|[]] I. inv I. cbn. split; [discriminate|reflexivity].
  - repeat constructor; intros v E; inv E; cbn; auto; reflexivity.
  - cbn. auto.
Qed.
