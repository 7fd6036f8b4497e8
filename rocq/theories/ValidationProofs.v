(** Lemmas for C10-C14. *)
From Coq Require Import String List Bool ZArith QArith Lia.
From Verif Require Import Base BaseFacts BoundsModel BoundsSpec BoundsProofs VlModel VlSpec VlProofs
  ValidationModel ValidationSpec.
Import ListNotations.
Open Scope list_scope.

Lemma akind_eqb_eq : forall a b, akind_eqb a b = true <-> a = b.
Proof. intros [] []; cbn; split; intros; congruence. Qed.

Lemma contains_fits : forall b v, good_bounds b -> good_value v ->
  (contains b (AValue v) = Ok true /\ fits v b) \/ (contains b (AValue v) = Ok false /\ ~ fits v b).
Proof.
  intros b v Gb Gv. destruct (contains_arg_iff b (AValue v) Gb Gv) as (r & E & I). cbn [arg_kind arg_point] in I.
  assert (J : r = true <-> fits v b).
  { rewrite I. unfold fits. split; intros [A B]; split; auto; congruence. }
  destruct r; [left|right]; split; auto; [now apply J|]. intros F. apply J in F. discriminate.
Qed.

Lemma contains_true_fits : forall b v, good_bounds b -> good_value v -> contains b (AValue v) = Ok true -> fits v b.
Proof. intros b v Gb Gv E. destruct (contains_fits b v Gb Gv) as [[]|[]]; auto; congruence. Qed.

(** ** C10 *)
Lemma check_good : forall l t v log, good_bounds (t_bounds t) -> good_value v ->
  (fits v (t_bounds t) /\ check l (RTmpl t) v log = (None, log)) \/
  (~ fits v (t_bounds t) /\
   check l (RTmpl t) v log = match l with IGNORE => (None, log) | WARNING => (None, S log) | FATAL => (Some ValueError, log) end).
Proof.
  intros l t v log Gb Gv. destruct (contains_fits _ _ Gb Gv) as [[E F]|[E F]]; [left|right]; split; auto;
    destruct l; cbn [check]; try rewrite E; auto.
Qed.

Lemma astep_err : forall k l a o log a' e log', astep k l a o log = (a', Some e, log') -> a' = a.
Proof.
  intros k l a o log a' e log'. destruct o as [[|v|]|[|[t|s i]|]]; cbn [astep set_value set_template]; intros H;
    repeat break_match; inv H; auto.
Qed.

Lemma astep_ok : forall k l a o log a' log', astep k l a o log = (a', None, log') -> a' = assigned o a /\ well_typed k o.
Proof.
  intros k l a o log a' log'. destruct o as [[|v|]|[|[t|s i]|]]; cbn [astep set_value set_template]; intros H;
    repeat break_match; inv H; cbn; auto; try (split; auto; now apply akind_eqb_eq).
  all: split; auto; repeat match goal with E : _ = a_template _ |- _ => rewrite <- E | E : _ = a_value _ |- _ => rewrite <- E
         | E : a_template _ = _ |- _ => rewrite E | E : a_value _ = _ |- _ => rewrite E end; auto;
    now apply akind_eqb_eq.
Qed.

Lemma assigned_good : forall o a, good_aop o -> good_attr a -> good_attr (assigned o a).
Proof.
  intros o a G [A B]. destruct o as [[|v|]|[|[t|s i]|]]; cbn in *; split; cbn; auto; try congruence;
    intros ? E; inv E; auto.
Qed.

Lemma astep_good : forall k l a o log a' r log', good_aop o -> good_attr a ->
  astep k l a o log = (a', r, log') -> good_attr a'.
Proof.
  intros k l a o log a' [e|] log' G A H.
  - apply astep_err in H. now subst.
  - apply astep_ok in H as [-> _]. now apply assigned_good.
Qed.

Lemma astep_fatal : forall k a o log a' r log', good_aop o -> good_attr a -> respects a ->
  astep k FATAL a o log = (a', r, log') -> respects a'.
Proof.
  intros k a o log a' [e|] log' G A R H.
  - apply astep_err in H. now subst.
  - assert (G' := astep_good _ _ _ _ _ _ _ _ G A H).
    destruct A as [A1 A2].
    destruct o as [[|v|]|[|[t|s i]|]]; cbn [astep set_value set_template] in H; try discriminate.
    + inv H. intros v0 t0 E; discriminate.
    + intros v0 t0 E1 E2. destruct (a_template a) as [[t|s i]|] eqn:T.
      * destruct (check_good FATAL t v log (A2 _ eq_refl) G) as [[F E]|[F E]]; rewrite E in H; inv H.
        cbn in E1, E2. inv E1. inv E2. exact F.
      * cbn in H. inv H.
      * inv H. discriminate.
    + inv H. intros v0 t0 _ E; discriminate.
    + destruct (akind_eqb (t_kind t) k); [|discriminate]. intros v0 t0 E1 E2. destruct (a_value a) as [v|] eqn:V.
      * destruct (check_good FATAL t v log G (A1 _ eq_refl)) as [[F E]|[F E]]; rewrite E in H; inv H.
        cbn in E1, E2. inv E1. inv E2. exact F.
      * inv H. discriminate.
    + inv H. intros v0 t0 _ E; discriminate.
Qed.

Lemma arun_fatal : forall k ops a log, Forall good_aop ops -> good_attr a -> respects a ->
  respects (fst (arun k FATAL a ops log)) /\ good_attr (fst (arun k FATAL a ops log)).
Proof.
  intros k ops; induction ops as [|o r IH]; intros a log G A R; cbn [arun]; auto.
  inv G. destruct (astep k FATAL a o log) as [[a1 x] log1] eqn:E.
  apply IH; auto; [eapply astep_good | eapply astep_fatal]; eauto.
Qed.

(** The outcome of a well-typed assignment of complete things. *)
Lemma astep_outcome : forall k a o log, well_typed k o -> good_aop o -> good_attr a -> ~ unresolved a o ->
  let ok := forall v t, a_value (assigned o a) = Some v -> a_template (assigned o a) = Some (RTmpl t) -> fits v (t_bounds t) in
  (ok -> respects (assigned o a)) /\
  astep k IGNORE a o log = (assigned o a, None, log) /\
  ((astep k WARNING a o log = (assigned o a, None, log) /\ astep k FATAL a o log = (assigned o a, None, log)) \/
   (astep k WARNING a o log = (assigned o a, None, S log) /\ astep k FATAL a o log = (a, Some ValueError, log)
    /\ ~ ok)).
Proof.
  intros k a o log W G [A1 A2] U ok. split; [auto|]. subst ok.
  destruct o as [[|v|]|[|[t|s i]|]]; cbn [well_typed] in W; try contradiction;
    cbn [astep set_value set_template assigned]; auto.
  - destruct (a_template a) as [[t|s i]|] eqn:T.
    + cbn [good_aop good_varg] in G. destruct (check_good WARNING t v log (A2 _ eq_refl) G) as [[F E]|[F E]].
      * rewrite E. destruct (check_good FATAL t v log (A2 _ eq_refl) G) as [[_ E']|[F' _]]; [|contradiction].
        rewrite E'. cbn [check]. auto.
      * rewrite E. destruct (check_good FATAL t v log (A2 _ eq_refl) G) as [[F' _]|[_ E']]; [contradiction|].
        rewrite E'. cbn [check]. split; auto. right. repeat split; auto.
    + exfalso. apply U. do 3 eexists. eauto.
    + auto.
  - apply akind_eqb_eq in W. rewrite W. destruct (a_value a) as [v|] eqn:V; [|auto].
    cbn [good_aop good_targ] in G. destruct (check_good WARNING t v log G (A1 _ eq_refl)) as [[F E]|[F E]].
    + rewrite E. destruct (check_good FATAL t v log G (A1 _ eq_refl)) as [[_ E']|[F' _]]; [|contradiction].
      rewrite E'. cbn [check]. auto.
    + rewrite E. destruct (check_good FATAL t v log G (A1 _ eq_refl)) as [[F' _]|[_ E']]; [contradiction|].
      rewrite E'. cbn [check]. split; auto. right. repeat split; auto.
Qed.

(** ** Typed lists: where the elements of the result come from. *)
Section Origin.
  Variables A ty S : Type.
  Variable inst : A -> ty -> bool.
  Variable P : S -> Prop.
  Variable f : trigger A S.
  Hypothesis f_inv : forall x s, P s -> P (snd (f x s)).

  Definition entered (xs : list A) (y : A) : Prop :=
    exists x s1 s2, In x xs /\ P s1 /\ stored_as A S (Some f) x s1 y s2.

  Lemma fire_entered : forall x s r s', P s -> fire A S (Some f) x s = (r, s') ->
    P s' /\ forall y, r = Ok y -> entered [x] y.
  Proof.
    intros x s r s' Ps H. split.
    - specialize (f_inv x s Ps). cbn in H. destruct (f x s) as [[[z|]|e] s1]; inv H; auto.
    - intros y ->. apply fire_ok in H. exists x, s, s'. repeat split; auto. now left.
  Qed.

  Lemma entered_incl : forall xs ys y, incl xs ys -> entered xs y -> entered ys y.
  Proof. intros xs ys y I (x & s1 & s2 & H & K). exists x, s1, s2. split; auto. Qed.

  Lemma fire_all_entered : forall xs s r s', P s -> fire_all A S (Some f) xs s = (r, s') ->
    P s' /\ forall ys, r = Ok ys -> Forall (entered xs) ys.
  Proof.
    intros xs; induction xs as [|x xs IH]; intros s r s' Ps H; cbn [fire_all] in H.
    - inv H. split; auto. intros ys E; inv E; constructor.
    - destruct (fire A S (Some f) x s) as [[y|e] s1] eqn:F; destruct (fire_entered _ _ _ _ Ps F) as [P1 H1].
      + destruct (fire_all A S (Some f) xs s1) as [[ys|e] s2] eqn:G; destruct (IH _ _ _ P1 G) as [P2 H2]; inv H.
        * split; auto. intros zs E; inv E. constructor.
          -- eapply entered_incl; [|apply H1; auto]. intros z [<-|[]]. now left.
          -- specialize (H2 _ eq_refl). eapply Forall_impl; [|exact H2]. intros z. apply entered_incl.
             intros w I; now right.
        * split; auto. intros ? E; inv E.
      + inv H. split; auto. intros ? E; inv E.
  Qed.

  Lemma in_set_nth : forall n (x y : A) l, In y (set_nth A n x l) -> y = x \/ In y l.
  Proof.
    intros n x y l; revert n; induction l as [|a l IH]; intros [|n]; cbn; auto.
    - intros [<-|H]; auto.
    - intros [<-|H]; auto. apply IH in H. tauto.
  Qed.

  Lemma in_del_nth : forall n (y : A) l, In y (del_nth A n l) -> In y l.
  Proof.
    intros n y l H. unfold del_nth in H. rewrite <- (firstn_skipn n l). apply in_app_iff in H. apply in_app_iff.
    destruct H as [H|H]; auto. right. destruct (skipn n l) as [|a r] eqn:E.
    - assert (L : skipn (Datatypes.S n) l = []). { rewrite skipn_all2; auto. apply (f_equal (@length A)) in E.
        rewrite skipn_length in E. cbn in E. lia. }
      rewrite L in H. contradiction.
    - assert (L : skipn (Datatypes.S n) l = r).
      { change (Datatypes.S n) with (1 + n)%nat. clear -E. revert l E. induction n; intros [|b l] E; cbn in *; try discriminate.
        - now inv E. - now apply IHn. }
      rewrite L in H. now right.
  Qed.

  Lemma later_incl : forall i, incl (later_pass A i) (first_pass A i).
  Proof. intros [l|l]; cbn; auto using incl_refl, incl_nil_l. Qed.

  Lemma step_entered : forall v o s v' r s', trig v = Some f -> P s -> step A ty S inst v o s = (v', r, s') ->
    P s' /\ trig v' = Some f /\
    forall y, In y (items v') -> In y (items v) \/ entered (supplied o) y \/ exists l, o = OIadd l /\ In y l.
  Proof.
    intros v o s v' r s' T Ps H. assert (C := step_config _ _ _ _ _ _ _ _ _ _ H).
    assert (G : P s' /\ forall y, In y (items v') -> In y (items v) \/ entered (supplied o) y \/ exists l, o = OIadd l /\ In y l).
    2:{ destruct C. destruct G. repeat split; auto. congruence. }
    destruct o as [i x|x|[i|]|i x|i| | |l]; cbn [step] in H; rewrite ?T in H.
    - unfold setitem in H. destruct (accepts _ _ _ _ x); [|inv H; auto]. rewrite T in H.
      destruct (fire _ _ _ _ _) as [[y|e] s1] eqn:F; destruct (fire_entered _ _ _ _ Ps F) as [P1 H1]; [|inv H; auto].
      destruct (norm_index _ _); inv H; auto. split; auto. cbn. intros z I.
      apply in_set_nth in I as [->|I]; auto.
    - unfold append in H. destruct (accepts _ _ _ _ x); [|inv H; auto]. rewrite T in H.
      destruct (fire _ _ _ _ _) as [[y|e] s1] eqn:F; destruct (fire_entered _ _ _ _ Ps F) as [P1 H1]; inv H; auto.
      split; auto. cbn. intros z I. apply in_app_iff in I as [I|[<-|[]]]; auto.
    - cbn [extend] in H. destruct (forallb _ _); [|inv H; auto]. rewrite T in H.
      destruct (fire_all _ _ _ _ _) as [[ys|e] s1] eqn:F; destruct (fire_all_entered _ _ _ _ Ps F) as [P1 H1]; inv H; auto.
      split; auto. cbn [items with_items]. intros z I. apply in_app_iff in I as [I|I]; auto.
      specialize (H1 _ eq_refl). rewrite Forall_forall in H1. right; left.
      eapply entered_incl; [|apply H1; auto]. destruct i; cbn; auto using incl_refl, incl_nil_l.
    - cbn [extend] in H. inv H; auto.
    - unfold insert in H. destruct (accepts _ _ _ _ x); [|inv H; auto]. rewrite T in H.
      destruct (fire _ _ _ _ _) as [[y|e] s1] eqn:F; destruct (fire_entered _ _ _ _ Ps F) as [P1 H1]; inv H; auto.
      split; auto. cbn [items with_items]. intros z I. apply in_app_iff in I as [I|[<-|I]]; auto; left.
      + eapply (proj1 (Forall_forall (fun q => In q (items v)) _)); [apply Forall_firstn|exact I]. now apply Forall_forall.
      + eapply (proj1 (Forall_forall (fun q => In q (items v)) _)); [apply Forall_skipn|exact I]. now apply Forall_forall.
    - unfold delitem in H. destruct (norm_index _ _); inv H; auto. split; auto. cbn [items with_items].
      intros z I. left. eapply in_del_nth; eauto.
    - inv H. split; auto. cbn. intros ? [].
    - inv H. split; auto. cbn. intros z I. left. now apply in_rev.
    - inv H. split; auto. cbn. intros z I. apply in_app_iff in I as [I|I]; eauto.
  Qed.

  Lemma validate_entered : forall a ts s v s', P s -> validate_list A ty S inst a ts (Some f) s = (Ok v, s') ->
    trig v = Some f /\ P s' /\
    Forall (entered (match a with ANone => [] | AScalar x => [x] | AIter i => first_pass A i end)) (items v).
  Proof.
    intros a ts s v s' Ps H.
    assert (G : forall i, init A ty S inst i ts (Some f) s = (Ok v, s') ->
       trig v = Some f /\ P s' /\ Forall (entered (first_pass A i)) (items v)).
    { intros i E. unfold init in E. destruct (forallb _ _); [|discriminate].
      destruct (fire_all _ _ _ _ _) as [[ys|e] s1] eqn:F; destruct (fire_all_entered _ _ _ _ Ps F) as [P1 H1]; inv E.
      repeat split; auto. cbn. specialize (H1 _ eq_refl). eapply Forall_impl; [|exact H1]. intros z. apply entered_incl.
      apply later_incl. }
    destruct a as [|x|i]; cbn [validate_list] in H; apply G in H; auto.
  Qed.

  Lemma validate_err : forall a ts s e s', P s -> validate_list A ty S inst a ts (Some f) s = (Err e, s') -> P s'.
  Proof.
    intros a ts s e s' Ps H.
    assert (G : forall i, init A ty S inst i ts (Some f) s = (Err e, s') -> P s').
    { intros i E. unfold init in E. destruct (forallb _ _); [|inv E; auto].
      destruct (fire_all _ _ _ _ _) as [[ys|e'] s1] eqn:F; destruct (fire_all_entered _ _ _ _ Ps F) as [P1 H1]; inv E; auto. }
    destruct a as [|x|i]; cbn [validate_list] in H; apply G in H; auto.
  Qed.
End Origin.

(** ** C11 *)
Section C11.
  Variable same : tref -> tref -> bool.
  Variable k : akind.

  Lemma by_template_first : forall es a t, a_template a = Some t ->
    match by_template same t es with
    | Some e => first_about same es a e
    | None => ~ mentioned same es a
    end.
  Proof.
    intros es a t T. unfold by_template. induction es as [|e r IH]; cbn [find].
    - intros (e & [] & _).
    - destruct (same t (fst e)) eqn:E.
      + exists [], r. repeat split; auto. unfold about. now rewrite T.
      + assert (N : ~ about same a e). { unfold about. rewrite T. congruence. }
        destruct (find (fun e0 : tref * option bounds => same t (fst e0)) r).
        * destruct IH as (pre & post & -> & A & F). exists (e :: pre), post. repeat split; auto.
        * intros (e' & [<-|I] & A); [contradiction|]. apply IH. exists e'; auto.
  Qed.

  Lemma by_name_first : forall es a, a_template a = None ->
    match by_name (a_name a) es with
    | Ok (Some e) => first_about same es a e
    | Ok None => ~ mentioned same es a
    | Err e => e = AttributeError /\ ~ resolved es
    end.
  Proof.
    intros es a T. induction es as [|[[t|s i] b] r IH]; cbn [by_name].
    - intros (e & [] & _).
    - destruct (String.eqb (a_name a) (t_name t)) eqn:E.
      + exists [], r. repeat split; auto. unfold about. rewrite T. exists t. split; auto. symmetry. now apply String.eqb_eq.
      + assert (N : ~ about same a (RTmpl t, b)).
        { unfold about. rewrite T. intros (t' & X & Y). cbn in X. inv X. apply String.eqb_neq in E. congruence. }
        destruct (by_name (a_name a) r) as [[e|]|e].
        * destruct IH as (pre & post & -> & A & F). exists ((RTmpl t, b) :: pre), post. repeat split; auto.
        * intros (e' & [<-|I] & A); [contradiction|]. apply IH. exists e'; auto.
        * destruct IH as [-> H]. split; auto. intros R. apply H. intros s i b' I. apply (R s i b'). now right.
    - split; auto. intros R. apply (R s i b). now left.
  Qed.

  Lemma first_unique : forall es a e e', first_about same es a e -> first_about same es a e' -> e = e'.
  Proof.
    intros es a e e' (p1 & q1 & E1 & A1 & F1) (p2 & q2 & E2 & A2 & F2). subst es.
    revert p2 E2 F2. induction p1 as [|x p1 IH]; intros [|y p2] E2 F2; cbn in E2; injection E2 as E3 E4; auto.
    - subst. inv F2. contradiction.
    - subst. inv F1. contradiction.
    - subst. inv F1. inv F2. eapply IH; eauto.
  Qed.

  Lemma first_mentioned : forall es a e, first_about same es a e -> mentioned same es a.
  Proof. intros es a e (p & q & -> & A & _). exists e. split; auto. apply in_elt. Qed.

  Lemma first_in : forall es a e, first_about same es a e -> In e es.
  Proof. intros es a e (p & q & -> & A & _). apply in_elt. Qed.

  (** What [validate] says, for complete attributes. *)
  Lemma validate_true : forall es a, good_entries k es -> complete a -> validate same k es a = Ok true ->
    admitted same k es a.
  Proof.
    intros es a G C H e b F I.
    assert (V : contains b (value_arg a) = Ok true).
    { unfold validate in H. destruct (a_template a) as [t|] eqn:T.
      - assert (X := by_template_first es a t T). cbn [bind] in H. destruct (by_template same t es) as [e'|].
        + rewrite (first_unique _ _ _ _ F X) in *. inv I; [destruct r; exact H|].
          rewrite (proj2 (akind_eqb_eq _ _) eq_refl) in H. exact H.
        + exfalso. apply X. eapply first_mentioned; eauto.
      - assert (X := by_name_first es a T). destruct (by_name (a_name a) es) as [[e'|]|e']; cbn [bind] in H; try discriminate.
        + rewrite (first_unique _ _ _ _ F X) in *. inv I; [destruct r; exact H|].
          rewrite (proj2 (akind_eqb_eq _ _) eq_refl) in H. exact H.
        + exfalso. apply X. eapply first_mentioned; eauto. }
    unfold value_arg in V. destruct (a_value a) as [v|] eqn:E; [|discriminate]. exists v. split; auto.
    apply contains_true_fits; auto. eapply G; eauto. eapply first_in; eauto.
  Qed.

  Lemma validate_total : forall es a, good_entries k es -> complete a -> (a_template a = None -> resolved es) ->
    exists r, validate same k es a = Ok r /\ (r = true <-> admitted same k es a).
  Proof.
    intros es a G C R.
    assert (Z : forall e b, first_about same es a e -> imposes k e b ->
       (forall b', imposes k e b' -> b' = b) ->
       exists r, contains b (value_arg a) = Ok r /\ (r = true <-> admitted same k es a)).
    { intros e b F I U. assert (Gb : good_bounds b) by (eapply G; eauto; eapply first_in; eauto).
      unfold value_arg. destruct (a_value a) as [v|] eqn:E.
      - destruct (contains_fits b v Gb (C _ E)) as [[X Y]|[X Y]]; rewrite X; eexists; split; eauto; split; auto; try discriminate.
        + intros _ e' b' F' I'. rewrite (first_unique _ _ _ _ F' F) in I'. rewrite (U _ I'). eauto.
        + intros A. destruct (A _ _ F I) as (v' & E' & Y'). rewrite E in E'. inv E'. contradiction.
      - eexists; split; [reflexivity|]. split; [discriminate|]. intros A. destruct (A _ _ F I) as (v' & E' & _). congruence. }
    assert (M : ~ mentioned same es a -> admitted same k es a).
    { intros N e b F. exfalso. apply N. eapply first_mentioned; eauto. }
    assert (W : forall e, first_about same es a e ->
      exists r, match e with
                | (_, Some b) => contains b (value_arg a)
                | (RTmpl t, None) => if akind_eqb (t_kind t) k then contains (t_bounds t) (value_arg a) else Ok true
                | _ => Ok true
                end = Ok r /\ (r = true <-> admitted same k es a)).
    { intros [[t|s i] [b|]] F.
      - apply (Z _ _ F); [constructor|]. intros b' I; now inv I.
      - destruct (akind_eqb (t_kind t) k) eqn:K.
        + apply akind_eqb_eq in K. apply (Z _ _ F); [now constructor|]. intros b' I; now inv I.
        + exists true. split; auto. split; auto. intros _ e b F' I. rewrite (first_unique _ _ _ _ F' F) in I. inv I.
          rewrite (proj2 (akind_eqb_eq _ _) eq_refl) in K. discriminate.
      - apply (Z _ _ F); [constructor|]. intros b' I; now inv I.
      - exists true. split; auto. split; auto. intros _ e b F' I. rewrite (first_unique _ _ _ _ F' F) in I. inv I. }
    unfold validate. destruct (a_template a) as [t|] eqn:T.
    - assert (X := by_template_first es a t T). cbn [bind]. destruct (by_template same t es) as [e|].
      + apply W in X. destruct e as [[?|? ?] [?|]]; exact X.
      + exists true; split; auto; split; auto.
    - assert (X := by_name_first es a T). destruct (by_name (a_name a) es) as [[e|]|e]; cbn [bind].
      + apply W in X. destruct e as [[?|? ?] [?|]]; exact X.
      + exists true; split; auto; split; auto.
      + destruct X as [_ X]. exfalso; auto.
  Qed.

  Lemma template_check_env : forall l es x s, e_level s = l /\ e_entries s = es ->
    e_level (snd (template_check same k x s)) = l /\ e_entries (snd (template_check same k x s)) = es.
  Proof.
    intros l es x [l' es' log] [<- <-]; cbn. unfold template_check; cbn.
    destruct l', es'; cbn; auto; destruct (validate same k l x) as [[]|]; cbn; auto.
  Qed.

  Lemma template_check_stored : forall x s y s', stored_as attr env (Some (template_check same k)) x s y s' -> y = x.
  Proof.
    intros x s y s' H. inv H; auto. unfold template_check in *.
    repeat break_match; discriminate.
  Qed.

  Lemma template_check_fatal : forall x s y s' es, e_level s = FATAL -> e_entries s = Some es ->
    stored_as attr env (Some (template_check same k)) x s y s' -> y = x /\ validate same k es x = Ok true.
  Proof.
    intros x s y s' es L E H. split; [eapply template_check_stored; eauto|].
    inv H; unfold template_check in *; rewrite L, E in *;
      repeat break_match; auto; discriminate.
  Qed.
End C11.

Lemma fire_all_total : forall A S t l s, (forall x s, In x l -> exists y s', fire A S t x s = (Ok y, s')) ->
  exists ys s', fire_all A S t l s = (Ok ys, s').
Proof.
  intros A S t l; induction l as [|x r IH]; intros s H; cbn [fire_all]; eauto.
  destruct (H x s (or_introl eq_refl)) as (y & s1 & ->).
  destruct (IH s1) as (ys & s2 & ->); [intros; apply H; now right|]. eauto.
Qed.

Lemma step_total : forall A ty S inst v o s v' e s',
  (forall x, In x (supplied o) -> accepts A ty inst (ctypes v) x = true) ->
  (forall x s, In x (supplied o) -> exists y s', fire A S (trig v) x s = (Ok y, s')) ->
  step A ty S inst v o s = (v', Some e, s') -> list_failure e o.
Proof.
  intros A ty S inst v o s v' e s' Acc H E.
  destruct o as [i x|x|[i|]|i x|i| | |l]; cbn [step list_failure] in *; try discriminate.
  - unfold setitem in E. rewrite Acc in E by now left. destruct (H x s) as (y & s1 & F); [now left|]. rewrite F in E.
    destruct (norm_index _ _); inv E; auto.
  - unfold append in E. rewrite Acc in E by now left. destruct (H x s) as (y & s1 & F); [now left|]. rewrite F in E. inv E.
  - cbn [extend] in E. assert (X : forallb (accepts A ty inst (ctypes v)) (first_pass A i) = true).
    { apply forallb_forall. intros x I. apply Acc. destruct i; exact I. }
    rewrite X in E. destruct (fire_all_total A S (trig v) (later_pass A i) s) as (ys & s1 & F).
    { intros x s0 I. apply H. destruct i; cbn in *; auto; contradiction. }
    rewrite F in E. inv E.
  - cbn [extend] in E. inv E; auto.
  - unfold insert in E. rewrite Acc in E by now left. destruct (H x s) as (y & s1 & F); [now left|]. rewrite F in E. inv E.
  - unfold delitem in E. destruct (norm_index _ _); inv E; auto.
Qed.

Lemma in_supplied_arg : forall A (x : arg A),
  match x with ANone => [] | AScalar a => [a] | AIter i => first_pass A i end = arg_supplied x.
Proof. intros A [|a|[l|l]]; reflexivity. Qed.

Section C11_steps.
  Variable same : tref -> tref -> bool.
  Variable k : akind.

  Lemma ostep_entered : forall v o s v' r s', trig v = Some (template_check same k) -> oop_no_iadd o ->
    ostep same k v o s = (v', r, s') ->
    trig v' = Some (template_check same k) /\
    forall y, In y (items v') -> In y (items v) \/
      (In y (oop_supplied o) /\
       (e_level s = FATAL -> forall es, e_entries s = Some es -> validate same k es y = Ok true)).
  Proof.
    intros v o s v' r s' T N H.
    set (P := fun s0 => e_level s0 = e_level s /\ e_entries s0 = e_entries s).
    assert (Inv : forall x s0, P s0 -> P (snd (template_check same k x s0))).
    { intros x s0. apply template_check_env. }
    assert (Ent : forall xs y, entered attr env P (template_check same k) xs y ->
      In y xs /\ (e_level s = FATAL -> forall es, e_entries s = Some es -> validate same k es y = Ok true)).
    { intros xs y (x & s1 & s2 & I & [L E] & St). split.
      - now rewrite (template_check_stored _ _ _ _ _ _ St).
      - intros F es G. rewrite F in L. rewrite G in E.
        destruct (template_check_fatal _ _ _ _ _ _ _ L E St) as [-> X]. exact X. }
    destruct o as [o|x|l|es]; cbn [ostep oop_supplied] in *.
    - destruct (step_entered attr unit env attr_instance P _ Inv _ _ _ _ _ _ T (conj eq_refl eq_refl) H) as (_ & T' & X).
      split; auto. intros y I. apply X in I as [I|[I|(l & -> & I)]]; auto. contradiction.
    - destruct (set_attrs same k x s) as [[v1|e] s1] eqn:E; inv H; auto.
      unfold set_attrs in E.
      destruct (validate_entered attr unit env attr_instance P _ Inv _ _ _ _ _ (conj eq_refl eq_refl) E) as (T' & _ & X).
      split; auto. intros y I. rewrite Forall_forall in X. apply X in I. rewrite in_supplied_arg in I. auto.
    - inv H; auto.
    - inv H; auto.
  Qed.

  Lemma orun_entered : forall ops v s, trig v = Some (template_check same k) -> Forall oop_no_iadd ops ->
    forall y, In y (items (fst (orun same k v ops s))) -> In y (items v) \/
      exists pre o post, ops = pre ++ o :: post /\ In y (oop_supplied o) /\
        (e_level (snd (orun same k v pre s)) = FATAL ->
         forall es, e_entries (snd (orun same k v pre s)) = Some es -> validate same k es y = Ok true).
  Proof.
    intros ops; induction ops as [|o r IH]; intros v s T N y I; cbn [orun] in I; auto.
    destruct (ostep same k v o s) as [[v1 x] s1] eqn:E. inv N.
    destruct (ostep_entered _ _ _ _ _ _ T H1 E) as [T1 X].
    destruct (IH v1 s1 T1 H2 y I) as [J|(pre & o' & post & -> & J & Z)].
    - destruct (X y J) as [J'|[J' Z]]; auto. right. exists [], o, r. auto.
    - right. exists (o :: pre), o', post. cbn [orun]. rewrite E. auto.
  Qed.

  Lemma template_check_total : forall x s,
    (e_level s <> IGNORE -> forall es, e_entries s = Some es ->
       good_entries k es /\ complete x /\ (a_template x = None -> resolved es) /\
       (e_level s = FATAL -> admitted same k es x)) ->
    exists y s', fire attr env (Some (template_check same k)) x s = (Ok y, s').
  Proof.
    intros x s H. unfold fire, template_check. destruct (e_level s) eqn:L; eauto;
      (destruct (e_entries s) as [es|] eqn:E; eauto);
      (destruct H with (es := es) as (G & C & R & A); [discriminate|auto|]);
      destruct (validate_total same k es x G C R) as (r & V & I); rewrite V.
    - destruct r; eauto.
    - rewrite (proj2 I (A eq_refl)). eauto.
  Qed.
End C11_steps.

Lemma step_total_inv : forall A ty S inst v o s v' e s' (P : S -> Prop) f, trig v = Some f ->
  (forall x s, P s -> P (snd (f x s))) -> P s ->
  (forall x, In x (supplied o) -> accepts A ty inst (ctypes v) x = true) ->
  (forall x s, P s -> In x (supplied o) -> exists y s', fire A S (trig v) x s = (Ok y, s')) ->
  step A ty S inst v o s = (v', Some e, s') -> list_failure e o.
Proof.
  intros A ty S inst v o s v' e s' P f T Inv Ps Acc H E.
  assert (FA : forall l s0, P s0 -> incl l (supplied o) -> exists ys s1, fire_all A S (trig v) l s0 = (Ok ys, s1)).
  { intros l; induction l as [|x r IH]; intros s0 P0 I; cbn [fire_all]; eauto.
    destruct (H x s0 P0 (I x (or_introl eq_refl))) as (y & s1 & F). rewrite F.
    assert (P1 : P s1). { rewrite T in F. apply (fire_entered A S P f Inv) in F; tauto. }
    destruct (IH s1 P1) as (ys & s2 & ->); eauto. intros z J. apply I. now right. }
  destruct o as [i x|x|[i|]|i x|i| | |l]; cbn [step list_failure supplied] in *; try discriminate.
  - unfold setitem in E. rewrite Acc in E by now left. destruct (H x s Ps) as (y & s1 & F); [now left|]. rewrite F in E.
    destruct (norm_index _ _); inv E; auto.
  - unfold append in E. rewrite Acc in E by now left. destruct (H x s Ps) as (y & s1 & F); [now left|]. rewrite F in E. inv E.
  - cbn [extend] in E. assert (X : forallb (accepts A ty inst (ctypes v)) (first_pass A i) = true).
    { apply forallb_forall. intros x I. apply Acc. destruct i; exact I. }
    rewrite X in E. destruct (FA (later_pass A i) s Ps) as (ys & s1 & F).
    { destruct i; cbn; auto using incl_refl, incl_nil_l. }
    rewrite F in E. inv E.
  - cbn [extend] in E. inv E; auto.
  - unfold insert in E. rewrite Acc in E by now left. destruct (H x s Ps) as (y & s1 & F); [now left|]. rewrite F in E. inv E.
  - unfold delitem in E. destruct (norm_index _ _); inv E; auto.
Qed.

(** ** C12 *)
Lemma homogenize_ok : forall x y, homogenize x = Ok y -> exists e, as_entry y = Some e /\
  (forall t b, e = (RTmpl t, Some b) -> contains_bounds (t_bounds t) b = true).
Proof.
  intros x y H.
  destruct x as [t|s i|b| |[|p [|q [|z l]]]|]; cbn in H; try discriminate;
    try destruct p; try destruct q; try discriminate;
    try (inv H; cbn; eexists; split; eauto; congruence).
  destruct (contains_bounds (t_bounds t) b) eqn:E; inv H. cbn. eexists; split; eauto. congruence.
Qed.

Definition entry_ok (y : hval) : Prop := exists e, as_entry y = Some e /\
  (forall t b, e = (RTmpl t, Some b) -> contains_bounds (t_bounds t) b = true).

Lemma h_entered : forall xs y, entered hval unit (fun _ => True) h_trigger xs y -> entry_ok y.
Proof.
  intros xs y (x & s1 & s2 & _ & _ & H). apply fire_ok in H. cbn [fire] in H. unfold h_trigger in H.
  destruct (homogenize x) eqn:E; inv H. eapply homogenize_ok; eauto.
Qed.

Lemma set_entries_ok : forall k x v, set_entries k x = Ok v -> trig v = Some h_trigger /\ Forall entry_ok (items v).
Proof.
  assert (G : forall k a v, fst (validate_list hval hty unit h_instance a (h_types k) (Some h_trigger) tt) = Ok v ->
     trig v = Some h_trigger /\ Forall entry_ok (items v)).
  { intros k a v H. destruct (validate_list hval hty unit h_instance a (h_types k) (Some h_trigger) tt) as [r s'] eqn:E.
    cbn in H. subst r.
    destruct (validate_entered hval hty unit h_instance (fun _ => True) h_trigger (fun _ _ _ => I) _ _ _ _ _ I E) as (T & _ & F).
    split; auto. eapply Forall_impl; [|exact F]. intros y. apply h_entered. }
  intros k x v H. unfold set_entries in H. destruct x; try (eapply G; exact H). destruct (existsb is_bounds l); eapply G; exact H.
Qed.

Lemma entries_run : forall ops v, trig v = Some h_trigger -> Forall no_iadd ops -> Forall entry_ok (items v) ->
  Forall entry_ok (items (fst (run hval hty unit h_instance v ops tt))).
Proof.
  intros ops; induction ops as [|o r IH]; intros v T N F; cbn [run]; auto. inv N.
  destruct (step hval hty unit h_instance v o tt) as [[v1 x] []] eqn:E.
  destruct (step_entered hval hty unit h_instance (fun _ => True) h_trigger (fun _ _ _ => I) _ _ _ _ _ _ T I E) as (_ & T1 & X).
  apply IH; auto. apply Forall_forall. intros y J. apply X in J as [J|[J|(l & -> & J)]].
  - rewrite Forall_forall in F; auto. - eapply h_entered; eauto. - contradiction.
Qed.

Lemma spells_as_entry : forall k x e, spells k x e -> exists y, as_entry y = Some e /\
  accepts hval hty h_instance (h_types k) x = true /\
  homogenize x = match e with
                 | (RTmpl t, Some b) => if contains_bounds (t_bounds t) b then Ok y else Err ValueError
                 | _ => Ok y
                 end.
Proof.
  intros k x e H.
  assert (K : akind_eqb k k = true) by now apply akind_eqb_eq.
  destruct H as [t Kt|s i|t|t b|s i|s i b];
    eexists (HSeq [match _ with RTmpl t => HTmpl t | RLink s i => HLink s i end;
                   match _ with Some b => HBounds b | None => HNone end]).
  1: instantiate (1 := None); instantiate (1 := RTmpl t).
  2: instantiate (1 := None); instantiate (1 := RLink s i).
  3: instantiate (1 := None); instantiate (1 := RTmpl t).
  4: instantiate (1 := Some b); instantiate (1 := RTmpl t).
  5: instantiate (1 := None); instantiate (1 := RLink s i).
  6: instantiate (1 := Some b); instantiate (1 := RLink s i).
  all: repeat split; auto.
  cbn. rewrite Kt, K. reflexivity.
Qed.

Lemma as_entry_inj : forall x y e, as_entry x = Some e -> as_entry y = Some e -> x = y.
Proof.
  intros x y e. destruct x as [| | | |[|[] [|[] [|]]]|]; cbn; try discriminate; intros H; inv H;
    destruct y as [| | | |[|[] [|[] [|]]]|]; cbn; try discriminate; intros H; inv H; auto.
Qed.

Lemma refines_contains : forall t b, good_entry (RTmpl t, Some b) ->
  (contains_bounds (t_bounds t) b = true <-> inside b (t_bounds t)).
Proof.
  intros t b [Gb Gt]. destruct (contains_arg_iff (t_bounds t) (ABounds b) Gt Gb) as (r & E & I).
  cbn [contains] in E. inv E. rewrite I. unfold inside. cbn [arg_kind arg_point]. split; intros [A B]; split; auto; congruence.
Qed.

(** ** C13 *)
Lemma fits_fraction : forall d v, dimensionless_unit d -> continuous v = true -> 
  (fits v (fraction_bounds d) <-> is_fraction v).
Proof.
  intros d v (D & S & O) C. unfold fits, is_fraction, fraction_bounds. split.
  - intros [_ H] p T. specialize (H p T). destruct p as [dd m| | | | ]; cbn in H; try contradiction.
    destruct H as (x & L & U & E & M). exists m. rewrite D in E. subst dd. split; auto.
    rewrite S, O in M. rewrite M. setoid_replace (x * 1 + 0) with x by ring. auto.
  - intros H. split.
    + destruct v; try discriminate; reflexivity.
    + intros p T. destruct (H p T) as (m & -> & L & U). cbn. exists m. unfold is_quantity. rewrite D.
      repeat split; auto. rewrite S, O. ring.
Qed.

Lemma fraction_good : forall d, dimensionless_unit d -> good_bounds (fraction_bounds d).
Proof.
  intros d (_ & S & _). cbn. split; [discriminate|]. unfold good_unit. rewrite S. reflexivity.
Qed.

Lemma continuous_contains : forall lo hi u v, lo <= hi -> good_unit u -> good_value v ->
  exists r, contains (BReal lo hi u) (AValue v) = Ok r.
Proof.
  intros lo hi u v L U G. destruct (contains_arg_iff (BReal lo hi u) (AValue v) (conj L U) G) as (r & E & _). eauto.
Qed.
