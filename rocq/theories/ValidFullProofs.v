(** Proofs for C53. *)
From Coq Require Import String List Bool ZArith QArith Lia Lqa.
From Verif Require Import Base BaseFacts BoundsModel BoundsSpec BoundsProofs BoundsFullSpec BoundsFullProofs VlModel VlSpec VlProofs
  ValidationModel ValidationSpec ValidationProofs ValidFullSpec.
Import ListNotations.
Open Scope list_scope.

Notation vunit := BoundsFullSpec.value_unit.

(** Raw outcome of the test at each level. *)
Definition test (b : bounds) (v : value) (l : level) : verdict :=
  match l with
  | IGNORE => Accept
  | _ => match contains b (AValue v) with
         | Err e => Reject e
         | Ok true => Accept
         | Ok false => match l with WARNING => Warn | _ => Reject ValueError end
         end
  end.
Lemma judged_iff : forall b v l d, good_bounds b -> vunit v -> (judged b v l d <-> d = test b v l).
Proof.
  intros b v l d G U. unfold test. destruct (to_bounds_cases v U) as [[V N]|(V & e & N & E & X)].
  - destruct (contains_fits b v G V) as [[C F]|[C F]]; rewrite C; split.
    + intros H. destruct H as [|l' e L Y|l' L _ _|_ Y|_ Y]; auto; try tauto; [now destruct (N e)|]. destruct l'; congruence.
    + intros ->. destruct l; [constructor | now apply judged_fits | now apply judged_fits].
    + intros H. destruct H as [|l' e L Y|l' L _ Y|_ Y|_ Y]; auto; try tauto. now destruct (N e).
    + intros ->. destruct l; [constructor | now apply judged_warn | now apply judged_fatal].
  - cbn [contains]. rewrite E. cbn [bind]. split.
    + intros H. destruct H as [|l' e' L Y|l' L Y _|Y _|Y _]; auto; try tauto. rewrite (X _ Y). destruct l'; congruence.
    + intros ->. destruct l; [constructor | |]; apply judged_empty; auto; discriminate.
Qed.
Lemma test_check : forall b v t l log, t_bounds t = b -> check l (RTmpl t) v log = match test b v l with Accept => (None, log) | Warn => (None, S log) | Reject e => (Some e, log) end.
Proof. intros b v t l log <-. unfold test. destruct l; cbn [check]; auto; destruct (contains _ _) as [[]|]; auto. Qed.

(** ** Attributes *)
Definition attr_test (k : akind) (l : level) (a : attr) (o : aop) : verdict :=
  match o with
  | ASetValue VNone | ASetTemplate TNone => Accept
  | ASetValue VOther | ASetTemplate TOther => Reject TypeError
  | ASetValue (VVal v) => match a_template a with
                          | None => Accept
                          | Some (RLink _ _) => match l with IGNORE => Accept | _ => Reject AttributeError end
                          | Some (RTmpl t) => test (t_bounds t) v l
                          end
  | ASetTemplate (TRef (RLink _ _)) => Accept
  | ASetTemplate (TRef (RTmpl t)) => if akind_eqb (t_kind t) k then match a_value a with None => Accept | Some v => test (t_bounds t) v l end else Reject TypeError
  end.
Lemma attr_test_step : forall k l a o log, astep k l a o log = carried a (assigned o a) log (attr_test k l a o).
Proof.
  intros k l a o log. destruct o as [[|v|]|[|[t|s i]|]]; cbn [astep set_value set_template attr_test assigned]; try reflexivity.
  - destruct (a_template a) as [[t|s i]|]; try reflexivity.
    + rewrite (test_check _ _ _ _ _ eq_refl). now destruct (test _ _ _).
    + destruct l; reflexivity.
  - destruct (akind_eqb _ _); [|reflexivity]. destruct (a_value a) as [v|]; [|reflexivity].
    rewrite (test_check _ _ _ _ _ eq_refl). now destruct (test _ _ _).
Qed.
Lemma attr_verdict_iff : forall k l a o d, attr_ok a -> aop_ok o -> (attr_verdict k l a o d <-> d = attr_test k l a o).
Proof.
  intros k l a o d [A B] O. split.
  - intros H. destruct H as [o N|o W F|s i|v -> (s & i & E)|v L (s & i & E)|o v t d W Ev Et J].
    + destruct o as [[|v|]|[|[t|s i]|]]; cbn in *; try tauto; auto. destruct (akind_eqb (t_kind t) k) eqn:K; auto. apply akind_eqb_eq in K. contradiction.
    + destruct o as [[|v|]|[|[t|s i]|]]; cbn in *; try tauto; auto.
      * destruct F as [F|F]; [discriminate|]. now rewrite F.
      * replace (akind_eqb (t_kind t) k) with true by (symmetry; now apply akind_eqb_eq). destruct F as [F|F]; [now rewrite F|discriminate].
    + reflexivity.
    + cbn. now rewrite E.
    + cbn. rewrite E. destruct l; congruence.
    + destruct o as [[|v'|]|[|[t'|s i]|]]; cbn in *; try discriminate; try tauto.
      * inv Ev. rewrite Et. apply judged_iff in J; auto.
      * replace (akind_eqb (t_kind t') k) with true by (symmetry; now apply akind_eqb_eq). inv Et. rewrite Ev. apply judged_iff in J; auto.
  - intros ->. destruct o as [[|v|]|[|[t|s i]|]]; cbn [attr_test].
    + apply av_free; cbn; auto.
    + destruct (a_template a) as [[t|s i]|] eqn:E.
      * eapply av_judged; cbn; eauto. apply judged_iff; auto.
      * destruct l; [apply av_link_ignored | apply av_link | apply av_link]; eauto; discriminate.
      * apply av_free; cbn; auto.
    + apply av_type. cbn; auto.
    + apply av_free; cbn; auto.
    + destruct (akind_eqb (t_kind t) k) eqn:K.
      * apply akind_eqb_eq in K. destruct (a_value a) as [v|] eqn:E; [|apply av_free; cbn; auto]. eapply av_judged; cbn; eauto. apply judged_iff; auto.
      * apply av_type. cbn. intros X. apply akind_eqb_eq in X. congruence.
    + apply av_set_link.
    + apply av_type. cbn; auto.
Qed.
Lemma attr_ok_assigned : forall o a, attr_ok a -> aop_ok o -> attr_ok (assigned o a).
Proof.
  intros o a [A B] O. destruct o as [[|v|]|[|[t|s i]|]]; split; cbn in *; auto; try discriminate; intros x E; inv E; auto.
Qed.
Lemma attr_ok_step : forall k l a o log a' r log', attr_ok a -> aop_ok o -> astep k l a o log = (a', r, log') -> attr_ok a'.
Proof.
  intros k l a o log a' r log' A O H. rewrite attr_test_step in H. pose proof (attr_ok_assigned o a A O).
  destruct (attr_test k l a o); inv H; auto.
Qed.

(** ** Objects *)
Section Objects.
  Variable same : tref -> tref -> bool.
  Variable k : akind.
  Definition look (a : attr) (es : list entry) : res (option entry) :=
    match a_template a with Some t => Ok (by_template same t es) | None => by_name (a_name a) es end.
  Lemma looks_up_iff : forall a es x, looks_up same a es x <-> x = look a es.
  Proof.
    intros a es x. unfold look. split.
    - intros H. induction H as [|e r Ab|s i b r T|e r x Na R H IH].
      + destruct (a_template a); reflexivity.
      + unfold about in Ab. destruct (a_template a) as [t|]; cbn.
        * unfold by_template. cbn. now rewrite Ab.
        * destruct e as [e b]. destruct Ab as (t & E & Q). cbn in E. subst e. cbn. rewrite Q, String.eqb_refl. reflexivity.
      + rewrite T. reflexivity.
      + unfold about in Na. destruct (a_template a) as [t|]; cbn.
        * unfold by_template in *. cbn. destruct (same t (fst e)); [now destruct Na | exact IH].
        * destruct e as [e b]. destruct (R eq_refl) as [t E]. cbn in E. subst e. cbn. destruct (String.eqb (a_name a) (t_name t)) eqn:Q; [|exact IH].
          apply String.eqb_eq in Q. exfalso. apply Na. exists t. auto.
    - intros ->. induction es as [|e r IH]; [destruct (a_template a); constructor|].
      destruct (a_template a) as [t|] eqn:T.
      + unfold by_template in *. cbn. destruct (same t (fst e)) eqn:S.
        * apply lu_hit. unfold about. now rewrite T.
        * apply lu_next; auto; [unfold about; rewrite T; congruence | rewrite T; discriminate].
      + destruct e as [[t|s i] b]; cbn; [|now apply lu_link]. destruct (String.eqb (a_name a) (t_name t)) eqn:Q.
        * apply lu_hit. unfold about. rewrite T. apply String.eqb_eq in Q. exists t. auto.
        * apply lu_next; auto; [|intros _; exists t; reflexivity]. unfold about. rewrite T. intros (t' & E & N). cbn in E. inv E. rewrite N, String.eqb_refl in Q. discriminate.
  Qed.
  Definition bound_of (e : entry) : option bounds :=
    match e with (_, Some b) => Some b | (RTmpl t, None) => if akind_eqb (t_kind t) k then Some (t_bounds t) else None | _ => None end.
  Lemma imposes_iff : forall e b, imposes k e b <-> bound_of e = Some b.
  Proof.
    intros [[t|s i] [b'|]] b; cbn; split; intros H; try discriminate; try (inv H; try constructor; auto; fail).
    - inv H. replace (akind_eqb (t_kind t) (t_kind t)) with true by (symmetry; now apply akind_eqb_eq). reflexivity.
    - destruct (akind_eqb (t_kind t) k) eqn:K; [|discriminate]. inv H. constructor. now apply akind_eqb_eq.
  Qed.
  Definition object_test (l : level) (es : option (list entry)) (a : attr) : verdict :=
    match l, es with
    | IGNORE, _ | _, None => Accept
    | _, Some x => match look a x with
                   | Err e => Reject e
                   | Ok None => Accept
                   | Ok (Some e) => match bound_of e with
                                    | None => Accept
                                    | Some b => match a_value a with
                                                | Some v => test b v l
                                                | None => match l with WARNING => Warn | _ => Reject ValueError end
                                                end
                                    end
                   end
    end.
  Lemma look_in : forall a es e, look a es = Ok (Some e) -> In e es.
  Proof.
    intros a es e H. unfold look in H. destruct (a_template a).
    - unfold by_template in H. injection H as H. apply find_some in H. tauto.
    - induction es as [|[[t|s i] b] r IH]; cbn in H; try discriminate. destruct (String.eqb _ _); [inv H; now left | right; auto].
  Qed.
  Lemma object_verdict_iff : forall l es a d, entries_ok k es -> value_ok a -> (object_verdict same k l es a d <-> d = object_test l es a).
  Proof.
    intros l es a d G U. split.
    - intros H. destruct H as [[-> | ->]|x e L -> K|x L -> K|x e L -> K N|x e b -> -> K I V|x e b -> -> K I V|x e b v d L -> K I V J]; unfold object_test.
      + reflexivity.
      + destruct l; reflexivity.
      + apply looks_up_iff in K. rewrite <- K. destruct l; congruence.
      + apply looks_up_iff in K. rewrite <- K. destruct l; congruence.
      + apply looks_up_iff in K. rewrite <- K. destruct (bound_of e) as [b|] eqn:B; [exfalso; apply (N b); now apply imposes_iff|]. destruct l; congruence.
      + apply looks_up_iff in K. rewrite <- K. apply imposes_iff in I. now rewrite I, V.
      + apply looks_up_iff in K. rewrite <- K. apply imposes_iff in I. now rewrite I, V.
      + apply looks_up_iff in K. rewrite <- K. assert (Gb : good_bounds b) by (eapply (G x eq_refl e); eauto; eapply look_in; eauto).
        apply imposes_iff in I. rewrite I, V. apply judged_iff in J; auto. destruct l; congruence.
    - intros ->. unfold object_test. destruct es as [x|]; [|destruct l; apply ov_off; auto].
      destruct l; [apply ov_off; auto | |].
      + destruct (look a x) as [[e|]|e] eqn:K; [|eapply ov_unmentioned; eauto; [discriminate|]; now apply looks_up_iff | eapply ov_trips; eauto; [discriminate|]; now apply looks_up_iff].
        assert (K' := K). symmetry in K'. apply looks_up_iff in K'.
        destruct (bound_of e) as [b|] eqn:B; [|eapply ov_no_bounds; eauto; [discriminate|]; intros b I; apply imposes_iff in I; congruence].
        apply imposes_iff in B. destruct (a_value a) as [v|] eqn:V; [|eapply ov_no_value_warn; eauto].
        eapply ov_judged; eauto; [discriminate|]. apply judged_iff; auto. eapply (G x eq_refl e); eauto. eapply look_in; eauto.
      + destruct (look a x) as [[e|]|e] eqn:K; [|eapply ov_unmentioned; eauto; [discriminate|]; now apply looks_up_iff | eapply ov_trips; eauto; [discriminate|]; now apply looks_up_iff].
        assert (K' := K). symmetry in K'. apply looks_up_iff in K'.
        destruct (bound_of e) as [b|] eqn:B; [|eapply ov_no_bounds; eauto; [discriminate|]; intros b I; apply imposes_iff in I; congruence].
        apply imposes_iff in B. destruct (a_value a) as [v|] eqn:V; [|eapply ov_no_value_fatal; eauto].
        eapply ov_judged; eauto; [discriminate|]. apply judged_iff; auto. eapply (G x eq_refl e); eauto. eapply look_in; eauto.
  Qed.
  Lemma validate_test : forall es a, validate same k es a =
    match look a es with
    | Err e => Err e
    | Ok None => Ok true
    | Ok (Some e) => match bound_of e with None => Ok true | Some b => contains b (value_arg a) end
    end.
  Proof.
    intros es a. unfold validate, look. destruct (a_template a) as [t|].
    - cbn [bind]. destruct (by_template same t es) as [[[t'|s i] [b|]]|]; cbn; auto. destruct (akind_eqb _ _); auto.
    - destruct (by_name _ _) as [[[[t'|s i] [b|]]|]|]; cbn; auto. destruct (akind_eqb _ _); auto.
  Qed.
  Definition fired (s : env) (d : verdict) : res (option attr) * env :=
    match d with Accept => (Ok None, s) | Warn => (Ok None, mkEnv (e_level s) (e_entries s) (S (e_log s))) | Reject e => (Err e, s) end.
  Lemma template_check_test : forall a s, template_check same k a s = fired s (object_test (e_level s) (e_entries s) a).
  Proof.
    intros a [l es log]. unfold template_check, object_test. cbn [e_level e_entries].
    destruct l, es as [es|]; try reflexivity; rewrite validate_test; unfold value_arg, test;
      (destruct (look a es) as [[e|]|e]; try reflexivity; destruct (bound_of e) as [b|]; try reflexivity;
       destruct (a_value a) as [v|]; [destruct (contains b (AValue v)) as [[]|]; reflexivity | reflexivity]).
  Qed.
  (** Several attributes. *)
  Fixpoint tests (l : level) (es : option (list entry)) (xs : list attr) : nat * option exn :=
    match xs with
    | [] => (0%nat, None)
    | a :: r => match object_test l es a with
                | Accept => tests l es r
                | Warn => let (n, e) := tests l es r in (S n, e)
                | Reject e => (0%nat, Some e)
                end
    end.
  Lemma all_verdicts_iff : forall l es xs n e, entries_ok k es -> Forall value_ok xs -> (all_verdicts same k l es xs n e <-> (n, e) = tests l es xs).
  Proof.
    intros l es xs n e G F. split.
    - intros H. induction H as [|a r n e V H IH|a r n e V H IH|a r e V]; auto; inv F; apply object_verdict_iff in V; auto; cbn; rewrite <- V; auto.
      rewrite <- IH; auto.
    - revert n e. induction F as [|a r U F IH]; intros n e E; cbn in E; [inv E; constructor|].
      destruct (object_test l es a) as [| |x] eqn:T.
      + apply vs_accept; auto. now apply object_verdict_iff.
      + destruct (tests l es r) as [m y] eqn:Q. inv E. apply vs_warn; auto. now apply object_verdict_iff.
      + inv E. apply vs_reject. now apply object_verdict_iff.
  Qed.
  Definition env_plus (s : env) (n : nat) : env := mkEnv (e_level s) (e_entries s) (n + e_log s).
  Lemma fire_all_tests : forall xs s, fire_all attr env (Some (template_check same k)) xs s =
    let (n, e) := tests (e_level s) (e_entries s) xs in
    (match e with None => Ok xs | Some e => Err e end, env_plus s n).
  Proof.
    induction xs as [|a r IH]; intros s; cbn [fire_all tests].
    - destruct s; reflexivity.
    - unfold fire. rewrite template_check_test. destruct (object_test (e_level s) (e_entries s) a); cbn [fired].
      + rewrite IH. destruct (tests _ _ r) as [n [e|]]; reflexivity.
      + rewrite IH. cbn [e_level e_entries]. destruct (tests _ _ r) as [n [e|]]; cbn; unfold env_plus; cbn; now rewrite Nat.add_succ_r.
      + destruct s; reflexivity.
  Qed.
End Objects.

(** ** Histories of an object: what entered, and how it was judged. *)
Section History.
  Variable same : tref -> tref -> bool.
  Variable k : akind.
  Definition let_in (s : env) (y : attr) : Prop := forall e, object_test same k (e_level s) (e_entries s) y <> Reject e.
  Lemma stored_let_in : forall x s y s', stored_as attr env (Some (template_check same k)) x s y s' -> y = x /\ let_in s x.
  Proof.
    intros x s y s' H. split; [eapply template_check_stored; eauto|]. intros e E. apply fire_ok in H. unfold fire in H.
    rewrite template_check_test, E in H. discriminate.
  Qed.
  Lemma ostep_let_in : forall v o s v' r s', trig v = Some (template_check same k) -> ostep same k v o s = (v', r, s') ->
    trig v' = Some (template_check same k) /\
    forall y, In y (items v') -> In y (items v) \/ (In y (oop_supplied o) /\ (let_in s y \/ ~ oop_no_iadd o)).
  Proof.
    intros v o s v' r s' T H.
    set (P := fun s0 => e_level s0 = e_level s /\ e_entries s0 = e_entries s).
    assert (Inv : forall x s0, P s0 -> P (snd (template_check same k x s0))) by (intros x s0; apply template_check_env).
    assert (Ent : forall xs y, entered attr env P (template_check same k) xs y -> In y xs /\ let_in s y).
    { intros xs y (x & s1 & s2 & I & [L E] & St). destruct (stored_let_in _ _ _ _ St) as [-> Li]. split; auto.
      unfold let_in in *. now rewrite L, E in Li. }
    destruct o as [o|x|l|es]; cbn [ostep oop_supplied] in *.
    - destruct (step_entered attr unit env attr_instance P _ Inv _ _ _ _ _ _ T (conj eq_refl eq_refl) H) as (_ & T' & X).
      split; auto. intros y I. apply X in I as [I|[I|(l & -> & I)]]; auto.
      apply Ent in I. right. tauto.
    - destruct (set_attrs same k x s) as [[v1|e] s1] eqn:E; inv H; auto. unfold set_attrs in E.
      destruct (validate_entered attr unit env attr_instance P _ Inv _ _ _ _ _ (conj eq_refl eq_refl) E) as (T' & _ & X).
      split; auto. intros y I. rewrite Forall_forall in X. apply X in I. rewrite in_supplied_arg in I. apply Ent in I. right. tauto.
    - inv H; auto.
    - inv H; auto.
  Qed.
  Lemma orun_let_in : forall ops v s, trig v = Some (template_check same k) ->
    forall y, In y (items (fst (orun same k v ops s))) -> In y (items v) \/
      exists pre o post, ops = pre ++ o :: post /\ In y (oop_supplied o) /\ (let_in (snd (orun same k v pre s)) y \/ ~ oop_no_iadd o).
  Proof.
    intros ops; induction ops as [|o r IH]; intros v s T y I; cbn [orun] in I; auto.
    destruct (ostep same k v o s) as [[v1 x] s1] eqn:E. destruct (ostep_let_in _ _ _ _ _ _ T E) as [T1 X].
    destruct (IH v1 s1 T1 y I) as [J|(pre & o' & post & -> & J & Z)].
    - destruct (X y J) as [J'|[J' Z]]; auto. right. exists [], o, r. auto.
    - right. exists (o :: pre), o', post. cbn [orun]. rewrite E. auto.
  Qed.
  Lemma accepts_any : forall x, accepts attr unit attr_instance [tt] x = true.
  Proof. reflexivity. Qed.
  Lemma accepts_all : forall xs, forallb (accepts attr unit attr_instance [tt]) xs = true.
  Proof. induction xs; auto. Qed.
End History.

(** ** Quantities *)
Lemma continuous_kind : forall v, continuous v = true <-> value_kind v = KReal.
Proof. intros []; cbn; split; congruence. Qed.
Lemma continuous_unit : forall v, continuous v = true -> vunit v -> exists u, unit_of v = Some u /\ good_unit u.
Proof. intros [] C U; cbn in *; try discriminate; eauto. Qed.
Lemma dimless_good : forall d, dimensionless_unit d -> good_unit d.
Proof. intros d (_ & S & _). unfold good_unit. rewrite S. reflexivity. Qed.
Lemma absolute_good : forall u, good_unit u -> good_bounds (BReal 0 float_max u).
Proof. intros u U. split; [discriminate|exact U]. Qed.

(** ** Levels: the same programs where a with-block always restores the level. *)
Lemma exec_names : forall p l, fst (exec p l) = l \/ names_level p (fst (exec p l)).
Proof.
  induction p as [|x|x p IHp|p IHp q IHq| |p IHp q IHq|p IHp q IHq]; intros l; cbn [exec names_level]; auto.
  - destruct x as [x|]; cbn; auto.
  - destruct x as [x|]; [|cbn; auto]. destruct (IHp x) as [E|E]; destruct (exec p x) as [l2 []]; cbn in *; subst; auto.
  - destruct (IHp l) as [E|E]; destruct (exec p l) as [l1 []]; cbn in *; subst; auto.
    + destruct (IHq l) as [E|E]; auto.
    + destruct (IHq l1) as [E'|E']; auto. rewrite E'. auto.
  - destruct (IHp l) as [E|E]; destruct (exec p l) as [l1 []]; cbn in *; subst; auto.
    + destruct (IHq l) as [E|E]; auto.
    + destruct (IHq l1) as [E'|E']; auto. rewrite E'. auto.
  - destruct (IHp l) as [E|E]; destruct (exec p l) as [l1 e1]; cbn in *; subst.
    + destruct (IHq l) as [E|E]; destruct (exec q l); cbn in *; auto.
    + destruct (IHq l1) as [E'|E']; destruct (exec q l1); cbn in *; subst; auto.
Qed.
Lemma exec_intended : forall p l, none_leaves p l -> exec p l = intended p l.
Proof.
  induction p as [|x|x p IHp|p IHp q IHq| |p IHp q IHq|p IHp q IHq]; intros l N; cbn [exec intended none_leaves] in *; auto.
  - destruct x as [x|]; auto. destruct N as [N M]. rewrite (IHp _ M). destruct (intended p x) as [l2 []]; cbn in *; congruence.
  - destruct N as [N M]. rewrite (IHp _ N). destruct (intended p l) as [l1 []]; cbn in *; auto.
  - destruct N as [N M]. rewrite (IHp _ N). destruct (intended p l) as [l1 []]; cbn in *; auto.
  - destruct N as [N M]. rewrite (IHp _ N). destruct (intended p l) as [l1 e]; cbn in *. rewrite (IHq _ M). destruct (intended q l1); reflexivity.
Qed.
