(** Proofs about what runs show of their specs. *)
From Coq Require Import String List Bool Arith Lia.
From Verif Require Import Base BaseFacts GraphModel GraphSpec GraphProofs ViewModel ViewSpec.
Import ListNotations.
Open Scope string_scope.
Open Scope list_scope.

Definition ref_field (f : string) : Prop := In f ["process"; "spec"; "template"; "material"].

Lemma asked_ref : forall k f pk, asked_kind k f pk -> ref_field f.
Proof.
  intros k f pk A. unfold asked_kind in A; cbn in A. unfold ref_field; cbn.
  repeat match goal with H : _ \/ _ |- _ => destruct H as [H|H]; [injection H; intros; subst; tauto|] end. contradiction.
Qed.

Section View.
  Variable eq : heap -> pv -> oid -> bool.
  Notation assign := (assign eq).
  Notation nstep := (nstep eq).
  Notation nrun := (nrun eq).

  (** *** Where an assignment writes *)

  Lemma set_plain_field : forall pk f h o v, kind_at h o <> None ->
    fval (fst (set_plain pk f h o v)) o f = fval h o f
    \/ (fval (fst (set_plain pk f h o v)) o f = v /\ admissible h pk v).
  Proof.
    intros pk f h o v K. assert (G : hget h o <> None) by (unfold kind_at in K; destruct (hget h o); [discriminate|now contradict K]).
    unfold set_plain, admissible. destruct v; cbn [fst]; auto.
    - right; rewrite fval_set_same; auto.
    - right; rewrite fval_set_same; eauto 8.
    - destruct (is_kind h pk (PRef o0)) eqn:E; cbn [fst]; auto. apply is_kind_ref in E.
      right; rewrite fval_set_same; eauto 8.
  Qed.

  Lemma assign_field : forall h o f v o' f', ref_field f' ->
    fval (fst (assign h o f v)) o' f' = fval h o' f'
    \/ (o' = o /\ f' = f /\ fval (fst (assign h o f v)) o f = v
        /\ exists k pk, kind_at h o = Some k /\ asked_kind k f pk /\ admissible h pk v).
  Proof.
    intros h o f v o' f' RF. unfold GraphModel.assign. destruct (kind_at h o) as [k|] eqn:K; auto.
    assert (G : hget h o <> None) by (eapply kind_hget; eauto).
    destruct (role_of k f) as [[pk|pk lf|pk|]|] eqn:R; auto.
    - (* produce *)
      apply role_produce in R as [-> C].
      assert (A : asked_kind k "process" pk) by (destruct C as [[-> ->]|[-> ->]]; unfold asked_kind; cbn; tauto).
      destruct (String.eqb f' "process") eqn:E; str_eq; subst.
      2:{ left. apply process_frame; auto. intros ->. unfold ref_field in RF; cbn in RF; intuition discriminate. }
      destruct (Nat.eq_dec o' o) as [->|N]; [|left; now apply process_frame3].
      destruct (set_process_cases h pk o v _ K) as [[W ->]|[[p [-> [Kp ->]]]|[W E]]].
      + right. repeat split; auto. cbn [fst]. rewrite fval_set_same; auto. { eapply kind_hget. rewrite detach_kind. eauto. }
        exists k, pk. repeat split; auto. unfold admissible. intuition eauto.
      + right. repeat split; auto. { cbn [fst]. rewrite fval_set_same; auto. eapply kind_hget. rewrite kind_set_field, detach_kind. eauto. }
        exists k, pk. repeat split; auto. unfold admissible. eauto.
      + left. rewrite W. cbn [fst]. apply detach_process.
    - (* owned *)
      assert (L := proj1 (role_owned _ _ _ _) R). destruct (listed_asked _ _ _ _ L) as [A [_ _]].
      assert (f' <> lf) by (intros ->; unfold ref_field in RF; cbn in RF; destruct L as [L|[L|L]]; injection L; intros; subst; intuition discriminate).
      destruct (String.eqb f' f) eqn:E; str_eq; subst.
      2:{ left. apply owned_frame; auto. }
      destruct (Nat.eq_dec o' o) as [->|N]; [|left; apply owned_frame; auto].
      assert (NL : f <> lf) by auto. clear RF.
      assert (H1 : forall h1, (forall x, kind_at h1 x = kind_at h x) -> fval h1 o f = fval h o f ->
        let r := match v with
        | PNone | PLink _ _ => (set_field h1 o f v, None)
        | PRef p =>
            if is_kind h1 pk v then
              let h2 := set_field h1 o f v in
              match fval h2 p lf with
              | PList l => (set_field h2 p lf (PList (l ++ [PRef o])), None)
              | _ => (h2, Some AttributeError)
              end
            else (h1, Some TypeError)
        | _ => (h1, Some TypeError)
        end in fval (fst r) o f = fval h o f \/ (fval (fst r) o f = v /\ admissible h pk v)).
      { intros h1 K1 F1 r. assert (G1 : hget h1 o <> None) by (eapply kind_hget; rewrite K1; eauto).
        unfold r, admissible. destruct v; cbn [fst]; auto.
        - right; rewrite fval_set_same; auto.
        - right; rewrite fval_set_same; eauto 8.
        - destruct (is_kind h1 pk (PRef o0)) eqn:Ek; cbn [fst]; auto. apply is_kind_ref in Ek. rewrite K1 in Ek.
          right. split; [|eauto 6]. repeat break_match; cbn [fst]; rewrite ?fval_set_other by auto; apply fval_set_same; auto. }
      assert (H2 : fval (fst (set_owned eq pk f lf h o v)) o f = fval h o f
                   \/ (fval (fst (set_owned eq pk f lf h o v)) o f = v /\ admissible h pk v)).
      { unfold set_owned.
        match goal with |- context[match ?d with Ok _ => _ | Err _ => _ end] =>
          assert (HD : forall h1, d = Ok h1 -> (forall x, kind_at h1 x = kind_at h x) /\ fval h1 o f = fval h o f);
          [|destruct d as [h1|e] eqn:D]
        end.
        - intros h1. repeat break_match; intros HH; try discriminate; injection HH as <-; auto.
          all: (split; [intros; apply kind_set_field | rewrite fval_set_other; auto]).
        - destruct (HD _ eq_refl) as [K1 F1]. exact (H1 h1 K1 F1).
        - left; reflexivity. }
      destruct H2 as [H2|[H2 H3]]; auto. right. repeat split; auto. eauto 6.
    - (* plain *)
      destruct (role_plain _ _ _ R) as [A _].
      destruct (String.eqb f' f) eqn:E; str_eq; subst; [|left; apply plain_frame; auto].
      destruct (Nat.eq_dec o' o) as [->|N]; [|left; apply plain_frame; auto].
      destruct (set_plain_field pk f h o v) as [H|[H1 H2]]; [congruence| |]; auto. right. repeat split; auto. eauto 6.
    - (* ingredient_run.spec *)
      apply role_ing_spec in R as [-> ->].
      destruct (String.eqb f' "spec") eqn:E; str_eq; subst.
      2:{ left. apply ing_spec_frame. right. repeat split; auto; intros ->; unfold ref_field in RF; cbn in RF; intuition discriminate. }
      destruct (Nat.eq_dec o' o) as [->|N]; [|left; apply ing_spec_frame; auto].
      unfold set_ing_spec. fold (stored h o).
      assert (F : fval (stored h o) o "spec" = fval h o "spec").
      { unfold stored. repeat break_match; rewrite ?fval_set_other; auto; right; discriminate. }
      destruct (set_plain_field KIngS "spec" (stored h o) o v) as [H|[H1 H2]].
      + rewrite stored_kind. congruence.
      + left. congruence.
      + right. repeat split; auto. exists KIngR, KIngS. repeat split; auto.
        * unfold asked_kind; cbn; tauto.
        * unfold admissible in *. destruct H2 as [H2|[H2|[p [-> Kp]]]]; auto. rewrite stored_kind in Kp. eauto.
  Qed.

  Lemma assign_names : forall h o f v o' f', f' = "name" \/ f' = "labels" ->
    fval (fst (assign h o f v)) o' f' = fval h o' f'
    \/ (o' = o /\ f = "spec" /\ kind_at h o = Some KIngR
        /\ exists s, fval h o "spec" = PRef s /\ kind_at h s = Some KIngS /\ fval (fst (assign h o f v)) o f' = fval h s f').
  Proof.
    intros h o f v o' f' NF. unfold GraphModel.assign. destruct (kind_at h o) as [k|] eqn:K; auto.
    assert (G : hget h o <> None) by (eapply kind_hget; eauto).
    destruct (role_of k f) as [[pk|pk lf|pk|]|] eqn:R; auto.
    - left. apply process_frame; destruct NF; subst; discriminate.
    - left. apply role_owned in R. apply owned_frame; destruct R as [R|[R|R]]; injection R; intros; subst; try left; destruct NF; subst; discriminate.
    - left. apply plain_frame. right. intros ->. clear - R NF. destruct NF as [-> | ->]; destruct k; discriminate.
    - apply role_ing_spec in R as [-> ->].
      destruct (Nat.eq_dec o' o) as [->|N]; [|left; apply ing_spec_frame; auto].
      unfold set_ing_spec. rewrite plain_frame by (right; destruct NF; subst; discriminate).
      destruct (fval h o "spec") as [| | |s| | | | ] eqn:Fs; auto.
      destruct (is_kind h KIngS (PRef s)) eqn:Ks; auto. apply is_kind_ref in Ks.
      right. repeat split; auto. exists s. repeat split; auto.
      destruct NF as [-> | ->].
      + rewrite fval_set_other by (right; discriminate). now apply fval_set_same.
      + apply fval_set_same. eapply kind_hget. rewrite kind_set_field. eauto.
  Qed.

  (** *** Kinds are never changed *)

  Lemma construct_cases : forall h k u n l extra,
    (exists e, construct h k u n l extra = (h, Some e))
    \/ exists n' l', construct h k u n l extra = (h ++ [mkE k u (blank k ++ ("name", n') :: ("labels", l') :: extra)], None)
        /\ (n' = n) /\ (k = KIngS -> text n' /\ texts l') /\ (k = KIngR -> l' = PNone \/ texts l')
        /\ (is_object k = true -> k <> KIngR -> text n').
  Proof.
    assert (VS : forall v w, validate_str v = Ok w -> w = v /\ text w).
    { intros v w; destruct v as [|[]| | | | | | ]; cbn; try discriminate. intros H; injection H as <-. unfold text; eauto. }
    assert (VL : forall v w, validate_labels v = Ok w -> texts w).
    { intros v w. unfold validate_labels. destruct (forallb is_string _) eqn:E; try discriminate. intros H; injection H as <-.
      revert E. generalize (match v with PNone => [] | PAtom (AStr _) => [v] | _ => match iterate v with Some l => l | None => [v] end end).
      intros l E. unfold texts. induction l as [|x r IH]; [exists []; reflexivity|].
      cbn in E. apply andb_true_iff in E as [E1 E2]. destruct (IH E2) as [ss Hs]. injection Hs as ->.
      destruct x as [|[| | |s]| | | | | | ]; try discriminate. exists (s :: ss). reflexivity. }
    intros h k u n l extra. unfold construct.
    assert (OBJ : k <> KIngR -> k <> KIngS -> is_object k = true ->
       (exists e, match validate_str n with
        | Ok n0 => (h ++ [mkE k u (blank k ++ ("name", n0) :: ("labels", PNone) :: extra)], None)
        | Err e => (h, Some e) end = (h, Some e))
       \/ exists n' l', match validate_str n with
        | Ok n0 => (h ++ [mkE k u (blank k ++ ("name", n0) :: ("labels", PNone) :: extra)], None)
        | Err e => (h, Some e) end = (h ++ [mkE k u (blank k ++ ("name", n') :: ("labels", l') :: extra)], None)
        /\ (n' = n) /\ (k = KIngS -> text n' /\ texts l') /\ (k = KIngR -> l' = PNone \/ texts l')
        /\ (is_object k = true -> k <> KIngR -> text n')).
    { intros N1 N2 O. destruct (validate_str n) as [n0|e] eqn:V; [|left; eauto]. apply VS in V as [-> T].
      right. exists n, PNone. repeat split; auto; intros; congruence. }
    destruct k; try (apply OBJ; try discriminate; reflexivity);
      try (right; exists n, PNone; repeat split; auto; intros; discriminate);
      try (cbn [is_object is_attribute_template]; destruct (is_string n); [right; exists n, PNone; repeat split; auto; intros; discriminate | left; eauto]; fail).
    - destruct (validate_str n) as [n0|e] eqn:V; [|left; eauto]. apply VS in V as [-> T].
      destruct (validate_labels l) as [l0|e] eqn:V; [|left; eauto]. apply VL in V.
      right. exists n, l0. repeat split; auto; intros; congruence.
    - assert (L : l = PNone \/ l <> PNone) by (destruct l; auto; right; discriminate).
      destruct L as [->|L]; [right; exists n, PNone; repeat split; auto; intros; congruence|].
      destruct (validate_labels l) as [ll|e] eqn:V.
      + assert (T := VL _ _ V). right; exists n, ll. destruct l; try congruence; rewrite ?V; repeat split; auto; intros; congruence.
      + left; exists e. destruct l; try congruence; rewrite ?V; reflexivity.
  Qed.

  (** What a step may do to the classes of the objects: add one. *)
  Lemma kind_step : forall h op o k, kind_at h o = Some k -> kind_at (fst (nstep h op)) o = Some k.
  Proof.
    intros h op o k K. destruct op as [k' u n l extra|x f v|x v|x v|x v]; cbn [ViewModel.nstep].
    - destruct (construct_cases h k' u n l extra) as [[e ->]|[n' [l' [-> _]]]]; cbn [fst]; auto.
      rewrite kind_new. assert (o < length h) by (eapply kind_lt; eauto).
      replace (Nat.eqb o (length h)) with false; auto. symmetry; apply Nat.eqb_neq; lia.
    - now rewrite kind_assign.
    - unfold set_name. repeat break_match; cbn [fst]; rewrite ?kind_set_field; auto.
    - unfold set_labels. repeat break_match; cbn [fst]; rewrite ?kind_set_field; auto.
    - unfold add_label. repeat break_match; cbn [fst]; rewrite ?kind_set_field; auto.
  Qed.

  Definition born (h : heap) (op : nop) (o : oid) (k : ekind) : Prop :=
    o = length h /\ exists u n l extra n' l', op = NNew k u n l extra
      /\ fst (nstep h op) = h ++ [mkE k u (blank k ++ ("name", n') :: ("labels", l') :: extra)]
      /\ n' = n /\ (k = KIngS -> text n' /\ texts l') /\ (k = KIngR -> l' = PNone \/ texts l')
      /\ (is_object k = true -> k <> KIngR -> text n').

  Lemma kind_back : forall h op o k, kind_at (fst (nstep h op)) o = Some k -> kind_at h o = Some k \/ born h op o k.
  Proof.
    intros h op o k K. destruct op as [k' u n l extra|x f v|x v|x v|x v]; cbn [ViewModel.nstep] in K.
    - destruct (construct_cases h k' u n l extra) as [[e E]|[n' [l' [E W]]]]; rewrite E in K; cbn [fst] in K; auto.
      rewrite kind_new in K. destruct (Nat.eqb o (length h)) eqn:N; auto. apply Nat.eqb_eq in N. cbn [e_kind] in K. injection K as ->.
      right. split; auto. exists u, n, l, extra, n', l'. split; auto. split; auto. cbn [ViewModel.nstep]. now rewrite E.
    - rewrite kind_assign in K. auto.
    - left. unfold set_name in K. repeat break_match; cbn [fst] in K; rewrite ?kind_set_field in K; auto.
    - left. unfold set_labels in K. repeat break_match; cbn [fst] in K; rewrite ?kind_set_field in K; auto.
    - left. unfold add_label in K. repeat break_match; cbn [fst] in K; rewrite ?kind_set_field in K; auto.
  Qed.

  Lemma old_not_born : forall h o k, kind_at h o = Some k -> o <> length h.
  Proof. intros h o k K E. apply kind_lt in K. lia. Qed.

  (** Fields other than names and labels are touched by assignments only. *)
  Lemma step_other : forall h op o k f, kind_at h o = Some k -> f <> "name" -> f <> "labels" ->
    (forall x g v, op <> NSet x g v) -> fval (fst (nstep h op)) o f = fval h o f.
  Proof.
    intros h op o k f K N1 N2 NS. destruct op as [k' u n l extra|x g v|x v|x v|x v]; cbn [ViewModel.nstep].
    - destruct (construct_cases h k' u n l extra) as [[e ->]|[n' [l' [-> _]]]]; cbn [fst]; auto.
      rewrite fval_new. apply old_not_born in K. apply Nat.eqb_neq in K. now rewrite K.
    - now contradiction (NS x g v).
    - unfold set_name. repeat break_match; cbn [fst]; rewrite ?fval_set_other; auto.
    - unfold set_labels. repeat break_match; cbn [fst]; rewrite ?fval_set_other; auto.
    - unfold add_label. repeat break_match; cbn [fst]; rewrite ?fval_set_other; auto.
  Qed.

  Lemma step_ref : forall h op o k f, kind_at h o = Some k -> ref_field f ->
    fval (fst (nstep h op)) o f = fval h o f
    \/ exists v pk, op = NSet o f v /\ fval (fst (nstep h op)) o f = v /\ asked_kind k f pk /\ admissible h pk v.
  Proof.
    intros h op o k f K RF.
    assert (NN : f <> "name" /\ f <> "labels") by (unfold ref_field in RF; cbn in RF; split; intros ->; intuition discriminate).
    destruct NN as [N1 N2].
    destruct op as [k' u n l extra|x g v|x v|x v|x v]; try (left; eapply step_other; eauto; intros; discriminate).
    cbn [ViewModel.nstep]. destruct (assign_field h x g v o f RF) as [E|[-> [-> [E [k' [pk [K' [A W]]]]]]]]; auto.
    right. exists v, pk. rewrite K in K'; injection K' as <-. auto.
  Qed.

  Lemma admissible_step : forall h op pk v, admissible h pk v -> admissible (fst (nstep h op)) pk v.
  Proof.
    intros h op pk v [->|[[s [i ->]]|[p [-> K]]]]; unfold admissible; eauto.
    right; right. exists p. split; auto. now apply kind_step.
  Qed.

  (** *** References hold what their class asks for *)

  Lemma references_step : forall h op, references_typed h -> references_typed (fst (nstep h op)).
  Proof.
    intros h op R o k f pk K A. destruct (kind_back _ _ _ _ K) as [K0|[-> [u [n [l [extra [n' [l' [-> [E _]]]]]]]]]].
    - apply admissible_step. destruct (step_ref h op o k f K0 (asked_ref _ _ _ A)) as [->|[v [pk' [-> [-> [A' W]]]]]].
      + eapply R; eauto.
      + now rewrite (asked_fun _ _ _ _ A A') in W.
    - rewrite E, fval_new, Nat.eqb_refl. left.
      assert (B : dict_get f (blank k) = Some PNone)
        by (unfold asked_kind in A; cbn in A; repeat (destruct A as [A|A]; [injection A; intros; subst; reflexivity|]); contradiction).
      now apply fget_blank.
  Qed.

  Lemma new_blank : forall k u extra f v, dict_get f (blank k) = Some v -> fget (mkE k u (blank k ++ extra)) f = v.
  Proof. intros. now apply fget_blank. Qed.

  Lemma outputs_step : forall h op, outputs_typed h -> outputs_typed (fst (nstep h op)).
  Proof.
    intros h op T mk pk p C K. destruct (kind_back _ _ _ _ K) as [K0|[-> [u [n [l [extra [n' [l' [-> [E _]]]]]]]]]].
    2:{ rewrite E, fval_new, Nat.eqb_refl. left. apply new_blank. destruct C as [[-> ->]|[-> ->]]; reflexivity. }
    assert (Keep : fval (fst (nstep h op)) p "output_material" = fval h p "output_material" ->
      fval (fst (nstep h op)) p "output_material" = PNone \/
      exists m, fval (fst (nstep h op)) p "output_material" = PRef m /\ kind_at (fst (nstep h op)) m = Some mk).
    { intros ->. destruct (T _ _ _ C K0) as [|[m [-> Km]]]; auto. right. exists m. split; auto. now apply kind_step. }
    destruct op as [k' u n l extra|x g v|x v|x v|x v]; try (apply Keep; eapply step_other; eauto; intros; discriminate).
    cbn [ViewModel.nstep] in *. destruct (kind_at h x) as [kx|] eqn:Kx.
    2:{ apply Keep. unfold GraphModel.assign. now rewrite Kx. }
    destruct (role_of kx g) as [[pk'|pk' lf|pk'|]|] eqn:R.
    2-5: apply Keep; try (eapply assign_other_frame; eauto; intros; congruence).
    - unfold GraphModel.assign. rewrite Kx, R. apply role_produce in R as [-> C'].
      assert (Keep2 : fval (fst (set_process pk' h x v)) p "output_material" = fval h p "output_material" ->
         fval (fst (set_process pk' h x v)) p "output_material" = PNone \/
         exists m, fval (fst (set_process pk' h x v)) p "output_material" = PRef m /\ kind_at (fst (set_process pk' h x v)) m = Some mk).
      { intros ->. destruct (T _ _ _ C K0) as [|[m [-> Km]]]; auto. right. exists m. split; auto. now rewrite kind_set_process. }
      destruct (ekind_eq_dec pk' pk) as [->|N]; [|apply Keep2, process_frame2; congruence].
      assert (D : fval (detach_out h pk x) p "output_material" = PNone \/ fval (detach_out h pk x) p "output_material" = fval h p "output_material").
      { rewrite detach_out_val. repeat break_match; auto. }
      destruct (set_process_cases h pk x v _ Kx) as [[W E]|[[q [-> [Kq E]]]|[E _]]]; rewrite E in *; cbn [fst] in *.
      + rewrite fval_set_other in * by (right; discriminate). destruct D as [->|D]; auto.
      + rewrite fval_set_other in * by (right; discriminate).
        destruct (Nat.eq_dec q p) as [->|Nq].
        * right. exists x. rewrite fval_set_same by (eapply kind_hget; rewrite detach_kind; eauto).
          split; auto. rewrite !kind_set_field, detach_kind. now rewrite (couple_inj _ _ _ C C') in Kx.
        * rewrite fval_set_other in * by auto. destruct D as [->|D]; auto.
      + destruct D as [->|D]; auto.
  Qed.

  Lemma members_keep : forall h h', (forall o, kind_at h' o = kind_at h o) ->
    (forall ck cf pk lf p, listed ck cf pk lf -> kind_at h p = Some pk -> fval h' p lf = fval h p lf) ->
    members_typed h -> members_typed h'.
  Proof.
    intros h h' K F M ck cf pk lf p L Kp. rewrite K in Kp. rewrite (F _ _ _ _ _ L Kp).
    destruct (M _ _ _ _ _ L Kp) as [xs [E T]]. exists xs. split; auto. intros; rewrite K; auto.
  Qed.

  Lemma members_set : forall h ck cf pk lf p xs, listed ck cf pk lf -> kind_at h p = Some pk ->
    (forall x, In x xs -> kind_at h x = Some ck) -> members_typed h ->
    members_typed (set_field h p lf (PList (map PRef xs))).
  Proof.
    intros h ck cf pk lf p xs L Kp T M ck' cf' pk' lf' p' L' Kp'. rewrite kind_set_field in Kp'.
    destruct (Nat.eq_dec p' p) as [->|N].
    - assert (pk' = pk) by congruence. subst pk'.
      destruct (listed_fun _ _ _ _ _ _ _ _ L L') as [[_ E1] [E2 _]]. specialize (E1 eq_refl); subst ck'. destruct (E2 eq_refl) as [-> ->].
      rewrite fval_set_same by (eapply kind_hget; eauto). exists xs. split; auto. intros; rewrite kind_set_field; auto.
    - rewrite fval_set_other by auto. destruct (M _ _ _ _ _ L' Kp') as [ys [E Ty]]. exists ys. split; auto.
      intros; rewrite kind_set_field; auto.
  Qed.

  Lemma remove_sub : forall h x xs l, remove eq h x (map PRef xs) = Some l ->
    exists ys, l = map PRef ys /\ forall y, In y ys -> In y xs.
  Proof.
    intros h x xs; induction xs as [|y r IH]; cbn [map remove]; intros l H; [discriminate|].
    destruct (_ || _)%bool.
    - injection H as <-. exists r. split; auto. intros; now right.
    - destruct (remove eq h x (map PRef r)) as [l'|]; [|discriminate]. injection H as <-.
      destruct (IH _ eq_refl) as [ys [-> I]]. exists (y :: ys). split; auto. intros z [->|Hz]; [now left|right; auto].
  Qed.

  Lemma members_step : forall h op, members_typed h -> members_typed (fst (nstep h op)).
  Proof.
    intros h op M. destruct op as [k' u n l extra|x g v|x v|x v|x v].
    { intros ck cf pk lf p L K. destruct (kind_back _ _ _ _ K) as [K0|[-> [u' [n0 [l0 [extra' [n' [l' [EQ [E _]]]]]]]]]].
      - rewrite (step_other h _ p pk lf K0); [| | |intros; discriminate];
          try (destruct L as [L|[L|L]]; injection L; intros; subst; discriminate).
        destruct (M _ _ _ _ _ L K0) as [xs [Ex T]]. exists xs. split; auto. intros; apply kind_step; auto.
      - rewrite E, fval_new, Nat.eqb_refl. exists []. split; [|intros ? []].
        apply new_blank. destruct L as [L|[L|L]]; injection L; intros; subst; reflexivity. }
    2-4: (intros ck cf pk lf p L K; destruct (kind_back _ _ _ _ K) as [K0|[_ [u' [n0 [l0 [extra' [n' [l' [EQ _]]]]]]]]]; [|discriminate];
      rewrite (step_other h _ p pk lf K0); [| | |intros; discriminate];
          try (destruct L as [L|[L|L]]; injection L; intros; subst; discriminate);
        destruct (M _ _ _ _ _ L K0) as [xs [Ex T]]; exists xs; split; auto; intros; apply kind_step; auto).
    cbn [ViewModel.nstep]. destruct (kind_at h x) as [kx|] eqn:Kx.
    2:{ unfold GraphModel.assign. now rewrite Kx. }
    destruct (role_of kx g) as [[pk|pk lf|pk|]|] eqn:R.
    1,3,4: (eapply members_keep; [intros; apply kind_assign| |exact M]; intros ck0 cf0 pk0 lf0 p0 L0 Kp0;
      refine (proj1 (assign_list_frame eq h x g v kx Kx _ _ _ _ _ L0) p0 Kp0); intros; congruence).
    2:{ unfold GraphModel.assign. now rewrite Kx, R. }
    unfold GraphModel.assign. rewrite Kx, R. apply role_owned in R. unfold set_owned.
    match goal with |- context[match ?d with Ok _ => _ | Err _ => _ end] =>
      assert (HD : forall h1, d = Ok h1 -> (forall y, kind_at h1 y = kind_at h y) /\ members_typed h1);
      [|destruct d as [h1|e] eqn:D; auto]
    end.
    { intros h1. destruct (fval h x g) as [| | |p| | | | ]; try (intros H; injection H as <-; auto; fail).
      destruct (is_kind h pk (PRef p)) eqn:Kp; [|intros H; injection H as <-; auto]. apply is_kind_ref in Kp.
      destruct (M _ _ _ _ _ R Kp) as [xs [Ex T]]. rewrite Ex.
      destruct (remove eq h x (map PRef xs)) as [l|] eqn:RM; [|discriminate]. intros H; injection H as <-.
      destruct (remove_sub _ _ _ _ RM) as [ys [-> I]]. split; [intros; apply kind_set_field|].
      eapply members_set; eauto. }
    destruct (HD _ eq_refl) as [K1 M1].
    assert (CF : forall w, members_typed (set_field h1 x g w)).
    { intros w. eapply members_keep; [intros; apply kind_set_field| |exact M1]. intros ck cf pk' lf' p L Kp.
      apply fval_set_other. right. destruct (listed_fun _ _ _ _ _ _ _ _ R L) as [_ [_ [_ [_ [_ N]]]]]. auto. }
    destruct v as [| | |p| | | | ]; cbn [fst]; auto.
    destruct (is_kind h1 pk (PRef p)) eqn:Kp; cbn [fst]; auto. apply is_kind_ref in Kp.
    assert (Kp2 : kind_at (set_field h1 x g (PRef p)) p = Some pk) by now rewrite kind_set_field.
    destruct (CF (PRef p) _ _ _ _ _ R Kp2) as [xs [Ex T]]. rewrite Ex. cbn [fst].
    replace (map PRef xs ++ [PRef x]) with (map PRef (xs ++ [x])) by (rewrite map_app; reflexivity).
    eapply members_set; eauto. intros y I. apply in_app_iff in I as [I|[<-|[]]]; auto.
    rewrite kind_set_field, K1. exact Kx.
  Qed.

  Lemma reachable_ind : forall P : heap -> Prop, P [] -> (forall h op, P h -> P (fst (nstep h op))) ->
    forall h, reachable eq h -> P h.
  Proof.
    intros P P0 PS h [ops ->]. revert P0. generalize (@nil entity) as h0. induction ops as [|op r IH]; cbn; auto.
  Qed.

  Lemma kind_nil : forall o, kind_at [] o = None.
  Proof. intros []; reflexivity. Qed.

  Lemma references_reachable : forall h, reachable eq h -> references_typed h /\ outputs_typed h /\ members_typed h.
  Proof.
    intros h. revert h. apply reachable_ind.
    - repeat split; repeat intro; rewrite kind_nil in *; discriminate.
    - intros h op [R [O M]]. auto using references_step, outputs_step, members_step.
  Qed.

  (** *** Names and labels *)

  (** What a step does to the stored name and labels of an object. *)
  Lemma step_name : forall h op o k f, kind_at h o = Some k -> f = "name" \/ f = "labels" ->
    fval (fst (nstep h op)) o f = fval h o f
    \/ (k = KIngR /\ (exists v, op = NSet o "spec" v) /\
        exists s, fval h o "spec" = PRef s /\ kind_at h s = Some KIngS /\ fval (fst (nstep h op)) o f = fval h s f)
    \/ (exists v, op = NName o v /\ f = "name" /\ k <> KIngR /\ fval (fst (nstep h op)) o f = v /\ (is_object k = true -> text v))
    \/ (exists v, op = NLabels o v /\ f = "labels" /\ k = KIngS /\ validate_labels v = Ok (fval (fst (nstep h op)) o f))
    \/ (exists x v l, op = NAddLabel x v /\ f = "labels" /\ labels_owner h x = o /\ fval h o "labels" = PList l
          /\ is_string v = true /\ fval (fst (nstep h op)) o f = PList (l ++ [v])).
  Proof.
    intros h op o k f K F. assert (G : hget h o <> None) by (eapply kind_hget; eauto).
    destruct op as [k' u n l extra|x g v|x v|x v|x v]; cbn [ViewModel.nstep].
    - left. destruct (construct_cases h k' u n l extra) as [[e ->]|[n' [l' [-> _]]]]; cbn [fst]; auto.
      rewrite fval_new. apply old_not_born in K. apply Nat.eqb_neq in K. now rewrite K.
    - destruct (assign_names h x g v o f F) as [E|[-> [-> [Kx [s [Fs [Ks E]]]]]]]; auto.
      right; left. repeat split; [congruence | eauto | exists s; auto].
    - unfold set_name. destruct (kind_at h x) as [kx|] eqn:Kx; [|left; reflexivity].
      assert (D : x = o /\ f = "name" \/ (forall w, fval (set_field h x "name" w) o f = fval h o f)).
      { destruct (Nat.eq_dec x o) as [->|N]; [|right; intros; apply fval_set_other; auto].
        destruct F as [-> | ->]; [left; auto | right; intros; apply fval_set_other; right; discriminate]. }
      destruct D as [[-> ->]|D].
      + rewrite K in Kx; injection Kx as <-.
        assert (forall w, fval (set_field h o "name" w) o "name" = w) by (intros; now apply fval_set_same).
        destruct (validate_str v) as [w|e] eqn:V.
        * assert (w = v /\ text v) as [-> T].
          { destruct v as [|[]| | | | | | ]; cbn in V; try discriminate. injection V as <-. unfold text; eauto. }
          destruct k; cbn [is_object fst]; auto; right; right; left; exists v; rewrite H; repeat split; auto; discriminate.
        * destruct k; cbn [is_object fst]; auto; right; right; left; exists v; rewrite H; repeat split; auto; try discriminate.
      + left. destruct kx; cbn [is_object fst]; auto; destruct (validate_str v); cbn [fst]; auto.
    - unfold set_labels. destruct (kind_at h x) as [[]|] eqn:Kx; auto.
      destruct (validate_labels v) as [w|e] eqn:V; auto. cbn [fst].
      destruct (Nat.eq_dec x o) as [->|N]; [|left; apply fval_set_other; auto].
      destruct F as [-> | ->]; [left; apply fval_set_other; right; discriminate|].
      right; right; right; left. exists v. rewrite fval_set_same by auto. repeat split; auto. congruence.
    - unfold add_label. destruct (kind_at h x) as [[]|] eqn:Kx; auto;
        (destruct (fval h (labels_owner h x) "labels") as [| | | |l| | | ] eqn:Fl; auto;
         destruct (is_string v) eqn:Sv; auto; cbn [fst];
         destruct (Nat.eq_dec (labels_owner h x) o) as [E|N]; [|left; apply fval_set_other; auto];
         destruct F as [-> | ->]; [left; apply fval_set_other; right; discriminate|];
         right; right; right; right; exists x, v, l; rewrite E in *; rewrite fval_set_same by auto; repeat split; auto).
  Qed.

  Lemma assign_stores : forall h i s v f, kind_at h i = Some KIngR -> fval h i "spec" = PRef s -> kind_at h s = Some KIngS ->
    f = "name" \/ f = "labels" -> fval (fst (assign h i "spec" v)) i f = fval h s f.
  Proof.
    intros h i s v f K Fs Ks F. unfold GraphModel.assign. rewrite K. cbn [role_of String.eqb Ascii.eqb Bool.eqb].
    assert (G : hget h i <> None) by (eapply kind_hget; eauto).
    unfold set_ing_spec. rewrite plain_frame by (right; destruct F; subst; discriminate).
    rewrite Fs, (proj2 (is_kind_ref _ _ _) Ks). destruct F as [-> | ->].
    - rewrite fval_set_other by (right; discriminate). now apply fval_set_same.
    - apply fval_set_same. eapply kind_hget. rewrite kind_set_field. eauto.
  Qed.

  Definition name_field (f : string) : Prop := f = "name" \/ f = "labels".

  Lemma name_field_eqb : forall f, name_field f -> (String.eqb f "name" || String.eqb f "labels")%bool = true.
  Proof. intros f [-> | ->]; reflexivity. Qed.

  Lemma read_realises : forall h i s f, references_typed h -> realises h i s -> name_field f ->
    kind_at h s = Some KIngS /\ read h i f = fval h s f.
  Proof.
    intros h i s f R [K Fs] F.
    assert (A : asked_kind KIngR "spec" KIngS) by (unfold asked_kind; cbn; tauto).
    assert (Ks : kind_at h s = Some KIngS).
    { destruct (R _ _ _ _ K A) as [E|[[a [b E]]|[p [E Kp]]]]; rewrite Fs in E; try discriminate. now injection E as ->. }
    split; auto. unfold read. rewrite K, (name_field_eqb _ F), Fs. now rewrite (proj2 (is_kind_ref _ _ _) Ks).
  Qed.

  Lemma read_own : forall h i f, on_its_own h i -> read h i f = fval h i f.
  Proof.
    intros h i f [K N]. unfold read. rewrite K. break_if; auto. destruct (fval h i "spec") as [| | |s| | | | ] eqn:Fs; auto. now contradiction (N s).
  Qed.

  Lemma read_other : forall h o k f, kind_at h o = Some k -> k <> KIngR -> read h o f = fval h o f.
  Proof. intros h o k f K N. unfold read. rewrite K. destruct k; auto; congruence. Qed.

  Lemma own_or_realises : forall h i, kind_at h i = Some KIngR -> on_its_own h i \/ exists s, realises h i s.
  Proof.
    intros h i K. unfold on_its_own, realises.
    destruct (fval h i "spec") as [| | |s| | | | ]; try (left; split; auto; intros; discriminate). right; eauto.
  Qed.

  Lemma owner_own : forall h x i, references_typed h -> on_its_own h i -> labels_owner h x = i -> x = i.
  Proof.
    intros h x i R [Ki N] E. unfold labels_owner in E. destruct (kind_at h x) as [[]|] eqn:Kx; auto.
    destruct (fval h x "spec") as [| | |s| | | | ] eqn:Fs; auto.
    destruct (is_kind h KIngS (PRef s)) eqn:Ks; auto. apply is_kind_ref in Ks. congruence.
  Qed.

  Lemma own_step : forall h op i f, references_typed h -> kind_at h i = Some KIngR -> on_its_own (fst (nstep h op)) i ->
    name_field f -> (f = "labels" -> forall v, op <> NAddLabel i v) ->
    read (fst (nstep h op)) i f = read h i f.
  Proof.
    intros h op i f R K O' F NA. rewrite (read_own _ _ _ O').
    destruct (own_or_realises h i K) as [O|[s Hs]].
    - rewrite (read_own _ _ _ O).
      destruct (step_name h op i KIngR f K F) as [E|[[_ [_ [s [Fs _]]]]|[[v [_ [_ [N _]]]]|[[v [_ [_ [N _]]]]|[x [v [l [-> [-> [OW _]]]]]]]]]];
        auto; try congruence.
      + destruct O as [_ N]. now contradiction (N s).
      + exfalso. apply (NA eq_refl v). now rewrite (owner_own h x i R O OW).
    - destruct (read_realises h i s f R Hs F) as [Ks ->]. destruct Hs as [_ Fs].
      assert (RF : ref_field "spec") by (unfold ref_field; cbn; tauto).
      destruct (step_ref h op i KIngR "spec" K RF) as [E|[v [pk [-> _]]]].
      + destruct O' as [_ N]. rewrite E in N. now contradiction (N s).
      + cbn [ViewModel.nstep]. now apply assign_stores.
  Qed.

  Lemma own_history : forall ops h i f, references_typed h -> always eq (fun g => on_its_own g i) h ops -> name_field f ->
    (f = "labels" -> forall v, ~ In (NAddLabel i v) ops) -> read (nrun h ops) i f = read h i f.
  Proof.
    induction ops as [|op r IH]; intros h i f R AL F NA; cbn [ViewModel.nrun always] in *; auto.
    destruct AL as [O AL]. rewrite IH; auto.
    - apply own_step; auto.
      + apply O.
      + destruct r; cbn in AL; [auto|apply AL].
      + intros Ef v ->. apply (NA Ef v). now left.
    - now apply references_step.
    - intros Ef v I. apply (NA Ef v). now right.
  Qed.

  (** Names are texts and labels lists of texts. *)
  Definition names_typed (h : heap) : Prop :=
    (forall o k, kind_at h o = Some k -> is_object k = true -> k <> KIngR -> text (fval h o "name"))
    /\ (forall o, kind_at h o = Some KIngS -> texts (fval h o "labels"))
    /\ (forall o, kind_at h o = Some KIngR -> fval h o "labels" = PNone \/ texts (fval h o "labels")).

  Lemma validate_texts : forall v w, validate_labels v = Ok w -> texts w.
  Proof.
    intros v w. unfold validate_labels. destruct (forallb is_string _) eqn:E; try discriminate. intros H; injection H as <-.
    revert E. generalize (match v with PNone => [] | PAtom (AStr _) => [v] | _ => match iterate v with Some l => l | None => [v] end end).
    intros l E. unfold texts. induction l as [|x r IH]; [exists []; reflexivity|].
    cbn in E. apply andb_true_iff in E as [E1 E2]. destruct (IH E2) as [ss Hs]. injection Hs as ->.
    destruct x as [|[| | |s]| | | | | | ]; try discriminate. exists (s :: ss). reflexivity.
  Qed.

  Lemma texts_snoc : forall l v, texts (PList l) -> is_string v = true -> texts (PList (l ++ [v])).
  Proof.
    intros l v [ss E] Sv. injection E as ->. destruct v as [|[| | |s]| | | | | | ]; try discriminate.
    exists (ss ++ [s]). now rewrite map_app.
  Qed.

  Lemma fget_name : forall k u n l extra, fget (mkE k u (blank k ++ ("name", n) :: ("labels", l) :: extra)) "name" = n.
  Proof. intros. destruct k; reflexivity. Qed.
  Lemma fget_labels : forall k u n l extra, fget (mkE k u (blank k ++ ("name", n) :: ("labels", l) :: extra)) "labels" = l.
  Proof. intros. destruct k; reflexivity. Qed.

  Lemma names_step : forall h op, references_typed h -> names_typed h -> names_typed (fst (nstep h op)).
  Proof.
    intros h op R [N1 [N2 N3]]. repeat split.
    - intros o k K O NR. destruct (kind_back _ _ _ _ K) as [K0|[-> [u [n [l [extra [n' [l' [-> [E [En [_ [_ W]]]]]]]]]]]]].
      + destruct (step_name h op o k "name" K0 (or_introl eq_refl)) as [->|[[-> _]|[[v [_ [_ [_ [-> W]]]]]|[[v [_ [D _]]]|[x [v [l [_ [D _]]]]]]]]];
          try discriminate; eauto. congruence.
      + rewrite E, fval_new, Nat.eqb_refl, fget_name. auto.
    - intros o K. destruct (kind_back _ _ _ _ K) as [K0|[-> [u [n [l [extra [n' [l' [-> [E [En [W _]]]]]]]]]]]].
      + destruct (step_name h op o KIngS "labels" K0 (or_intror eq_refl)) as [->|[[D _]|[[v [_ [D _]]]|[[v [_ [_ [_ V]]]]|[x [v [l [_ [_ [_ [Fl [Sv ->]]]]]]]]]]]];
          try discriminate; eauto.
        * eapply validate_texts; eauto.
        * apply texts_snoc; auto. rewrite <- Fl. auto.
      + rewrite E, fval_new, Nat.eqb_refl, fget_labels. now apply W.
    - intros o K. destruct (kind_back _ _ _ _ K) as [K0|[-> [u [n [l [extra [n' [l' [-> [E [En [_ [W _]]]]]]]]]]]]].
      + destruct (step_name h op o KIngR "labels" K0 (or_intror eq_refl)) as [->|[[_ [_ [s [_ [Ks ->]]]]]|[[v [_ [D _]]]|[[v [_ [_ [D _]]]]|[x [v [l [_ [_ [_ [Fl [Sv ->]]]]]]]]]]]];
          try discriminate; eauto.
        right. apply texts_snoc; auto. rewrite <- Fl. destruct (N3 _ K0) as [D|]; auto. rewrite D in Fl; discriminate.
      + rewrite E, fval_new, Nat.eqb_refl, fget_labels. now apply W.
  Qed.

  Lemma names_reachable : forall h, reachable eq h -> names_typed h.
  Proof.
    intros h H. apply (reachable_ind (fun h => references_typed h /\ names_typed h)); auto.
    - split; [|repeat split]; repeat intro; rewrite kind_nil in *; discriminate.
    - intros g op [R N]. split; [now apply references_step | now apply names_step].
  Qed.

  Lemma reachable_step : forall h op, reachable eq h -> reachable eq (fst (nstep h op)).
  Proof.
    intros h op [ops ->]. exists (ops ++ [op]). generalize (@nil entity) as h0.
    induction ops as [|o r IH]; intros h0; cbn; auto.
  Qed.
End View.
