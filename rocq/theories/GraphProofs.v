(** Proofs about the object graph. *)
From Coq Require Import String List Bool Arith Lia.
From Verif Require Import Base BaseFacts GraphModel GraphSpec.
Import ListNotations.
Open Scope string_scope.
Open Scope list_scope.

Lemma ekind_eqb_eq : forall a b, ekind_eqb a b = true <-> a = b.
Proof. intros; unfold ekind_eqb; destruct ekind_eq_dec; split; congruence. Qed.

Lemma hget_hset : forall h o e o', hget (hset h o e) o' =
  if Nat.eqb o o' then (match hget h o with Some _ => Some e | None => None end) else hget h o'.
Proof.
  unfold hget. induction h as [|x r IH]; intros [|o] e [|o']; cbn; auto.
  now destruct (Nat.eqb o o').
Qed.

Lemma hset_length : forall h o e, length (hset h o e) = length h.
Proof. induction h as [|x r IH]; intros [|o] e; cbn; auto. Qed.

Lemma set_field_length : forall h o f v, length (set_field h o f v) = length h.
Proof. intros. unfold set_field. destruct (hget h o); auto using hset_length. Qed.

Lemma kind_set_field : forall h o f v o', kind_at (set_field h o f v) o' = kind_at h o'.
Proof.
  intros. unfold set_field, kind_at. destruct (hget h o) eqn:E; auto.
  rewrite hget_hset. destruct (Nat.eqb o o') eqn:N; auto.
  apply Nat.eqb_eq in N; subst. rewrite E. reflexivity.
Qed.

Lemma uids_set_field : forall h o f v o', option_map e_uids (hget (set_field h o f v) o') = option_map e_uids (hget h o').
Proof.
  intros. unfold set_field. destruct (hget h o) eqn:E; auto.
  rewrite hget_hset. destruct (Nat.eqb o o') eqn:N; auto.
  apply Nat.eqb_eq in N; subst. rewrite E. reflexivity.
Qed.

Lemma fval_set_same : forall h o f v, hget h o <> None -> fval (set_field h o f v) o f = v.
Proof.
  intros. unfold fval, set_field. destruct (hget h o) eqn:E; [|congruence].
  rewrite hget_hset, Nat.eqb_refl, E. unfold fget; cbn. now rewrite dict_get_set_same.
Qed.

Lemma fval_set_other : forall h o f v o' f', (o <> o' \/ f <> f') -> fval (set_field h o f v) o' f' = fval h o' f'.
Proof.
  intros. unfold fval, set_field. destruct (hget h o) eqn:E; auto.
  rewrite hget_hset. destruct (Nat.eqb o o') eqn:N; auto.
  apply Nat.eqb_eq in N; subst. rewrite E. unfold fget; cbn. rewrite dict_get_set_other; auto.
  destruct H; congruence.
Qed.

Lemma kind_hget : forall h o k, kind_at h o = Some k -> hget h o <> None.
Proof. unfold kind_at; intros h o k H; destruct (hget h o); [discriminate | cbn in H; discriminate]. Qed.

Lemma is_kind_ref : forall h k p, is_kind h k (PRef p) = true <-> kind_at h p = Some k.
Proof.
  intros. cbn. destruct (kind_at h p) as [k'|]; [|split; discriminate].
  rewrite ekind_eqb_eq. split; congruence.
Qed.

Lemma is_kind_set : forall h o f v k w, is_kind (set_field h o f v) k w = is_kind h k w.
Proof. intros; destruct w; cbn; auto. now rewrite kind_set_field. Qed.

(** Case analysis on the assigned value common to all setters. *)
Lemma pv_shape : forall v, v = PNone \/ (exists s i, v = PLink s i) \/ (exists p, v = PRef p)
  \/ (v <> PNone /\ (forall s i, v <> PLink s i) /\ (forall p, v <> PRef p)).
Proof. destruct v; eauto 6; right; right; right; repeat split; congruence. Qed.

Section Graph.
  Variable eq : heap -> pv -> oid -> bool.
  Notation assign := (assign eq).
  Notation gstep := (gstep eq).
  Notation grun := (grun eq).

  Lemma kind_set_plain : forall pk f h o v o', kind_at (fst (set_plain pk f h o v)) o' = kind_at h o'.
  Proof. intros. unfold set_plain. destruct v; try (break_if); cbn [fst]; now rewrite ?kind_set_field. Qed.

  Lemma kind_set_process : forall pk h m v o', kind_at (fst (set_process pk h m v)) o' = kind_at h o'.
  Proof.
    intros. unfold set_process.
    repeat break_match; cbn [fst]; rewrite ?kind_set_field; auto.
  Qed.

  Lemma kind_set_owned : forall pk cf lf h x v o', kind_at (fst (set_owned eq pk cf lf h x v)) o' = kind_at h o'.
  Proof.
    intros. unfold set_owned.
    repeat break_match; cbn [fst]; try reflexivity;
      repeat match goal with H : Ok _ = Ok _ |- _ => injection H as <- | H : Err _ = Ok _ |- _ => discriminate end;
      rewrite ?kind_set_field; auto.
  Qed.

  Lemma kind_set_ing_spec : forall h o v o', kind_at (fst (set_ing_spec h o v)) o' = kind_at h o'.
  Proof.
    intros. unfold set_ing_spec. rewrite kind_set_plain. repeat break_match; rewrite ?kind_set_field; auto.
  Qed.

  Lemma kind_assign : forall h o f v o', kind_at (fst (assign h o f v)) o' = kind_at h o'.
  Proof.
    intros. unfold GraphModel.assign. repeat break_match; auto using kind_set_process, kind_set_owned, kind_set_plain, kind_set_ing_spec.
  Qed.

  Lemma kind_new : forall h e o, kind_at (h ++ [e]) o =
    if Nat.eqb o (length h) then Some (e_kind e) else kind_at h o.
  Proof.
    intros. unfold kind_at, hget. destruct (Nat.eqb o (length h)) eqn:N.
    - apply Nat.eqb_eq in N; subst. rewrite nth_error_app2, Nat.sub_diag by lia. reflexivity.
    - apply Nat.eqb_neq in N. destruct (Nat.lt_ge_cases o (length h)).
      + now rewrite nth_error_app1 by lia.
      + transitivity (@None ekind).
        * rewrite (proj2 (nth_error_None (h ++ [e]) o)); [reflexivity | rewrite app_length; cbn; lia].
        * now rewrite (proj2 (nth_error_None h o)) by lia.
  Qed.

  Lemma fval_new : forall h e o f, fval (h ++ [e]) o f =
    if Nat.eqb o (length h) then fget e f else fval h o f.
  Proof.
    intros. unfold fval, hget. destruct (Nat.eqb o (length h)) eqn:N.
    - apply Nat.eqb_eq in N; subst. rewrite nth_error_app2, Nat.sub_diag by lia. reflexivity.
    - apply Nat.eqb_neq in N. destruct (Nat.lt_ge_cases o (length h)).
      + now rewrite nth_error_app1 by lia.
      + transitivity PNone.
        * rewrite (proj2 (nth_error_None (h ++ [e]) o)); [reflexivity | rewrite app_length; cbn; lia].
        * now rewrite (proj2 (nth_error_None h o)) by lia.
  Qed.

  Lemma kind_lt : forall h o k, kind_at h o = Some k -> o < length h.
  Proof.
    intros h o k H. apply nth_error_Some. unfold kind_at, hget in H. destruct (nth_error h o); [discriminate|cbn in H; discriminate].
  Qed.

  Lemma fget_blank : forall k u extra f v, dict_get f (blank k) = Some v -> fget (mkE k u (blank k ++ extra)) f = v.
  Proof.
    intros. unfold fget; cbn [e_fields]. replace (dict_get f (blank k ++ extra)) with (Some v); auto.
    symmetry. revert H. induction (blank k) as [|[k' v'] r IH]; cbn; [discriminate|]. break_if; auto.
  Qed.

  (** ** Frames: which fields a setter can touch *)

  Lemma plain_frame : forall pk f h o v o' f', (o <> o' \/ f <> f') ->
    fval (fst (set_plain pk f h o v)) o' f' = fval h o' f'.
  Proof. intros. unfold set_plain. destruct v; try break_if; cbn [fst]; rewrite ?fval_set_other; auto. Qed.

  Lemma ing_spec_frame : forall h o v o' f', (o <> o' \/ (f' <> "spec" /\ f' <> "name" /\ f' <> "labels")) ->
    fval (fst (set_ing_spec h o v)) o' f' = fval h o' f'.
  Proof.
    intros. unfold set_ing_spec. rewrite plain_frame by (destruct H as [|[? [? ?]]]; [now left | right; congruence]).
    repeat break_match; rewrite ?fval_set_other; auto; destruct H as [|[? [? ?]]]; [now left | right; congruence | now left | right; congruence].
  Qed.

  Lemma process_frame : forall pk h m v o' f', f' <> "process" -> f' <> "output_material" ->
    fval (fst (set_process pk h m v)) o' f' = fval h o' f'.
  Proof.
    intros. unfold set_process.
    repeat break_match; cbn [fst]; rewrite ?fval_set_other; auto; right; congruence.
  Qed.

  Lemma process_frame2 : forall pk h m v o', kind_at h o' <> Some pk ->
    fval (fst (set_process pk h m v)) o' "output_material" = fval h o' "output_material".
  Proof.
    intros. unfold set_process.
    assert (S : forall p w h', (is_kind h' pk (PRef p) = true) -> (forall x, kind_at h' x = kind_at h x) ->
       fval (set_field h' p "output_material" w) o' "output_material" = fval h' o' "output_material").
    { intros p w h' K1 K2. apply fval_set_other. left. intros ->. apply is_kind_ref in K1. rewrite K2 in K1. contradiction. }
    assert (D : "process" <> "output_material") by discriminate.
    repeat break_match; cbn [fst]; rewrite ?(fval_set_other _ m "process" _ o' "output_material" (or_intror D)); auto;
      rewrite ?S; auto; try (intros; apply kind_set_field); rewrite ?is_kind_set in *; auto.
  Qed.

  Lemma process_frame3 : forall pk h m v o', o' <> m ->
    fval (fst (set_process pk h m v)) o' "process" = fval h o' "process".
  Proof.
    intros. unfold set_process.
    repeat break_match; cbn [fst]; rewrite ?fval_set_other; auto; right; discriminate.
  Qed.

  Lemma owned_frame : forall pk cf lf h x v o' f', f' <> cf \/ o' <> x -> f' <> lf ->
    fval (fst (set_owned eq pk cf lf h x v)) o' f' = fval h o' f'.
  Proof.
    intros. assert (A : x <> o' \/ cf <> f') by (destruct H; [right | left]; congruence).
    unfold set_owned.
    repeat break_match; cbn [fst]; auto;
      repeat match goal with H : Ok _ = Ok _ |- _ => injection H as <- | H : Err _ = Ok _ |- _ => discriminate end;
      rewrite ?fval_set_other; auto.
  Qed.

  (** Roles, read backwards. *)
  Lemma role_produce : forall k f pk, role_of k f = Some (Produce pk) -> f = "process" /\ couple k pk.
  Proof.
    unfold couple; intros k f pk H; destruct k; cbn in H; repeat break_if; inversion H; subst; str_eq; subst; auto.
  Qed.

  Lemma role_owned : forall k f pk lf, role_of k f = Some (Owned pk lf) <-> listed k f pk lf.
  Proof.
    unfold listed; intros k f pk lf; split.
    - intros H; destruct k; cbn in H; repeat break_if; inversion H; subst; str_eq; subst; auto.
    - intros [H|[H|H]]; inversion H; subst; reflexivity.
  Qed.

  Lemma role_plain : forall k f pk, role_of k f = Some (Plain pk) ->
    asked_kind k f pk /\ ~ two_sided k f.
  Proof.
    intros k f pk H; destruct k; cbn in H; repeat break_if; inversion H; subst; str_eq; subst;
      (split; [unfold asked_kind; cbn; tauto
              | intros [[E [K|[K|[K|K]]]]|[E K]]; first [discriminate | congruence]]).
  Qed.

  Lemma role_ing_spec : forall k f, role_of k f = Some IngRunSpec -> k = KIngR /\ f = "spec".
  Proof. intros k f H; destruct k; cbn in H; repeat break_if; inversion H; str_eq; auto. Qed.

  Lemma couple_role : forall mk pk, couple mk pk -> role_of mk "process" = Some (Produce pk).
  Proof. intros mk pk [[-> ->]|[-> ->]]; reflexivity. Qed.

  Lemma couple_fun : forall mk pk pk', couple mk pk -> couple mk pk' -> pk' = pk.
  Proof. intros mk pk pk' [[-> ->]|[-> ->]] [[? ->]|[? ->]]; auto; discriminate. Qed.

  Lemma couple_inj : forall mk mk' pk, couple mk pk -> couple mk' pk -> mk' = mk.
  Proof. intros mk mk' pk [[-> ->]|[-> ->]] [[-> ?]|[-> ?]]; auto; discriminate. Qed.

  Lemma couple_proc : forall mk pk, couple mk pk -> (mk = KMatR \/ mk = KMatS) /\ (pk = KProcR \/ pk = KProcS).
  Proof. intros mk pk [[-> ->]|[-> ->]]; auto. Qed.

  (** ** C15 *)

  (** The effect of [set_process] on both fields, in one place. *)
  Definition detach_out (h : heap) pk m := match fval h m "process" with
            | PRef p => if is_kind h pk (PRef p) then set_field h p "output_material" PNone else h
            | _ => h
            end.

  Lemma detach_out_val : forall h pk m p,
    fval (detach_out h pk m) p "output_material" =
      if match fval h m "process" with PRef q => Nat.eqb q p && is_kind h pk (PRef q) | _ => false end
      then PNone else fval h p "output_material".
  Proof.
    intros. unfold detach_out. destruct (fval h m "process") as [| | |q| | | | ]; auto.
    destruct (is_kind h pk (PRef q)) eqn:K.
    - rewrite andb_true_r. destruct (Nat.eqb q p) eqn:N.
      + apply Nat.eqb_eq in N; subst. apply fval_set_same. apply is_kind_ref in K. eapply kind_hget; eauto.
      + apply Nat.eqb_neq in N. apply fval_set_other; auto.
    - now rewrite andb_false_r.
  Qed.

  Lemma detach_kind : forall h pk m p, kind_at (detach_out h pk m) p = kind_at h p.
  Proof. intros. unfold detach_out. repeat break_match; auto using kind_set_field. Qed.

  Lemma detach_process : forall h pk m p, fval (detach_out h pk m) p "process" = fval h p "process".
  Proof. intros. unfold detach_out. repeat break_match; auto. apply fval_set_other. right; discriminate. Qed.

  Lemma set_process_cases : forall h pk m v mk, kind_at h m = Some mk ->
    (* accepted without a target *)
    ((v = PNone \/ exists s i, v = PLink s i) /\ set_process pk h m v = (set_field (detach_out h pk m) m "process" v, None))
    \/ (exists p, v = PRef p /\ kind_at h p = Some pk /\
        set_process pk h m v = (set_field (set_field (detach_out h pk m) p "output_material" (PRef m)) m "process" v, None))
    \/ (set_process pk h m v = (detach_out h pk m, Some TypeError) /\ v <> PNone /\ (forall s i, v <> PLink s i)
        /\ (forall p, v = PRef p -> kind_at h p <> Some pk)).
  Proof.
    intros h pk m v mk K. unfold set_process. fold (detach_out h pk m).
    destruct v; try (left; split; [eauto | reflexivity]);
      try (right; right; repeat split; try reflexivity; congruence).
    right. destruct (is_kind (detach_out h pk m) pk (PRef o)) eqn:E.
    - left. exists o. apply is_kind_ref in E. rewrite detach_kind in E. auto.
    - right. repeat split; try congruence. intros p [= <-] C. rewrite <- (detach_kind h pk m) in C.
      apply is_kind_ref in C. congruence.
  Qed.

  Lemma outputs_agree_process : forall h mk pk m v, couple mk pk -> kind_at h m = Some mk ->
    outputs_agree h -> outputs_agree (fst (set_process pk h m v)).
  Proof.
    intros h mk pk m v C K A mk' pk' m' p' C' Kp Fo. rewrite kind_set_process in *.
    assert (D : "process" <> "output_material") by discriminate.
    destruct (set_process_cases h pk m v mk K) as [[_ E]|[[p [-> [Kpp E]]]|[E _]]]; rewrite E in *; cbn [fst] in *.
    - rewrite fval_set_other in Fo by auto. rewrite detach_out_val in Fo.
      break_if; [discriminate|]. destruct (A _ _ _ _ C' Kp Fo) as [Km Fp]. split; auto.
      destruct (Nat.eq_dec m m') as [->|N].
      + exfalso. rewrite Fp in Heqb. rewrite Nat.eqb_refl in Heqb.
        rewrite K in Km; inv Km. rewrite (couple_fun _ _ _ C C') in Kp.
        apply is_kind_ref in Kp. rewrite Kp in Heqb. discriminate.
      + rewrite fval_set_other by auto. now rewrite detach_process.
    - rewrite fval_set_other in Fo by auto.
      destruct (Nat.eq_dec p p') as [->|N].
      + rewrite fval_set_same in Fo.
        2:{ rewrite <- (detach_kind h pk m) in Kp. eapply kind_hget; eauto. }
        inv Fo. assert (pk' = pk) by congruence. subst. rewrite (couple_inj _ _ _ C C'). split; auto.
        apply fval_set_same. rewrite <- (detach_kind h pk m') in K. rewrite <- (kind_set_field _ p' "output_material" (PRef m')) in K. eapply kind_hget; eauto.
      + rewrite fval_set_other in Fo by auto. rewrite detach_out_val in Fo.
        break_if; [discriminate|]. destruct (A _ _ _ _ C' Kp Fo) as [Km Fp]. split; auto.
        destruct (Nat.eq_dec m m') as [->|N2].
        * exfalso. rewrite Fp in Heqb. rewrite Nat.eqb_refl in Heqb.
          rewrite K in Km; inv Km. rewrite (couple_fun _ _ _ C C') in Kp.
          apply is_kind_ref in Kp. rewrite Kp in Heqb. discriminate.
        * rewrite fval_set_other by auto. rewrite fval_set_other by auto. now rewrite detach_process.
    - rewrite detach_out_val in Fo. break_if; [discriminate|]. rewrite detach_process. eauto.
  Qed.

  Lemma outputs_agree_frame : forall h h', (forall o, kind_at h' o = kind_at h o) ->
    (forall p, (kind_at h p = Some KProcR \/ kind_at h p = Some KProcS) ->
       fval h' p "output_material" = fval h p "output_material") ->
    (forall m, (kind_at h m = Some KMatR \/ kind_at h m = Some KMatS) -> fval h' m "process" = fval h m "process") ->
    outputs_agree h -> outputs_agree h'.
  Proof.
    intros h h' K F1 F2 A mk pk m p C Kp Fo. rewrite K in *.
    destruct (couple_proc _ _ C) as [Hm Hp].
    rewrite F1 in Fo by (destruct Hp; subst; auto).
    destruct (A _ _ _ _ C Kp Fo) as [Km Fp]. split; auto. rewrite F2; auto. destruct Hm; subst; auto.
  Qed.

  (** Every assignment other than [material.process] leaves both of its sides alone. *)
  Lemma assign_other_frame : forall h o f v k, kind_at h o = Some k -> (forall pk, role_of k f <> Some (Produce pk)) ->
    (forall p, fval (fst (assign h o f v)) p "output_material" = fval h p "output_material")
    /\ (forall m, (kind_at h m = Some KMatR \/ kind_at h m = Some KMatS) -> fval (fst (assign h o f v)) m "process" = fval h m "process").
  Proof.
    intros h o f v k K NP. unfold GraphModel.assign. rewrite K.
    destruct (role_of k f) as [[pk|pk lf|pk|]|] eqn:R; try (now split; intros; reflexivity).
    - exfalso; eapply NP; reflexivity.
    - apply role_owned in R.
      assert (Hk : k <> KMatR /\ k <> KMatS /\ f <> "output_material" /\ lf <> "output_material" /\ lf <> "process")
        by (destruct R as [R|[R|R]]; inv R; repeat split; congruence).
      destruct Hk as [? [? [? [? ?]]]].
      split; intros; apply owned_frame; auto. right. intros ->. destruct H4; congruence.
    - assert (f <> "process" /\ f <> "output_material" \/ (k <> KMatR /\ k <> KMatS /\ f <> "output_material")).
      { clear - R. destruct k; cbn in R; repeat break_if; inversion R; str_eq; subst;
          first [left; split; congruence | right; repeat split; congruence]. }
      split; intros; apply plain_frame.
      + right; tauto.
      + destruct H as [[]|[? [? ?]]]; [right; auto|left]. intros ->. destruct H0; congruence.
    - apply role_ing_spec in R as [-> ->]. split; intros; apply ing_spec_frame; right; repeat split; discriminate.
  Qed.

  Lemma outputs_agree_step : forall h op, outputs_agree h -> outputs_agree (fst (gstep h op)).
  Proof.
    intros h [k u extra|o f v] A.
    - cbn [GraphModel.gstep fst]. intros mk pk m p C Kp Fo. rewrite kind_new in *. rewrite fval_new in *.
      cbn [e_kind] in *.
      destruct (Nat.eqb p (length h)) eqn:N.
      + inv Kp. assert (dict_get "output_material" (blank pk) = Some PNone) by (destruct C as [[-> ->]|[-> ->]]; reflexivity).
        rewrite (fget_blank _ _ _ _ _ H) in Fo. discriminate.
      + destruct (A _ _ _ _ C Kp Fo) as [Km Fp]. assert (m < length h) by (eapply kind_lt; eauto).
        replace (Nat.eqb m (length h)) with false; auto. symmetry; apply Nat.eqb_neq; lia.
    - cbn [GraphModel.gstep]. destruct (kind_at h o) as [k|] eqn:K.
      2:{ unfold GraphModel.assign. now rewrite K. }
      destruct (role_of k f) as [r|] eqn:R.
      2:{ unfold GraphModel.assign. now rewrite K, R. }
      destruct r as [pk| | |].
      { unfold GraphModel.assign. rewrite K, R. apply role_produce in R as [-> C]. eapply outputs_agree_process; eauto. }
      all: eapply outputs_agree_frame; [intros; apply kind_assign | | | exact A];
        intros; eapply assign_other_frame; eauto; intros; congruence.
  Qed.

  (** The other direction, kept as long as nothing is stolen and nothing is rejected. *)
  Definition inputs_agree (h : heap) : Prop :=
    forall mk pk m p, couple mk pk -> kind_at h m = Some mk -> fval h m "process" = PRef p ->
      kind_at h p = Some pk /\ fval h p "output_material" = PRef m.

  Lemma inputs_agree_frame : forall h h', (forall o, kind_at h' o = kind_at h o) ->
    (forall p, fval h' p "output_material" = fval h p "output_material") ->
    (forall m, (kind_at h m = Some KMatR \/ kind_at h m = Some KMatS) -> fval h' m "process" = fval h m "process") ->
    inputs_agree h -> inputs_agree h'.
  Proof.
    intros h h' K F1 F2 B mk pk m p C Km Fp. rewrite K in *.
    destruct (couple_proc _ _ C) as [Hm Hp].
    rewrite F2 in Fp by (destruct Hm; subst; auto). rewrite F1. eauto.
  Qed.

  Lemma inputs_agree_process : forall h mk pk m v, couple mk pk -> kind_at h m = Some mk ->
    (forall p m', v = PRef p -> fval h p "output_material" = PRef m' -> m' = m) ->
    (attached h m "process" -> well_typed h m "process" v) ->
    inputs_agree h -> inputs_agree (fst (set_process pk h m v)).
  Proof.
    intros h mk pk m v C K NS NR B mk' pk' m' p' C' Km Fp. rewrite kind_set_process in *.
    assert (D : "process" <> "output_material") by discriminate.
    assert (D' : "output_material" <> "process") by discriminate.
    assert (Det : forall p m'', m'' <> m -> kind_at h p = Some pk' -> fval h p "output_material" = PRef m'' ->
               fval (detach_out h pk m) p "output_material" = PRef m'').
    { intros p m'' N Kp Fo. rewrite detach_out_val. destruct (fval h m "process") as [| | |q| | | | ] eqn:Fq; auto.
      destruct (Nat.eqb q p) eqn:E; auto. apply Nat.eqb_eq in E; subst q.
      destruct (B _ _ _ _ C K Fq) as [_ Q]. congruence. }
    destruct (set_process_cases h pk m v mk K) as [[Hv E]|[[p [-> [Kpp E]]]|[E [V1 [V2 V3]]]]]; rewrite E in *; cbn [fst] in *.
    - destruct (Nat.eq_dec m m') as [->|N].
      + rewrite fval_set_same in Fp. 2:{ rewrite <- (detach_kind h pk m') in K. eapply kind_hget; eauto. }
        destruct Hv as [->|[s [i ->]]]; discriminate.
      + rewrite fval_set_other in Fp by auto. rewrite detach_process in Fp.
        destruct (B _ _ _ _ C' Km Fp) as [Kp Fo]. split; auto. rewrite fval_set_other by auto. eapply Det; eauto.
    - destruct (Nat.eq_dec m m') as [->|N].
      + rewrite fval_set_same in Fp.
        2:{ rewrite <- (detach_kind h pk m') in K. rewrite <- (kind_set_field _ p "output_material" (PRef m')) in K. eapply kind_hget; eauto. }
        inv Fp. rewrite K in Km; inv Km. rewrite (couple_fun _ _ _ C C'). split; auto.
        rewrite fval_set_other by auto. apply fval_set_same. rewrite <- (detach_kind h pk m') in Kpp. eapply kind_hget; eauto.
      + rewrite fval_set_other in Fp by auto. rewrite fval_set_other in Fp by auto. rewrite detach_process in Fp.
        destruct (B _ _ _ _ C' Km Fp) as [Kp Fo]. split; auto. rewrite fval_set_other by auto.
        destruct (Nat.eq_dec p p') as [->|N2].
        * exfalso. apply N. symmetry. eapply NS; eauto.
        * rewrite fval_set_other by auto. eapply Det; eauto.
    - rewrite detach_process in Fp. destruct (B _ _ _ _ C' Km Fp) as [Kp Fo]. split; auto.
      destruct (Nat.eq_dec m m') as [->|N]; [|eapply Det; eauto].
      exfalso. destruct (NR (ex_intro _ _ Fp)) as [k [pk2 [Kk [Ak Hv]]]].
      rewrite K in Kk; inv Kk. destruct Hv as [->|[[s [i ->]]|[q [-> Kq]]]]; [congruence | eapply V2; eauto |].
      apply (V3 q); auto. rewrite Kq. f_equal.
      destruct C as [[-> ->]|[-> ->]]; unfold asked_kind in Ak; cbn in Ak;
        repeat (destruct Ak as [Ak|Ak]; [inversion Ak; auto|]); contradiction.
  Qed.

  Lemma inputs_agree_step : forall h op, not_stolen h op -> no_reject h op ->
    inputs_agree h -> inputs_agree (fst (gstep h op)).
  Proof.
    intros h [k u extra|o f v] NS NR B.
    - cbn [GraphModel.gstep fst]. intros mk pk m p C Km Fp. rewrite kind_new in *. rewrite fval_new in *.
      cbn [e_kind] in *.
      destruct (Nat.eqb m (length h)) eqn:N.
      + inv Km. assert (dict_get "process" (blank mk) = Some PNone) by (destruct C as [[-> ->]|[-> ->]]; reflexivity).
        rewrite (fget_blank _ _ _ _ _ H) in Fp. discriminate.
      + destruct (B _ _ _ _ C Km Fp) as [Kp Fo]. assert (p < length h) by (eapply kind_lt; eauto).
        replace (Nat.eqb p (length h)) with false; auto. symmetry; apply Nat.eqb_neq; lia.
    - cbn [GraphModel.gstep]. destruct (kind_at h o) as [k|] eqn:K.
      2:{ unfold GraphModel.assign. now rewrite K. }
      destruct (role_of k f) as [r|] eqn:R.
      2:{ unfold GraphModel.assign. now rewrite K, R. }
      destruct r as [pk| | |].
      { unfold GraphModel.assign. rewrite K, R. apply role_produce in R as [-> C].
        destruct (couple_proc _ _ C) as [Hm _].
        eapply inputs_agree_process; eauto.
        - intros p m' ->; intros Fo. exact (NS o p k m' eq_refl K Hm Fo).
        - intros At. apply (NR o "process" v k eq_refl K); auto. left. split; auto. destruct Hm; auto. }
      all: eapply inputs_agree_frame; [intros; apply kind_assign | | | exact B];
        intros; eapply assign_other_frame; eauto; intros; congruence.
  Qed.

  Lemma grun_outputs : forall ops h, outputs_agree h -> outputs_agree (grun h ops).
  Proof. induction ops as [|op r IH]; intros h A; cbn; auto. apply IH. now apply outputs_agree_step. Qed.

  Lemma grun_inputs : forall ops h, throughout eq (fun h op => not_stolen h op /\ no_reject h op) h ops ->
    inputs_agree h -> inputs_agree (grun h ops).
  Proof.
    induction ops as [|op r IH]; intros h T B; cbn in *; auto. destruct T as [[NS NR] T].
    apply IH; auto. now apply inputs_agree_step.
  Qed.

  (** ** C16 *)

  Definition others (x : oid) (xs : list oid) : list oid := filter (fun y => negb (Nat.eqb y x)) xs.

  Lemma In_others : forall y x xs, In y (others x xs) <-> In y xs /\ y <> x.
  Proof.
    intros. unfold others. rewrite filter_In, negb_true_iff, Nat.eqb_neq. tauto.
  Qed.

  Lemma NoDup_others : forall x xs, NoDup xs -> NoDup (others x xs).
  Proof. intros. now apply NoDup_filter. Qed.

  Lemma others_notin : forall x xs, ~ In x xs -> others x xs = xs.
  Proof.
    intros x xs; induction xs as [|y r IH]; cbn; auto. intros N.
    destruct (Nat.eqb y x) eqn:E; cbn.
    - apply Nat.eqb_eq in E; subst; exfalso; apply N; now left.
    - f_equal; apply IH; tauto.
  Qed.

  Lemma remove_others : forall h x xs, NoDup xs -> In x xs ->
    (forall y, In y xs -> y <> x -> eq h (PRef y) x = false) ->
    remove eq h x (map PRef xs) = Some (map PRef (others x xs)).
  Proof.
    intros h x xs; induction xs as [|y r IH]; cbn [map remove In]; [tauto|].
    intros N I T. inv N. destruct (Nat.eqb y x) eqn:E.
    - apply Nat.eqb_eq in E; subst. cbn [others filter]. rewrite Nat.eqb_refl. cbn.
      f_equal; f_equal. symmetry; now apply others_notin.
    - assert (y <> x) by now apply Nat.eqb_neq. rewrite (T y) by auto. cbn [orb].
      destruct I as [->|I]; [congruence|]. rewrite IH; auto. cbn. now rewrite E.
  Qed.

  Lemma listed_fun : forall ck cf pk lf ck' cf' pk' lf', listed ck cf pk lf -> listed ck' cf' pk' lf' ->
    (ck = ck' <-> pk = pk') /\ (ck = ck' -> cf = cf' /\ lf = lf') /\ ck <> pk' /\ lf <> cf' /\ ck' <> pk /\ lf' <> cf.
  Proof.
    unfold listed. intros.
    repeat match goal with H : _ \/ _ |- _ => destruct H end;
      repeat match goal with H : (_, _) = (_, _) |- _ => inv H end; repeat split; intros; congruence.
  Qed.

  Lemma listed_asked : forall ck cf pk lf, listed ck cf pk lf ->
    asked_kind ck cf pk /\ two_sided ck cf /\ (forall pk', asked_kind ck cf pk' -> pk' = pk).
  Proof.
    intros ck cf pk lf L. repeat split.
    - unfold asked_kind, listed in *; cbn; destruct L as [L|[L|L]]; inv L; tauto.
    - unfold two_sided, listed in *; destruct L as [L|[L|L]]; inv L; auto 8.
    - intros pk' A. unfold asked_kind, listed in *; cbn in A; destruct L as [L|[L|L]]; inv L;
        repeat (destruct A as [A|A]; [inversion A; auto|]); contradiction.
  Qed.

  Definition twinless (h : heap) (x : oid) (p : oid) lf := forall l y, fval h p lf = PList l -> In y l -> y <> PRef x -> eq h y x = false.

  (** Detaching from the current owner, when the lists mirror the references. *)
  Lemma detach_list : forall h ck cf pk lf x p, listed ck cf pk lf -> lists_mirror h ->
    kind_at h x = Some ck -> fval h x cf = PRef p -> twinless h x p lf ->
    exists xs, fval h p lf = PList (map PRef xs) /\ NoDup xs /\ In x xs /\ kind_at h p = Some pk /\
      remove eq h x (map PRef xs) = Some (map PRef (others x xs)).
  Proof.
    intros h ck cf pk lf x p L M K F T. destruct (M _ _ _ _ L) as [M1 M2].
    assert (Kp := M2 _ _ K F). destruct (M1 _ Kp) as [xs [Fl [N I]]].
    exists xs. assert (In x xs) by (apply I; auto). repeat split; auto.
    apply remove_others; auto. intros y Hy Ny. apply (T _ _ Fl); [now apply in_map | congruence].
  Qed.

  (** The effect of the setter on a heap whose lists mirror the references. *)
  Record owned_effect (h h' : heap) (ck : ekind) (cf : string) (pk : ekind) (lf : string) (x : oid) (v : pv) (accepted : bool) : Prop := {
    oe_ref : fval h' x cf = if accepted then v else fval h x cf;
    oe_list : forall p xs, kind_at h p = Some pk -> fval h p lf = PList (map PRef xs) ->
      fval h' p lf = PList (map PRef (others x xs ++ if accepted then (match v with PRef q => if Nat.eqb q p then [x] else [] | _ => [] end) else []))
  }.

  Lemma others_mirror : forall h ck cf pk lf x p xs, listed ck cf pk lf -> lists_mirror h ->
    kind_at h p = Some pk -> fval h p lf = PList (map PRef xs) -> NoDup xs /\ (forall y, In y xs <-> kind_at h y = Some ck /\ fval h y cf = PRef p)
    /\ (fval h x cf <> PRef p -> others x xs = xs).
  Proof.
    intros h ck cf pk lf x p xs L M Kp Fl. destruct (proj1 (M _ _ _ _ L) p Kp) as [ys [Fl' [N I]]].
    rewrite Fl in Fl'. injection Fl' as E.
    assert (xs = ys). { clear - E. revert ys E. induction xs as [|a r IH]; intros [|b s] E; cbn in E; try discriminate; auto. injection E as -> E. f_equal; auto. }
    subst ys. repeat split; auto; try (now apply I).
    intros Nf. apply others_notin. intros Hx. apply I in Hx. tauto.
  Qed.

  Lemma set_owned_effect : forall h ck cf pk lf x v, listed ck cf pk lf -> lists_mirror h ->
    kind_at h x = Some ck -> (forall p, fval h x cf = PRef p -> twinless h x p lf) ->
    let r := set_owned eq pk cf lf h x v in
    (snd r = None /\ (v = PNone \/ (exists s i, v = PLink s i) \/ (exists p, v = PRef p /\ kind_at h p = Some pk))
      /\ owned_effect h (fst r) ck cf pk lf x v true)
    \/ (snd r = Some TypeError /\ (v <> PNone /\ (forall s i, v <> PLink s i) /\ (forall p, v = PRef p -> kind_at h p <> Some pk))
      /\ owned_effect h (fst r) ck cf pk lf x v false).
  Proof.
    intros h ck cf pk lf x v L M K T r.
    assert (D : lf <> cf) by (destruct (listed_fun _ _ _ _ _ _ _ _ L L) as [_ [_ [_ [? _]]]]; auto).
    assert (Nk : ck <> pk) by (destruct (listed_fun _ _ _ _ _ _ _ _ L L) as [_ [_ [? _]]]; auto).
    (* the heap after detaching *)
    assert (exists h1, (match fval h x cf with
      | PRef p =>
          if is_kind h pk (PRef p) then
            match fval h p lf with
            | PList l => match remove eq h x l with
                         | Some l' => Ok (set_field h p lf (PList l'))
                         | None => Err ValueError
                         end
            | _ => Err AttributeError
            end
          else Ok h
      | _ => Ok h
      end = Ok h1) /\ (forall o, kind_at h1 o = kind_at h o) /\ fval h1 x cf = fval h x cf /\
      (forall p xs, kind_at h p = Some pk -> fval h p lf = PList (map PRef xs) -> fval h1 p lf = PList (map PRef (others x xs)))) as [h1 [E1 [K1 [F1 L1]]]].
    { destruct (fval h x cf) as [| | |p0| | | | ] eqn:Fx;
        try (exists h; repeat split; auto; intros p xs Kp Fl;
             destruct (others_mirror _ _ _ _ _ x _ _ L M Kp Fl) as [_ [_ O]]; rewrite O; auto; congruence).
      destruct (detach_list _ _ _ _ _ _ _ L M K Fx (T _ eq_refl)) as [xs [Fl [N [I [Kp R]]]]].
      rewrite (proj2 (is_kind_ref _ _ _) Kp), Fl, R.
      eexists; split; [reflexivity|]. split; [intros; apply kind_set_field|]. split.
      - rewrite fval_set_other; auto.
      - intros p ys Kpp Fl'. destruct (Nat.eq_dec p0 p) as [->|Np].
        + rewrite fval_set_same by (eapply kind_hget; eauto). rewrite Fl in Fl'. injection Fl' as E.
          assert (xs = ys). { clear - E. revert ys E. induction xs as [|a s IH]; intros [|b t] E; cbn in E; try discriminate; auto. injection E as -> E. f_equal; auto. }
          now subst.
        + rewrite fval_set_other by auto. rewrite Fl'.
          destruct (others_mirror _ _ _ _ _ x _ _ L M Kpp Fl') as [_ [_ O]]. rewrite O; auto. congruence. }
    unfold r, set_owned. rewrite E1. clear E1 r.
    assert (X1 : hget h1 x <> None) by (rewrite <- K1 in K; eapply kind_hget; eauto).
    assert (Plain : forall w, (forall q, w <> PRef q) -> owned_effect h (set_field h1 x cf w) ck cf pk lf x w true).
    { intros w W. constructor; [now rewrite fval_set_same|]. intros p xs Kp Fl. rewrite fval_set_other by auto.
      rewrite (L1 _ _ Kp Fl). destruct w; rewrite ?app_nil_r; auto. exfalso; eapply W; eauto. }
    assert (Rej : owned_effect h h1 ck cf pk lf x v false).
    { constructor; auto. intros p xs Kp Fl. rewrite app_nil_r. auto. }
    destruct v as [| |s i|p| | | | ]; cbn [fst snd];
      try (left; split; [reflexivity|]; split; [eauto | apply Plain; discriminate]);
      try (right; split; [reflexivity|]; split; [repeat split; congruence | exact Rej]).
    destruct (is_kind h1 pk (PRef p)) eqn:E.
    - apply is_kind_ref in E. assert (Kp := E). rewrite K1 in Kp.
      destruct (proj1 (M _ _ _ _ L) p Kp) as [xs [Fl _]].
      rewrite fval_set_other by auto. rewrite (L1 _ _ Kp Fl). cbn [fst snd].
      left. split; [reflexivity|]. split; [eauto|]. constructor.
      + rewrite fval_set_other by auto. now rewrite fval_set_same.
      + intros q ys Kq Fq. destruct (Nat.eqb p q) eqn:N.
        * apply Nat.eqb_eq in N; subst q. rewrite Fl in Fq. injection Fq as Ey.
          rewrite fval_set_same.
          2:{ apply (kind_hget _ _ pk). now rewrite kind_set_field. }
          f_equal. rewrite map_app. cbn. f_equal.
          assert (xs = ys). { clear - Ey. revert ys Ey. induction xs as [|a s IH]; intros [|b t] E; cbn in E; try discriminate; auto. injection E as -> E. f_equal; auto. }
          now subst.
        * apply Nat.eqb_neq in N. rewrite fval_set_other by auto. rewrite fval_set_other by auto.
          rewrite (L1 _ _ Kq Fq). now rewrite app_nil_r.
    - right. cbn [fst snd]. split; [reflexivity|]. split; [|exact Rej]. repeat split; try congruence.
      intros q [= <-] C. rewrite <- K1 in C. apply is_kind_ref in C. congruence.
  Qed.

  Lemma NoDup_snoc : forall (A : Type) (l : list A) (x : A), NoDup l -> ~ In x l -> NoDup (l ++ [x]).
  Proof.
    intros A l x N I. apply NoDup_rev in N. rewrite <- (rev_involutive (l ++ [x])). apply NoDup_rev.
    rewrite rev_app_distr; cbn. constructor; auto. now rewrite <- in_rev.
  Qed.

  Lemma mirror_owned : forall h ck cf pk lf x v, listed ck cf pk lf -> lists_mirror h ->
    kind_at h x = Some ck -> (forall p, fval h x cf = PRef p -> twinless h x p lf) ->
    (attached h x cf -> well_typed h x cf v) ->
    lists_mirror (fst (set_owned eq pk cf lf h x v)).
  Proof.
    intros h ck cf pk lf x v L M K T NR.
    assert (KK := kind_set_owned pk cf lf h x v).
    assert (Fr := owned_frame pk cf lf h x v).
    assert (Eff := set_owned_effect h ck cf pk lf x v L M K T). cbv zeta in Eff.
    set (h' := fst (set_owned eq pk cf lf h x v)) in *.
    intros ck2 cf2 pk2 lf2 L2. destruct (listed_fun _ _ _ _ _ _ _ _ L L2) as [Hk [Hf [H1 [H2 [H3 H4]]]]].
    destruct (ekind_eq_dec ck ck2) as [<-|Nk].
    2:{ (* another relation *)
      assert (Np : pk <> pk2) by tauto.
      assert (Fx : forall y, kind_at h y = Some ck2 -> fval h' y cf2 = fval h y cf2).
      { intros y Ky. apply Fr; [right; congruence | congruence]. }
      assert (Fl : forall p, kind_at h p = Some pk2 -> fval h' p lf2 = fval h p lf2).
      { intros p Kp. assert (Nf : forall w h0, fval (set_field h0 p lf2 w) p lf2 = fval h0 p lf2 -> True) by auto.
        unfold h', set_owned.
        assert (S : forall q w h0, kind_at h0 q = Some pk -> (forall o, kind_at h0 o = kind_at h o) -> fval (set_field h0 q lf w) p lf2 = fval h0 p lf2).
        { intros q w h0 Kq K0. apply fval_set_other. left. intros ->. rewrite K0 in Kq. congruence. }
        assert (S2 : forall w h0, fval (set_field h0 x cf w) p lf2 = fval h0 p lf2).
        { intros w h0. apply fval_set_other. right; congruence. }
        clear Eff Fr KK.
        repeat break_match; cbn [fst]; auto;
          repeat match goal with H : Ok _ = Ok _ |- _ => injection H as <- | H : Err _ = Ok _ |- _ => discriminate end;
          repeat match goal with H : is_kind _ _ (PRef _) = true |- _ => apply is_kind_ref in H end;
          rewrite ?kind_set_field in *;
          repeat first [rewrite S2 | rewrite S; [|now rewrite ?kind_set_field | intros; now rewrite ?kind_set_field]]; auto. }
      destruct (M _ _ _ _ L2) as [M1 M2]. split.
      - intros p Kp. rewrite KK in Kp. destruct (M1 p Kp) as [xs [F [N I]]]. exists xs. rewrite Fl by auto.
        split; [auto|]; split; [auto|]. intros y0. rewrite KK, I.
        split; intros [Kx Ex]; (split; [assumption|]); [rewrite Fx | rewrite <- Fx]; assumption.
      - intros y p Ky Fy. rewrite KK in *. rewrite Fx in Fy by auto. eauto. }
    (* the same relation *)
    destruct (Hf eq_refl) as [<- <-]. assert (pk2 = pk) by (symmetry; tauto). subst pk2.
    destruct (M _ _ _ _ L) as [M1 M2].
    assert (Fy : forall y, y <> x -> fval h' y cf = fval h y cf) by (intros; apply Fr; auto).
    destruct Eff as [[_ [Hv Eff]]|[_ [Hv Eff]]].
    - split.
      + intros p Kp. rewrite KK in Kp. destruct (M1 p Kp) as [xs [F [N I]]].
        assert (G := oe_list _ _ _ _ _ _ _ _ _ Eff p xs Kp F). cbv iota in G.
        assert (R := oe_ref _ _ _ _ _ _ _ _ _ Eff). cbv iota in R.
        assert (Q : (v = PRef p /\ match v with PRef q => if Nat.eqb q p then [x] else [] | _ => [] end = [x])
             \/ (v <> PRef p /\ match v with PRef q => if Nat.eqb q p then [x] else [] | _ => [] end = [])).
        { destruct v; try (right; split; [congruence | reflexivity]). destruct (Nat.eqb o p) eqn:E.
          - apply Nat.eqb_eq in E; subst; auto.
          - apply Nat.eqb_neq in E. right; split; congruence. }
        destruct Q as [[Qv Q]|[Qv Q]]; rewrite Q in G; eexists; split; try exact G.
        * split.
          { apply NoDup_snoc; [now apply NoDup_others|]. rewrite In_others. tauto. }
          intros y. rewrite in_app_iff, In_others. cbn [In]. rewrite KK.
          destruct (Nat.eq_dec y x) as [->|Ny].
          { rewrite R. split; [intros _; split; auto | auto]. }
          { rewrite Fy by auto. rewrite I. intuition congruence. }
        * rewrite app_nil_r. split; [now apply NoDup_others|].
          intros y. rewrite In_others. rewrite KK. destruct (Nat.eq_dec y x) as [->|Ny].
          { rewrite R. intuition congruence. }
          { rewrite Fy by auto. rewrite I. intuition congruence. }
      + intros y p Ky Fp. rewrite KK in *. destruct (Nat.eq_dec y x) as [->|Ny].
        * rewrite (oe_ref _ _ _ _ _ _ _ _ _ Eff) in Fp. cbv iota in Fp. subst v.
          destruct Hv as [|[[s [i ?]]|[q [E ?]]]]; congruence.
        * rewrite Fy in Fp by auto. eauto.
    - (* rejected: the field held no object, so nothing was detached *)
      assert (NA : forall p, fval h x cf <> PRef p).
      { intros p F. destruct (NR (ex_intro _ p F)) as [k [pk2 [Kk [Ak W]]]]. rewrite K in Kk; injection Kk as <-.
        assert (pk2 = pk) by (apply (listed_asked _ _ _ _ L); auto). subst pk2.
        destruct Hv as [V1 [V2 V3]]. destruct W as [->|[[s [i ->]]|[q [-> Kq]]]]; [congruence | eapply V2; eauto | eapply V3; eauto]. }
      split.
      + intros p Kp. rewrite KK in Kp. destruct (M1 p Kp) as [xs [F [N I]]].
        assert (G := oe_list _ _ _ _ _ _ _ _ _ Eff p xs Kp F). cbv iota in G. rewrite app_nil_r in G.
        assert (R := oe_ref _ _ _ _ _ _ _ _ _ Eff). cbv iota in R.
        rewrite others_notin in G by (intros Hx; apply I in Hx as [_ Hx]; eapply NA; eauto).
        exists xs. split; [auto|]; split; [auto|]. intros y0. rewrite KK, I.
        destruct (Nat.eq_dec y0 x) as [->|Ny]; [rewrite R | rewrite Fy by auto]; tauto.
      + intros y p Ky Fp. rewrite KK in *. destruct (Nat.eq_dec y x) as [->|Ny].
        * rewrite (oe_ref _ _ _ _ _ _ _ _ _ Eff) in Fp. cbv iota in Fp. exfalso; eapply NA; eauto.
        * rewrite Fy in Fp by auto. eauto.
  Qed.

  Lemma mirror_frame : forall h h', (forall o, kind_at h' o = kind_at h o) ->
    (forall ck cf pk lf, listed ck cf pk lf ->
      (forall p, kind_at h p = Some pk -> fval h' p lf = fval h p lf) /\ (forall x, kind_at h x = Some ck -> fval h' x cf = fval h x cf)) ->
    lists_mirror h -> lists_mirror h'.
  Proof.
    intros h h' KK Fr M ck cf pk lf L. destruct (Fr _ _ _ _ L) as [Fl Fx]. destruct (M _ _ _ _ L) as [M1 M2]. split.
    - intros p Kp. rewrite KK in Kp. destruct (M1 p Kp) as [xs [F [N I]]]. exists xs. rewrite Fl by auto.
      split; [auto|]; split; [auto|]. intros y0. rewrite KK, I.
        split; intros [Kx Ex]; (split; [assumption|]); [rewrite Fx | rewrite <- Fx]; assumption.
    - intros y p Ky Fy. rewrite KK in *. rewrite Fx in Fy by auto. eauto.
  Qed.

  Lemma assign_list_frame : forall h o f v k, kind_at h o = Some k -> (forall pk lf, role_of k f <> Some (Owned pk lf)) ->
    forall ck cf pk lf, listed ck cf pk lf ->
      (forall p, kind_at h p = Some pk -> fval (fst (assign h o f v)) p lf = fval h p lf)
      /\ (forall x, kind_at h x = Some ck -> fval (fst (assign h o f v)) x cf = fval h x cf).
  Proof.
    intros h o f v k K NO ck cf pk lf L. unfold GraphModel.assign. rewrite K.
    destruct (role_of k f) as [[pk0|pk0 lf0|pk0|]|] eqn:R; try (now split; intros; reflexivity).
    - apply role_produce in R as [-> C]. destruct (couple_proc _ _ C) as [Hm _].
      assert (lf <> "process" /\ lf <> "output_material" /\ cf <> "output_material" /\ ck <> KMatR /\ ck <> KMatS)
        by (destruct L as [L|[L|L]]; inv L; repeat split; congruence).
      destruct H as [? [? [? [? ?]]]]. split; intros.
      + apply process_frame; auto.
      + destruct (string_dec cf "process") as [->|]; [|apply process_frame; auto].
        apply process_frame3. intros ->. destruct Hm; congruence.
    - exfalso; eapply NO; reflexivity.
    - assert (f <> lf /\ (k <> ck \/ f <> cf)).
      { clear - R L. destruct L as [L|[L|L]]; inv L; destruct k; cbn in R; repeat break_if; inversion R; str_eq; subst;
          (split; [congruence | first [left; congruence | right; congruence]]). }
      destruct H as [N1 N2]. split; intros; apply plain_frame; [now right|]. destruct N2; [left | right]; congruence.
    - apply role_ing_spec in R as [-> ->].
      assert (lf <> "spec" /\ lf <> "name" /\ lf <> "labels" /\ cf <> "spec" /\ cf <> "name" /\ cf <> "labels")
        by (destruct L as [L|[L|L]]; inv L; repeat split; congruence).
      split; intros; apply ing_spec_frame; right; tauto.
  Qed.

  Lemma mirror_step : forall h op, no_twin eq h op -> no_reject h op -> lists_mirror h -> lists_mirror (fst (gstep h op)).
  Proof.
    intros h [k u extra|o f v] NT NR M.
    - cbn [GraphModel.gstep fst]. intros ck cf pk lf L. destruct (M _ _ _ _ L) as [M1 M2].
      assert (BL : dict_get lf (blank pk) = Some (PList []) /\ dict_get cf (blank ck) = Some PNone)
        by (destruct L as [L|[L|L]]; inv L; split; reflexivity).
      destruct BL as [BL BC].
      split.
      + intros p Kp. rewrite kind_new in Kp. rewrite fval_new. cbn [e_kind] in Kp. destruct (Nat.eqb p (length h)) eqn:N.
        * injection Kp as ->. exists []. rewrite (fget_blank _ _ _ _ _ BL). split; [reflexivity|]; split; [constructor|].
          intros x; split; [intros []|]. intros [Kx Fx]. exfalso. rewrite kind_new in Kx. rewrite fval_new in Fx. cbn [e_kind] in Kx. destruct (Nat.eqb x (length h)).
          { injection Kx as ->. rewrite (fget_blank _ _ _ _ _ BC) in Fx. discriminate. }
          { apply M2 in Fx; auto. apply kind_lt in Fx. apply Nat.eqb_eq in N. lia. }
        * destruct (M1 p Kp) as [xs [F [Nd I]]]. exists xs. split; [auto|]; split; [auto|]. intros x; split; [intros H; split|].
          { apply I in H as [Kx Fx]. rewrite kind_new. apply kind_lt in Kx as Lx.
            replace (Nat.eqb x (length h)) with false; auto. symmetry; apply Nat.eqb_neq; lia. }
          { apply I in H as [Kx Fx]. rewrite fval_new. apply kind_lt in Kx as Lx.
            replace (Nat.eqb x (length h)) with false; auto. symmetry; apply Nat.eqb_neq; lia. }
          { intros [Kx Fx]. rewrite kind_new in Kx. rewrite fval_new in Fx. cbn [e_kind] in Kx. destruct (Nat.eqb x (length h)).
            - injection Kx as ->. rewrite (fget_blank _ _ _ _ _ BC) in Fx. discriminate.
            - apply I; auto. }
      + intros x p Kx Fx. rewrite kind_new in *. rewrite fval_new in Fx. cbn [e_kind] in *. destruct (Nat.eqb x (length h)).
        * injection Kx as ->. rewrite (fget_blank _ _ _ _ _ BC) in Fx. discriminate.
        * assert (Kp := M2 _ _ Kx Fx). apply kind_lt in Kp as Lp.
          replace (Nat.eqb p (length h)) with false; auto. symmetry; apply Nat.eqb_neq; lia.
    - cbn [GraphModel.gstep]. destruct (kind_at h o) as [k|] eqn:K.
      2:{ unfold GraphModel.assign. now rewrite K. }
      destruct (role_of k f) as [r|] eqn:R.
      2:{ unfold GraphModel.assign. now rewrite K, R. }
      destruct r as [|pk lf| |].
      2:{ unfold GraphModel.assign. rewrite K, R. apply role_owned in R. eapply mirror_owned; eauto.
          - intros p F l y Fl Iy Ny. eapply NT; eauto.
          - intros At. eapply NR; eauto. apply (listed_asked _ _ _ _ R). }
      all: eapply mirror_frame; [intros; apply kind_assign | | exact M];
        intros; eapply assign_list_frame; eauto; intros; congruence.
  Qed.

  Lemma grun_mirror : forall ops h, throughout eq (fun h op => no_twin eq h op /\ no_reject h op) h ops ->
    lists_mirror h -> lists_mirror (grun h ops).
  Proof.
    induction ops as [|op r IH]; intros h T B; cbn in *; auto. destruct T as [[NS NR] T].
    apply IH; auto. now apply mirror_step.
  Qed.
End Graph.

(** ** C17 *)
Section Reject.
  Variable eq : heap -> pv -> oid -> bool.

  Lemma asked_role : forall k f pk, asked_kind k f pk ->
    role_of k f = Some (Plain pk) \/ (role_of k f = Some IngRunSpec /\ pk = KIngS)
    \/ role_of k f = Some (Produce pk) \/ exists lf, role_of k f = Some (Owned pk lf).
  Proof.
    intros k f pk A. unfold asked_kind in A; cbn in A.
    repeat (destruct A as [A|A]; [inv A; cbn; eauto 6|]). contradiction.
  Qed.

  Lemma asked_fun : forall k f pk pk', asked_kind k f pk -> asked_kind k f pk' -> pk' = pk.
  Proof.
    intros k f pk pk' A B. apply asked_role in A; apply asked_role in B.
    destruct A as [A|[[A ->]|[A|[lf A]]]]; destruct B as [B|[[B ->]|[B|[lf' B]]]]; congruence.
  Qed.

  Lemma two_sided_role : forall k f, two_sided k f ->
    exists pk, asked_kind k f pk /\ (role_of k f = Some (Produce pk) \/ exists lf, role_of k f = Some (Owned pk lf)).
  Proof.
    intros k f [[-> [-> |[-> |[-> | ->]]]]|[-> ->]];
      [exists KProcR | exists KProcS | exists KProcR | exists KProcS | exists KMatR];
      (split; [unfold asked_kind; cbn; tauto | cbn; eauto]).
  Qed.

  Definition acceptable (h : heap) (pk : ekind) (v : pv) : Prop :=
    v = PNone \/ (exists s i, v = PLink s i) \/ (exists p, v = PRef p /\ kind_at h p = Some pk).

  Lemma well_typed_acceptable : forall h o f v k pk, kind_at h o = Some k -> asked_kind k f pk ->
    (well_typed h o f v <-> acceptable h pk v).
  Proof.
    intros h o f v k pk K A. split.
    - intros [k' [pk' [K' [A' W]]]]. rewrite K in K'; injection K' as <-.
      now rewrite (asked_fun _ _ _ _ A A') in W.
    - intros W. exists k, pk. auto.
  Qed.

  Lemma set_plain_ok : forall pk f h o v, acceptable h pk v -> set_plain pk f h o v = (set_field h o f v, None).
  Proof.
    intros pk f h o v [->|[[s [i ->]]|[p [-> K]]]]; try reflexivity.
    unfold set_plain. now rewrite (proj2 (is_kind_ref _ _ _) K).
  Qed.

  Lemma set_plain_rej : forall pk f h o v, ~ acceptable h pk v -> set_plain pk f h o v = (h, Some TypeError).
  Proof.
    intros pk f h o v N. unfold set_plain, acceptable in *. destruct v; try reflexivity; try (exfalso; apply N; eauto; fail).
    destruct (is_kind h pk (PRef o0)) eqn:E; auto. apply is_kind_ref in E. exfalso; apply N; eauto.
  Qed.

  (** The heap in which [set_ing_spec] attempts the assignment reads like the original. *)
  Definition stored (h : heap) (o : oid) : heap := match fval h o "spec" with
            | PRef s => if is_kind h KIngS (PRef s)
                        then set_field (set_field h o "name" (fval h s "name")) o "labels" (fval h s "labels")
                        else h
            | _ => h
            end.

  Lemma stored_kind : forall h o x, kind_at (stored h o) x = kind_at h x.
  Proof. intros. unfold stored. repeat break_match; rewrite ?kind_set_field; auto. Qed.

  Lemma stored_read : forall h o x f, kind_at h o = Some KIngR -> read (stored h o) x f = read h x f.
  Proof.
    intros h o x f K. unfold stored.
    destruct (fval h o "spec") as [| | |s| | | | ] eqn:Fs; auto.
    destruct (is_kind h KIngS (PRef s)) eqn:Ks; auto. apply is_kind_ref in Ks.
    assert (So : s <> o) by (intros ->; congruence).
    set (h' := set_field _ _ _ _).
    assert (KK : forall y, kind_at h' y = kind_at h y) by (intros; unfold h'; now rewrite !kind_set_field).
    assert (FF : forall y g, (y <> o \/ (g <> "name" /\ g <> "labels")) -> fval h' y g = fval h y g).
    { intros y g H. unfold h'. rewrite !fval_set_other; auto; destruct H as [|[? ?]]; auto. }
    unfold read. rewrite KK.
    destruct (Nat.eq_dec x o) as [->|Nx].
    - rewrite K. destruct (String.eqb f "name" || String.eqb f "labels")%bool eqn:E.
      + rewrite FF by (right; split; discriminate). rewrite Fs.
        assert (is_kind h' KIngS (PRef s) = true) by (apply is_kind_ref; now rewrite KK). rewrite H.
        rewrite (proj2 (is_kind_ref _ _ _) Ks). apply FF; auto.
      + apply orb_false_iff in E as [E1 E2]; str_eq. apply FF; auto.
    - assert (G : forall g, fval h' x g = fval h x g) by (intros; apply FF; auto).
      destruct (kind_at h x) as [[]|]; rewrite ?G; auto.
      destruct (String.eqb f "name" || String.eqb f "labels")%bool; auto.
      destruct (fval h x "spec") as [| | |t| | | | ]; auto.
      assert (is_kind h' KIngS (PRef t) = is_kind h KIngS (PRef t)) by (cbn; now rewrite KK). rewrite H.
      destruct (is_kind h KIngS (PRef t)) eqn:Kt; auto. apply FF. left. intros ->. apply is_kind_ref in Kt. congruence.
  Qed.

  Lemma one_sided_rejected : forall h o f v k pk, kind_at h o = Some k -> asked_kind k f pk -> ~ two_sided k f ->
    ~ well_typed h o f v ->
    snd (assign eq h o f v) = Some TypeError /\
    forall o' f', read (fst (assign eq h o f v)) o' f' = read h o' f'.
  Proof.
    intros h o f v k pk K A T N. rewrite (well_typed_acceptable _ _ _ _ _ _ K A) in N.
    unfold assign. rewrite K. destruct (asked_role _ _ _ A) as [R|[[R ->]|[R|[lf R]]]]; rewrite R.
    - rewrite set_plain_rej by auto. auto.
    - apply role_ing_spec in R as [-> ->]. unfold set_ing_spec. fold (stored h o).
      rewrite set_plain_rej. 2:{ unfold acceptable in *. intros [->|[[s [i ->]]|[p [-> Kp]]]]; apply N; eauto. rewrite stored_kind in Kp. eauto. }
      split; auto. intros; cbn [fst]. now apply stored_read.
    - exfalso; apply T. apply role_produce in R as [-> C]. left. split; auto. destruct (couple_proc _ _ C) as [[->| ->] _]; auto.
    - exfalso; apply T. apply role_owned in R. now apply listed_asked in R.
  Qed.

  Lemma one_sided_accepted : forall h o f v k pk, kind_at h o = Some k -> asked_kind k f pk -> ~ two_sided k f ->
    well_typed h o f v ->
    snd (assign eq h o f v) = None /\ fval (fst (assign eq h o f v)) o f = v /\
    forall o' f', (o', f') <> (o, f) -> o' <> o \/ (f' <> "name" /\ f' <> "labels") -> fval (fst (assign eq h o f v)) o' f' = fval h o' f'.
  Proof.
    intros h o f v k pk K A T W. rewrite (well_typed_acceptable _ _ _ _ _ _ K A) in W.
    assert (X : forall o' f', (o', f') <> (o, f) -> o <> o' \/ f <> f').
    { intros o' f' D. destruct (Nat.eq_dec o o') as [->|]; auto. right. congruence. }
    unfold assign. rewrite K. destruct (asked_role _ _ _ A) as [R|[[R ->]|[R|[lf R]]]]; rewrite R.
    - rewrite set_plain_ok by auto. cbn [fst snd]. split; auto. split; [eapply fval_set_same, kind_hget; eauto|].
      intros. apply fval_set_other; auto.
    - apply role_ing_spec in R as [-> ->]. unfold set_ing_spec. fold (stored h o).
      rewrite set_plain_ok. 2:{ destruct W as [->|[[s [i ->]]|[p [-> Kp]]]]; unfold acceptable; eauto. right; right. exists p. now rewrite stored_kind. }
      cbn [fst snd]. split; auto. split.
      + apply fval_set_same. apply (kind_hget _ _ KIngR). now rewrite stored_kind.
      + intros o' f' D N. rewrite fval_set_other by auto. unfold stored. repeat break_match; auto.
        rewrite !fval_set_other; auto; destruct N as [|[? ?]]; auto.
    - exfalso; apply T. apply role_produce in R as [-> C]. left. split; auto. destruct (couple_proc _ _ C) as [[->| ->] _]; auto.
    - exfalso; apply T. apply role_owned in R. now apply listed_asked in R.
  Qed.

  Lemma two_sided_rejected : forall h o f v k, kind_at h o = Some k -> two_sided k f -> ~ attached h o f ->
    ~ well_typed h o f v -> assign eq h o f v = (h, Some TypeError).
  Proof.
    intros h o f v k K T At N. destruct (two_sided_role _ _ T) as [pk [A R]].
    rewrite (well_typed_acceptable _ _ _ _ _ _ K A) in N. unfold acceptable, attached in *.
    assert (S : forall B (b : B) (c : oid -> B), match fval h o f with PRef p => c p | _ => b end = b).
    { intros. destruct (fval h o f) eqn:E; auto. exfalso; apply At; eauto. }
    unfold assign. rewrite K. destruct R as [R|[lf R]]; rewrite R.
    - apply role_produce in R as [-> C]. unfold set_process. rewrite S. destruct v; auto; try (exfalso; apply N; eauto; fail).
      destruct (is_kind h pk (PRef o0)) eqn:E; auto. apply is_kind_ref in E. exfalso; apply N; eauto.
    - unfold set_owned. rewrite S. destruct v; auto; try (exfalso; apply N; eauto; fail).
      destruct (is_kind h pk (PRef o0)) eqn:E; auto. apply is_kind_ref in E. exfalso; apply N; eauto.
  Qed.

  Lemma process_accepted : forall h m v k, kind_at h m = Some k -> (k = KMatR \/ k = KMatS) -> well_typed h m "process" v ->
    snd (assign eq h m "process" v) = None /\ fval (fst (assign eq h m "process" v)) m "process" = v.
  Proof.
    intros h m v k K Hk W.
    assert (exists pk, couple k pk) as [pk C] by (destruct Hk as [->| ->]; unfold couple; eauto).
    assert (A : asked_kind k "process" pk) by (destruct C as [[-> ->]|[-> ->]]; unfold asked_kind; cbn; tauto).
    apply (well_typed_acceptable _ _ _ _ _ _ K A) in W.
    unfold assign. rewrite K, (couple_role _ _ C).
    destruct (set_process_cases h pk m v k K) as [[Hv E]|[[p [-> [Kpp E]]]|[E [V1 [V2 V3]]]]]; rewrite E; cbn [fst snd].
    - split; auto. apply fval_set_same. apply (kind_hget _ _ k). now rewrite detach_kind.
    - split; auto. apply fval_set_same. apply (kind_hget _ _ k). now rewrite kind_set_field, detach_kind.
    - exfalso. destruct W as [->|[[s [i ->]]|[p [-> Kp]]]]; [congruence | eapply V2; eauto | eapply V3; eauto].
  Qed.
End Reject.
