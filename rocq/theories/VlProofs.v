(** Proofs for C03/C04. *)
From Coq Require Import List Bool ZArith Lia ZifyBool.
From Verif Require Import Base BaseFacts VlModel VlSpec.
Import ListNotations.
Open Scope list_scope.

Section VlProofs.
  Variables A ty S : Type.
  Variable instance_of : A -> ty -> bool.
  Notation accepts := (accepts A ty instance_of).
  Notation permitted := (permitted A ty instance_of).
  Notation vlist := (vlist A ty S).

  Lemma accepts_permitted : forall ts x, accepts ts x = true <-> permitted ts x.
  Proof. intros; unfold VlModel.accepts; apply existsb_exists. Qed.

  Lemma fire_ok : forall t x s y s', fire A S t x s = (Ok y, s') <-> stored_as A S t x s y s'.
  Proof.
    intros t x s y s'. split.
    - destruct t as [f|]; cbn.
      + destruct (f x s) as [[[z|]|e] s1] eqn:F; intros H; inv H; constructor; auto.
      + intros H; inv H; constructor.
    - intros H; inv H; cbn; auto; now rewrite H0.
  Qed.

  Lemma fire_all_ok : forall t xs s ys s', fire_all A S t xs s = (Ok ys, s') <-> all_stored_as A S t xs s ys s'.
  Proof.
    intros t xs; induction xs as [|x r IH]; intros s ys s'; cbn.
    - split; intros H; inv H; constructor.
    - split.
      + destruct (fire A S t x s) as [[y|e] s1] eqn:F; [|discriminate].
        destruct (fire_all A S t r s1) as [[zs|e] s2] eqn:G; [|discriminate].
        intros H; inv H. econstructor; [apply fire_ok; eauto|]. now apply IH.
      + intros H; inv H. match goal with X : stored_as _ _ _ _ _ _ _ |- _ => apply fire_ok in X; rewrite X end.
        match goal with X : all_stored_as _ _ _ _ _ _ _ |- _ => apply IH in X; now rewrite X end.
  Qed.

  Lemma fire_all_err : forall t xs s e s', fire_all A S t xs s = (Err e, s') -> trigger_raises A S t xs s e s'.
  Proof.
    intros t xs; induction xs as [|x r IH]; intros s e s'; cbn; [discriminate|].
    destruct (fire A S t x s) as [[y|e'] s1] eqn:F.
    - destruct (fire_all A S t r s1) as [[zs|e''] s2] eqn:G; [discriminate|].
      intros H; inv H. apply IH in G as (f & pre & a & post & ys & s3 & -> & -> & P & Q).
      exists f, (x :: pre), a, post, (y :: ys), s3. repeat split; auto.
      econstructor; eauto. now apply fire_ok.
    - intros H; inv H. destruct t as [f|]; cbn in F; [|discriminate].
      destruct (f x s) as [[[z|]|e1] s2] eqn:F2; inv F.
      exists f, [], x, r, [], s. repeat split; auto; constructor.
  Qed.

  Lemma stored_permitted : forall ts t x s y s', closed_trigger A ty S instance_of ts t ->
    permitted ts x -> stored_as A S t x s y s' -> permitted ts y.
  Proof. intros ts t x s y s' C P H; inv H; eauto. Qed.

  Lemma all_stored_permitted : forall ts t xs s ys s', closed_trigger A ty S instance_of ts t ->
    Forall (permitted ts) xs -> all_stored_as A S t xs s ys s' -> Forall (permitted ts) ys.
  Proof.
    intros ts t xs s ys s' C F H; induction H; [constructor|]. inv F. constructor; auto.
    eapply stored_permitted; eauto.
  Qed.

  Lemma forallb_permitted : forall ts l, forallb (accepts ts) l = true <-> Forall (permitted ts) l.
  Proof.
    intros ts l. rewrite forallb_forall, Forall_forall. split; intros H x I; apply accepts_permitted; auto.
  Qed.

  Lemma Forall_firstn : forall (P : A -> Prop) n l, Forall P l -> Forall P (firstn n l).
  Proof. intros P n; induction n; intros [|a l] H; cbn; auto. inv H; auto. Qed.
  Lemma Forall_skipn : forall (P : A -> Prop) n l, Forall P l -> Forall P (skipn n l).
  Proof. intros P n; induction n; intros [|a l] H; cbn; auto. inv H; auto. Qed.
  Lemma Forall_set_nth : forall (P : A -> Prop) n x l, P x -> Forall P l -> Forall P (set_nth A n x l).
  Proof.
    intros P n x l; revert n; induction l as [|a l IH]; intros n Px H; destruct n; cbn; auto; inv H; auto.
  Qed.

  Lemma later_permitted : forall ts i, Forall (permitted ts) (first_pass A i) -> Forall (permitted ts) (later_pass A i).
  Proof. intros ts [l|l] H; cbn in *; auto. Qed.

  Definition ok_list (v : vlist) : Prop := Forall (permitted (ctypes v)) (items v).

  Lemma step_config : forall v o s v' r s', step A ty S instance_of v o s = (v', r, s') ->
    ctypes v' = ctypes v /\ trig v' = trig v.
  Proof.
    intros v o s v' r s'. destruct o as [i x|x|[i|]|i x|i| | |l]; cbn [step].
    - unfold setitem. destruct (accepts _ x); [|intros H; inv H; auto].
      destruct (fire _ _ _ _ _) as [[y|e] s1]; [|intros H; inv H; auto].
      destruct (norm_index i _); intros H; inv H; auto.
    - unfold append. destruct (accepts _ x); [|intros H; inv H; auto].
      destruct (fire _ _ _ _ _) as [[y|e] s1]; intros H; inv H; auto.
    - unfold extend. destruct (forallb _ _); [|intros H; inv H; auto].
      destruct (fire_all _ _ _ _ _) as [[y|e] s1]; intros H; inv H; auto.
    - cbn. intros H; inv H; auto.
    - unfold insert. destruct (accepts _ x); [|intros H; inv H; auto].
      destruct (fire _ _ _ _ _) as [[y|e] s1]; intros H; inv H; auto.
    - unfold delitem. destruct (norm_index i _); intros H; inv H; auto.
    - intros H; inv H; auto.
    - intros H; inv H; auto.
    - intros H; inv H; auto.
  Qed.

  Lemma step_ok_list : forall v o s v' r s',
    closed_trigger A ty S instance_of (ctypes v) (trig v) -> guarded A ty instance_of (ctypes v) o ->
    ok_list v -> step A ty S instance_of v o s = (v', r, s') -> ok_list v'.
  Proof.
    unfold ok_list. intros v o s v' r s' C G O. destruct o as [i x|x|[i|]|i x|i| | |l]; cbn [step].
    - unfold setitem. destruct (accepts _ x) eqn:AC; [|intros H; inv H; auto].
      destruct (fire _ _ _ _ _) as [[y|e] s1] eqn:F; [|intros H; inv H; auto].
      destruct (norm_index i _); intros H; inv H; auto. cbn.
      apply Forall_set_nth; auto. eapply (stored_permitted _ _ x); [exact C | now apply accepts_permitted | apply fire_ok; eauto].
    - unfold append. destruct (accepts _ x) eqn:AC; [|intros H; inv H; auto].
      destruct (fire _ _ _ _ _) as [[y|e] s1] eqn:F; intros H; inv H; auto. cbn.
      apply Forall_app; split; auto. constructor; auto.
      eapply (stored_permitted _ _ x); [exact C | now apply accepts_permitted | apply fire_ok; eauto].
    - unfold extend. destruct (forallb _ _) eqn:AC; [|intros H; inv H; auto].
      destruct (fire_all _ _ _ _ _) as [[y|e] s1] eqn:F; intros H; inv H; auto. cbn.
      apply Forall_app; split; auto. apply fire_all_ok in F. refine (all_stored_permitted _ _ _ _ _ _ C _ F).
      apply later_permitted. now apply forallb_permitted.
    - cbn. intros H; inv H; auto.
    - unfold insert. destruct (accepts _ x) eqn:AC; [|intros H; inv H; auto].
      destruct (fire _ _ _ _ _) as [[y|e] s1] eqn:F; intros H; inv H; auto. cbn.
      apply Forall_app; split; [now apply Forall_firstn|]. constructor; [|now apply Forall_skipn].
      eapply (stored_permitted _ _ x); [exact C | now apply accepts_permitted | apply fire_ok; eauto].
    - unfold delitem. destruct (norm_index i _); intros H; inv H; auto. cbn. unfold del_nth.
      apply Forall_app; split; [now apply Forall_firstn|now apply Forall_skipn].
    - intros H; inv H; cbn; constructor.
    - intros H; inv H; cbn. now apply Forall_rev.
    - intros H; inv H; cbn. apply Forall_app; auto.
  Qed.

  Lemma run_ok_list : forall ops v s,
    closed_trigger A ty S instance_of (ctypes v) (trig v) -> Forall (guarded A ty instance_of (ctypes v)) ops ->
    ok_list v -> ok_list (fst (run A ty S instance_of v ops s)) /\ ctypes (fst (run A ty S instance_of v ops s)) = ctypes v.
  Proof.
    intros ops; induction ops as [|o r IH]; intros v s C G O; cbn; auto.
    inv G. destruct (step A ty S instance_of v o s) as [[v1 e1] s1] eqn:E.
    pose proof (step_config _ _ _ _ _ _ E) as [E1 E2].
    pose proof (step_ok_list _ _ _ _ _ _ C H1 O E) as O1.
    destruct (IH v1 s1) as [X Y]; auto; rewrite ?E1, ?E2; auto. split; auto. congruence.
  Qed.

  Lemma step_err_unchanged : forall v o s v' e s', step A ty S instance_of v o s = (v', Some e, s') -> v' = v.
  Proof.
    intros v o s v' r s'. destruct o as [i x|x|[i|]|i x|i| | |l]; cbn [step].
    - unfold setitem. destruct (accepts _ x); [|intros H; inv H; auto].
      destruct (fire _ _ _ _ _) as [[y|e] s1]; [|intros H; inv H; auto].
      destruct (norm_index i _); intros H; inv H; auto.
    - unfold append. destruct (accepts _ x); [|intros H; inv H; auto].
      destruct (fire _ _ _ _ _) as [[y|e] s1]; intros H; inv H; auto.
    - unfold extend. destruct (forallb _ _); [|intros H; inv H; auto].
      destruct (fire_all _ _ _ _ _) as [[y|e] s1]; intros H; inv H; auto.
    - cbn. intros H; inv H; auto.
    - unfold insert. destruct (accepts _ x); [|intros H; inv H; auto].
      destruct (fire _ _ _ _ _) as [[y|e] s1]; intros H; inv H; auto.
    - unfold delitem. destruct (norm_index i _); intros H; inv H; auto.
    - intros H; inv H; auto.
    - intros H; inv H; auto.
    - intros H; inv H; auto.
  Qed.

  Lemma init_ok : forall l ts t s v s', init A ty S instance_of (Reusable l) ts t s = (Ok v, s') <->
    Forall (permitted ts) l /\ exists ys, all_stored_as A S t l s ys s' /\ v = mkVl ts t ys.
  Proof.
    intros l ts t s v s'. unfold init; cbn. destruct (forallb (accepts ts) l) eqn:F.
    - apply forallb_permitted in F. destruct (fire_all A S t l s) as [[ys|e] s1] eqn:G.
      + split.
        * intros H; inv H. split; auto. exists ys. split; auto. now apply fire_all_ok.
        * intros [_ (zs & H & ->)]. apply fire_all_ok in H. congruence.
      + split; [discriminate|]. intros [_ (zs & H & ->)]. apply fire_all_ok in H. congruence.
    - split; [discriminate|]. intros [H _]. apply forallb_permitted in H. congruence.
  Qed.

  Lemma init_err : forall l ts t s e s', init A ty S instance_of (Reusable l) ts t s = (Err e, s') ->
    (e = TypeError /\ s' = s /\ ~ Forall (permitted ts) l) \/ trigger_raises A S t l s e s'.
  Proof.
    intros l ts t s e s'. unfold init; cbn. destruct (forallb (accepts ts) l) eqn:F.
    - destruct (fire_all A S t l s) as [[ys|e1] s1] eqn:G; [discriminate|]. intros H; inv H. right.
      now apply fire_all_err.
    - intros H; inv H. left. repeat split; auto. intros C. apply forallb_permitted in C. congruence.
  Qed.

  Lemma extend_ok : forall v l s v' s', step A ty S instance_of v (OExtend (Some (Reusable l))) s = (v', None, s') <->
    Forall (permitted (ctypes v)) l /\ exists ys, all_stored_as A S (trig v) l s ys s' /\
      v' = mkVl (ctypes v) (trig v) (items v ++ ys).
  Proof.
    intros v l s v' s'. cbn. destruct (forallb (accepts (ctypes v)) l) eqn:F.
    - apply forallb_permitted in F. destruct (fire_all A S (trig v) l s) as [[ys|e] s1] eqn:G.
      + split.
        * intros H; inv H. split; auto. exists ys. split; auto. now apply fire_all_ok.
        * intros [_ (zs & H & ->)]. apply fire_all_ok in H. rewrite G in H. inv H. reflexivity.
      + split; [discriminate|]. intros [_ (zs & H & ->)]. apply fire_all_ok in H. congruence.
    - split; [discriminate|]. intros [H _]. apply forallb_permitted in H. congruence.
  Qed.

  Lemma append_ok : forall v x s v' s', step A ty S instance_of v (OAppend x) s = (v', None, s') <->
    permitted (ctypes v) x /\ exists y, stored_as A S (trig v) x s y s' /\
      v' = mkVl (ctypes v) (trig v) (items v ++ [y]).
  Proof.
    intros v x s v' s'. cbn. unfold append. destruct (accepts (ctypes v) x) eqn:F.
    - apply accepts_permitted in F. destruct (fire A S (trig v) x s) as [[y|e] s1] eqn:G.
      + split.
        * intros H; inv H. split; auto. exists y. split; auto. now apply fire_ok.
        * intros [_ (z & H & ->)]. apply fire_ok in H. rewrite G in H. inv H. reflexivity.
      + split; [discriminate|]. intros [_ (z & H & ->)]. apply fire_ok in H. congruence.
    - split; [discriminate|]. intros [H _]. apply accepts_permitted in H. congruence.
  Qed.

  Lemma app_inv_len : forall (a b c d : list A), a ++ b = c ++ d -> length a = length c -> a = c /\ b = d.
  Proof.
    intros a; induction a as [|x a IH]; intros b [|y c] d E L; cbn in *; try discriminate; auto.
    injection E as -> E. injection L as L. destruct (IH _ _ _ E L) as [-> ->]; auto.
  Qed.

  Lemma insert_ok : forall v i x s v' s', step A ty S instance_of v (OInsert i x) s = (v', None, s') <->
    permitted (ctypes v) x /\ exists y pre post, stored_as A S (trig v) x s y s' /\
      items v = pre ++ post /\
      Z.of_nat (length pre) = (let n := Z.of_nat (length (items v)) in
                               if i <? 0 then Z.max 0 (n + i) else Z.min i n)%Z /\
      v' = mkVl (ctypes v) (trig v) (pre ++ y :: post).
  Proof.
    intros v i x s v' s'. cbn. unfold insert. destruct (accepts (ctypes v) x) eqn:F.
    - apply accepts_permitted in F. destruct (fire A S (trig v) x s) as [[y|e] s1] eqn:G.
      + assert (L : Z.of_nat (length (firstn (insert_pos i (length (items v))) (items v))) =
          (let n := Z.of_nat (length (items v)) in if i <? 0 then Z.max 0 (n + i) else Z.min i n)%Z).
        { rewrite firstn_length. unfold insert_pos. cbn zeta. destruct (i <? 0)%Z eqn:E; lia. }
        split.
        * intros H; inv H. split; auto.
          exists y, (firstn (insert_pos i (length (items v))) (items v)), (skipn (insert_pos i (length (items v))) (items v)).
          repeat split; auto; [now apply fire_ok|now rewrite firstn_skipn].
        * intros [_ (z & pre & post & H & E & L2 & ->)]. apply fire_ok in H. rewrite G in H. inv H.
          unfold with_items. rewrite L in L2 || (cbn zeta in L, L2; rewrite <- L in L2). apply Nat2Z.inj in L2.
          assert (X : pre ++ post = firstn (insert_pos i (length (items v))) (items v) ++
                      skipn (insert_pos i (length (items v))) (items v)) by (rewrite firstn_skipn; auto).
          apply app_inv_len in X as [-> ->]; auto.
      + split; [discriminate|]. intros [_ (z & pre & post & H & _)]. apply fire_ok in H. congruence.
    - split; [discriminate|]. intros [H _]. apply accepts_permitted in H. congruence.
  Qed.

  Lemma set_nth_app : forall pre old post (y : A), set_nth A (length pre) y (pre ++ old :: post) = pre ++ y :: post.
  Proof. intros pre; induction pre; cbn; intros; f_equal; auto. Qed.

  Lemma split_nth : forall n (l : list A), n < length l -> exists pre old post, l = pre ++ old :: post /\ length pre = n.
  Proof.
    intros n; induction n; intros [|a l] H; cbn in H; try lia.
    - exists [], a, l; auto.
    - destruct (IHn l) as (pre & old & post & -> & <-); [lia|]. exists (a :: pre), old, post; auto.
  Qed.

  Lemma setitem_ok : forall v i x s v' s',
    step A ty S instance_of v (OSetitem i x) s = (v', None, s') <->
    permitted (ctypes v) x /\ exists y pre old post, stored_as A S (trig v) x s y s' /\
      items v = pre ++ old :: post /\
      (i = Z.of_nat (length pre) \/ i = - Z.of_nat (length (old :: post)))%Z /\
      v' = mkVl (ctypes v) (trig v) (pre ++ y :: post).
  Proof.
    intros v i x s v' s'. cbn [step]. unfold setitem. destruct (accepts (ctypes v) x) eqn:F.
    - apply accepts_permitted in F. destruct (fire A S (trig v) x s) as [[y|e] s1] eqn:G.
      + unfold norm_index.
        set (j := (if i <? 0 then i + Z.of_nat (length (items v)) else i)%Z).
        split.
        * destruct ((0 <=? j) && (j <? Z.of_nat (length (items v))))%Z%bool eqn:B; [|discriminate].
          apply andb_true_iff in B as [B1 B2]. intros H; inv H. split; auto.
          destruct (split_nth (Z.to_nat j) (items v)) as (pre & old & post & E & L); [lia|].
          exists y, pre, old, post. repeat split; auto; [now apply fire_ok| |].
          -- pose proof (f_equal (@length A) E) as LE; rewrite app_length in LE; cbn [length] in LE |- *. subst j.
             destruct (i <? 0)%Z eqn:EI; lia.
          -- unfold with_items. rewrite <- L, E, set_nth_app. reflexivity.
        * intros [_ (z & pre & old & post & H & E & I & ->)]. apply fire_ok in H. rewrite G in H. inv H.
          assert (J : j = Z.of_nat (length pre)).
          { pose proof (f_equal (@length A) E) as LE; rewrite app_length in LE; cbn [length] in LE, I. subst j.
            destruct (i <? 0)%Z eqn:EI; lia. }
          assert (L : (j < Z.of_nat (length (items v)))%Z).
          { rewrite E, app_length; cbn [length]; lia. }
          replace ((0 <=? j) && (j <? Z.of_nat (length (items v))))%Z%bool with true by lia.
          rewrite J, Nat2Z.id. unfold with_items. rewrite E, set_nth_app. reflexivity.
      + split; [discriminate|]. intros [_ (z & pre & old & post & H & _)]. apply fire_ok in H. congruence.
    - split; [discriminate|]. intros [H _]. apply accepts_permitted in H. congruence.
  Qed.
End VlProofs.
