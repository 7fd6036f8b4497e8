(** Proofs about the traversals with the function they call. *)
From Coq Require Import String List Bool Arith Lia Permutation.
From Verif Require Import Base BaseFacts GraphModel GraphProofs EqSpec EqProofs TravModel TravSpec TravProofs TravFullModel TravFullSpec.
Import ListNotations.
Open Scope string_scope.
Open Scope list_scope.
Open Scope nat_scope.

Inductive fate := Complete | Stuck.

Lemma same_fields_refl : forall h, same_fields h h.
Proof. intros h o. reflexivity. Qed.
Lemma same_fields_trans : forall a b c, same_fields a b -> same_fields b c -> same_fields a c.
Proof. intros a b c H1 H2 o. now rewrite H1. Qed.

Section Proofs.
  Variable h : heap.
  Variable arrange : list (string * pv) -> list (string * pv).
  Variable keep : ekind -> string -> bool.
  Variable backwards : bool.
  Hypothesis arranged : forall l, Permutation (arrange l) l.
  Notation pushed := (pushed h arrange keep backwards).

  (** What the loop does to the graph [h], without the function. *)
  Inductive trip : list oid -> list pv -> list oid -> fate -> Prop :=
  | t_done : forall s, trip s [] [] Complete
  | t_again : forall s o rest l f, In o s -> trip s rest l f -> trip s (PRef o :: rest) l f
  | t_new : forall s o rest l f, ~ In o s -> trip (o :: s) (rev (pushed (PRef o)) ++ rest) l f -> trip s (PRef o :: rest) (o :: l) f
  | t_stop : forall s t rest, ~ can_hash (PTuple t) -> trip s (PTuple t :: rest) [] Stuck
  | t_plain : forall s v rest l f, (forall o, v <> PRef o) -> (forall t, v = PTuple t -> can_hash v) ->
      trip s (rev (pushed v) ++ rest) l f -> trip s (v :: rest) l f.

  Lemma trip_exists : forall n s stack, load stack + unseen h s <= n -> exists l f, trip s stack l f.
  Proof.
    induction n as [|n IH]; intros s stack L.
    - destruct stack as [|v rest]; [exists [], Complete; constructor|].
      exfalso. cbn in L. assert (0 < vsize v) by (destruct v; cbn; lia). lia.
    - destruct stack as [|v rest]; [exists [], Complete; constructor|].
      change (load (v :: rest)) with (vsize v + load rest) in L.
      assert (Plain : (forall o, v <> PRef o) -> (forall t, v = PTuple t -> can_hash v) -> exists l f, trip s (v :: rest) l f).
      { intros N C. destruct (IH s (rev (pushed v) ++ rest)) as (l & f & T).
        - rewrite load_app, load_rev. assert (X := load_pushed h arrange keep backwards arranged v N). lia.
        - exists l, f. now apply t_plain. }
      destruct v as [| | |o|l|l|l|t l]; try (apply Plain; congruence).
      + change (vsize (PRef o)) with 1 in L. destruct (in_dec Nat.eq_dec o s) as [I|N].
        * destruct (IH s rest) as (l & f & T); [lia|]. exists l, f. now apply t_again.
        * destruct (IH (o :: s) (rev (pushed (PRef o)) ++ rest)) as (l & f & T).
          { rewrite load_app, load_rev. assert (X := unseen_new h arrange keep backwards arranged s o N). lia. }
          exists (o :: l), f. now apply t_new.
      + destruct (hashable (PTuple l)) eqn:Hh.
        * apply Plain; [congruence|]. intros. now apply hashable_iff.
        * exists [], Stuck. apply t_stop. intros C. apply hashable_iff in C. congruence.
  Qed.

  (** ** Where the things met come from, and that nothing is left out *)
  Section Obj.
    Variable obj : pv.
    Notation found := (found_from h keep obj).

    Lemma found_within : forall s v w, found s v -> within w v -> found s w.
    Proof.
      intros s v w [W|(p & e & f & x & Ip & Hg & If & K & W)] W2.
      - left. eapply within_trans; eauto.
      - right. exists p, e, f, x. repeat (split; auto). eapply within_trans; eauto.
    Qed.

    Lemma found_more : forall s s' v, (forall o, In o s -> In o s') -> found s v -> found s' v.
    Proof. intros s s' v I [W|(p & e & f & x & Ip & R)]; [now left|]. right. exists p, e, f, x. split; auto. Qed.

    Definition sourced (s : list oid) (stack : list pv) : Prop :=
      forall v, In v stack -> found s v \/ exists t, v = PAtom (AStr t).

    Lemma sourced_plain : forall s v rest, (forall o, v <> PRef o) -> sourced s (v :: rest) -> sourced s (rev (pushed v) ++ rest).
    Proof.
      intros s v rest N C x I. apply in_app_iff in I as [I|I]; [|apply C; now right].
      apply in_rev in I. destruct (pushed_within h arrange keep backwards arranged v x N I) as [W|W]; auto.
      destruct (C v (or_introl eq_refl)) as [M|[t ->]].
      - left. eapply found_within; eauto.
      - right. inversion W; subst. eauto.
    Qed.

    Lemma sourced_new : forall s o rest, sourced s (PRef o :: rest) -> sourced (o :: s) (rev (pushed (PRef o)) ++ rest).
    Proof.
      intros s o rest C x I. apply in_app_iff in I as [I|I].
      - apply in_rev in I. destruct (hget h o) as [e|] eqn:Hg.
        + destruct (proj1 (pushed_ref h arrange keep backwards arranged o e x Hg) I) as [f [I2 K]].
          left. right. exists o, e, f, x. repeat (split; auto); [now left | constructor].
        + cbn in I. rewrite Hg in I. contradiction.
      - destruct (C x (or_intror I)) as [F|X]; auto. left. eapply found_more; [|exact F]. intros; now right.
    Qed.

    Lemma trip_found : forall s stack l f, trip s stack l f -> sourced s stack ->
      (forall a o b, l = a ++ o :: b -> ~ In o (rev a ++ s) /\ found (rev a ++ s) (PRef o))
      /\ (f = Stuck -> exists t, found (rev l ++ s) (PTuple t) /\ ~ can_hash (PTuple t)).
    Proof.
      induction 1 as [s|s o rest l f I T IH|s o rest l f N T IH|s t rest C|s v rest l f N C T IH]; intros V.
      - split; [intros [|] ? ? E; discriminate | discriminate].
      - apply IH. intros v I2. apply V. now right.
      - destruct (IH (sourced_new _ _ _ V)) as [P1 P2]. split.
        + intros [|x a] o' b E; cbn in E; injection E as <- E.
          * cbn. split; auto. destruct (V (PRef o) (or_introl eq_refl)) as [F|[t X]]; [exact F | discriminate].
          * cbn [rev]. rewrite <- app_assoc. apply (P1 a o' b E).
        + intros E. destruct (P2 E) as (t & F & C). exists t. cbn [rev]. rewrite <- app_assoc. auto.
      - split; [intros [|] ? ? E; discriminate|]. intros _. exists t. split; auto.
        destruct (V (PTuple t) (or_introl eq_refl)) as [F|[x X]]; [exact F | discriminate].
      - apply IH. now apply sourced_plain.
    Qed.

    (** An entity called, or a tuple that can be hashed. *)
    Definition settled (s : list oid) (w : pv) : Prop :=
      match w with PRef o => In o s | PTuple _ => can_hash w | _ => True end.
    Definition covered (s : list oid) (stack : list pv) : Prop :=
      forall w, found s w -> settled s w \/ exists x, In x stack /\ within w x.

    Lemma settled_more : forall s o w, settled s w -> settled (o :: s) w.
    Proof. intros s o [] H; cbn in *; auto. Qed.

    Lemma pushed_inner : forall v w, (forall o, v <> PRef o) -> within w v -> w = v \/ exists x, In x (pushed v) /\ within w x.
    Proof.
      intros v w N W. destruct W as [v|w v l I W|w v l I W|w k v l I W|w k v t l I W]; auto; right; cbn [TravModel.pushed].
      - exists v. split; auto. now apply pushed_seq.
      - exists v. split; auto. now apply pushed_seq.
      - exists v. split; auto. apply in_or_app; right. apply (in_map snd) in I. exact I.
      - exists v. split; auto. apply in_map_iff. exists (k, v). split; auto. now apply arrange_In.
    Qed.

    Lemma covered_plain : forall s v rest, (forall o, v <> PRef o) -> (forall t, v = PTuple t -> can_hash v) ->
      covered s (v :: rest) -> covered s (rev (pushed v) ++ rest).
    Proof.
      intros s v rest N C V w F. destruct (V w F) as [|[x [[<-|I] W]]]; auto.
      - destruct (pushed_inner v w N W) as [->|[x [I W2]]].
        + left. destruct v; cbn; auto; [exfalso; now apply (N o) | now apply (C l)].
        + right. exists x. split; auto. apply in_or_app; left. now apply -> in_rev.
      - right. exists x. split; auto. apply in_or_app; auto.
    Qed.

    Lemma within_ref : forall w o, within w (PRef o) -> w = PRef o.
    Proof. intros w o W. inversion W; auto. Qed.

    Lemma covered_again : forall s o rest, In o s -> covered s (PRef o :: rest) -> covered s rest.
    Proof.
      intros s o rest I V w F. destruct (V w F) as [|[x [[<-|Ix] W]]]; auto; [|eauto].
      apply within_ref in W. subst w. now left.
    Qed.

    Lemma covered_new : forall s o rest, covered s (PRef o :: rest) -> covered (o :: s) (rev (pushed (PRef o)) ++ rest).
    Proof.
      intros s o rest V w F.
      assert (Old : found s w -> settled (o :: s) w \/ exists x, In x (rev (pushed (PRef o)) ++ rest) /\ within w x).
      { intros F2. destruct (V w F2) as [X|[x [[<-|Ix] W]]].
        - left. now apply settled_more.
        - apply within_ref in W. subst w. left. now left.
        - right. exists x. split; auto. apply in_or_app; auto. }
      destruct F as [W|(p & e & f & x & [<-|Ip] & Hg & If & K & W)].
      - apply Old. now left.
      - right. exists x. split; auto. apply in_or_app; left. apply -> in_rev. eapply pushed_ref; eauto.
      - apply Old. right. exists p, e, f, x. auto.
    Qed.

    Lemma trip_covered : forall s stack l f, trip s stack l f -> f = Complete -> covered s stack ->
      forall w, found (rev l ++ s) w -> settled (rev l ++ s) w.
    Proof.
      induction 1 as [s|s o rest l f I T IH|s o rest l f N T IH|s t rest C|s v rest l f N C T IH]; intros E V w F; try discriminate.
      - destruct (V w F) as [|[x [[] _]]]; auto.
      - apply IH; auto. eapply covered_again; eauto.
      - cbn [rev] in *. rewrite <- app_assoc in *. apply IH; auto. now apply covered_new.
      - apply IH; auto. now apply covered_plain.
    Qed.

    (** From the beginning. *)
    Lemma trip_start : forall l f, trip [] [obj] l f ->
      in_order_found h keep obj l
      /\ (f = Stuck -> exists t, found l (PTuple t) /\ ~ can_hash (PTuple t))
      /\ (f = Complete -> (forall o, In o l <-> reach h keep obj o) /\ hashable_tuples h keep obj).
    Proof.
      intros l f T.
      assert (S0 : sourced [] [obj]) by (intros v [<-|[]]; left; left; constructor).
      assert (C0 : covered [] [obj]).
      { intros w [W|(p & e & f' & x & [] & _)]. right. exists obj. split; [now left | auto]. }
      destruct (trip_found _ _ _ _ T S0) as [P1 P2].
      assert (More : forall a v, found (rev a ++ []) v -> found a v).
      { intros a v. apply found_more. intros o. rewrite app_nil_r. apply in_rev. }
      assert (Ord : in_order_found h keep obj l).
      { intros a o b E. destruct (P1 a o b E) as [N F]. split; auto.
        intros I. apply N. rewrite app_nil_r. now apply -> in_rev. }
      split; [exact Ord|]. split; [intros E; destruct (P2 E) as (t & F & C); eauto|].
      intros E. assert (P3 := trip_covered _ _ _ _ T E C0).
      assert (Set' : forall w, found l w -> settled l w).
      { intros w F. assert (X : found (rev l ++ []) w).
        { eapply found_more; [|exact F]. intros o. rewrite app_nil_r. apply in_rev. }
        apply P3 in X. destruct w; cbn in *; auto. rewrite app_nil_r in X. now apply in_rev. }
      assert (R : forall o, reach h keep obj o -> In o l).
      { induction 1 as [o M|o e f' v o' R IHR Hg If K M].
        - apply (Set' (PRef o)). left. now apply mentions_within.
        - apply (Set' (PRef o')). right. exists o, e, f', v. repeat (split; auto). now apply mentions_within. }
      split.
      - intros o. split; auto. intros I.
        assert (Q : forall n a b, length a <= n -> l = a ++ b -> forall o, In o a -> reach h keep obj o).
        { induction n as [|n IHn]; intros a b Ln El o1 I1.
          - destruct a; [contradiction | cbn in Ln; lia].
          - destruct (in_split _ _ I1) as (a1 & a2 & Ea). subst a. rewrite <- app_assoc in El. cbn in El.
            destruct (Ord _ _ _ El) as [_ [W|(p & e & f' & x & Ip & Hg & If & K & W)]].
            + apply r_obj. now apply mentions_within.
            + apply mentions_within in W. eapply r_field; eauto. eapply (IHn a1); eauto. rewrite app_length in Ln. cbn in Ln. lia. }
        apply (Q (length l) l []); auto. now rewrite app_nil_r.
      - intros t M. apply (Set' (PTuple t)). inversion M as [w W|p e f' v w Rp Hg If K W]; subst; [now left|].
        right. exists p, e, f', v. repeat (split; auto).
    Qed.
  End Obj.

  (** ** Two parts of the stack *)
  Lemma trip_app : forall s stack l f, trip s stack l f -> forall a b, stack = a ++ b ->
    (f = Stuck /\ trip s a l Stuck)
    \/ exists la lb, l = la ++ lb /\ trip s a la Complete /\ trip (rev la ++ s) b lb f.
  Proof.
    induction 1 as [s|s o rest l f I T IH|s o rest l f N T IH|s t rest C|s v rest l f N C T IH]; intros a b E.
    - symmetry in E. apply app_eq_nil in E as [-> ->]. right. exists [], []. repeat constructor.
    - destruct a as [|y a]; cbn in E.
      + subst b. right. exists [], l. split; auto. split; [constructor|]. cbn. now apply t_again.
      + injection E as <- E. destruct (IH a b E) as [[-> T1]|(la & lb & -> & T1 & T2)].
        * left. split; auto. now apply t_again.
        * right. exists la, lb. split; auto. split; auto. now apply t_again.
    - destruct a as [|y a]; cbn in E.
      + subst b. right. exists [], (o :: l). split; auto. split; [constructor|]. cbn. now apply t_new.
      + injection E as <- E. destruct (IH (rev (pushed (PRef o)) ++ a) b) as [[-> T1]|(la & lb & -> & T1 & T2)].
        * now rewrite E, app_assoc.
        * left. split; auto. now apply t_new.
        * right. exists (o :: la), lb. split; auto. split; [now apply t_new|]. cbn [rev]. now rewrite <- app_assoc.
    - destruct a as [|y a]; cbn in E.
      + subst b. right. exists [], []. split; auto. split; [constructor|]. cbn. now apply t_stop.
      + injection E as <- E. left. split; auto. now apply t_stop.
    - destruct a as [|y a]; cbn in E.
      + subst b. right. exists [], l. split; auto. split; [constructor|]. cbn. now apply t_plain.
      + injection E as <- E. destruct (IH (rev (pushed v) ++ a) b) as [[-> T1]|(la & lb & -> & T1 & T2)].
        * now rewrite E, app_assoc.
        * left. split; auto. now apply t_plain.
        * right. exists la, lb. split; auto. split; auto. now apply t_plain.
  Qed.

  (** ** The loop *)
  Section Func.
    Variable A : Type.
    Variable func : oid -> heap * A -> (heap * A) * option exn.
    Variable first : bool.
    Hypothesis K : keeps_fields func.
    Notation loop := (loop A func arrange keep backwards first).

    Lemma pushed_same : forall h' v, same_fields h h' -> TravModel.pushed h' arrange keep backwards v = pushed v.
    Proof.
      intros h' v E. destruct v; cbn [TravModel.pushed]; auto. specialize (E o).
      destruct (hget h o) as [e|], (hget h' o) as [e'|]; cbn in E; try discriminate; auto.
      injection E as Ek Ef. now rewrite Ek, Ef.
    Qed.

    Lemma loop_trip : forall s stack l f, trip s stack l f -> forall n st,
      load stack + unseen h s <= n -> same_fields h (fst st) ->
      exists l' st' x, calls _ func l' st st' x
        /\ (exists r, l = l' ++ r)
        /\ loop n s stack st = match x with Some e => Threw e st' | None => match f with Complete => Ended st' | Stuck => Threw TypeError st' end end
        /\ (x = None -> l' = l).
    Proof.
      induction 1 as [s|s o rest l f I T IH|s o rest l f N T IH|s t rest C|s v rest l f N C T IH]; intros n st L E.
      - exists [], st, None. split; [constructor|]. split; [exists []; auto|]. split; [destruct n; auto | auto].
      - change (load (PRef o :: rest)) with (1 + load rest) in L. destruct n as [|n]; [lia|].
        destruct (IH n st) as (l' & st' & x & P1 & P2 & P3 & P4); [lia | auto|].
        exists l', st', x. split; auto. split; auto. split; auto. cbn [TravFullModel.loop].
        replace (mem o s) with true by (symmetry; now apply mem_In). exact P3.
      - change (load (PRef o :: rest)) with (1 + load rest) in L. destruct n as [|n]; [lia|]. cbn [TravFullModel.loop].
        replace (mem o s) with false by (symmetry; destruct (mem o s) eqn:M; auto; apply mem_In in M; contradiction).
        assert (Kf := K o st). destruct (func o st) as [st1 [e|]] eqn:Fo; cbn [fst] in Kf.
        + exists [o], st1, (Some e). split; [now apply c_raise|]. split; [now exists l|]. split; auto. discriminate.
        + replace (TravModel.pushed (fst (if first then st1 else st)) arrange keep backwards (PRef o)) with (pushed (PRef o)).
          2: { symmetry. apply pushed_same. destruct first; auto. eapply same_fields_trans; eauto. }
          destruct (IH n st1) as (l' & st' & x & P1 & [r P2] & P3 & P4).
          * rewrite load_app, load_rev. assert (X := unseen_new h arrange keep backwards arranged s o N). lia.
          * eapply same_fields_trans; eauto.
          * exists (o :: l'), st', x. split; [eapply c_next; eauto|]. split; [exists r; now rewrite P2|]. split; auto.
            intros X. now rewrite (P4 X).
      - change (load (PTuple t :: rest)) with (vsize (PTuple t) + load rest) in L. rewrite vsize_tuple in L. destruct n as [|n]; [lia|].
        exists [], st, None. split; [constructor|]. split; [exists []; auto|]. split; auto. cbn [TravFullModel.loop].
        destruct (hashable (PTuple t)) eqn:Hh; auto. exfalso. apply C. now apply hashable_iff.
      - change (load (v :: rest)) with (vsize v + load rest) in L. assert (X := load_pushed h arrange keep backwards arranged v N).
        destruct n as [|n]; [lia|].
        destruct (IH n st) as (l' & st' & x & P1 & P2 & P3 & P4).
        + rewrite load_app, load_rev. lia.
        + auto.
        + exists l', st', x. split; auto. split; auto. split; auto. rewrite <- P3.
          destruct v; cbn [TravFullModel.loop]; try (rewrite (pushed_same _ _ E); reflexivity).
          * exfalso. now apply (N o).
          * replace (hashable (PTuple l0)) with true by (symmetry; apply hashable_iff; now apply (C l0)).
            rewrite (pushed_same _ _ E). reflexivity.
    Qed.
  End Func.
End Proofs.

Lemma budget_enough : forall h obj, load [obj] + unseen h [] <= budget h obj.
Proof. intros. unfold budget. rewrite unseen_nil. unfold load, list_sum. cbn [map fold_right]. lia. Qed.
