(** Proofs about the graph traversals. *)
From Coq Require Import String List Bool Arith Lia Permutation.
From Verif Require Import Base BaseFacts GraphModel GraphProofs EqSpec EqProofs EqCopies TravModel TravSpec.
Import ListNotations.
Open Scope string_scope.
Open Scope list_scope.
Open Scope nat_scope.

Lemma mem_In : forall o l, mem o l = true <-> In o l.
Proof.
  intros. unfold mem. rewrite existsb_exists. split.
  - intros [x [I E]]. apply Nat.eqb_eq in E. now subst.
  - intros I. exists o. now rewrite Nat.eqb_refl.
Qed.

Lemma hashable_iff : forall v, hashable v = true <-> can_hash v.
Proof.
  apply (pv_ind2 (fun v => hashable v = true <-> can_hash v)); try (intros; cbn; split; [constructor | auto]; fail).
  - intros l F. cbn. split; [discriminate | inversion 1].
  - intros l F. cbn. split.
    + intros H. constructor. induction F as [|x l Hx F IH]; constructor.
      * apply Hx. now apply andb_true_iff in H.
      * apply IH. now apply andb_true_iff in H.
    + inversion 1 as [| | | | |l' G]; subst. clear H. induction F as [|x l Hx F IH]; auto. inv G.
      apply andb_true_iff. split; [now apply Hx | now apply IH].
  - intros l F. cbn. split; [discriminate | inversion 1].
Qed.

(** ** Values and their parts *)

Lemma mentions_within : forall v o, mentions v o <-> within (PRef o) v.
Proof.
  intros v o. split; [intros H; induction H; econstructor; eauto|].
  intros H. remember (PRef o) as w. induction H; subst; [constructor | | | | ]; econstructor; eauto.
Qed.

Lemma within_trans : forall a b c, within a b -> within b c -> within a c.
Proof. intros a b c H1 H2. induction H2; auto; econstructor; eauto. Qed.

Section Proofs.
  Variable h : heap.
  Variable arrange : list (string * pv) -> list (string * pv).
  Variable keep : ekind -> string -> bool.
  Variable backwards : bool.
  Hypothesis arranged : forall l, Permutation (arrange l) l.
  Notation pushed := (pushed h arrange keep backwards).
  Notation walk := (walk h arrange keep backwards).

  Lemma pushed_seq : forall (l : list pv) x, In x (if backwards then rev l else l) <-> In x l.
  Proof. intros. destruct backwards; [symmetry; apply in_rev | tauto]. Qed.

  Lemma arrange_In : forall l x, In x (arrange l) <-> In x l.
  Proof. intros. split; apply Permutation_in; [|apply Permutation_sym]; auto. Qed.

  (** Where a pushed thing comes from. *)
  Lemma pushed_within : forall v x, (forall o, v <> PRef o) -> In x (pushed v) -> within x v \/ exists s, x = PAtom (AStr s).
  Proof.
    intros v x N I. destruct v as [| | |o|l|l|l|t l]; cbn [TravModel.pushed] in I; try contradiction.
    - exfalso. now apply (N o).
    - apply (proj1 (pushed_seq _ _)) in I. left. eapply w_list; [exact I | constructor].
    - apply (proj1 (pushed_seq _ _)) in I. left. eapply w_tuple; [exact I | constructor].
    - apply in_app_iff in I as [I|I]; apply in_map_iff in I as [[k w] [<- I]]; [right; eauto|left]. eapply w_dict; [exact I | constructor].
    - apply in_map_iff in I as [[k w] [<- I]]. apply (proj1 (arrange_In _ _)) in I. left. eapply w_obj; [exact I | constructor].
  Qed.

  Lemma pushed_mentions : forall v o, (forall p, v <> PRef p) -> mentions v o -> exists x, In x (pushed v) /\ mentions x o.
  Proof.
    intros v o N M. destruct M; cbn [TravModel.pushed].
    - exfalso. now apply (N o).
    - exists v. split; auto. now apply pushed_seq.
    - exists v. split; auto. now apply pushed_seq.
    - exists v. split; auto. apply in_or_app; right. apply (in_map snd) in H. exact H.
    - exists v. split; auto. apply in_map_iff. exists (k, v). split; auto. now apply arrange_In.
  Qed.

  Lemma pushed_ref : forall o e x, hget h o = Some e -> (In x (pushed (PRef o)) <-> exists f, In (f, x) (e_fields e) /\ keep (e_kind e) f = true).
  Proof.
    intros o e x H. cbn [TravModel.pushed]. rewrite H, in_map_iff. split.
    - intros [[f w] [<- I]]. apply filter_In in I as [I K]. apply (proj1 (arrange_In _ _)) in I. exists f. auto.
    - intros [f [I K]]. exists (f, x). split; auto. apply filter_In. split; [now apply arrange_In | exact K].
  Qed.

  (** ** The loop visits what is reachable *)
  Section Obj.
    Variable obj : pv.
    Notation reach := (reach h keep obj).
    Notation met := (met h keep obj).

    Record winv (seen : list oid) (stack : list pv) : Prop := {
      w_nodup : NoDup seen;
      w_seen : forall o, In o seen -> reach o;
      w_stack : forall v, In v stack -> met v \/ exists s, v = PAtom (AStr s);
      w_obj0 : forall o, mentions obj o -> In o seen \/ exists v, In v stack /\ mentions v o;
      w_closed : forall o e f v o', In o seen -> hget h o = Some e -> In (f, v) (e_fields e) -> keep (e_kind e) f = true ->
        mentions v o' -> In o' seen \/ exists v, In v stack /\ mentions v o'
    }.

    Lemma met_reach : forall o, met (PRef o) -> reach o.
    Proof.
      intros o M. inversion M; subst.
      - apply r_obj. now apply mentions_within.
      - eapply r_field; eauto. now apply mentions_within.
    Qed.

    Lemma met_within : forall v w, met v -> within w v -> met w.
    Proof.
      intros v w M W. destruct M.
      - apply m_obj. eapply within_trans; eauto.
      - eapply m_field; eauto. eapply within_trans; eauto.
    Qed.

    Lemma winv_init : winv [] [obj].
    Proof.
      constructor; try (intros; contradiction).
      - constructor.
      - intros v [<-|[]]. left. apply m_obj. constructor.
      - intros o M. right. exists obj. split; [now left | auto].
    Qed.

    (** Popping a thing that is not an entity. *)
    Lemma winv_plain : forall seen v rest, (forall o, v <> PRef o) -> winv seen (v :: rest) -> winv seen (rev (pushed v) ++ rest).
    Proof.
      intros seen v rest N [A B C D E].
      assert (Mv : forall o, (exists x, In x (v :: rest) /\ mentions x o) -> exists x, In x (rev (pushed v) ++ rest) /\ mentions x o).
      { intros o [x [[<-|I] M]].
        - destruct (pushed_mentions v o N M) as [y [Iy My]]. exists y. split; auto. apply in_or_app; left. now apply -> in_rev.
        - exists x. split; auto. apply in_or_app; auto. }
      constructor; auto.
      - intros x I. apply in_app_iff in I as [I|I]; [|apply C; now right].
        apply in_rev in I. destruct (pushed_within v x N I) as [W|W]; auto.
        destruct (C v (or_introl eq_refl)) as [M|[s ->]].
        + left. eapply met_within; eauto.
        + right. inversion W; subst. eauto.
      - intros o M. destruct (D o M) as [|X]; auto.
      - intros o e f w o' Is Hg If K M. destruct (E o e f w o' Is Hg If K M) as [|X]; auto.
    Qed.

    (** Popping an entity seen before. *)
    Lemma winv_again : forall seen o rest, In o seen -> winv seen (PRef o :: rest) -> winv seen rest.
    Proof.
      intros seen o rest I [A B C D E]. constructor; auto.
      - intros v Iv. apply C. now right.
      - intros o' M. destruct (D o' M) as [|[v [[<-|Iv] Mv]]]; auto; [|right; eauto]. inv Mv. auto.
      - intros o1 e f w o' Is Hg If K M. destruct (E o1 e f w o' Is Hg If K M) as [|[v [[<-|Iv] Mv]]]; auto; [|right; eauto]. inv Mv. auto.
    Qed.

    (** Popping a new entity. *)
    Lemma winv_new : forall seen o rest, ~ In o seen -> winv seen (PRef o :: rest) -> winv (o :: seen) (rev (pushed (PRef o)) ++ rest).
    Proof.
      intros seen o rest N [A B C D E].
      assert (Ro : reach o).
      { destruct (C (PRef o) (or_introl eq_refl)) as [M|[s X]]; [now apply met_reach | discriminate]. }
      constructor.
      - now constructor.
      - intros o' [<-|I]; auto.
      - intros v I. apply in_app_iff in I as [I|I]; [|apply C; now right]. apply in_rev in I. left.
        destruct (hget h o) as [e|] eqn:Hg.
        + destruct (proj1 (pushed_ref o e v Hg) I) as [f [I2 K]]. eapply m_field; eauto. constructor.
        + cbn in I. rewrite Hg in I. contradiction.
      - intros o' M. destruct (D o' M) as [|[v [[<-|Iv] Mv]]]; [left; now right | inv Mv; left; now left|].
        right. exists v. split; auto. apply in_or_app; auto.
      - intros o1 e f w o' Is Hg If K M. destruct Is as [<-|Is].
        + right. exists w. split; auto. apply in_or_app; left. apply -> in_rev. apply (pushed_ref o e w Hg). eauto.
        + destruct (E o1 e f w o' Is Hg If K M) as [|[v [[<-|Iv] Mv]]]; [left; now right | inv Mv; left; now left|].
          right. exists v. split; auto. apply in_or_app; auto.
    Qed.

    (** ** Enough fuel *)
    Definition unseen (seen : list oid) : nat :=
      list_sum (map (fun o => if mem o seen then 0 else match hget h o with Some e => fsize e | None => 0 end) (seq 0 (length h))).
    Definition load (stack : list pv) : nat := list_sum (map vsize stack).

    Lemma load_app : forall a b, load (a ++ b) = load a + load b.
    Proof. intros. unfold load. now rewrite map_app, list_sum_app. Qed.
    Lemma load_rev : forall a, load (rev a) = load a.
    Proof. induction a as [|x a IH]; auto. cbn [rev]. rewrite load_app, IH. unfold load, list_sum; cbn [map fold_right]; lia. Qed.
    Lemma list_sum_perm : forall a b, Permutation a b -> list_sum a = list_sum b.
    Proof. induction 1; unfold list_sum in *; cbn [fold_right]; lia. Qed.
    Lemma load_arrange : forall l, load (map snd (arrange l)) = load (map snd l).
    Proof. intros. unfold load. apply list_sum_perm. now apply Permutation_map, Permutation_map. Qed.

    Lemma vsize_list : forall l, vsize (PList l) = S (load l).
    Proof. intros. cbn. f_equal. induction l; cbn; auto. Qed.
    Lemma vsize_tuple : forall l, vsize (PTuple l) = S (load l).
    Proof. intros. cbn. f_equal. induction l; cbn; auto. Qed.
    Lemma vsize_dict : forall l, vsize (PDict l) = S (length l + load (map snd l)).
    Proof. intros. cbn. f_equal. induction l as [|[k x] l IH]; cbn; auto. rewrite IH. unfold load, list_sum; cbn [map fold_right snd]. lia. Qed.
    Lemma vsize_obj : forall t l, vsize (PObj t l) = S (load (map snd l)).
    Proof. intros. cbn. f_equal. induction l as [|[k x] l IH]; cbn; auto. Qed.

    Lemma load_pushed : forall v, (forall o, v <> PRef o) -> load (pushed v) < vsize v.
    Proof.
      intros v N. assert (Sq : forall l, load (if backwards then rev l else l) = load l) by (intros; destruct backwards; auto using load_rev).
      destruct v as [| | |o|l|l|l|t l]; cbn [TravModel.pushed]; try (cbn; lia).
      - exfalso. now apply (N o).
      - rewrite Sq, vsize_list. lia.
      - rewrite Sq, vsize_tuple. lia.
      - rewrite load_app, vsize_dict. replace (load (map (fun kv => PAtom (AStr (fst kv))) l)) with (length l); [lia|].
        unfold load. clear. induction l; cbn in *; auto.
      - rewrite load_arrange, vsize_obj. lia.
    Qed.

    Lemma load_fields : forall o e, hget h o = Some e -> load (pushed (PRef o)) <= fsize e.
    Proof.
      intros o e H. cbn [TravModel.pushed]. rewrite H. unfold fsize.
      transitivity (load (map snd (arrange (e_fields e)))).
      - unfold load, list_sum. generalize (arrange (e_fields e)) as l. induction l as [|kv l IH]; [cbn; auto|].
        cbn [filter map fold_right]. destruct (keep (e_kind e) (fst kv)); cbn [map fold_right]; lia.
      - rewrite load_arrange. unfold load. rewrite map_map. auto.
    Qed.

    Lemma unseen_new : forall seen o, ~ In o seen -> load (pushed (PRef o)) + unseen (o :: seen) <= unseen seen.
    Proof.
      intros seen o N.
      set (g := fun s x => if mem x s then 0 else match hget h x with Some e => fsize e | None => 0 end).
      assert (Le : forall x, g (o :: seen) x <= g seen x).
      { intros x. unfold g. destruct (mem x seen) eqn:M1.
        - replace (mem x (o :: seen)) with true; auto. symmetry. apply mem_In. right. now apply mem_In.
        - destruct (mem x (o :: seen)); lia. }
      assert (Le2 : forall l, list_sum (map (g (o :: seen)) l) <= list_sum (map (g seen) l)).
      { unfold list_sum. induction l; cbn [map fold_right]; auto. specialize (Le a). lia. }
      destruct (hget h o) as [e|] eqn:H.
      - assert (Lo : o < length h) by (apply nth_error_Some; unfold hget in H; congruence).
        assert (Lf := load_fields o e H).
        unfold unseen. fold (g (o :: seen)). fold (g seen).
        assert (I : In o (seq 0 (length h))) by (apply in_seq; lia).
        assert (Go : g (o :: seen) o = 0 /\ g seen o = fsize e).
        { unfold g. split.
          - replace (mem o (o :: seen)) with true; auto. symmetry. apply mem_In. now left.
          - rewrite H. destruct (mem o seen) eqn:M; auto. apply mem_In in M. contradiction. }
        assert (X : forall l, In o l -> fsize e + list_sum (map (g (o :: seen)) l) <= list_sum (map (g seen) l)).
        { induction l as [|x l IH]; intros Hi; [contradiction|]. cbn [map list_sum fold_right]. destruct Hi as [->|Hi].
          - destruct Go as [-> ->]. specialize (Le2 l). unfold list_sum in *. lia.
          - specialize (IH Hi). specialize (Le x). unfold list_sum in *. lia. }
        specialize (X _ I). lia.
      - cbn [TravModel.pushed]. rewrite H. cbn. apply Le2.
    Qed.

    Lemma unseen_nil : unseen [] = list_sum (map fsize h).
    Proof.
      unfold unseen. f_equal. cbn [mem existsb].
      enough (G : forall (l : heap) pre, map (fun o => match hget (pre ++ l) o with Some e => fsize e | None => 0 end) (seq (length pre) (length l)) = map fsize l).
      { apply (G h []). }
      induction l as [|e l IH]; intros pre; auto. cbn [length seq map]. f_equal.
      - unfold hget. now rewrite nth_error_app2, Nat.sub_diag by lia.
      - specialize (IH (pre ++ [e])). rewrite app_length in IH. cbn in IH. rewrite Nat.add_1_r, <- app_assoc in IH. exact IH.
    Qed.

    (** The outcome of the loop from any state. *)
    Lemma walk_outcome : forall n seen stack, load stack + unseen seen <= n -> winv seen stack ->
      (exists l, walk n seen stack = Done l /\ NoDup l /\ forall o, In o l <-> reach o)
      \/ (walk n seen stack = Raised TypeError /\ exists l, met (PTuple l) /\ ~ can_hash (PTuple l)).
    Proof.
      induction n as [|n IH]; intros seen stack L V.
      - destruct stack as [|v rest].
        2: { exfalso. cbn in L. assert (0 < vsize v) by (destruct v; cbn; lia). lia. }
        left. exists (rev seen). split; auto. destruct V as [A B C D E]. split; [now apply NoDup_rev|].
        intros o. rewrite <- in_rev. split; auto. intros R. induction R as [o M|o e f v o' R IHR Hg If K M].
        + destruct (D o M) as [|[v [[] _]]]; auto.
        + destruct (E o e f v o' IHR Hg If K M) as [|[w [[] _]]]; auto.
      - destruct stack as [|v rest].
        { left. exists (rev seen). split; auto. destruct V as [A B C D E]. split; [now apply NoDup_rev|].
          intros o. rewrite <- in_rev. split; auto. intros R. induction R as [o M|o e f v o' R IHR Hg If K M].
          + destruct (D o M) as [|[v [[] _]]]; auto.
          + destruct (E o e f v o' IHR Hg If K M) as [|[w [[] _]]]; auto. }
        cbn [TravModel.walk].
        assert (Plain : (forall o, v <> PRef o) -> walk n seen (rev (pushed v) ++ rest) = walk n seen (rev (pushed v) ++ rest) ->
          (exists l, walk n seen (rev (pushed v) ++ rest) = Done l /\ NoDup l /\ forall o, In o l <-> reach o)
          \/ (walk n seen (rev (pushed v) ++ rest) = Raised TypeError /\ exists l, met (PTuple l) /\ ~ can_hash (PTuple l))).
        { intros N _. apply IH; [|now apply winv_plain]. rewrite load_app, load_rev. assert (X := load_pushed v N). change (load (v :: rest)) with (vsize v + load rest) in L. lia. }
        destruct v as [| | |o|l|l|l|t l]; try (apply Plain; [congruence | reflexivity]).
        + destruct (mem o seen) eqn:M.
          * apply mem_In in M. apply IH; [|eapply winv_again; eauto]. change (load (PRef o :: rest)) with (1 + load rest) in L. lia.
          * assert (N : ~ In o seen) by (intros I; apply mem_In in I; congruence).
            apply IH; [|now apply winv_new]. rewrite load_app, load_rev. assert (X := unseen_new seen o N).
            change (load (PRef o :: rest)) with (1 + load rest) in L. lia.
        + destruct (hashable (PTuple l)) eqn:Hh; [apply Plain; [congruence | reflexivity]|].
          right. split; auto. exists l. split.
          * destruct (w_stack _ _ V (PTuple l) (or_introl eq_refl)) as [|[s X]]; [auto | discriminate].
          * intros C. apply hashable_iff in C. congruence.
    Qed.

    Lemma visits_outcome :
      (exists l, visits h arrange keep backwards obj = Done l /\ NoDup l /\ forall o, In o l <-> reach o)
      \/ (visits h arrange keep backwards obj = Raised TypeError /\ exists l, met (PTuple l) /\ ~ can_hash (PTuple l)).
    Proof.
      apply walk_outcome; [|apply winv_init]. rewrite unseen_nil. unfold budget, load. cbn. lia.
    Qed.
  End Obj.
End Proofs.

(** ** set_uuids *)

Lemma hget_set_uids : forall h o u o', hget (set_uids h o u) o' =
  if Nat.eqb o o' then option_map (fun e => mkE (e_kind e) u (e_fields e)) (hget h o') else hget h o'.
Proof.
  intros. unfold set_uids. destruct (hget h o) as [e|] eqn:E.
  - rewrite hget_hset. destruct (Nat.eqb o o') eqn:Q; auto. apply Nat.eqb_eq in Q. subst. now rewrite E.
  - destruct (Nat.eqb o o') eqn:Q; auto. apply Nat.eqb_eq in Q. subst. now rewrite E.
Qed.

Section UuidProofs.
  Variable uuid4 : nat -> string.
  Variable scope : string.
  Notation give := (give_uid uuid4 scope).

  (** [h'] is [h] with uids given, by the numbers [n] to [n' - 1], to exactly the entities of [l] that had none. *)
  Definition given (h : heap) (n : nat) (l : list oid) (h' : heap) (n' : nat) : Prop :=
    length h' = length h /\ n <= n' /\ exists num : oid -> nat,
    (forall o e, hget h o = Some e ->
       hget h' o = Some (if mem o l && match e_uids e with [] => true | _ => false end
                         then mkE (e_kind e) [(scope, uuid4 (num o))] (e_fields e) else e))
    /\ (forall o o' e e', hget h o = Some e -> hget h o' = Some e' -> In o l -> In o' l -> e_uids e = [] -> e_uids e' = [] -> num o = num o' -> o = o')
    /\ (forall o e, hget h o = Some e -> In o l -> e_uids e = [] -> n <= num o < n').

  Lemma given_step : forall l h n, NoDup l -> given h n l (fst (fold_left give l (h, n))) (snd (fold_left give l (h, n))).
  Proof.
    induction l as [|x l IH] using rev_ind; intros h n ND.
    - cbn. split; auto. split; auto. exists (fun _ => 0). split; [intros o e H; rewrite H; cbn; auto|]. split; intros; contradiction.
    - rewrite fold_left_app. cbn [fold_left]. apply NoDup_remove in ND as ND'. rewrite app_nil_r in ND'. destruct ND' as [ND1 Nx].
      destruct (IH h n ND1) as (Len & Ln & num & G1 & G2 & G3).
      destruct (fold_left give l (h, n)) as [h1 n1]. cbn [fst snd] in *. unfold give_uid.
      assert (Mx : mem x l = false) by (destruct (mem x l) eqn:Q; auto; apply mem_In in Q; contradiction).
      assert (Mm : forall o, mem o (l ++ [x]) = mem o l || Nat.eqb o x).
      { intros. unfold mem. rewrite existsb_app. cbn. now rewrite orb_false_r. }
      destruct (hget h x) as [ex|] eqn:Hx.
      + rewrite (G1 x ex Hx), Mx. cbn [andb].
        destruct (e_uids ex) as [|p r] eqn:Eu.
        * cbn [fst snd]. split; [|split; [lia|]].
          { unfold set_uids. rewrite (G1 x ex Hx), Mx. cbn [andb]. now rewrite hset_length. }
          exists (fun o => if Nat.eqb o x then n1 else num o). split; [|split].
          { intros o e H. rewrite hget_set_uids, Mm. rewrite (Nat.eqb_sym x o). destruct (Nat.eqb o x) eqn:Q.
            - apply Nat.eqb_eq in Q. subst o. rewrite Hx in H. injection H as <-. rewrite (G1 x ex Hx), Mx, Eu. cbn. reflexivity.
            - rewrite orb_false_r. apply G1; auto. }
          { intros o o' e e' H H' I I' E E' Q. apply in_app_iff in I as [I|[<-|[]]]; apply in_app_iff in I' as [I'|[<-|[]]]; auto.
            - replace (o =? x) with false in Q by (symmetry; apply Nat.eqb_neq; congruence).
              replace (o' =? x) with false in Q by (symmetry; apply Nat.eqb_neq; congruence). eapply G2; eauto.
            - rewrite Nat.eqb_refl in Q. replace (o =? x) with false in Q by (symmetry; apply Nat.eqb_neq; congruence).
              destruct (G3 o e H I E). lia.
            - rewrite Nat.eqb_refl in Q. replace (o' =? x) with false in Q by (symmetry; apply Nat.eqb_neq; congruence).
              destruct (G3 o' e' H' I' E'). lia. }
          { intros o e H I E. destruct (Nat.eqb o x) eqn:Q; [lia|]. apply Nat.eqb_neq in Q.
            apply in_app_iff in I as [I|[->|[]]]; [|contradiction]. destruct (G3 o e H I E). lia. }
        * cbn [fst snd]. split; auto. split; auto. exists num. split; [|split].
          { intros o e H. rewrite Mm. destruct (Nat.eqb o x) eqn:Q.
            - apply Nat.eqb_eq in Q. subst o. rewrite Hx in H. injection H as <-. rewrite (G1 x ex Hx), Eu, !andb_false_r. reflexivity.
            - rewrite orb_false_r. apply G1; auto. }
          { intros o o' e e' H H' I I' E E'. apply in_app_iff in I as [I|[<-|[]]]; [|congruence]. apply in_app_iff in I' as [I'|[<-|[]]]; [|congruence].
            eapply G2; eauto. }
          { intros o e H I E. apply in_app_iff in I as [I|[<-|[]]]; [|congruence]. eauto. }
      + assert (Hx1 : hget h1 x = None).
        { unfold hget in *. apply nth_error_None. rewrite Len. now apply nth_error_None. }
        rewrite Hx1. cbn [fst snd]. split; auto. split; auto. exists num. split; [|split].
        { intros o e H. rewrite Mm. destruct (Nat.eqb o x) eqn:Q.
          - apply Nat.eqb_eq in Q. congruence.
          - rewrite orb_false_r. apply G1; auto. }
        { intros o o' e e' H H' I I'. apply in_app_iff in I as [I|[<-|[]]]; [|congruence]. apply in_app_iff in I' as [I'|[<-|[]]]; [|congruence].
          eapply G2; eauto. }
        { intros o e H I E. apply in_app_iff in I as [I|[<-|[]]]; [|congruence]. eauto. }
  Qed.
End UuidProofs.

(** ** A check for examples *)
Fixpoint tuples_okb (v : pv) : bool :=
  match v with
  | PList l => (fix all (l : list pv) := match l with [] => true | x :: r => tuples_okb x && all r end) l
  | PTuple l => hashable v && (fix all (l : list pv) := match l with [] => true | x :: r => tuples_okb x && all r end) l
  | PDict l | PObj _ l => (fix all (l : list (string * pv)) := match l with [] => true | (_, x) :: r => tuples_okb x && all r end) l
  | _ => true
  end.

Lemma tuples_ok_within : forall v, tuples_okb v = true -> forall l, within (PTuple l) v -> can_hash (PTuple l).
Proof.
  intros v B l W. remember (PTuple l) as t. induction W; subst.
  - apply hashable_iff. cbn [tuples_okb] in B. now apply andb_true_iff in B.
  - apply IHW; auto. cbn in B. clear -B H. induction l0; [contradiction|]. apply andb_true_iff in B as [B1 B2]. destruct H as [->|H]; auto.
  - apply IHW; auto. cbn in B. apply andb_true_iff in B as [_ B]. clear -B H. induction l0; [contradiction|]. apply andb_true_iff in B as [B1 B2]. destruct H as [->|H]; auto.
  - apply IHW; auto. cbn in B. clear -B H. induction l0 as [|[]]; [contradiction|]. apply andb_true_iff in B as [B1 B2]. destruct H as [E|H]; [now inv E | auto].
  - apply IHW; auto. cbn in B. clear -B H. induction l0 as [|[]]; [contradiction|]. apply andb_true_iff in B as [B1 B2]. destruct H as [E|H]; [now inv E | auto].
Qed.

Lemma hashable_tuples_check : forall h keep obj,
  tuples_okb obj && forallb (fun e => forallb (fun kv => tuples_okb (snd kv)) (e_fields e)) h = true -> hashable_tuples h keep obj.
Proof.
  intros h keep obj B l M. apply andb_true_iff in B as [B1 B2]. inversion M; subst.
  - eapply tuples_ok_within; eauto.
  - rewrite forallb_forall in B2. unfold hget in *. specialize (B2 e (nth_error_In _ _ H0)). rewrite forallb_forall in B2.
    specialize (B2 (f, v) H1). eapply tuples_ok_within; eauto.
Qed.
