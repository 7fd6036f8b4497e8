(** Proofs for C01/C02 (case-insensitive dictionary). *)
From Coq Require Import String List Bool Lia.
From Verif Require Import Base BaseFacts CidModel CidSpec.
Import ListNotations.
Open Scope list_scope.

Section CidProofs.
  Variable lower : string -> string.
  Variable V : Type.
  Notation entry := (entry lower V).
  Notation without := (without lower V).
  Notation overwrite := (overwrite lower V).
  Notation store := (store lower V).
  Notation store_all := (store_all lower V).
  Notation distinct := (distinct_keys lower V).
  Notation same_key := (same_key lower).

  Definition idx (t : list (string * V)) : list (string * string) :=
    map (fun kv => (lower (fst kv), fst kv)) t.

  Definition good (c : cid V) : Prop := low c = idx (tbl c) /\ distinct (tbl c).

  Lemma same_key_true : forall a b, same_key a b = true <-> lower a = lower b.
  Proof. intros; apply String.eqb_eq. Qed.

  Lemma get_idx : forall k t, dict_get (lower k) (idx t) = option_map fst (entry k t).
  Proof.
    intros k t; induction t as [|[k' v] r IH]; cbn; auto.
    unfold CidSpec.same_key. destruct (String.eqb (lower k) (lower k')); cbn; auto.
  Qed.

  Lemma entry_In : forall k t e, entry k t = Some e -> In e t /\ lower (fst e) = lower k.
  Proof.
    intros k t e H. apply find_some in H as [H1 H2]. split; auto. symmetry. now apply same_key_true.
  Qed.

  Lemma entry_None : forall k t, entry k t = None <-> ~ In (lower k) (map (fun kv => lower (fst kv)) t).
  Proof.
    intros k t; induction t as [|[k' v] r IH]; cbn; [tauto|].
    unfold CidSpec.same_key at 1. destruct (String.eqb (lower k) (lower k')) eqn:E; cbn; str_eq.
    - split; [discriminate|]. intros H; exfalso; apply H; now left.
    - unfold entry, CidSpec.entry in IH. rewrite IH. split; [intros H [?|?]; [congruence|tauto] | tauto].
  Qed.

  Lemma distinct_NoDup : forall t, distinct t -> NoDup (keys t).
  Proof.
    intros t H. unfold distinct_keys in H. unfold keys.
    apply (NoDup_map_inv lower). now rewrite map_map.
  Qed.

  Lemma get_entry : forall k t k' v, distinct t -> entry k t = Some (k', v) -> dict_get k' t = Some v.
  Proof.
    intros k t k' v D H. apply entry_In in H as [H _].
    apply In_dict_get; auto. now apply distinct_NoDup.
  Qed.

  Lemma filter_all : forall A (f : A -> bool) l, (forall x, In x l -> f x = true) -> filter f l = l.
  Proof.
    intros A f l; induction l as [|a r IH]; cbn; auto. intros H.
    rewrite (H a) by auto. f_equal; apply IH; auto.
  Qed.

  Lemma map_id_on : forall A (f : A -> A) l, (forall x, In x l -> f x = x) -> map f l = l.
  Proof.
    intros A f l; induction l as [|a r IH]; cbn; auto. intros H. rewrite (H a) by auto. f_equal; auto.
  Qed.

  Lemma distinct_cons : forall k v t,
    distinct ((k, v) :: t) -> distinct t /\ forall kv, In kv t -> lower (fst kv) <> lower k.
  Proof.
    intros k v t H. unfold distinct_keys in *. cbn in H. inv H. split; auto.
    intros kv I E. apply H2. rewrite <- E. now apply (in_map (fun kv => lower (fst kv))).
  Qed.

  Lemma without_fresh : forall k t,
    (forall kv, In kv t -> lower (fst kv) <> lower k) -> without k t = t.
  Proof.
    intros k t H. apply filter_all. intros kv I. apply negb_true_iff. apply String.eqb_neq.
    intros E. now apply (H kv I).
  Qed.

  Lemma del_entry : forall k t k' v, distinct t -> entry k t = Some (k', v) -> dict_del k' t = without k t.
  Proof.
    intros k t; induction t as [|[k1 v1] r IH]; cbn; [discriminate|].
    intros k' v D. apply distinct_cons in D as [D F].
    destruct (same_key k k1) eqn:E; cbn.
    - intros H; injection H as -> ->. rewrite String.eqb_refl.
      symmetry; apply without_fresh. intros kv I. apply same_key_true in E. rewrite E. auto.
    - intros H. specialize (IH _ _ D H).
      destruct (String.eqb k' k1) eqn:E2; str_eq.
      + exfalso. apply entry_In in H as [I E3]. cbn in E3. apply String.eqb_neq in E. congruence.
      + f_equal; auto.
  Qed.

  Lemma del_idx : forall k t, distinct t -> dict_del (lower k) (idx t) = idx (without k t).
  Proof.
    intros k t; induction t as [|[k1 v1] r IH]; cbn; auto.
    intros D. apply distinct_cons in D as [D F].
    unfold CidSpec.same_key at 1.
    destruct (String.eqb (lower k) (lower k1)) eqn:E; cbn; str_eq.
    - symmetry; f_equal. apply without_fresh. intros kv I. rewrite E; auto.
    - f_equal; auto.
  Qed.

  Lemma distinct_without : forall k t, distinct t -> distinct (without k t).
  Proof.
    intros k t; induction t as [|[k1 v1] r IH]; cbn; auto.
    intros D. unfold distinct_keys in D; cbn in D. inv D.
    destruct (negb _); [|apply IH; auto]. unfold distinct_keys; cbn. constructor; [|apply IH; auto].
    intros C. apply H1. apply in_map_iff in C as [x [E I]]. apply filter_In in I as [I _].
    rewrite <- E. now apply (in_map (fun kv => lower (fst kv))).
  Qed.

  Lemma set_fresh : forall k v t, entry k t = None -> dict_set k v t = t ++ [(k, v)].
  Proof.
    intros k v t H. apply dict_set_new. intros C. apply entry_None in H. apply H.
    unfold keys in C. apply in_map_iff in C as [x [<- I]]. now apply (in_map (fun kv => lower (fst kv))).
  Qed.

  Lemma overwrite_fresh : forall k v t,
    (forall kv, In kv t -> lower (fst kv) <> lower k) -> overwrite k v t = t.
  Proof.
    intros k v t H. apply map_id_on. intros kv I. unfold CidSpec.same_key.
    destruct (String.eqb _ _) eqn:E; auto. str_eq. exfalso; now apply (H kv I).
  Qed.

  Lemma set_old : forall k v t v', distinct t -> entry k t = Some (k, v') -> dict_set k v t = overwrite k v t.
  Proof.
    intros k v t; induction t as [|[k1 v1] r IH]; cbn; [discriminate|].
    intros v' D. apply distinct_cons in D as [D F].
    destruct (CidSpec.same_key lower k k1) eqn:E.
    - intros H; injection H as -> ->. rewrite String.eqb_refl. f_equal.
      symmetry; apply overwrite_fresh; auto.
    - intros H. destruct (String.eqb k k1) eqn:E2.
      + str_eq. unfold CidSpec.same_key in E. rewrite String.eqb_refl in E; discriminate.
      + f_equal. eapply IH; eauto.
  Qed.

  Lemma keys_overwrite : forall k v t, map fst (overwrite k v t) = map fst t.
  Proof.
    intros. unfold CidSpec.overwrite. rewrite map_map. apply map_ext. intros x. now destruct (CidSpec.same_key _ _ _).
  Qed.

  Lemma idx_keys : forall t t', map fst t = map fst t' -> idx t = idx t'.
  Proof.
    intros t t' E. unfold idx.
    rewrite <- (map_map fst (fun k => (lower k, k)) t), <- (map_map fst (fun k => (lower k, k)) t').
    now rewrite E.
  Qed.

  Lemma distinct_by_keys : forall t t', map fst t = map fst t' -> distinct t -> distinct t'.
  Proof.
    intros t t' E. unfold distinct_keys.
    rewrite <- (map_map fst lower t), <- (map_map fst lower t'). now rewrite E.
  Qed.

  Lemma dict_set_idem : forall (A : Type) k (v : A) d, dict_get k d = Some v -> dict_set k v d = d.
  Proof.
    intros A k v d; induction d as [|[k' v'] r IH]; cbn; [discriminate|].
    destruct (String.eqb k k') eqn:E; str_eq; intros H.
    - now injection H as ->.
    - f_equal; auto.
  Qed.

  Lemma idx_set_new : forall k v t, entry k t = None -> dict_set (lower k) k (idx t) = idx (t ++ [(k, v)]).
  Proof.
    intros k v t H. unfold idx at 2. rewrite map_app. apply dict_set_new.
    intros C. apply entry_None in H. apply H. unfold keys, idx in C. rewrite map_map in C. apply C.
  Qed.

  Lemma distinct_snoc : forall k v t, distinct t -> entry k t = None -> distinct (t ++ [(k, v)]).
  Proof.
    intros k v t D H. unfold distinct_keys. rewrite map_app; cbn.
    apply entry_None in H.
    rewrite <- (rev_involutive (_ ++ _)). apply NoDup_rev. rewrite rev_app_distr; cbn.
    constructor; [now rewrite <- in_rev|]. now apply NoDup_rev.
  Qed.

  (** One store step of the specification corresponds to both tables being written. *)
  Lemma store_ok : forall k v t t', distinct t -> store t k v = Some t' ->
    t' = dict_set k v t /\ register_key lower k (idx t) = Ok (idx t') /\ distinct t' /\
    (forall k2, entry k2 t' = entry k2 t \/ (lower k2 = lower k /\ exists v2, entry k2 t' = Some (k, v2))).
  Proof.
    intros k v t t' D. unfold CidSpec.store. unfold register_key. rewrite get_idx.
    destruct (entry k t) as [[k' v']|] eqn:E; cbn.
    - destruct (String.eqb k k') eqn:EK; [|discriminate]. str_eq. intros H; injection H as <-.
      rewrite String.eqb_refl. repeat split.
      + symmetry; eapply set_old; eauto.
      + rewrite dict_set_idem; [|rewrite get_idx, E; auto]. f_equal. apply idx_keys.
        symmetry; apply keys_overwrite.
      + apply (distinct_by_keys t); auto. symmetry; apply keys_overwrite.
      + intros k2. clear - E D. induction t as [|[k1 v1] r IH]; cbn in *; [discriminate|].
        apply distinct_cons in D as [D F].
        destruct (CidSpec.same_key lower k' k1) eqn:E1; cbn.
        * injection E as -> ->.
          destruct (CidSpec.same_key lower k2 k') eqn:E2.
          { right. split; [now apply same_key_true|eauto]. }
          { left. fold (overwrite k' v r). now rewrite overwrite_fresh. }
        * destruct (CidSpec.same_key lower k2 k1) eqn:E2; auto.
    - intros H; injection H as <-. repeat split.
      + symmetry; now apply set_fresh.
      + f_equal. now apply idx_set_new.
      + now apply distinct_snoc.
      + intros k2. clear. induction t as [|[k1 v1] r IH]; cbn.
        * unfold CidSpec.same_key. destruct (String.eqb (lower k2) (lower k)) eqn:E; str_eq; eauto.
        * unfold CidSpec.same_key. destruct (String.eqb (lower k2) (lower k1)) eqn:E; auto.
  Qed.

  Lemma store_none : forall k v t, store t k v = None -> register_key lower k (idx t) = Err ValueError
    /\ exists k' v', entry k t = Some (k', v') /\ k <> k'.
  Proof.
    intros k v t. unfold CidSpec.store, register_key. rewrite get_idx.
    destruct (entry k t) as [[k' v']|]; cbn; [|discriminate].
    rewrite String.eqb_sym. destruct (String.eqb k' k) eqn:E; [discriminate|]. intros _.
    split; auto. exists k', v'; split; auto. str_eq; congruence.
  Qed.

  Definition free (t : list (string * V)) (k : string) : Prop :=
    forall k' v', entry k t = Some (k', v') -> k' = k.

  Lemma blocked_free : forall t l k, existsb (fun k => update_blocked lower V (mkCid t (idx t)) k) l = false ->
    In k l -> free t k.
  Proof.
    intros t l k H I k' v' E. rewrite <- not_true_iff_false, existsb_exists in H.
    destruct (String.eqb k' k) eqn:EE; [now apply String.eqb_eq|]. exfalso; apply H.
    exists k; split; auto. unfold update_blocked; cbn. rewrite get_idx, E; cbn. now rewrite EE.
  Qed.

  Lemma update_good : forall items t, distinct t ->
    consistent_casing lower V items -> (forall k, In k (keys items) -> free t k) ->
    exists t', store_all t items = Some t' /\ dict_update items t = t' /\
      register_all lower (keys items) (idx t) = (idx t', None) /\ distinct t'.
  Proof.
    intros items; induction items as [|[k v] r IH]; intros t D C F; cbn.
    - exists t; auto.
    - destruct (store t k v) as [t1|] eqn:S.
      + pose proof (store_ok _ _ _ _ D S) as (E1 & E2 & D1 & X).
        destruct (IH t1) as (t' & A & B & R & D'); auto.
        * intros a b a' b' I1 I2. apply (C a b a' b'); now right.
        * intros k2 I2 k' v' En. destruct (X k2) as [Y|[Y [v2 Y2]]].
          { rewrite Y in En. eapply F; eauto. now right. }
          { rewrite Y2 in En. injection En as <- <-.
            unfold keys in I2. apply in_map_iff in I2 as [[a b] [Ea I2]]. cbn in Ea; subst a.
            symmetry. eapply (C k2 b k v); [now right | now left | auto]. }
        * exists t'. rewrite E2. subst t1. auto.
      + exfalso. apply store_none in S as [_ (k' & v' & E & N)]. apply N. symmetry.
        eapply F; eauto. now left.
  Qed.

  Lemma update_bad : forall items t, distinct t ->
    existsb (fun k => update_blocked lower V (mkCid t (idx t)) k) (keys items) = true ->
    store_all t items = None.
  Proof.
    intros items. induction items as [|[k v] r IH]; intros t D; cbn; [discriminate|].
    unfold update_blocked at 1; cbn. rewrite get_idx.
    destruct (store t k v) as [t1|] eqn:S; auto.
    pose proof (store_ok _ _ _ _ D S) as (E1 & E2 & D1 & X).
    intros H. apply orb_true_iff in H as [H|H].
    - exfalso. unfold CidSpec.store in S. destruct (entry k t) as [[k' v']|]; cbn in H; [|discriminate].
      rewrite String.eqb_sym in S. destruct (String.eqb k' k); discriminate.
    - apply IH; auto. apply existsb_exists in H as [k2 [I B]]. apply existsb_exists. exists k2; split; auto.
      unfold update_blocked in *; cbn in *. rewrite get_idx in *.
      destruct (entry k2 t) as [[k' v']|] eqn:E; cbn in B; [|discriminate].
      destruct (X k2) as [Y|[Y [v2 Y2]]]; [now rewrite Y, E|].
      rewrite Y2; cbn. destruct (String.eqb k k2) eqn:EK; auto. str_eq.
      unfold CidSpec.store in S. rewrite E in S. rewrite String.eqb_sym in S.
      destruct (String.eqb k' k2); discriminate.
  Qed.

  (** Construction. *)
  Lemma register_all_err : forall ks l l' e, register_all lower ks l = (l', Some e) -> e = ValueError.
  Proof.
    intros ks; induction ks as [|k r IH]; cbn; [discriminate|]. intros l l' e.
    unfold register_key. destruct (dict_get (lower k) l) as [p|] eqn:G.
    - destruct (String.eqb p k); eauto. congruence.
    - eauto.
  Qed.

  Lemma register_all_mono : forall ks l l', register_all lower ks l = (l', None) ->
    forall x y, dict_get x l = Some y -> dict_get x l' = Some y.
  Proof.
    intros ks; induction ks as [|k r IH]; cbn; [congruence|]. intros l l'.
    unfold register_key. destruct (dict_get (lower k) l) as [p|] eqn:G.
    - destruct (String.eqb p k) eqn:E; [|discriminate]. str_eq. intros H x y X.
      eapply IH; eauto. rewrite dict_set_idem; auto.
    - intros H x y X. eapply IH; eauto. rewrite dict_get_set_other; auto. congruence.
  Qed.

  Lemma register_all_has : forall ks l l', register_all lower ks l = (l', None) ->
    forall k, In k ks -> dict_get (lower k) l' = Some k.
  Proof.
    intros ks; induction ks as [|k r IH]; cbn; [tauto|]. intros l l' H k2 [->|I].
    - destruct (register_key lower k2 l) eqn:R; [|discriminate].
      eapply register_all_mono; eauto. unfold register_key in R.
      destruct (dict_get (lower k2) l) eqn:G; [destruct (String.eqb _ _)|]; inv R; apply dict_get_set_same.
    - destruct (register_key lower k l) eqn:R; [|discriminate]. eauto.
  Qed.

  Lemma register_distinct : forall t p, distinct (p ++ t) ->
    register_all lower (keys t) (idx p) = (idx (p ++ t), None).
  Proof.
    intros t; induction t as [|[k v] r IH]; intros p D; cbn.
    - now rewrite app_nil_r.
    - assert (F : entry k p = None).
      { apply entry_None. intros C. unfold distinct_keys in D. rewrite map_app in D. cbn in D.
        apply NoDup_remove_2 in D. apply D. apply in_or_app; now left. }
      unfold register_key. rewrite get_idx, F. cbn [option_map].
      rewrite (idx_set_new k v p F). change (map fst r) with (keys r). rewrite (IH (p ++ [(k, v)])); rewrite <- app_assoc; auto.
  Qed.

  Lemma store_all_update : forall items s t', distinct s -> store_all s items = Some t' ->
    dict_update items s = t' /\ distinct t'.
  Proof.
    intros items; induction items as [|[k v] r IH]; cbn; intros s t' D H.
    - injection H as <-; auto.
    - destruct (store s k v) as [s1|] eqn:S; [|discriminate].
      pose proof (store_ok _ _ _ _ D S) as (E1 & _ & D1 & _). subst s1. apply IH; auto.
  Qed.

  Lemma init_ok : forall seq t, store_all [] seq = Some t ->
    init lower V seq = Ok (mkCid t (idx t)) /\ distinct t.
  Proof.
    intros seq t H. destruct (store_all_update seq [] t) as [E D]; auto; [constructor|].
    split; auto. unfold init. rewrite E. change (@nil (string * string)) with (idx []).
    now rewrite (register_distinct t []).
  Qed.

  Lemma store_all_None : forall items s, distinct s -> store_all s items = None ->
    exists k k', k <> k' /\ lower k = lower k' /\ In k (keys items) /\ (In k' (keys items) \/ In k' (keys s)).
  Proof.
    intros items; induction items as [|[k v] r IH]; cbn; intros s D H; [discriminate|].
    destruct (store s k v) as [s1|] eqn:S.
    - pose proof (store_ok _ _ _ _ D S) as (E1 & _ & D1 & _).
      destruct (IH s1 D1 H) as (a & b & N & L & I & J). exists a, b. repeat split; auto.
      destruct J as [J|J]; [tauto|]. subst s1. apply In_keys_set in J as [->|J]; tauto.
    - apply store_none in S as [_ (k' & v' & E & N)]. apply entry_In in E as [I L]. cbn in L.
      exists k, k'. repeat split; auto. right. now apply (in_map fst) in I.
  Qed.

  Lemma In_keys_update : forall items (s : list (string * V)) k,
    In k (keys items) \/ In k (keys s) -> In k (keys (dict_update items s)).
  Proof.
    intros items; induction items as [|[a b] r IH]; cbn; intros s k H; [tauto|].
    apply IH. rewrite In_keys_set. intuition.
  Qed.

  Lemma init_err : forall seq, store_all [] seq = None -> init lower V seq = Err ValueError.
  Proof.
    intros seq H. apply store_all_None in H as (k & k' & N & L & I & J); [|constructor].
    unfold init. destruct (register_all lower (keys (dict_update seq [])) []) as [l [e|]] eqn:R.
    - f_equal. eapply register_all_err; eauto.
    - exfalso. apply N.
      assert (In k (keys (dict_update seq []))) as K by (apply In_keys_update; auto).
      assert (In k' (keys (dict_update seq []))) as K' by (apply In_keys_update; auto).
      apply (register_all_has _ _ _ R) in K. apply (register_all_has _ _ _ R) in K'. congruence.
  Qed.

  (** One step of the implementation is one step of the specification. *)
  Lemma contains_idx : forall t k, contains lower V (mkCid t (idx t)) k =
    match entry k t with Some _ => true | None => false end.
  Proof.
    intros. unfold contains, dict_mem; cbn. rewrite get_idx. now destruct (entry k t).
  Qed.

  Lemma getitem_idx : forall t k, distinct t -> getitem lower V (mkCid t (idx t)) k =
    match entry k t with Some (_, v) => Ok v | None => Err KeyError end.
  Proof.
    intros t k D. unfold getitem; cbn. rewrite get_idx.
    destruct (entry k t) as [[k' v]|] eqn:E; cbn; auto. now rewrite (get_entry _ _ _ _ D E).
  Qed.

  Lemma distinct_removelast : forall t, distinct t -> distinct (removelast t).
  Proof.
    intros t. induction t as [|a r IH]; cbn; auto. intros D. destruct r as [|b r]; [constructor|].
    unfold distinct_keys in *. cbn in *. inv D. constructor; [|apply IH; auto].
    intros C. apply H1. clear - C. change (In (lower (fst a)) (map (fun kv => lower (fst kv)) (b :: r))).
    apply in_map_iff in C as [x [E I]]. rewrite <- E. apply (in_map (fun kv => lower (fst kv))).
    revert I. change (In x (removelast (b :: r)) -> In x (b :: r)). generalize (b :: r). clear.
    intros l; induction l as [|y l IH]; cbn; auto. destruct l; [tauto|]. intros [->|I]; auto.
  Qed.

  Lemma rev_snoc_form : forall A (l : list A) x r, rev l = x :: r -> l = rev r ++ [x].
  Proof. intros A l x r H. rewrite <- (rev_involutive l), H. reflexivity. Qed.

  Lemma step_refines : forall t o, distinct t -> covered lower V o ->
    exists t', step lower V (mkCid t (idx t)) o = (mkCid t' (idx t'), snd (spec_step lower V t o)) /\
               t' = fst (spec_step lower V t o) /\ distinct t'.
  Proof.
    intros t o D C. destruct o as [k v|k|k d| | | |items|k|k d|k| | |k v|items]; cbn [step spec_step].
    - (* set *) unfold setitem; cbn [low tbl]. destruct (store t k v) as [t'|] eqn:S.
      + pose proof (store_ok _ _ _ _ D S) as (E1 & E2 & D1 & _). rewrite E2. cbn. exists t'. subst t'; auto.
      + apply store_none in S as [E _]. rewrite E; cbn. exists t; auto.
    - (* del *) unfold delitem; cbn [low tbl]. rewrite get_idx.
      destruct (entry k t) as [[k' v]|] eqn:E; cbn [option_map fst].
      + unfold dict_mem. rewrite (get_entry _ _ _ _ D E). pose proof (entry_In _ _ _ E) as [_ L]. cbn in L.
        rewrite L, get_idx, E; cbn. exists (without k t).
        rewrite (del_entry _ _ _ _ D E), del_idx by auto. repeat split; auto. now apply distinct_without.
      + unfold dict_mem. destruct (dict_get k t) eqn:G.
        * exfalso. apply entry_None in E. apply E. apply dict_get_In in G.
          now apply (in_map (fun kv => lower (fst kv))) in G.
        * exists t; auto.
    - (* pop *) unfold pop. rewrite contains_idx; cbn [low tbl]. rewrite get_idx.
      destruct (entry k t) as [[k' v]|] eqn:E; cbn [option_map fst].
      + rewrite (get_entry _ _ _ _ D E). rewrite (del_entry _ _ _ _ D E), del_idx by auto.
        exists (without k t). destruct d; cbn; repeat split; auto; now apply distinct_without.
      + exists t. destruct d; cbn; auto.
    - (* popitem *) unfold popitem; cbn [low tbl]. destruct (rev t) as [|[k v] r] eqn:R.
      + apply (f_equal (@rev _)) in R. rewrite rev_involutive in R; cbn in R. subst t; cbn. exists []; auto.
      + apply rev_snoc_form in R.
        assert (D2 : distinct (removelast t)) by now apply distinct_removelast.
        assert (RL : removelast t = rev r) by (rewrite R; apply removelast_last).
        assert (EN : entry k t = Some (k, v) /\ without k t = rev r).
        { subst t. unfold distinct_keys in D. rewrite map_app in D. cbn in D.
          apply NoDup_remove in D as [_ D]. rewrite app_nil_r in D.
          assert (F : forall kv, In kv (rev r) -> lower (fst kv) <> lower k).
          { intros kv I EE. apply D. rewrite <- EE. now apply (in_map (fun kv => lower (fst kv))). }
          split.
          - assert (E0 : entry k (rev r) = None).
            { apply entry_None. intros C2. apply in_map_iff in C2 as [x [E I]]. now apply (F x I). }
            clear - E0. induction (rev r) as [|[a b] l IH]; cbn in *.
            + unfold CidSpec.same_key. now rewrite String.eqb_refl.
            + destruct (CidSpec.same_key lower k a); [discriminate|auto].
          - unfold CidSpec.without. rewrite filter_app. cbn. unfold CidSpec.same_key at 2.
            rewrite String.eqb_refl. cbn. rewrite app_nil_r. now apply without_fresh. }
        destruct EN as [EN W].
        unfold dict_mem. rewrite get_idx, EN; cbn. rewrite del_idx, W by auto.
        exists (rev r). destruct t as [|x t0]; [destruct (rev r); discriminate|].
        cbn [fst snd]. rewrite <- RL. repeat split; auto. rewrite R. rewrite last_last. reflexivity.
    - (* clear *) exists []. repeat split. constructor.
    - (* copy *) unfold copy; cbn [tbl].
      assert (S : init lower V t = Ok (mkCid t (idx t))).
      { unfold init.
        assert (U : forall q p, distinct (p ++ q) -> dict_update q p = p ++ q).
        { clear. intros q; induction q as [|[k v] r IH]; intros p D; cbn; [now rewrite app_nil_r|].
          rewrite set_fresh.
          - etransitivity; [apply (IH (p ++ [(k, v)])) |]; rewrite <- app_assoc; auto.
          - apply entry_None. intros C. unfold distinct_keys in D. rewrite map_app in D. cbn in D.
            apply NoDup_remove_2 in D. apply D. apply in_or_app; now left. }
        rewrite (U t []) by auto. cbn [app]. change (@nil (string * string)) with (idx []).
        now rewrite (register_distinct t []). }
      rewrite S. exists t; auto.
    - (* update *) unfold update; cbn [tbl low].
      destruct (existsb _ (keys items)) eqn:B.
      + rewrite (update_bad _ _ D B). exists t; auto.
      + destruct (update_good items t D C) as (t' & S & U & R & D').
        { intros k I. eapply blocked_free; eauto. }
        rewrite S, U, R. exists t'; auto.
    - exists t. rewrite getitem_idx by auto. destruct (entry k t) as [[? ?]|]; auto.
    - exists t. unfold get. rewrite contains_idx, getitem_idx by auto.
      destruct (entry k t) as [[? ?]|]; auto.
    - exists t. now rewrite contains_idx.
    - exists t; auto.
    - exists t; auto.
    - destruct C.
    - destruct C.
  Qed.

  Lemma run_refines : forall ops t, distinct t -> Forall (covered lower V) ops ->
    exists t', run lower V (mkCid t (idx t)) ops = (mkCid t' (idx t'), snd (spec_run lower V t ops)) /\
               t' = fst (spec_run lower V t ops) /\ distinct t'.
  Proof.
    intros ops; induction ops as [|o r IH]; intros t D C; cbn [run spec_run].
    - exists t; auto.
    - inv C. destruct (step_refines t o D H1) as (t1 & S & E & D1).
      destruct (spec_step lower V t o) as [s1 x1] eqn:SS. cbn in S, E. subst s1.
      destruct (IH t1 D1 H2) as (t2 & R & E2 & D2).
      destruct (spec_run lower V t1 r) as [s2 xs] eqn:SR. cbn in R, E2. subst s2.
      rewrite S, R. exists t2; auto.
  Qed.

  Lemma spec_err_unchanged : forall t o e, snd (spec_step lower V t o) = RExn e -> fst (spec_step lower V t o) = t.
  Proof.
    intros t o e.
    destruct o as [k v|k|k d| | | |items|k|k d|k| | |k v|items]; cbn [spec_step]; try (cbn; congruence).
    - destruct (store t k v); cbn; congruence.
    - destruct (entry k t); cbn; congruence.
    - destruct (entry k t) as [[? ?]|]; destruct d; cbn; congruence.
    - destruct t; cbn; congruence.
    - destruct (store_all t items); cbn; congruence.
    - destruct (entry k t) as [[? ?]|]; cbn; congruence.
    - destruct (store_all t items); cbn; congruence.
  Qed.
End CidProofs.
