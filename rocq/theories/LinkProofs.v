(** Proofs about identifiers and links. *)
From Coq Require Import String List Bool.
From Verif Require Import Base BaseFacts CidModel KeywordModel CidSpec CidProofs LinkModel LinkSpec.
Import ListNotations.
Open Scope string_scope.
Open Scope list_scope.

Section Link.
  Variable lower : string -> string.
  Notation good := (good lower string).
  Notation entry := (entry lower string).

  Lemma good_eta : forall c, good c -> c = mkCid (tbl c) (idx lower string (tbl c)) /\ distinct_keys lower string (tbl c).
  Proof. intros [t l] [E D]; cbn in *; subst; auto. Qed.

  Lemma add_uid_spec : forall c s i, good c ->
    match store lower string (tbl c) s i with
    | Some t => add_uid lower c s i = (mkCid t (idx lower string t), None) /\ distinct_keys lower string t
    | None => add_uid lower c s i = (c, Some ValueError)
    end.
  Proof.
    intros c s i G. destruct (good_eta _ G) as [E D]. unfold add_uid, setitem.
    destruct (store lower string (tbl c) s i) as [t|] eqn:S.
    - destruct (store_ok _ _ _ _ _ _ D S) as (E1 & E2 & D1 & _). destruct G as [-> _]. rewrite E2. subst t. auto.
    - apply store_none in S as [S _]. destruct G as [-> _]. now rewrite S.
  Qed.

  Lemma keyword_good : forall kw c, keyword_init lower kw = Ok c -> good c.
  Proof.
    intros kw c. unfold keyword_init. destruct (existsb _ kw); [discriminate|]. destruct (existsb _ kw); [discriminate|]. set (l := filter _ kw).
    destruct (store_all lower string [] l) as [t|] eqn:S; [|rewrite (init_err _ _ _ S); discriminate].
    destruct (init_ok _ _ _ _ S) as [-> D]. intros [= <-]. split; auto.
  Qed.

  Lemma ustep_good : forall c o, good c -> allowed lower o ->
    good (fst (ustep lower c o)) /\ (forall e, snd (ustep lower c o) = Some e -> fst (ustep lower c o) = c).
  Proof.
    intros c [a|s i|o] G A; cbn [ustep].
    - unfold set_uids. destruct (keyword_init lower _) as [c'|e] eqn:S; cbn.
      + split; [eapply keyword_good; eauto | discriminate].
      + auto.
    - pose proof (add_uid_spec c s i G) as S. destruct (store lower string _ _ _); [destruct S as [-> D] | rewrite S]; cbn.
      + split; [split; auto | discriminate].
      + auto.
    - destruct (good_eta _ G) as [E D]. destruct (step_refines lower string (tbl c) o D A) as (t & S & T & D').
      rewrite <- E in S. rewrite S; cbn. split; [split; auto|].
      intros e He. destruct (snd (spec_step lower string (tbl c) o)) eqn:R; try discriminate.
      injection He as ->. apply spec_err_unchanged in R. rewrite T, R. now rewrite <- E.
  Qed.

  Lemma urun_good : forall ops c, good c -> Forall (allowed lower) ops -> good (urun lower c ops).
  Proof.
    induction ops as [|o r IH]; intros c G F; cbn; auto. inv F. apply IH; auto. now apply ustep_good.
  Qed.

  Lemma reachable_good : forall c, reachable lower c -> good c.
  Proof. intros c [ops [F ->]]. apply urun_good; auto. split; [reflexivity | constructor]. Qed.

  Lemma entry_carries : forall t s i, distinct_keys lower string t ->
    (carries lower t s i <-> exists s', entry s t = Some (s', i)).
  Proof.
    intros t s i D. split.
    - intros [s' [I L]]. unfold CidSpec.entry. destruct (find _ t) as [[s2 i2]|] eqn:F.
      + apply find_some in F as [I2 E]. apply String.eqb_eq in E; cbn in E.
        exists s2. f_equal. f_equal.
        assert ((s2, i2) = (s', i)); [|congruence].
        clear - D I I2 E L. unfold distinct_keys in D.
        induction t as [|x r IH]; [contradiction|]. cbn in D. inv D.
        destruct I as [->|I]; destruct I2 as [->|I2]; auto; exfalso; apply H1; cbn.
        * rewrite L, E. now apply (in_map (fun kv => lower (fst kv))) in I2.
        * rewrite <- E, <- L. now apply (in_map (fun kv => lower (fst kv))) in I.
      + exfalso. eapply find_none in F; eauto. cbn in F. apply String.eqb_neq in F. congruence.
    - intros [s' E]. apply entry_In in E as [I L]. exists s'; auto.
  Qed.

  Lemma entry_has : forall t s, (entry s t <> None <-> has_scope lower t s).
  Proof.
    intros t s. split.
    - destruct (entry s t) as [[s' i]|] eqn:E; [|congruence]. intros _. apply entry_In in E as [I L].
      exists i, s'. auto.
    - intros [i [s' [I L]]] E. apply entry_None in E. apply E. rewrite <- L. now apply (in_map (fun kv => lower (fst kv))) in I.
  Qed.

  Lemma contains_good : forall c s, good c -> contains lower string c s = match entry s (tbl c) with Some _ => true | None => false end.
  Proof. intros c s G. destruct (good_eta _ G) as [E D]. rewrite E at 1. apply contains_idx. Qed.

  Lemma getitem_good : forall c s, good c -> getitem lower string c s = match entry s (tbl c) with Some (_, v) => Ok v | None => Err KeyError end.
  Proof. intros c s G. destruct (good_eta _ G) as [E D]. rewrite E at 1. now apply getitem_idx. Qed.

  Lemma get_good : forall c s, good c -> get lower string c s None = Ok (option_map snd (entry s (tbl c))).
  Proof.
    intros c s G. unfold get. rewrite contains_good, getitem_good by auto. destruct (entry s (tbl c)) as [[? ?]|]; reflexivity.
  Qed.

  Lemma first_entry : forall t s i r, t = (s, i) :: r -> entry s t = Some (s, i).
  Proof. intros t s i r ->. unfold CidSpec.entry, same_key; cbn. now rewrite String.eqb_refl. Qed.

  Lemma entity_eq_link_iff : forall c l, good c ->
    (entity_eq_link lower c l = true <-> carries lower (tbl c) (l_scope l) (l_id l)).
  Proof.
    intros c l G. unfold entity_eq_link. rewrite get_good by auto. destruct (good_eta _ G) as [_ D].
    rewrite entry_carries by auto. destruct (entry (l_scope l) (tbl c)) as [[s i]|]; cbn.
    - rewrite String.eqb_eq. split; [intros ->; eauto | intros [s' E]; congruence].
    - split; [discriminate | intros [s' E]; discriminate].
  Qed.

  Lemma link_eq_entity_iff : forall c l, good c ->
    (link_eq_entity lower l c = true <-> carries lower (tbl c) (l_scope l) (l_id l)).
  Proof.
    intros c l G. rewrite <- entity_eq_link_iff by auto. unfold link_eq_entity, entity_eq_link.
    rewrite get_good, contains_good, getitem_good by auto. destruct (entry (l_scope l) (tbl c)) as [[s i]|]; cbn; tauto.
  Qed.

  Lemma entity_eq_pair_iff : forall c s i, good c -> (entity_eq_pair lower c s i = true <-> carries lower (tbl c) s i).
  Proof.
    intros c s i G. rewrite <- (entity_eq_link_iff c (mkLink s i)) by auto. unfold entity_eq_pair, entity_eq_link; cbn.
    rewrite get_good, contains_good, getitem_good by auto. destruct (entry s (tbl c)) as [[? ?]|]; cbn; tauto.
  Qed.

  Lemma to_link_ok : forall c scope fb l, good c -> to_link lower c scope fb = Ok l ->
    carries lower (tbl c) (l_scope l) (l_id l)
    /\ (forall s, scope = Some s -> has_scope lower (tbl c) s -> l_scope l = s)
    /\ ((forall s, scope = Some s -> ~ has_scope lower (tbl c) s) ->
        exists r, tbl c = (l_scope l, l_id l) :: r).
  Proof.
    intros c scope fb l G. destruct (good_eta _ G) as [_ D]. unfold to_link.
    destruct (tbl c) as [|[f fi] r] eqn:T; [discriminate|]. rewrite <- T in *.
    assert (F := first_entry _ _ _ _ T).
    assert (C : forall s, get lower string c s None = Ok (option_map snd (entry s (tbl c)))) by (intros; now apply get_good).
    assert (X : forall s i s', entry s (tbl c) = Some (s', i) -> carries lower (tbl c) s i).
    { intros s i s' E. apply entry_carries; eauto. }
    destruct scope as [s|].
    - rewrite contains_good by auto. destruct (entry s (tbl c)) as [[s' i]|] eqn:E.
      + rewrite andb_false_r. cbv zeta. rewrite C, E. cbn. intros [= <-]; cbn. split; [eauto|]. split; [congruence|].
        intros N. exfalso. apply (N s eq_refl). apply entry_has. congruence.
      + rewrite andb_true_r. destruct fb.
        * rewrite C, F; cbn. intros [= <-]; cbn. split; [eauto|]. split; [|eauto].
          intros s2 [= <-] H. exfalso. apply entry_has in H. congruence.
        * rewrite C, E; cbn. discriminate.
    - rewrite C, F; cbn. intros [= <-]; cbn. split; [eauto|]. split; [discriminate | eauto].
  Qed.

  Lemma to_link_err : forall c scope fb, good c ->
    ((exists e, to_link lower c scope fb = Err e) <->
     (tbl c = [] \/ exists s, scope = Some s /\ fb = false /\ ~ has_scope lower (tbl c) s))
    /\ (forall e, to_link lower c scope fb = Err e -> e = ValueError).
  Proof.
    intros c scope fb G. destruct (good_eta _ G) as [_ D]. unfold to_link.
    destruct (tbl c) as [|[f fi] r] eqn:T.
    { split; [split; eauto | intros e [= <-]; auto]. }
    rewrite <- T in *. assert (F := first_entry _ _ _ _ T). assert (T' : tbl c <> []) by congruence.
    assert (C : forall s, get lower string c s None = Ok (option_map snd (entry s (tbl c)))) by (intros; now apply get_good).
    destruct scope as [s|].
    - rewrite contains_good by auto. destruct (entry s (tbl c)) as [[s' i]|] eqn:E.
      + rewrite andb_false_r. cbv zeta. rewrite C, E. cbn. split; [|discriminate]. split; [intros [e H]; discriminate|].
        intros [H|[s2 [[= <-] [_ N]]]]; [congruence|]. exfalso. apply N. apply entry_has. congruence.
      + rewrite andb_true_r. destruct fb.
        * rewrite C, F; cbn. split; [|discriminate]. split; [intros [e H]; discriminate|].
          intros [H|[s2 [_ [H _]]]]; [congruence | discriminate].
        * rewrite C, E; cbn. split; [|congruence]. split; eauto. intros _. right. exists s. repeat split; auto.
          intros H. apply entry_has in H. congruence.
    - rewrite C, F; cbn. split; [|discriminate]. split; [intros [e H]; discriminate|].
      intros [H|[s2 [H _]]]; [congruence | discriminate].
  Qed.

  Lemma from_entity_spec : forall c scope fresh, good c ->
    let s := match scope with None => "auto" | Some s => s end in
    exists l, snd (from_entity lower c scope fresh) = Ok l /\
      carries lower (tbl (fst (from_entity lower c scope fresh))) (l_scope l) (l_id l) /\
      good (fst (from_entity lower c scope fresh)) /\
      (tbl c = [] -> tbl (fst (from_entity lower c scope fresh)) = [(s, fresh)] /\ l = mkLink s fresh) /\
      (tbl c <> [] -> fst (from_entity lower c scope fresh) = c /\
         (has_scope lower (tbl c) s -> l_scope l = s) /\
         (~ has_scope lower (tbl c) s -> exists r, tbl c = (l_scope l, l_id l) :: r)).
  Proof.
    intros c scope fresh G s. destruct (good_eta _ G) as [_ D]. unfold from_entity. fold s.
    rewrite contains_good, getitem_good by auto. destruct (entry s (tbl c)) as [[s' i]|] eqn:E.
    - exists (mkLink s i). cbn. split; auto. split; [apply entry_carries; eauto|]. split; auto. split.
      + intros T. exfalso. rewrite T in E. discriminate.
      + intros _. split; auto. split; auto. intros N. exfalso. apply N, entry_has. congruence.
    - destruct (tbl c) as [|[f fi] r] eqn:T.
      + pose proof (add_uid_spec c s fresh G) as S. rewrite T in S. cbn in S. destruct S as [-> D']. cbn [tbl fst snd].
        exists (mkLink s fresh). split; auto. split; [exists s; cbn; auto|]. split; [split; auto|].
        split; [auto | congruence].
      + exists (mkLink f fi). cbn [fst snd]. rewrite T. cbn [l_scope l_id]. rewrite <- T in *. split; auto. split; [|split; [auto|split; [congruence|]]].
        * apply entry_carries; auto. exists f. eapply first_entry; eauto.
        * intros _. split; auto. split; [intros H; exfalso; apply entry_has in H; congruence | eauto].
  Qed.
End Link.
