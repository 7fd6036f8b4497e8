(** C18, C27, C40: identifiers and links. *)
From Coq Require Import String List Bool ZArith.
From Verif Require Import Base BaseFacts PyStr CidModel KeywordModel CidSpec CidProofs LinkModel LinkSpec LinkProofs.
Import ListNotations.
Open Scope string_scope.
Open Scope list_scope.

(** ** C40: uids stay unambiguous *)

(** Whatever the history of assignments (None, mapping, pair), [add_uid] calls and dictionary
    operations -- except [setdefault] and an [update] naming one scope in two casings, see C01 --
    no two scopes agree up to case. *)
Theorem uids_unambiguous_partial : forall lower c, reachable lower c -> distinct_keys lower string (tbl c).
Proof. intros lower c R. now apply reachable_good in R as [_ D]. Qed.

(** [add_uid] with a scope held in another casing is rejected and changes nothing; otherwise the
    identifier is found under every casing of the scope and other scopes are as before. *)
Theorem add_uid_effect : forall lower c scope id, reachable lower c ->
  (forall s i, In (s, i) (tbl c) -> lower s = lower scope -> s <> scope ->
     add_uid lower c scope id = (c, Some ValueError))
  /\ ((forall s i, In (s, i) (tbl c) -> lower s = lower scope -> s = scope) ->
     snd (add_uid lower c scope id) = None /\
     forall s i, carries lower (tbl (fst (add_uid lower c scope id))) s i <->
       (if String.eqb (lower s) (lower scope) then i = id else carries lower (tbl c) s i)).
Proof.
  intros lower c scope id R. apply reachable_good in R as G. destruct (good_eta _ _ G) as [_ D].
  pose proof (add_uid_spec lower c scope id G) as S. split.
  - intros s i I L N. unfold store in S.
    destruct (entry lower string scope (tbl c)) as [[s' i']|] eqn:E.
    + assert (s' = s).
      { assert (X : exists s', entry lower string scope (tbl c) = Some (s', i)) by (apply entry_carries; auto; exists s; auto).
        destruct X as [s2 X]. rewrite E in X. injection X as -> ->.
        apply entry_In in E as [I2 L2]. cbn in L2. clear - D I I2 L L2. unfold distinct_keys in D.
        induction (tbl c) as [|x r IH]; [contradiction|]. cbn in D. inv D.
        destruct I as [->|I]; destruct I2 as [E2|I2]; subst; auto; try congruence.
        - exfalso; apply H1; cbn. rewrite L, <- L2. now apply (in_map (fun kv => lower (fst kv))) in I2.
        - exfalso; apply H1; cbn. rewrite L2, <- L. now apply (in_map (fun kv => lower (fst kv))) in I. }
      subst s'. replace (String.eqb scope s) with false in S; auto. symmetry; apply String.eqb_neq; congruence.
    + exfalso. apply entry_None in E. apply E. rewrite <- L. now apply (in_map (fun kv => lower (fst kv))) in I.
  - intros H. unfold store in S.
    destruct (entry lower string scope (tbl c)) as [[s' i']|] eqn:E.
    + apply entry_In in E as E'. destruct E' as [I L]. cbn in L. assert (s' = scope) by eauto. subst s'.
      rewrite String.eqb_refl in S. destruct S as [-> _]. cbn [fst snd tbl]. split; auto.
      intros s j. unfold carries, overwrite. destruct (String.eqb (lower s) (lower scope)) eqn:Q; str_eq.
      * split.
        { intros [s' [I' L']]. apply in_map_iff in I' as [[a b] [E2 I2]]. unfold same_key in E2; cbn in E2.
          destruct (String.eqb (lower scope) (lower a)) eqn:Q2; str_eq; injection E2 as -> ->; auto. congruence. }
        { intros ->. exists scope. split; auto. apply in_map_iff. exists (scope, i'). unfold same_key; cbn. now rewrite String.eqb_refl. }
      * split; intros [s' [I' L']].
        { apply in_map_iff in I' as [[a b] [E2 I2]]. unfold same_key in E2; cbn in E2.
          destruct (String.eqb (lower scope) (lower a)) eqn:Q2; str_eq; injection E2 as -> ->; [congruence | eauto]. }
        { exists s'. split; auto. apply in_map_iff. exists (s', j). unfold same_key; cbn.
          destruct (String.eqb (lower scope) (lower s')) eqn:Q2; str_eq; auto. congruence. }
    + destruct S as [-> _]. cbn [fst snd tbl]. split; auto. intros s j. unfold carries.
      apply entry_None in E.
      destruct (String.eqb (lower s) (lower scope)) eqn:Q; str_eq.
      * split.
        { intros [s' [I' L']]. apply in_app_iff in I' as [I'|[E2|[]]]; [|congruence].
          exfalso; apply E. rewrite <- Q, <- L'. now apply (in_map (fun kv => lower (fst kv))) in I'. }
        { intros ->. exists scope. split; auto. apply in_app_iff; cbn; auto. }
      * split; intros [s' [I' L']].
        { apply in_app_iff in I' as [I'|[E2|[]]]; [eauto | congruence]. }
        { exists s'. split; auto. apply in_app_iff; auto. }
Qed.

(** A rejected operation of any kind leaves the uids as they were. *)
Theorem uids_rejected_unchanged_partial : forall lower c o e,
  reachable lower c -> allowed lower o -> snd (ustep lower c o) = Some e -> fst (ustep lower c o) = c.
Proof. intros lower c o e R A H. apply reachable_good in R. eapply ustep_good; eauto. Qed.

(** What an assignment of a mapping to uids does, whatever the mapping: CaseInsensitiveDict gets it as keyword arguments, so a
    scope "self" is refused with TypeError; one called "seq" is refused with ValueError unless its identifier is empty, and is then
    left out; the other scopes are stored, in order, if no two are equal up to case, and refused with ValueError otherwise. A
    refused assignment leaves the old uids. *)
Lemma store_all_new : forall lower l s, distinct_keys lower string (s ++ l) -> store_all lower string s l = Some (s ++ l).
Proof.
  intros lower. induction l as [|[k v] r IH]; intros s D; cbn; [now rewrite app_nil_r|].
  assert (E : entry lower string k s = None).
  { apply entry_None. unfold distinct_keys in D. rewrite map_app in D. cbn in D. apply NoDup_remove_2 in D. intros I. apply D. apply in_app_iff. auto. }
  unfold store. rewrite E, IH by now rewrite <- app_assoc. now rewrite <- app_assoc.
Qed.

Theorem set_uids_outcome : forall lower c l, NoDup (keys l) ->
  let kept := filter (fun p => negb (String.eqb (fst p) "seq")) l in
  (In "self" (keys l) -> set_uids lower c (UMapping l) = (c, Some TypeError))
  /\ (~ In "self" (keys l) -> (exists i, In ("seq", i) l /\ i <> "") -> set_uids lower c (UMapping l) = (c, Some ValueError))
  /\ (~ In "self" (keys l) -> (forall i, In ("seq", i) l -> i = "") ->
      (NoDup (map (fun p => lower (fst p)) kept) -> exists c', set_uids lower c (UMapping l) = (c', None) /\ tbl c' = kept)
      /\ (~ NoDup (map (fun p => lower (fst p)) kept) -> set_uids lower c (UMapping l) = (c, Some ValueError))).
Proof.
  intros lower c l N kept. unfold set_uids, keyword_init.
  assert (S : existsb (fun p => String.eqb (fst p) "self") l = true <-> In "self" (keys l)).
  { rewrite existsb_exists. unfold keys. rewrite in_map_iff. split; intros (p & I & E).
    - exists p. apply String.eqb_eq in E. auto.
    - exists p. subst. rewrite I. auto. }
  assert (Q : existsb (fun p => String.eqb (fst p) "seq" && negb (String.eqb (snd p) "")) l = true <-> exists i, In ("seq", i) l /\ i <> "").
  { rewrite existsb_exists. split.
    - intros ([s i] & I & E). cbn in E. apply andb_true_iff in E as [E1 E2]. apply String.eqb_eq in E1 as ->. exists i. split; auto.
      intros ->. discriminate.
    - intros (i & I & Ne). exists ("seq", i). split; auto. cbn. apply String.eqb_neq in Ne. now rewrite Ne. }
  split; [|split].
  - intros I. apply S in I. now rewrite I.
  - intros I J. destruct (existsb _ l); [exfalso; apply I; now apply S|]. apply Q in J. now rewrite J.
  - intros I J. destruct (existsb (fun p => String.eqb (fst p) "self") l); [exfalso; apply I; now apply S|].
    destruct (existsb _ l) eqn:X; [destruct (proj1 Q eq_refl) as (i & Ii & Ne); exfalso; auto|]. fold kept. split; intros D.
    + destruct (init_ok lower string kept kept) as [-> _]; [now apply (store_all_new lower kept [])|]. eexists. split; reflexivity.
    + destruct (store_all lower string [] kept) as [t|] eqn:T; [|now rewrite (init_err _ _ _ T)].
      exfalso. destruct (init_ok _ _ _ _ T) as [E Dt]. apply D.
      destruct (store_all_update lower string kept [] t) as [Eu _]; auto; [constructor|].
      assert (Nk : NoDup (keys kept)).
      { unfold kept, keys. clear - N. induction l as [|p r IH]; cbn; [constructor|]. inversion_clear N as [|? ? A B]. destruct (negb _); cbn; auto.
        constructor; auto. intros I. apply A. apply in_map_iff in I as (q & <- & I). apply filter_In in I as [I _]. now apply in_map. }
      assert (P : forall (m s : list (string * string)), NoDup (keys (s ++ m)) -> dict_update m s = s ++ m).
      { clear. induction m as [|[k v] r IH]; intros s Ns; cbn; [now rewrite app_nil_r|].
        assert (F : dict_set k v s = s ++ [(k, v)]).
        { unfold keys in Ns. rewrite map_app in Ns. cbn in Ns. apply NoDup_remove_2 in Ns. clear - Ns. induction s as [|[a b] s IH]; auto. cbn in *.
          destruct (String.eqb_spec k a); [subst; exfalso; auto|]. rewrite IH; auto. }
        change (dict_update r (dict_set k v s) = s ++ (k, v) :: r). rewrite F, IH; rewrite <- app_assoc; auto. }
      rewrite (P kept []) in Eu by auto. cbn in Eu. rewrite <- Eu in Dt. exact Dt.
Qed.

(** So what add_uid can store cannot always be assigned: the uids of an entity, assigned to it again, are refused, or lose an entry. *)
Theorem own_uids_assigned_refuted : exists c d, reachable lower c /\ reachable lower d
  /\ set_uids lower c (UMapping (tbl c)) = (c, Some ValueError)
  /\ set_uids lower d (UMapping (tbl d)) = (mkCid [("id", "1")] [("id", "id")], None) /\ tbl d = [("id", "1"); ("seq", "")].
Proof.
  exists (mkCid [("seq", "7")] [("seq", "seq")]), (mkCid [("id", "1"); ("seq", "")] [("id", "id"); ("seq", "seq")]).
  split; [exists [UAdd "seq" "7"]; split; [repeat constructor|vm_compute; reflexivity]|].
  split; [exists [UAdd "id" "1"; UAdd "seq" ""]; split; [repeat constructor|vm_compute; reflexivity]|].
  split; [|split]; vm_compute; reflexivity.
Qed.

Example ex_set_uids : forall c, set_uids lower c (UMapping [("id", "1"); ("self", "2")]) = (c, Some TypeError)
  /\ set_uids lower c (UMapping [("Id", "1"); ("iD", "2")]) = (c, Some ValueError)
  /\ tbl (fst (set_uids lower c (UMapping [("Seq", "1"); ("seq", ""); ("id", "2")]))) = [("Seq", "1"); ("id", "2")].
Proof. intros c. repeat split. Qed.

Example ex_uids : reachable lower (mkCid [("My_ID", "1"); ("other", "2")] [("my_id", "My_ID"); ("other", "other")])
  /\ add_uid lower (mkCid [("My_ID", "1")] [("my_id", "My_ID")]) "MY_ID" "3" = (mkCid [("My_ID", "1")] [("my_id", "My_ID")], Some ValueError).
Proof.
  split; [|vm_compute; reflexivity].
  exists [UAssign (UPair "x" "y"); UAssign (UMapping [("My_ID", "1")]); UAdd "other" "2"; UAdd "OTHER" "4"; UDict (OSet "my_id" "5")].
  split; [repeat constructor | vm_compute; reflexivity].
Qed.

(** ** C18: links made from entities *)

(** [to_link] never changes the entity (it returns no new state). When it succeeds the link names
    one of the entity's identifiers, under the requested scope if the entity has it and otherwise
    under its first scope; it fails exactly when there are no uids, or the requested scope is
    missing and no fallback is allowed. *)
Theorem to_link_correct : forall lower c scope fallback, reachable lower c ->
  (forall l, to_link lower c scope fallback = Ok l ->
     carries lower (tbl c) (l_scope l) (l_id l)
     /\ (forall s, scope = Some s -> has_scope lower (tbl c) s -> l_scope l = s)
     /\ ((forall s, scope = Some s -> ~ has_scope lower (tbl c) s) -> exists r, tbl c = (l_scope l, l_id l) :: r))
  /\ ((exists e, to_link lower c scope fallback = Err e) <->
      (tbl c = [] \/ exists s, scope = Some s /\ fallback = false /\ ~ has_scope lower (tbl c) s))
  /\ (forall e, to_link lower c scope fallback = Err e -> e = ValueError).
Proof.
  intros lower c scope fb R. apply reachable_good in R. split; [|apply to_link_err; auto].
  intros l H. eapply to_link_ok; eauto.
Qed.

(** The link made by [to_link] equals the entity, whichever side the comparison is asked on. *)
Theorem to_link_equal : forall lower c scope fallback l, reachable lower c ->
  to_link lower c scope fallback = Ok l -> entity_eq_link lower c l = true /\ link_eq_entity lower l c = true.
Proof.
  intros lower c scope fb l R H. apply reachable_good in R. apply (to_link_ok lower) in H as [H _]; auto.
  split; [now apply entity_eq_link_iff | now apply link_eq_entity_iff].
Qed.

(** [LinkByUID.from_entity] always succeeds; the link names an identifier of the entity and equals
    it; an entity with uids is unchanged, one without gets exactly the new one. *)
Theorem from_entity_correct : forall lower c scope fresh, reachable lower c ->
  let s := match scope with None => "auto" | Some s => s end in
  let c' := fst (from_entity lower c scope fresh) in
  exists l, snd (from_entity lower c scope fresh) = Ok l /\
    carries lower (tbl c') (l_scope l) (l_id l) /\
    entity_eq_link lower c' l = true /\ link_eq_entity lower l c' = true /\
    (tbl c = [] -> tbl c' = [(s, fresh)] /\ l = mkLink s fresh) /\
    (tbl c <> [] -> c' = c /\
       (has_scope lower (tbl c) s -> l_scope l = s) /\
       (~ has_scope lower (tbl c) s -> exists r, tbl c = (l_scope l, l_id l) :: r)).
Proof.
  intros lower c scope fresh R s c'. apply reachable_good in R.
  destruct (from_entity_spec lower c scope fresh R) as [l [H1 [H2 [H3 [H4 H5]]]]].
  exists l. split; auto. split; auto. split; [now apply entity_eq_link_iff|]. split; [now apply link_eq_entity_iff|]. auto.
Qed.

Example ex_links :
  let c := mkCid [("My_ID", "1"); ("other", "2")] [("my_id", "My_ID"); ("other", "other")] in
  to_link lower c (Some "OTHER") false = Ok (mkLink "OTHER" "2")
  /\ to_link lower c (Some "auto") true = Ok (mkLink "My_ID" "1")
  /\ to_link lower c (Some "auto") false = Err ValueError
  /\ from_entity lower (mkCid [] []) None "u-1" = (mkCid [("auto", "u-1")] [("auto", "auto")], Ok (mkLink "auto" "u-1")).
Proof. vm_compute. auto. Qed.

(** ** C27: equality and hashing of links *)

(** Two links are equal exactly when scope and id agree; equality is an equivalence relation and
    equal links hash alike, as do a link and the pair it is interchangeable with. *)
Theorem link_equality : forall l l' l'' (hash : string * string -> Z),
  (link_eq l l' = true <-> l_scope l = l_scope l' /\ l_id l = l_id l')
  /\ link_eq l l = true
  /\ (link_eq l l' = true -> link_eq l' l = true)
  /\ (link_eq l l' = true -> link_eq l' l'' = true -> link_eq l l'' = true)
  /\ (link_eq l l' = true -> link_hash hash l = link_hash hash l')
  /\ (forall s i, link_eq_pair l s i = true -> link_hash hash l = hash (s, i) /\ link_eq l (mkLink s i) = true).
Proof.
  intros l l' l'' hash.
  assert (I : forall a b, link_eq a b = true <-> l_scope a = l_scope b /\ l_id a = l_id b).
  { intros a b. unfold link_eq. now rewrite andb_true_iff, !String.eqb_eq. }
  split; [apply I|]. split; [now apply I|]. split; [rewrite !I; intuition|]. split; [rewrite !I; intuition congruence|].
  split.
  - rewrite I. intros [E1 E2]. unfold link_hash. now rewrite E1, E2.
  - intros s i H. unfold link_eq_pair in H. apply andb_true_iff in H as [E1 E2]; str_eq.
    unfold link_hash. split; auto. apply I; cbn. auto.
Qed.

(** A link equals an entity, from either side, exactly when the entity carries the id under the
    link's scope in some casing; likewise for the pair of scope and id. *)
Theorem link_entity_equality : forall lower c l, reachable lower c ->
  (link_eq_entity lower l c = true <-> carries lower (tbl c) (l_scope l) (l_id l))
  /\ (entity_eq_link lower c l = true <-> carries lower (tbl c) (l_scope l) (l_id l))
  /\ (entity_eq_pair lower c (l_scope l) (l_id l) = true <-> carries lower (tbl c) (l_scope l) (l_id l)).
Proof.
  intros lower c l R. apply reachable_good in R.
  split; [now apply link_eq_entity_iff|]. split; [now apply entity_eq_link_iff | now apply entity_eq_pair_iff].
Qed.

(** Finding: links that differ in the casing of the scope equal the same entity but not each other. *)
Theorem link_transitive_refuted : exists c l l',
  reachable lower c /\ link_eq_entity lower l c = true /\ entity_eq_link lower c l' = true /\ link_eq l l' = false.
Proof.
  exists (mkCid [("id", "1")] [("id", "id")]), (mkLink "id" "1"), (mkLink "ID" "1").
  split; [|vm_compute; auto]. exists [UAdd "id" "1"]. split; [repeat constructor | reflexivity].
Qed.

Print Assumptions set_uids_outcome.
Print Assumptions own_uids_assigned_refuted.
Print Assumptions uids_unambiguous_partial.
Print Assumptions add_uid_effect.
Print Assumptions uids_rejected_unchanged_partial.
Print Assumptions to_link_correct.
Print Assumptions to_link_equal.
Print Assumptions from_entity_correct.
Print Assumptions link_equality.
Print Assumptions link_entity_equality.
Print Assumptions link_transitive_refuted.
