(** Theorems about the substitutions that change their argument (C23). *)
From Coq Require Import String List Bool Arith Lia Permutation.
From Verif Require Import Base BaseFacts GraphModel GraphSpec GraphProofs GraphProperties EqModel EqSpec EqProofs EqProperties TravModel TravSpec TravProofs TravProperties SerialModel SerialSpec SerialProofs LoadLinkProofs InstSpec SubstProperties InPlaceModel InPlaceSpec InPlaceProofs InPlaceHeap InPlaceLinks InPlaceObjects.
Import ListNotations.
Open Scope string_scope.
Open Scope list_scope.
Open Scope nat_scope.

Lemma distinct_names : forall h, distinct_fields h -> forall x, NoDup (names_at h x).
Proof. intros h D x. unfold names_at, keys. destruct (hget h x) as [e|] eqn:H; [eapply D; eauto|constructor]. Qed.

Lemma hashable_spec : forall v l, hashable_in v -> within (PTuple l) v -> hashable (PTuple l) = true.
Proof. intros v l H W. apply hashable_iff. auto. Qed.

Lemma no_role : forall k f, role_of k f = None -> forall pk, ~ asked_kind k f pk.
Proof. intros k f N pk A. destruct (GraphProofs.asked_role _ _ _ A) as [R|[[R _]|[R|[lf R]]]]; congruence. Qed.

Section Links.
  Variable lower : string -> string.
  Variable refuses : heap -> string -> list (string * pv) -> string -> pv -> option exn.
  Variable rejects : heap -> oid -> string -> pv -> option exn.
  Variable scope : option string.
  Variable fallback : bool.

  Lemma linking_to_links : forall h top (P : oid -> Prop), (forall o, P o -> exists s i, link_for lower h scope fallback o s i) -> (forall o, P o -> top <> Some o) ->
    to_links_of lower h scope fallback P (linking lower h scope fallback top).
  Proof.
    intros h top P H N. split; [|reflexivity]. intros o Po. destruct (H o Po) as (s & i & Lf). destruct (proj2 (link_exact lower h scope fallback o) s i Lf) as [l Hl].
    destruct (proj1 (link_exact lower h scope fallback o) l Hl) as (s' & i' & -> & Lf'). exists s', i'. split; auto. cbn [linking]. rewrite Hl.
    destruct top as [t|]; auto. destruct (Nat.eqb_spec t o) as [->|]; auto. exfalso. now apply (N o Po).
  Qed.

  (** In a value that is not an entity, substitute_links in place replaces every entity by its link, and
      changes nothing else; no entity is changed. Missing for the full C23: tuples of numbers or of
      two strings, for which it is false ([pair_conflated_refuted], [numbers_conflated_refuted]). *)
  Theorem links_in_value_partial : forall h v, distinct_fields h -> (forall o, v <> PRef o) -> plain_tuples v -> hashable_in v ->
    (forall o, mentions v o -> exists s i, link_for lower h scope fallback o s i) ->
    (forall g, to_links_of lower h scope fallback (mentions v) g -> parts_accept refuses h g v) ->
    exists g, to_links_of lower h scope fallback (mentions v) g /\ substitute_links_in lower refuses rejects scope fallback h v = Ok (replace g v, h).
  Proof.
    intros h v D N P Hh Hl Ha. exists (linking lower h scope fallback None). assert (T : to_links_of lower h scope fallback (mentions v) (linking lower h scope fallback None)) by (apply linking_to_links; auto; discriminate).
    split; auto. apply links_value; auto using distinct_names. split; auto. split; [intros; eapply hashable_spec; eauto|]. split; auto. intros h' t fs k x K W I. eapply (Ha _ T); eauto.
  Qed.

  (** On an entity, substitute_links in place replaces every other entity in its assignable attributes by its
      link; the entity is returned; other entities keep their assignable attributes; the lists and
      outputs on the other side of references go on to mirror them; an ingredient run still reads its
      name and labels as before. *)
  Theorem links_in_entity_partial : forall h o, hget h o <> None -> distinct_fields h -> refs_typed h -> lists_mirror h -> processes_agree h -> all_own h ->
    (forall f, field_of h o f -> plain_tuples (fval h o f) /\ hashable_in (fval h o f)) ->
    (forall x f, field_of h o f -> mentions (fval h o f) x -> exists s i, link_for lower h scope fallback x s i) ->
    (forall g, to_links_of lower h scope fallback (fun x => x <> o /\ exists f, field_of h o f /\ mentions (fval h o f) x) g -> entity_accepts refuses rejects h g o) ->
    exists g h', to_links_of lower h scope fallback (fun x => x <> o /\ exists f, field_of h o f /\ mentions (fval h o f) x) g
      /\ substitute_links_in lower refuses rejects scope fallback h (PRef o) = Ok (PRef o, h') /\ links_effect g h o h'.
  Proof.
    intros h o Ho D T M A O P Hl Ha. set (g := linking lower h scope fallback (Some o)).
    assert (Tg : to_links_of lower h scope fallback (fun x => x <> o /\ exists f, field_of h o f /\ mentions (fval h o f) x) g).
    { apply linking_to_links; [intros x (_ & f & F & Mx); eauto|]. intros x (N & _) Q. congruence. }
    destruct (Ha g Tg) as (A1 & A2 & A3). exists g.
    destruct (links_entity lower refuses rejects scope fallback h o) as (h' & E & B & (Ag & Fr & Tx) & Ff); auto using distinct_names.
    - split; auto.
    - intros f F. destruct (P f F) as [P1 P2]. split; auto. split; [intros; eapply hashable_spec; eauto|]. split; eauto. intros h' t fs k x K W I. eapply (A1 f F); eauto.
    - intros h' k fs f K Ko Ro F. apply A2; auto. now apply no_role.
    - exists h'. split; auto. split; auto. constructor; auto; try apply Ag; [|intros x; apply B|apply B]. cbn. now rewrite Nat.eqb_refl.
  Qed.
End Links.
Print Assumptions links_in_value_partial.
Print Assumptions links_in_entity_partial.

(** ** substitute_objects in place *)

(** What the changed heap holds. *)
Definition objects_effect (names : string -> string -> option oid) (h : heap) (v : pv) (h' : heap) : Prop :=
  same_kinds h h' /\ (forall x, option_map e_uids (hget h' x) = option_map e_uids (hget h x))
  /\ (forall x f, involved h names v x -> field_of h x f -> fval h' x f = resolved names (fval h x f))
  /\ (forall x f, ~ involved h names v x -> field_of h x f -> fval h' x f = fval h x f)
  /\ (forall x f, field_of h x f -> fval h' x f = fval h x f \/ fval h' x f = resolved names (fval h x f)).

Section Objects.
  Variable lower : string -> string.
  Variable refuses : heap -> string -> list (string * pv) -> string -> pv -> option exn.
  Variable rejects : heap -> oid -> string -> pv -> option exn.
  Variable ix : index.
  Notation names := (index_get ix).

  (** Whatever the entities refer to and however they refer to each other, substitute_objects in place
      ends; if no setter raises an exception it returns the argument with the links in the index
      replaced by the entities there, has replaced them in all entities involved, and has left all
      other entities as they were. *)
  Theorem objects_in_exact_partial : forall h v, distinct_fields h -> (forall t, gone_through h names v t -> plain_tuples t) ->
    (forall h t fs k w, refuses h t fs k w <> Some RecursionError) -> (forall h o f w, rejects h o f w <> Some RecursionError) ->
    match substitute_objects_in lower refuses rejects ix h v with
    | Ok (w, h') => w = resolved names v /\ objects_effect names h v h'
    | Err e => e <> RecursionError
    end.
  Proof.
    intros h v D P N1 N2. assert (X := objects_ok lower refuses rejects ix h v (fun _ => True) (fun e => e <> RecursionError) (distinct_names h D) P).
    assert (H1 : forall (t : pv) (l : list pv), tracked ix h v t -> within (PTuple l) t -> hashable (PTuple l) = false -> TypeError <> RecursionError) by discriminate.
    specialize (X H1). assert (H2 : forall t h' c fs fs' k x e, tracked ix h v t -> within (PObj c fs) t -> In (k, x) fs -> (forall y, kind_at h' y = kind_at h y) -> refuses h' c fs' k (replace (resolve names) x) = Some e -> e <> RecursionError) by (intros; intros ->; eapply N1; eauto).
    specialize (X H2). assert (H3 : forall h' o f l x e, involved h names v o -> field_of h o f -> fval h o f = PList l -> In x l -> (forall y, kind_at h' y = kind_at h y) -> rejects h' o f (replace (resolve names) x) = Some e -> e <> RecursionError) by (intros; intros ->; eapply N2; eauto).
    specialize (X H3). assert (H4 : forall h1 o f u, base (resolve names) h h1 -> True -> involved h names v o -> listed_as (resolve names) h h1 o f u -> match store lower refuses h1 o f u (replace (resolve names) u) with Ok _ => True | Err e => e <> RecursionError end).
    { intros h1 o f u B _ Hi Hl. assert (Y := store_effect lower refuses (resolve names) (g_ref ix) (g_idem ix) h h1 o f u B Hl). destruct (store _ _ h1 o f u _) as [h2|e]; auto. destruct Y as (_ & [(k & r & _ & _ & E)|(k & fs & _ & _ & E)]); [eapply assign_exn; eauto|intros ->; eapply N1; eauto]. }
    specialize (X H4 I). destruct (substitute_objects_in _ _ _ ix h v) as [[w h']|e]; auto. destruct X as (-> & B & _ & Y & Z). split; [reflexivity|]. split; [intros x; apply B|]. split; [apply B|]. split; auto. split; auto. apply B.
  Qed.

  (** It does succeed, and the lists and outputs on the other side of references mirror the new references,
      if the entities in the index are of the classes that the attributes ask for and no process is
      given to two materials, and the setters accept. *)
  Theorem objects_in_succeeds_partial : forall h v, distinct_fields h -> all_own h -> lists_mirror h -> processes_agree h ->
    (forall t, gone_through h names v t -> plain_tuples t /\ hashable_in t) ->
    (forall o k f pk, involved h names v o -> kind_at h o = Some k -> asked_kind k f pk -> well_typed h o f (resolved names (fval h o f))) ->
    (forall m m' p mk pk, couple mk pk -> kind_at h m = Some mk -> kind_at h m' = Some mk -> resolved names (fval h m "process") = PRef p -> resolved names (fval h m' "process") = PRef p -> m = m') ->
    parts_accept refuses h (resolve names) v -> (forall o, involved h names v o -> entity_accepts refuses rejects h (resolve names) o) ->
    exists h', substitute_objects_in lower refuses rejects ix h v = Ok (resolved names v, h') /\ objects_effect names h v h' /\ lists_mirror h' /\ processes_agree h'.
  Proof.
    intros h v D O M A P T S Pv Pe. assert (X := objects_ok lower refuses rejects ix h v agreeing (fun _ => False) (distinct_names h D) (fun t Ht => proj1 (P t Ht))).
    assert (H1 : forall (t : pv) (l : list pv), tracked ix h v t -> within (PTuple l) t -> hashable (PTuple l) = false -> False) by (intros t l Ht W Hn; rewrite (hashable_spec t l) in Hn; [discriminate|apply (P t Ht)|auto]).
    specialize (X H1).
    assert (H2 : forall t h' c fs fs' k x e, tracked ix h v t -> within (PObj c fs) t -> In (k, x) fs -> (forall y, kind_at h' y = kind_at h y) -> refuses h' c fs' k (replace (resolve names) x) = Some e -> False).
    { intros t h' c fs fs' k x e [->|(o & f & Ho & F & ->)] W I K E; [rewrite (Pv h' c fs fs' k x) in E|destruct (Pe o Ho) as [Q _]; rewrite (Q f F h' c fs fs' k x) in E]; auto; discriminate. }
    specialize (X H2). assert (H3 : forall h' o f l x e, involved h names v o -> field_of h o f -> fval h o f = PList l -> In x l -> (forall y, kind_at h' y = kind_at h y) -> rejects h' o f (replace (resolve names) x) = Some e -> False).
    { intros h' o f l x e Ho F E Hx K Er. destruct (Pe o Ho) as (_ & _ & Q). rewrite (Q h' f l x) in Er; auto. discriminate. }
    specialize (X H3). assert (H4 := tidy_store lower refuses ix h v O T S).
    assert (H5 : forall h' o k fs f, involved h names v o -> (forall y, kind_at h' y = kind_at h y) -> kind_at h o = Some k -> role_of k f = None -> field_of h o f -> refuses h' (typ_of k) fs f (replace (resolve names) (fval h o f)) = None).
    { intros h' o k fs f Ho K Ko R F. destruct (Pe o Ho) as (_ & Q & _). apply Q; auto. now apply no_role. }
    specialize (X (H4 H5) (conj M A)). destruct (substitute_objects_in _ _ _ ix h v) as [[w h']|e]; [|destruct X]. destruct X as (-> & B & [M' A'] & Y & Z). exists h'. split; [reflexivity|]. split; [|auto].
    split; [intros x; apply B|]. split; [apply B|]. split; auto. split; auto. apply B.
  Qed.
End Objects.
Print Assumptions objects_in_exact_partial.
Print Assumptions objects_in_succeeds_partial.

(** ** substitute_objects undoes substitute_links *)

Lemma resolved_same : forall names v, (forall s i, within (PLink s i) v -> names s i = None) -> resolved names v = v.
Proof.
  intros names v H. apply replace_same; [reflexivity|]. intros s i W. cbn. now rewrite (H s i W).
Qed.

Lemma restored : forall lower h scope fb P names g v, to_links_of lower h scope fb P g -> (forall o, mentions v o -> P o \/ g (PRef o) = PRef o) ->
  (forall o s i, P o -> link_for lower h scope fb o s i -> names s i = Some o) -> (forall s i, within (PLink s i) v -> names s i = None) ->
  resolved names (replace g v) = v.
Proof.
  intros lower h scope fb P names g v [T1 T2] HP Hn Hv. unfold resolved. induction v using pv_ind2; cbn [replace]; auto.
  - rewrite T2. cbn. rewrite Hv; auto. constructor.
  - destruct (HP o) as [Po|Eo]; [constructor| |rewrite Eo; reflexivity]. destruct (T1 o Po) as (s & i & -> & Lf). cbn. now rewrite (Hn o s i Po Lf).
  - f_equal. rewrite map_map. rewrite <- (map_id l) at 2. apply map_ext_in. intros x I. rewrite Forall_forall in H. apply H; auto; intros; [apply HP; econstructor|apply Hv; econstructor]; eauto.
  - f_equal. rewrite map_map. rewrite <- (map_id l) at 2. apply map_ext_in. intros x I. rewrite Forall_forall in H. apply H; auto; intros; [apply HP; eapply m_tuple|apply Hv; eapply w_tuple]; eauto.
  - f_equal. rewrite map_map. rewrite <- (map_id l) at 2. apply map_ext_in. intros [k x] I. rewrite Forall_forall in H. cbn. f_equal. apply (H (k, x)); auto; intros; [apply HP; eapply m_dict|apply Hv; eapply w_dict]; eauto.
  - f_equal. rewrite map_map. rewrite <- (map_id l) at 2. apply map_ext_in. intros [k x] I. rewrite Forall_forall in H. cbn. f_equal. apply (H (k, x)); auto; intros; [apply HP; eapply EqSpec.m_obj|apply Hv; eapply w_obj]; eauto.
Qed.

Lemma plain_replace : forall g v, (forall r, is_ref r -> is_ref (g r)) -> plain_tuples v -> plain_tuples (replace g v).
Proof.
  intros g v G P l W. apply within_replace in W as (x & Wx & E); auto.
  assert (exists l', x = PTuple l') as [l' ->].
  { destruct x; cbn in E; try discriminate; eauto; exfalso; match type of E with _ = g ?r => destruct (G r) as [[? Z]|(? & ? & Z)] end; try congruence; [right|left]; eauto. }
  assert (C : clean (PTuple l)) by (rewrite E; apply clean_replace; auto; eapply plain_clean; eauto). destruct C as [C1 C2]. split; auto. intros s i. apply C2. constructor.
Qed.

Lemma hashable_in_replace : forall g v, (forall r, is_ref r -> is_ref (g r)) -> hashable_in v -> hashable_in (replace g v).
Proof.
  intros g v G P l W. apply within_replace in W as (x & Wx & E); auto. apply hashable_iff. rewrite E, hashable_replace by auto. 
  assert (exists l', x = PTuple l') as [l' ->].
  { destruct x; cbn in E; try discriminate; eauto; exfalso; match type of E with _ = g ?r => destruct (G r) as [[? Z]|(? & ? & Z)] end; try congruence; [right|left]; eauto. }
  apply hashable_iff. auto.
Qed.

Lemma replace_id : forall v, replace (fun r => r) v = v.
Proof. intros v. apply replace_same; reflexivity. Qed.

(** What holds of the entities and of the argument for both substitutions to succeed. *)
Record restorable (refuses : heap -> string -> list (string * pv) -> string -> pv -> option exn) (rejects : heap -> oid -> string -> pv -> option exn) (h : heap) : Prop := mkRestorable {
  rs_distinct : distinct_fields h;
  rs_own : all_own h;
  rs_typed : refs_typed h;
  rs_lists : lists_mirror h;
  rs_processes : processes_agree h;
  rs_tuples : forall x f, field_of h x f -> plain_tuples (fval h x f) /\ hashable_in (fval h x f);
  rs_accepts : forall x, entity_accepts refuses rejects h (fun r => r) x
}.

Section Restore.
  Variable lower : string -> string.
  Variable refuses : heap -> string -> list (string * pv) -> string -> pv -> option exn.
  Variable rejects : heap -> oid -> string -> pv -> option exn.
  Variable ix : index.
  Notation names := (index_get ix).

  Lemma restore : forall h h1 w, restorable refuses rejects h -> distinct_fields h1 -> same_kinds h h1 -> (forall x, option_map e_uids (hget h1 x) = option_map e_uids (hget h x)) ->
    lists_mirror h1 -> processes_agree h1 -> (forall t, gone_through h1 names w t -> plain_tuples t /\ hashable_in t) ->
    (forall x f, field_of h x f -> resolved names (fval h1 x f) = fval h x f) -> parts_accept refuses h (fun r => r) (resolved names w) ->
    exists h2, substitute_objects_in lower refuses rejects ix h1 w = Ok (resolved names w, h2) /\ objects_effect names h1 w h2 /\ lists_mirror h2 /\ processes_agree h2.
  Proof.
    intros h h1 w [D O T M A P Ac] D1 K1 U1 M1 A1 P1 Back Pw.
    assert (FF : forall x f, field_of h1 x f <-> field_of h x f) by (intros x f; now apply field_same).
    assert (As : forall k f pk, asked_kind k f pk -> assignable k f).
    { intros k f pk X. unfold asked_kind in X. cbn in X. split; [intros Y; unfold read_only in Y|intros [Y Z]]; intuition (try congruence); repeat match goal with H : (_, _, _) = (_, _, _) |- _ => inv H end; intuition discriminate. }
    assert (Parts : forall x f, field_of h x f -> parts_accept refuses h (fun r => r) (fval h x f)) by (intros x f F; apply (Ac x); auto).
    apply objects_in_succeeds_partial; auto.
    - eapply all_own_same; eauto.
    - intros o k f pk _ Ko Ak. rewrite K1 in Ko. rewrite Back by (exists k; split; eauto). destruct (T o k f pk Ko Ak) as (k' & pk' & K' & A' & W). exists k', pk'. rewrite K1. split; auto. split; auto.
      destruct W as [W|[W|(p & W & Kp)]]; auto. right; right. exists p. rewrite K1. auto.
    - intros m m' p mk pk C Km Km' E E'. rewrite K1 in Km, Km'. assert (Ap := couple_not_read_only _ _ C). rewrite Back in E by (exists mk; auto). rewrite Back in E' by (exists mk; auto).
      assert (X := proj1 (A mk pk m p C) (conj Km E)). assert (Y := proj1 (A mk pk m' p C) (conj Km' E')). destruct X as [_ X]. destruct Y as [_ Y]. congruence.
    - intros h' t fs fs' k x K W I. assert (Kh : same_kinds h h') by (intros y; rewrite K; apply K1). rewrite <- (replace_id (replace (resolve names) x)).
      apply (Pw h' t (map (fun kv => (fst kv, replace (resolve names) (snd kv))) fs)); auto; [apply (replace_within (resolve names)) in W; exact W|]. apply in_map_iff. exists (k, x). auto.
    - intros o _. split; [|split].
      + intros f F h' t fs fs' k x K W I. apply FF in F. assert (Kh : same_kinds h h') by (intros y; rewrite K; apply K1). rewrite <- (replace_id (replace (resolve names) x)).
        apply (Parts o f F h' t (map (fun kv => (fst kv, replace (resolve names) (snd kv))) fs)); auto.
        * apply (replace_within (resolve names)) in W. fold (resolved names (fval h1 o f)) in W. rewrite Back in W by auto. exact W.
        * apply in_map_iff. exists (k, x). auto.
      + intros h' k fs f K Ko F Na. apply FF in F. assert (Kh : same_kinds h h') by (intros y; rewrite K; apply K1). fold (resolved names (fval h1 o f)). rewrite Back by auto. rewrite K1 in Ko.
        destruct (Ac o) as (_ & Q & _). rewrite <- (replace_id (fval h o f)). apply Q; auto.
      + intros h' f l x K F E I. apply FF in F. assert (Kh : same_kinds h h') by (intros y; rewrite K; apply K1). destruct (Ac o) as (_ & _ & Q). rewrite <- (replace_id (replace (resolve names) x)).
        apply (Q h' f (map (replace (resolve names)) l)); auto; [|now apply in_map]. rewrite <- Back by auto. now rewrite E.
  Qed.
End Restore.

Lemma names_distinct : forall h, (forall x, NoDup (names_at h x)) -> distinct_fields h.
Proof. intros h N x e H. specialize (N x). unfold names_at in N. now rewrite H in N. Qed.

Section Inverse.
  Variable lower : string -> string.
  Variable refuses : heap -> string -> list (string * pv) -> string -> pv -> option exn.
  Variable rejects : heap -> oid -> string -> pv -> option exn.
  Variable scope : option string.
  Variable fallback : bool.
  Variable ix : index.
  Notation names := (index_get ix).

  (** substitute_objects in place with an index of the linked entities undoes substitute_links in place on an entity:
      every assignable attribute of every entity is again what it was, and the other sides of the
      references mirror them. *)
  Theorem entity_restored_partial : forall h o, restorable refuses rejects h -> hget h o <> None ->
    (forall x f, field_of h o f -> mentions (fval h o f) x -> exists s i, link_for lower h scope fallback x s i) ->
    (forall x f s i, field_of h o f -> mentions (fval h o f) x -> link_for lower h scope fallback x s i -> names s i = Some x) ->
    (forall x f s i, field_of h x f -> within (PLink s i) (fval h x f) -> names s i = None) ->
    (forall g, to_links_of lower h scope fallback (fun x => x <> o /\ exists f, field_of h o f /\ mentions (fval h o f) x) g -> entity_accepts refuses rejects h g o) ->
    exists h1 h2, substitute_links_in lower refuses rejects scope fallback h (PRef o) = Ok (PRef o, h1)
      /\ substitute_objects_in lower refuses rejects ix h1 (PRef o) = Ok (PRef o, h2)
      /\ (forall x f, field_of h x f -> fval h2 x f = fval h x f) /\ same_kinds h h2
      /\ (forall x, option_map e_uids (hget h2 x) = option_map e_uids (hget h x)) /\ lists_mirror h2 /\ processes_agree h2.
  Proof.
    intros h o Rs Ho Hl Hn Hk Ha. assert (Rs' := Rs). destruct Rs' as [D O T M A P Ac]. set (g := linking lower h scope fallback (Some o)).
    assert (Tg : to_links_of lower h scope fallback (fun x => x <> o /\ exists f, field_of h o f /\ mentions (fval h o f) x) g).
    { apply linking_to_links; [intros x (_ & f & F & Mx); eauto|]. intros x (N & _) Q. congruence. }
    destruct (Ha g Tg) as (B1 & B2 & B3).
    destruct (links_entity lower refuses rejects scope fallback h o) as (h1 & E1 & B & ([M1 A1] & Fr & _) & Ff); auto using distinct_names.
    - split; auto.
    - intros f F. destruct (P o f F) as [P1 P2]. split; auto. split; [intros; eapply hashable_spec; eauto|]. split; eauto. intros h' t fs k x K W I. eapply (B1 f F); eauto.
    - intros h' k fs f K Ko Ro F. apply B2; auto. now apply no_role.
    - assert (Gtop : g (PRef o) = PRef o) by (cbn; now rewrite Nat.eqb_refl). assert (Gr : forall r, is_ref r -> is_ref (g r)) by (intros; now apply linking_ref).
      assert (K1 : same_kinds h h1) by (intros x; apply B). assert (FF : forall x f, field_of h1 x f <-> field_of h x f) by (intros x f; now apply field_same).
      assert (Back : forall x f, field_of h x f -> resolved names (fval h1 x f) = fval h x f).
      { intros x f F. destruct (Nat.eq_dec x o) as [->|N].
        - rewrite Ff by auto. fold g. eapply restored; [exact Tg| | |eauto].
          + intros y My. destruct (Nat.eq_dec y o) as [->|Ny]; [auto|]. left. split; eauto.
          + intros y s i (Ny & f' & F' & My) Lf. eauto.
        - rewrite Fr by auto. apply resolved_same. eauto. }
      destruct (restore lower refuses rejects ix h h1 (PRef o)) as (h2 & E2 & (K2 & U2 & Y2 & Z2 & W2) & M2 & A2); auto.
      + apply names_distinct. apply B.
      + apply B.
      + intros t [->|(x & f & _ & F & ->)].
        * split; intros l W; inversion W.
        * apply FF in F. destruct (P x f F) as [P1 P2]. destruct (Nat.eq_dec x o) as [->|N]; [rewrite Ff by auto|rewrite Fr by auto]; auto. split; [now apply plain_replace|now apply hashable_in_replace].
      + intros h' t fs fs' k x K W. inversion W.
      + exists h1, h2. split; auto. split; [exact E2|]. split.
        { intros x f F. destruct (Nat.eq_dec x o) as [->|N].
          - rewrite Y2; [now apply Back| |now apply FF]. apply in_value. cbn. constructor.
          - destruct (W2 x f) as [Q|Q]; [now apply FF| |]; rewrite Q; [now apply Fr|now apply Back]. }
        split; [intros x; rewrite K2; apply K1|]. split; [intros x; rewrite U2; apply B|auto].
  Qed.

  (** The same in a value that is not an entity. *)
  Theorem value_restored_partial : forall h v, restorable refuses rejects h -> (forall o, v <> PRef o) -> plain_tuples v -> hashable_in v ->
    (forall x, mentions v x -> exists s i, link_for lower h scope fallback x s i) ->
    (forall x s i, mentions v x -> link_for lower h scope fallback x s i -> names s i = Some x) ->
    (forall s i, within (PLink s i) v -> names s i = None) -> (forall x f s i, field_of h x f -> within (PLink s i) (fval h x f) -> names s i = None) ->
    (forall g, to_links_of lower h scope fallback (mentions v) g -> parts_accept refuses h g v) -> parts_accept refuses h (fun r => r) v ->
    exists w h2, substitute_links_in lower refuses rejects scope fallback h v = Ok (w, h)
      /\ substitute_objects_in lower refuses rejects ix h w = Ok (v, h2)
      /\ (forall x f, field_of h x f -> fval h2 x f = fval h x f) /\ same_kinds h h2
      /\ (forall x, option_map e_uids (hget h2 x) = option_map e_uids (hget h x)) /\ lists_mirror h2 /\ processes_agree h2.
  Proof.
    intros h v Rs N P Hh Hl Hn Hv Hk Ha Pv. assert (Rs' := Rs). destruct Rs' as [D O T M A Pf Ac]. set (g := linking lower h scope fallback None).
    assert (Tg : to_links_of lower h scope fallback (mentions v) g) by (apply linking_to_links; auto; discriminate).
    assert (Gr : forall r, is_ref r -> is_ref (g r)) by (intros; now apply linking_ref).
    assert (Rv : resolved names (replace g v) = v) by (eapply restored; eauto).
    assert (Back : forall x f, field_of h x f -> resolved names (fval h x f) = fval h x f) by (intros; apply resolved_same; eauto).
    destruct (restore lower refuses rejects ix h h (replace g v)) as (h2 & E2 & (K2 & U2 & Y2 & Z2 & W2) & M2 & A2); auto.
    - intros x. reflexivity.
    - intros t [->|(x & f & _ & F & ->)]; [|auto]. split; [now apply plain_replace|now apply hashable_in_replace].
    - now rewrite Rv.
    - exists (replace g v), h2. split.
      + apply links_value; auto using distinct_names. split; auto. split; [intros; eapply hashable_spec; eauto|]. split; auto. intros h' t fs k x K W I. eapply (Ha _ Tg); eauto.
      + rewrite Rv in E2. split; auto. split; [|auto]. intros x f F. destruct (W2 x f F) as [Q|Q]; rewrite Q; auto.
  Qed.
End Inverse.
Print Assumptions entity_restored_partial.
Print Assumptions value_restored_partial.

(** ** make_index *)

(** The entities that a one-directional traversal from [obj] reaches. *)
Definition reached (h : heap) (obj : pv) (x : oid) : Prop := reach h (fun k f => negb (skipped k f)) obj x.
Definition named (h : heap) (x : oid) (s i : string) : Prop := exists e, hget h x = Some e /\ In (s, i) (e_uids e).

Lemma index_get_In : forall ix s i x, index_get ix s i = Some x -> In ((s, i), x) ix.
Proof.
  intros ix s i x H. unfold index_get in H. destruct (find _ ix) as [[[s' i'] x']|] eqn:F; [|discriminate]. cbn in H. inv H. apply find_some in F as [I Q]. cbn in Q. apply andb_prop in Q as [Q1 Q2].
  apply String.eqb_eq in Q1. apply String.eqb_eq in Q2. now subst.
Qed.
Lemma index_get_some : forall ix s i x, In ((s, i), x) ix -> exists y, index_get ix s i = Some y.
Proof.
  intros ix s i x I. unfold index_get. destruct (find _ ix) as [e|] eqn:F; [cbn; eauto|]. apply (find_none _ _ F) in I. cbn in I. now rewrite !String.eqb_refl in I.
Qed.

(** make_index finds an entity under a scope and id exactly if one of the entities reached has this uid;
    that entity is one of them. (Sorting and hashable tuples as in C20.) *)
Theorem make_index_exact_partial : forall sorted h obj, (forall l, Permutation (sorted l) l) -> hashable_tuples h everything obj ->
  exists ix, make_index sorted h obj = Ok ix
    /\ (forall s i x, index_get ix s i = Some x -> reached h obj x /\ named h x s i)
    /\ (forall s i x, reached h obj x -> named h x s i -> exists y, index_get ix s i = Some y).
Proof.
  intros sorted h obj Ps Hh. destruct (flatmap_one_way_partial sorted (fun k f => negb (skipped k f)) h obj Ps Hh) as (l & E & _ & R).
  { intros k f. rewrite negb_false_iff. apply skipped_iff. }
  unfold make_index. rewrite E. cbn [of_outcome bind]. eexists. split; [reflexivity|]. split.
  - intros s i x H. apply index_get_In in H. apply in_rev in H. apply in_flat_map in H as (o & Io & H). apply R in Io. destruct (hget h o) as [e|] eqn:He; [|destruct H].
    apply in_map_iff in H as (p & Q & Ip). inv Q. split; auto. exists e. auto.
  - intros s i x Rx (e & He & I). apply (index_get_some _ s i x). rewrite <- in_rev. apply in_flat_map. exists x. split; [now apply R|]. rewrite He. apply in_map_iff. exists (s, i). auto.
Qed.
Print Assumptions make_index_exact_partial.

Lemma reached_field : forall h obj x f y, distinct_fields h -> reached h obj x -> field_of h x f -> mentions (fval h x f) y -> reached h obj y.
Proof.
  intros h obj x f y D Rx (k & K & N & _) M. unfold kind_at in K. unfold fval, fget in M. destruct (hget h x) as [e|] eqn:He; [|discriminate]. cbn in K. inv K.
  destruct (dict_get f (e_fields e)) as [w|] eqn:Df; [|inversion M]. eapply r_field; [exact Rx|exact He|apply dict_get_In; exact Df| |exact M]. cbn. destruct (skipped (e_kind e) f) eqn:Sk; auto. exfalso. apply N. now apply skipped_iff.
Qed.

(** Without links in the attributes, and if no two entities share a uid: the index made of an entity before its
    references are replaced by links restores them all. *)
Theorem made_index_restores : forall lower refuses rejects sorted h o fallback, (forall l, Permutation (sorted l) l) -> hashable_tuples h everything (PRef o) ->
  restorable refuses rejects h -> hget h o <> None -> (forall x y s i, named h x s i -> named h y s i -> x = y) ->
  (forall x f, field_of h o f -> mentions (fval h o f) x -> exists s i, named h x s i) ->
  (forall x f s i, field_of h x f -> ~ within (PLink s i) (fval h x f)) ->
  (forall g, to_links_of lower h None fallback (fun x => x <> o /\ exists f, field_of h o f /\ mentions (fval h o f) x) g -> entity_accepts refuses rejects h g o) ->
  exists ix h1 h2, make_index sorted h (PRef o) = Ok ix /\ substitute_links_in lower refuses rejects None fallback h (PRef o) = Ok (PRef o, h1)
    /\ substitute_objects_in lower refuses rejects ix h1 (PRef o) = Ok (PRef o, h2)
    /\ (forall x f, field_of h x f -> fval h2 x f = fval h x f) /\ lists_mirror h2 /\ processes_agree h2.
Proof.
  intros lower refuses rejects sorted h o fb Ps Hh Rs Ho Un Hu Hk Ha. destruct (make_index_exact_partial sorted h (PRef o) Ps Hh) as (ix & E & S1 & S2). exists ix.
  destruct (entity_restored_partial lower refuses rejects None fb ix h o) as (h1 & h2 & E1 & E2 & F & _ & _ & M & A); auto.
  - intros x f Ff Mx. destruct (Hu x f Ff Mx) as (s & i & e & He & I). destruct (e_uids e) as [|[s' i'] r] eqn:Eu; [destruct I|]. exists s', i', e. split; auto. rewrite Eu. eauto.
  - intros x f s i Ff Mx (e & He & r & Eu). assert (Nx : named h x s i) by (exists e; split; auto; rewrite Eu; left; reflexivity).
    destruct (S2 s i x) as [y Hy]; auto; [eapply reached_field; eauto; [apply Rs|apply r_obj; constructor]|]. destruct (S1 _ _ _ Hy) as [_ Ny]. rewrite Hy. f_equal. eapply Un; eauto.
  - intros x f s i Ff W. exfalso. eapply Hk; eauto.
  - exists h1, h2. auto 10.
Qed.
Print Assumptions made_index_restores.
