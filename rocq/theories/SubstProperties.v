(** C23: replacing entities by links. *)
From Coq Require Import String List Bool Arith Lia Permutation ZArith QArith.
From Verif Require Import Base BaseFacts CidModel GraphModel GraphSpec GraphProofs EqModel EqSpec EqProofs EqCopies TravModel TravSpec TravProofs TravProperties SerialModel SerialSpec SerialSim SerialProofs SerialLinks SerialEntity SerialRecords FlattenProofs SerialExamples.
Import ListNotations.
Open Scope string_scope.
Open Scope list_scope.
Open Scope nat_scope.

Section P.
  Variable lower : string -> string.
  Variable known : string -> bool.
  Variable construct : heap -> string -> list (string * pv) -> res (list (string * pv)).
  Variable h : heap.
  Variable scope : option string.
  Variable fb : bool.

  Lemma uid_get_some : forall sc u i, uid_get lower sc u = Some i -> exists t, In (t, i) u /\ lower t = lower sc.
  Proof.
    intros sc u i H. unfold uid_get in H. destruct (find _ u) as [[t j]|] eqn:E; [|discriminate]. cbn in H. inv H.
    apply find_some in E as [I E]. cbn in E. apply String.eqb_eq in E. eauto.
  Qed.
  Lemma uid_get_none : forall sc u, uid_get lower sc u = None -> forall t j, In (t, j) u -> lower t <> lower sc.
  Proof.
    intros sc u H t j I E. unfold uid_get in H. destruct (find _ u) eqn:F; [discriminate|]. apply (find_none _ _ F) in I. cbn in I.
    apply String.eqb_neq in I. congruence.
  Qed.

  Lemma uid_get_first : forall s i r, uid_get lower s ((s, i) :: r) = Some i.
  Proof. intros. unfold uid_get. cbn [find fst]. now rewrite String.eqb_refl. Qed.

  (** The link made for an entity is as specified, and one is made whenever the specification has one. *)
  Theorem link_exact : forall o, (forall k, link_of lower h scope fb o = Ok k -> exists s i, k = PLink s i /\ link_for lower h scope fb o s i)
    /\ (forall s i, link_for lower h scope fb o s i -> exists k, link_of lower h scope fb o = Ok k).
  Proof.
    intros o. unfold link_of, link_for. split.
    - intros k H. destruct (hget h o) as [e|]; [|discriminate]. destruct (e_uids e) as [|[s0 i0] r] eqn:Eu; [discriminate|].
      destruct scope as [sc|].
      + destruct (uid_get lower sc ((s0, i0) :: r)) as [j|] eqn:Eg.
        * rewrite andb_false_r in H. rewrite Eg in H. inv H. exists sc, j. split; auto. exists e. split; auto. left. split; auto. rewrite Eu. now apply uid_get_some.
        * destruct fb; cbn [andb] in H; [|rewrite Eg in H; discriminate]. rewrite uid_get_first in H. inv H. exists s0, i0. split; auto. exists e. split; auto.
          right. split; auto. rewrite Eu. split; eauto. now apply uid_get_none.
      + rewrite uid_get_first in H. inv H. exists s0, i0. split; auto. exists e. eauto.
    - intros s i (e & He & H). rewrite He. destruct (e_uids e) as [|[s0 i0] r] eqn:Eu.
      { destruct scope; [destruct H as [(_ & t & [] & _)|(_ & _ & r & X)]; discriminate | destruct H; discriminate]. }
      destruct scope as [sc|].
      + destruct (uid_get lower sc ((s0, i0) :: r)) as [j|] eqn:Eg; [rewrite andb_false_r, Eg; eauto|].
        destruct H as [(_ & t & I & E)|(-> & _)]; [exfalso; eapply uid_get_none; eauto|]. cbn [andb]. rewrite uid_get_first. eauto.
      + rewrite uid_get_first. eauto.
  Qed.

  Lemma to_links_linked : forall a b, to_links lower h scope fb a b -> linked lower h scope fb a b.
  Proof.
    intros a b H. destruct a; cbn in H; try contradiction.
    - subst b. cbn. auto.
    - destruct (proj1 (link_exact o) b H) as (s & i & -> & Lf). exact Lf.
  Qed.

  Lemma subst_tuple_eq : forall seen l, hashable (PTuple l) = true -> subst lower known construct h scope fb seen (PTuple l)
    = do (vs, s) <- subst_list lower known construct h scope fb seen l; Ok (PTuple vs, s).
  Proof. intros seen l H. cbn [SerialModel.subst]. rewrite H. reflexivity. Qed.

  Lemma subst_any : forall A : atom -> Prop, (forall a b, A a -> A b -> atom_eq a b = true -> a = b) -> forall v, substitutable known construct h v ->
    (forall o, mentions v o -> exists l, link_of lower h scope fb o = Ok l) -> (forall a, within (PAtom a) v -> A a) ->
    substitutes lower known construct h scope fb A v.
  Proof.
    intros A Co v. induction v using pv_ind2; intros Sb Hl Ha; inversion Sb as [? St|? Fl|? Hh Fl|? N Fl]; subst;
      try (apply subst_value; auto; fail); intros seen Hs.
    - destruct (subst_list_ok lower known construct h scope fb A l) with (seen := seen) as (ws & s' & E & S & H'); auto.
      { rewrite Forall_forall in *. intros x Ix. apply H; auto; intros; [apply Hl | apply Ha]; econstructor; eauto. }
      exists (PList ws), s'. rewrite subst_list_eq, E. cbn [bind]. split; auto. split; auto. now apply sim_list.
    - destruct (subst_list_ok lower known construct h scope fb A l) with (seen := seen) as (ws & s' & E & S & H'); auto.
      { rewrite Forall_forall in *. intros x Ix. apply H; auto; intros; [apply Hl | apply Ha]; econstructor; eauto. }
      exists (PTuple ws), s'. rewrite subst_tuple_eq by now apply hashable_iff. rewrite E. cbn [bind]. split; auto. split; auto. now apply sim_tuple.
    - destruct (subst_pairs_ok lower known construct h scope fb A l) with (seen := seen) as (ws & s' & E & S & H'); auto.
      { rewrite Forall_forall in *. intros [k x] Ix. apply (H _ Ix); cbn; [apply (Fl _ Ix) | |]; intros; [apply Hl | apply Ha]; econstructor; eauto. }
      exists (PDict ws), s'. rewrite subst_dict_eq, E. cbn [bind]. split; auto. split; auto. apply sim_dict. split; [auto|]. split; [|eauto].
      now rewrite <- (keys_both _ _ _ _ _ S).
  Qed.

  (** In a value (other than an entity) every entity is replaced by its link, and nothing else
      changes. Missing for the full C23: what is not restored by the constructors (see
      [substitutable]); numbers of different types that are equal, for which it is false
      ([substitute_conflates_refuted]). *)
  Theorem substitute_links_partial : forall v, substitutable known construct h v -> coherent_numbers v ->
    (forall o, mentions v o -> exists s i, link_for lower h scope fb o s i) ->
    exists w, substitute_links lower known construct h scope fb v = Ok w /\ sim (linked lower h scope fb) v w.
  Proof.
    intros v St Co Hl.
    destruct (subst_any (fun a => within (PAtom a) v)) with (v := v) (seen := @nil atom) as (w & s & E & S & _); auto.
    - intros o M. destruct (Hl o M) as (s & i & Lf). eapply link_exact; eauto.
    - intros b [].
    - exists w. unfold substitute_links. rewrite E. split; auto. eapply sim_mono_in; eauto. intros a b _. apply to_links_linked.
  Qed.

  (** An entity given as the argument is itself copied, with the entities in its fields replaced. *)
  Theorem substitute_links_entity_partial : forall o e, hget h o = Some e -> well_formed lower known construct h o e ->
    (forall f x, In f (keys (e_fields e)) -> ~ read_only (e_kind e) f -> mentions (read h o f) x -> exists s i, link_for lower h scope fb x s i) ->
    exists e', substitute_links_entity lower known construct h scope fb o = Ok e'
      /\ e_kind e' = e_kind e /\ Permutation (e_uids e') (e_uids e)
      /\ (forall f, In f (keys (e_fields e')) <-> In f (keys (e_fields e)))
      /\ (forall f, In f (keys (e_fields e)) -> ~ read_only (e_kind e) f -> sim (linked lower h scope fb) (read h o f) (fget e' f))
      /\ (forall f, read_only (e_kind e) f -> fget e' f = PNone \/ fget e' f = PList []).
  Proof.
    intros o e He W Hl. destruct (record_ok lower known construct h scope fb o e He W) as (e' & E & Th).
    - intros f x If B M. destruct (Hl f x If B M) as (s & i & Lf). eapply link_exact; eauto.
    - exists e'. split; auto. destruct Th as (K & P & N & Kf & S & B). split; auto. split; auto. split; auto. split.
      + intros f I R. eapply sim_mono_in; [apply S; auto|]. intros a b _. apply to_links_linked.
      + intros f R. unfold fget. rewrite B by auto. rewrite <- skipped_iff in R. destruct (e_kind e); cbn in R; try discriminate;
        try apply orb_prop in R as [R|R]; apply String.eqb_eq in R; subst; cbn; auto.
  Qed.

  (** A value with an entity for which there is no link is refused, whatever else it contains. *)
  Theorem substitute_links_needs_links : forall v w, substitute_links lower known construct h scope fb v = Ok w ->
    forall o, mentions v o -> exists s i, link_for lower h scope fb o s i.
  Proof.
    assert (GL : forall l seen vs s1, subst_list lower known construct h scope fb seen l = Ok (vs, s1) -> forall y, In y l -> exists s0 w s', subst lower known construct h scope fb s0 y = Ok (w, s')).
    { induction l as [|y l IH]; intros seen vs s1 E z I; [contradiction|]. cbn in E. destruct (subst lower known construct h scope fb seen y) as [[y' s2]|] eqn:Ey; [|discriminate].
      cbn in E. destruct I as [<-|I]; [eauto|]. destruct (subst_list lower known construct h scope fb s2 l) as [[ys s3]|] eqn:Er; [|cbn in E; discriminate]. eapply IH; eauto. }
    assert (GP : forall l seen vs s1, subst_pairs lower known construct h scope fb seen l = Ok (vs, s1) -> forall k y, In (k, y) l -> exists s0 w s', subst lower known construct h scope fb s0 y = Ok (w, s')).
    { induction l as [|[k0 y] l IH]; intros seen vs s1 E k z I; [contradiction|]. cbn in E. destruct (subst lower known construct h scope fb seen y) as [[y' s2]|] eqn:Ey; [|discriminate].
      cbn in E. destruct I as [I|I]; [inv I; eauto|]. destruct (subst_pairs lower known construct h scope fb s2 l) as [[ys s3]|] eqn:Er; [|cbn in E; discriminate]. eapply IH; eauto. }
    assert (G : forall v seen w s', subst lower known construct h scope fb seen v = Ok (w, s') -> forall o, mentions v o -> exists s i, link_for lower h scope fb o s i).
    { intros v. induction v using pv_ind2; intros seen w s' E x M; inversion M as [|? y ? Iy My|? y ? Iy My|? k y ? Iy My|? ? k y ? Iy My]; subst.
      - cbn in E. destruct (link_of lower h scope fb x) as [k|] eqn:El; [|discriminate]. destruct (proj1 (link_exact x) k El) as (s & i & _ & Lf). eauto.
      - rewrite subst_list_eq in E. destruct (subst_list lower known construct h scope fb seen l) as [[vs s1]|] eqn:El; [|discriminate].
        destruct (GL _ _ _ _ El y Iy) as (s0 & w0 & s0' & Ey). rewrite Forall_forall in H. eapply H; eauto.
      - assert (X : exists vs s1, subst_list lower known construct h scope fb seen l = Ok (vs, s1)).
        { cbn [SerialModel.subst] in E. destruct (negb (hashable (PTuple l))); [discriminate|].
          destruct (subst_list lower known construct h scope fb seen l) as [[vs s1]|] eqn:El; [eauto|]. unfold subst_list in El. rewrite El in E. discriminate. }
        destruct X as (vs & s1 & El). destruct (GL _ _ _ _ El y Iy) as (s0 & w0 & s0' & Ey). rewrite Forall_forall in H. eapply H; eauto.
      - rewrite subst_dict_eq in E. destruct (subst_pairs lower known construct h scope fb seen l) as [[vs s1]|] eqn:El; [|discriminate].
        destruct (GP _ _ _ _ El k y Iy) as (s0 & w0 & s0' & Ey). rewrite Forall_forall in H. eapply (H (k, y)); eauto.
      - rewrite subst_obj_eq in E. destruct (subst_pairs lower known construct h scope fb seen l) as [[vs s1]|] eqn:El; [|discriminate].
        destruct (GP _ _ _ _ El k y Iy) as (s0 & w0 & s0' & Ey). rewrite Forall_forall in H. eapply (H (k, y)); eauto. }
    intros v w E o M. unfold substitute_links in E. destruct (subst lower known construct h scope fb [] v) as [[w' s]|] eqn:Es; [|discriminate]. eapply G; eauto.
  Qed.
  (** What it raises on a value without serialisable objects: TypeError for a tuple that cannot be hashed,
      ValueError for an entity without a link, nothing else; and if there is either, it does raise. *)
  Theorem substitute_links_raises : forall v, (forall t fs, ~ within (PObj t fs) v) ->
    match substitute_links lower known construct h scope fb v with
    | Ok _ => (forall l, within (PTuple l) v -> can_hash (PTuple l)) /\ (forall o, mentions v o -> exists s i, link_for lower h scope fb o s i)
    | Err e => (e = TypeError /\ exists l, within (PTuple l) v /\ ~ can_hash (PTuple l))
               \/ (e = ValueError /\ exists o, mentions v o /\ forall s i, ~ link_for lower h scope fb o s i)
    end.
  Proof.
    set (good := fun v => forall l, within (PTuple l) v -> can_hash (PTuple l)).
    set (bad := fun v e => (e = TypeError /\ exists l, within (PTuple l) v /\ ~ can_hash (PTuple l))
               \/ (e = ValueError /\ exists o, mentions v o /\ forall s i, ~ link_for lower h scope fb o s i)).
    assert (U : forall l v e, In v l -> bad v e -> bad (PList l) e /\ bad (PTuple l) e).
    { intros l v e I [[-> (t & W & N)]|[-> (o & M & N)]]; split; [left | left | right | right]; (split; [reflexivity|]).
      1, 2: exists t; split; auto; econstructor; eauto. 1, 2: exists o; split; auto; econstructor; eauto. }
    assert (UD : forall l k v e, In (k, v) l -> bad v e -> bad (PDict l) e).
    { intros l k v e I [[-> (t & W & N)]|[-> (o & M & N)]]; [left | right]; (split; [reflexivity|]). - exists t; split; auto; econstructor; eauto. - exists o; split; auto; econstructor; eauto. }
    assert (G : forall v, (forall t fs, ~ within (PObj t fs) v) -> forall seen,
      match subst lower known construct h scope fb seen v with Ok _ => good v | Err e => bad v e end).
    { intros v. induction v using pv_ind2; intros P seen; try (intros x W; inversion W; fail).
      - cbn [SerialModel.subst]. destruct (visit seen a) as [b s]. intros x W. inversion W.
      - cbn [SerialModel.subst]. destruct (link_of lower h scope fb o) as [k|e] eqn:El; cbn [bind]; [intros x W; inversion W|].
        right. split.
        + unfold link_of in El. destruct (hget h o) as [en|]; [|congruence]. destruct (e_uids en) as [|[f0 i0] r]; [congruence|].
          cbv zeta in El. match type of El with match ?u with _ => _ end = _ => destruct u end; congruence.
        + exists o. split; [constructor|]. intros s i L. destruct (proj2 (link_exact o) s i L) as [k E]. congruence.
      - rewrite subst_list_eq.
        assert (X : forall seen, match subst_list lower known construct h scope fb seen l with Ok _ => Forall good l | Err e => exists x, In x l /\ bad x e end).
        { assert (P' : forall x, In x l -> forall t fs, ~ within (PObj t fs) x) by (intros x I t fs W; eapply P; econstructor; eauto).
          clear P seen. induction H as [|x l Hx Hl IH]; intros seen; [constructor|]. cbn [subst_list].
          specialize (Hx (P' x (or_introl eq_refl)) seen). destruct (subst lower known construct h scope fb seen x) as [[y s1]|e]; cbn [bind]; [|exists x; split; [left|]; auto].
          specialize (IH (fun z I => P' z (or_intror I)) s1). destruct (subst_list lower known construct h scope fb s1 l) as [[ys s2]|e]; cbn [bind]; [constructor; auto|].
          destruct IH as (z & I & B). exists z. split; [right|]; auto. }
        specialize (X seen). destruct (subst_list lower known construct h scope fb seen l) as [[vs s1]|e]; cbn [bind].
        + intros t W. inversion W; subst. rewrite Forall_forall in X. eapply X; eauto.
        + destruct X as (x & I & B). eapply U; eauto.
      - destruct (hashable (PTuple l)) eqn:Hh.
        2:{ cbn [SerialModel.subst]. rewrite Hh. left. split; [reflexivity|]. exists l. split; [constructor|]. rewrite <- hashable_iff. congruence. }
        rewrite subst_tuple_eq by auto.
        assert (X : forall seen, match subst_list lower known construct h scope fb seen l with Ok _ => Forall good l | Err e => exists x, In x l /\ bad x e end).
        { assert (P' : forall x, In x l -> forall t fs, ~ within (PObj t fs) x) by (intros x I t fs W; eapply P; econstructor; eauto).
          clear P seen Hh. induction H as [|x l Hx Hl IH]; intros seen; [constructor|]. cbn [subst_list].
          specialize (Hx (P' x (or_introl eq_refl)) seen). destruct (subst lower known construct h scope fb seen x) as [[y s1]|e]; cbn [bind]; [|exists x; split; [left|]; auto].
          specialize (IH (fun z I => P' z (or_intror I)) s1). destruct (subst_list lower known construct h scope fb s1 l) as [[ys s2]|e]; cbn [bind]; [constructor; auto|].
          destruct IH as (z & I & B). exists z. split; [right|]; auto. }
        specialize (X seen). destruct (subst_list lower known construct h scope fb seen l) as [[vs s1]|e]; cbn [bind].
        + intros t W. inversion W; subst; [now apply hashable_iff|]. rewrite Forall_forall in X. eapply X; eauto.
        + destruct X as (x & I & B). eapply U; eauto.
      - rewrite subst_dict_eq.
        assert (X : forall seen, match subst_pairs lower known construct h scope fb seen l with Ok _ => Forall (fun kv => good (snd kv)) l | Err e => exists k x, In (k, x) l /\ bad x e end).
        { assert (P' : forall k x, In (k, x) l -> forall t fs, ~ within (PObj t fs) x) by (intros k x I t fs W; eapply P; econstructor; eauto).
          clear P seen. induction H as [|[k x] l Hx Hl IH]; intros seen; [constructor|]. cbn [subst_pairs].
          specialize (Hx (P' k x (or_introl eq_refl)) seen). cbn [snd] in Hx. destruct (subst lower known construct h scope fb seen x) as [[y s1]|e]; cbn [bind]; [|exists k, x; split; [left|]; auto].
          specialize (IH (fun j z I => P' j z (or_intror I)) s1). destruct (subst_pairs lower known construct h scope fb s1 l) as [[ys s2]|e]; cbn [bind]; [constructor; auto|].
          destruct IH as (j & z & I & B). exists j, z. split; [right|]; auto. }
        specialize (X seen). destruct (subst_pairs lower known construct h scope fb seen l) as [[vs s1]|e]; cbn [bind].
        + intros t W. inversion W; subst. rewrite Forall_forall in X. eapply (X (_, _)); eauto.
        + destruct X as (k & x & I & B). eapply UD; eauto.
      - exfalso. eapply P. constructor. }
    intros v P. specialize (G v P []). unfold substitute_links at 1. destruct (subst lower known construct h scope fb [] v) as [[w s]|e] eqn:E; cbn [bind]; [|exact G].
    split; [exact G|]. apply (substitute_links_needs_links v w). unfold substitute_links. now rewrite E.
  Qed.
End P.

(** Hypotheses met: entities and links in nested containers and objects, one scope found in other
    casing, one replaced. *)
Definition lowered (s : string) : string := if String.eqb s "ID" then "id" else s.
Definition ex_value : pv := PDict [("type", PTuple [PRef 0; num 1; PTuple [PRef 2]]); ("a", PList [PRef 0; PRef 2; num 1]); ("b", PObj "attribute" [("template", PRef 3); ("value", num 1); ("old", PLink "x" "y")])].
Example substitute_links_ex : substitutable all_known keep_all ex_graph ex_value /\ coherent_numbers ex_value
  /\ (forall o, mentions ex_value o -> exists s i, link_for lowered ex_graph (Some "ID") true o s i)
  /\ substitute_links lowered all_known keep_all ex_graph (Some "ID") true ex_value
     = Ok (PDict [("type", PTuple [PLink "ID" "m"; num 1; PTuple [PLink "ID" "q"]]); ("a", PList [PLink "ID" "m"; PLink "ID" "q"; num 1]);
                  ("b", PObj "attribute" [("old", PLink "x" "y"); ("template", PLink "ID" "t"); ("value", num 1)])]).
Proof.
  split.
  { apply sub_dict; [repeat constructor; cbn; intuition discriminate|]. constructor; [|constructor; [|constructor; [|constructor]]]; cbn [snd];
      [|apply sub_storable; apply storableb_ok; reflexivity ..].
    apply sub_tuple; [repeat constructor|].
    constructor; [|constructor; [|constructor; [|constructor]]]; [apply sub_storable; constructor ..|].
    apply sub_tuple; [repeat constructor|]. constructor; [apply sub_storable; constructor|constructor]. }
  split.
  - intros a b Wa Wb. apply atoms_in_ok in Wa. apply atoms_in_ok in Wb. revert Wa Wb. apply coherentb_ok. reflexivity.
  - split; [|reflexivity]. intros o M. apply refs_in_ok in M. cbn in M. destruct M as [<-|[<-|[<-|[<-|[<-|[]]]]]]; eexists; eexists; eexists; (split; [reflexivity|]); left;
      (split; [reflexivity|]); eexists; (split; [left; reflexivity|reflexivity]).
Qed.

(** The full C23 is false: 1, 1.0 and True are keys of the same entry of the table of things
    already replaced, so all three become the one met first. *)
Theorem substitute_conflates_refuted : exists v w, (forall o, ~ mentions v o)
  /\ substitute_links (fun s => s) all_known keep_all [] None true v = Ok w /\ w <> v
  /\ v = PList [num 1; PAtom (AFloat 1); PAtom (ABool true)] /\ w = PList [num 1; num 1; num 1].
Proof.
  exists (PList [num 1; PAtom (AFloat 1); PAtom (ABool true)]), (PList [num 1; num 1; num 1]). split.
  - intros o M. apply refs_in_ok in M. exact M.
  - split; [reflexivity|]. split; [discriminate|]. auto.
Qed.

Print Assumptions link_exact.
Print Assumptions substitute_links_raises.
Print Assumptions substitute_links_partial.
Print Assumptions substitute_links_entity_partial.
Print Assumptions substitute_links_needs_links.
Print Assumptions substitute_conflates_refuted.

(** A tuple of a list is refused, and a tuple of tuples is not. *)
Example substitute_links_raises_ex :
  substitute_links (fun s => s) all_known keep_all [] None true (PList [PNone; PDict [("a", PTuple [PList []])]]) = Err TypeError
  /\ substitute_links (fun s => s) all_known keep_all [] None true (PList [PRef 0; PTuple [PList []]]) = Err ValueError
  /\ substitute_links (fun s => s) all_known keep_all [] None true (PList [PTuple [PTuple []; PLink "id" "1"]]) = Ok (PList [PTuple [PTuple []; PLink "id" "1"]]).
Proof. vm_compute. auto. Qed.
