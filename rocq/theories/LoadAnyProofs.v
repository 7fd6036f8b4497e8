(** Loading any text whatever. *)
From Coq Require Import String List Bool Arith Lia.
From Verif Require Import Base BaseFacts GraphModel GraphSpec GraphProofs EqModel EqProofs TravModel SerialModel SerialSpec SerialProofs SerialEntity ViewModel ViewSpec ViewProofs.
Import ListNotations.
Open Scope string_scope.
Open Scope list_scope.
Open Scope nat_scope.

(** ** What an assignment to a new object touches *)

Section Touch.
  Variable eq : heap -> pv -> oid -> bool.

  Definition untied (h : heap) (o : oid) (f : string) : Prop := forall p, fval h o f <> PRef p.

  Lemma hget_set_other : forall h p f v x, x <> p -> hget (set_field h p f v) x = hget h x.
  Proof.
    intros h p f v x N. unfold set_field. destruct (hget h p); auto. rewrite hget_hset.
    destruct (Nat.eqb x p) eqn:E; [apply Nat.eqb_eq in E; congruence|]. destruct (Nat.eqb p x) eqn:E'; [apply Nat.eqb_eq in E'; congruence|]. auto.
  Qed.

  Lemma assign_touches : forall h o f v x, untied h o f -> (f = "spec" -> untied h o "spec") -> x <> o -> (forall p, v = PRef p -> x <> p) ->
    hget (fst (assign eq h o f v)) x = hget h x.
  Proof.
    intros h o f v x U Us Nx Nv. unfold assign. destruct (kind_at h o) as [k|]; auto. destruct (role_of k f) as [[pk|pk lf|pk|]|] eqn:R; auto.
    - apply role_produce in R as [-> _]. unfold set_process. cbn zeta. unfold untied in U.
      destruct (fval h o "process") as [| | |p| | | |] eqn:F; try (destruct (U p eq_refl)).
      all: destruct v; cbn [fst]; rewrite ?hget_set_other; auto; destruct (is_kind h pk (PRef o0)); cbn [fst]; auto; rewrite !hget_set_other; auto.
    - unfold set_owned. cbn zeta. unfold untied in U.
      destruct (fval h o f) as [| | |p| | | |] eqn:F; try (destruct (U p eq_refl)).
      all: destruct v; cbn [fst]; rewrite ?hget_set_other; auto; destruct (is_kind h pk (PRef o0)); cbn [fst]; auto;
        repeat break_match; cbn [fst]; rewrite ?hget_set_other; auto.
    - unfold set_plain. destruct v; cbn [fst]; rewrite ?hget_set_other; auto; repeat break_match; cbn [fst]; rewrite ?hget_set_other; auto.
    - apply role_ing_spec in R as [-> ->]. unfold set_ing_spec, set_plain. cbn zeta. specialize (Us eq_refl). unfold untied in Us.
      destruct (fval h o "spec") as [| | |p| | | |] eqn:F; try (destruct (Us p eq_refl)).
      all: destruct v; cbn [fst]; rewrite ?hget_set_other; auto; repeat break_match; cbn [fst]; rewrite ?hget_set_other; auto.
  Qed.

  (** Two fields of the new object do not interfere. *)
  Lemma assign_untied : forall h o f v f', ref_field f' -> f' <> f -> untied h o f' -> untied (fst (assign eq h o f v)) o f'.
  Proof.
    intros h o f v f' RF N U p. destruct (assign_field eq h o f v o f' RF) as [->|(_ & E & _)]; [apply U | contradiction].
  Qed.

  Lemma assign_ok_typed : forall h o f v h' k, assign eq h o f v = (h', None) -> kind_at h o = Some k ->
    exists pk, asked_kind k f pk /\ admissible h pk v.
  Proof.
    intros h o f v h' k E K. unfold assign in E. rewrite K in E. destruct (role_of k f) as [[pk|pk lf|pk|]|] eqn:R; [| | | |discriminate].
    - apply role_produce in R as [-> C]. exists pk. split; [destruct C as [[-> ->]|[-> ->]]; unfold asked_kind; cbn; tauto|].
      unfold set_process in E. cbn zeta in E. unfold admissible.
      match goal with H : context[is_kind ?g pk v] |- _ => assert (Kg : forall x, kind_at g x = kind_at h x) by (intros; repeat break_match; rewrite ?kind_set_field; auto); set (h1 := g) in * end.
      destruct v; try discriminate; eauto. destruct (is_kind h1 pk (PRef o0)) eqn:I; [|discriminate]. apply is_kind_ref in I. rewrite Kg in I. eauto.
    - assert (L := proj1 (role_owned _ _ _ _) R). exists pk. split; [apply (listed_asked _ _ _ _ L)|]. unfold set_owned in E. cbn zeta in E. unfold admissible.
      match type of E with context[match ?d with Ok _ => _ | Err _ => _ end] =>
        assert (HD : forall h1, d = Ok h1 -> forall y, kind_at h1 y = kind_at h y); [|destruct d as [h1|e] eqn:Ed] end.
      { intros h1. repeat break_match; intros HH; try discriminate; injection HH as <-; auto using kind_set_field. }
      + specialize (HD _ eq_refl). destruct v; try discriminate; eauto. destruct (is_kind h1 pk (PRef o0)) eqn:I; [|discriminate]. apply is_kind_ref in I. rewrite HD in I. eauto.
      + discriminate.
    - exists pk. split; [apply (role_plain _ _ _ R)|]. unfold set_plain in E. unfold admissible. destruct v; try discriminate; eauto.
      destruct (is_kind h pk (PRef o0)) eqn:I; [|discriminate]. apply is_kind_ref in I. eauto.
    - apply role_ing_spec in R as [-> ->]. exists KIngS. split; [unfold asked_kind; cbn; tauto|]. unfold set_ing_spec in E. fold (stored h o) in E.
      unfold set_plain in E. unfold admissible. destruct v; try discriminate; eauto.
      destruct (is_kind (stored h o) KIngS (PRef o0)) eqn:I; [|discriminate]. apply is_kind_ref in I. rewrite stored_kind in I. eauto.
  Qed.

  (** *** References, lists and outputs stay in order *)

  Lemma references_new : forall h k u fs, references_typed h -> references_typed (h ++ [mkE k u (blank k ++ fs)]).
  Proof.
    intros h k u fs R o k' f pk K A. rewrite kind_new in K. rewrite fval_new. destruct (Nat.eqb o (length h)) eqn:E.
    - injection K as <-. left. cbn [e_kind] in A.
      assert (B : dict_get f (blank k) = Some PNone)
        by (unfold asked_kind in A; cbn in A; repeat (destruct A as [A|A]; [injection A; intros; subst; reflexivity|]); contradiction).
      now apply fget_blank.
    - destruct (R o k' f pk K A) as [->|[(s & i & ->)|(p & -> & Kp)]]; unfold admissible; eauto. right. right. exists p. split; auto.
      rewrite kind_new. replace (Nat.eqb p (length h)) with false; auto. symmetry. apply Nat.eqb_neq. apply GraphProofs.kind_lt in Kp. lia.
  Qed.
  Lemma references_assign : forall h o f v, references_typed h -> references_typed (fst (assign eq h o f v)).
  Proof. intros h o f v R. apply (references_step eq h (NSet o f v) R). Qed.
End Touch.

(** ** Building one entity *)

Section Any.
  Variable lower : string -> string.
  Variable known : string -> bool.
  Variable construct : heap -> string -> list (string * pv) -> res (list (string * pv)).
  Notation assign := (GraphModel.assign (item_eq lower)).
  Notation assign_all := (assign_all lower).
  Notation make_entity := (make_entity lower construct).
  Notation decode := (decode lower known construct).

  (** A property of the graph that survives the creation of an object and the first assignment of
      each of its references. *)
  Variable sound : heap -> Prop.
  Hypothesis sound_new : forall h k u fs, sound h -> sound (h ++ [mkE k u (blank k ++ fs)]).
  Hypothesis sound_assign : forall h o f v, untied h o f -> sound h -> sound (fst (assign h o f v)).

  Lemma assign_length : forall h o f v, length (fst (assign h o f v)) = length h.
  Proof.
    intros. unfold GraphModel.assign. destruct (kind_at h o) as [k|]; auto. destruct (role_of k f) as [[pk|pk lf|pk|]|]; auto.
    - unfold set_process. cbn zeta. repeat break_match; cbn [fst]; rewrite ?set_field_length; auto.
    - unfold set_owned. cbn zeta. repeat (break_match; cbn [fst]; rewrite ?set_field_length; auto; try discriminate);
        repeat match goal with H : Ok _ = Ok _ |- _ => injection H as <- end; rewrite ?set_field_length; auto.
    - unfold set_plain. repeat break_match; cbn [fst]; rewrite ?set_field_length; auto.
    - unfold set_ing_spec, set_plain. cbn zeta. repeat break_match; cbn [fst]; rewrite ?set_field_length; auto.
  Qed.

  Definition refs_of (args : list (string * pv)) (p : oid) : Prop := exists f, In (f, PRef p) args.

  Lemma assign_all_any : forall args h o h', assign_all h o args = Ok h' -> NoDup (keys args) ->
    (forall f, In f (keys args) -> ref_field f /\ untied h o f) ->
    length h' = length h /\ (forall x, kind_at h' x = kind_at h x)
    /\ (forall x, x <> o -> ~ refs_of args x -> hget h' x = hget h x)
    /\ (sound h -> sound h').
  Proof.
    induction args as [|[f v] args IH]; intros h o h' E N H.
    - cbn in E. inv E. auto.
    - cbn [SerialModel.assign_all] in E. destruct (assign h o f v) as [h1 [e|]] eqn:A; [discriminate|].
      assert (E1 : h1 = fst (assign h o f v)) by (now rewrite A). cbn [keys map fst] in N. inversion N as [|? ? Nf N']; subst.
      destruct (H f (or_introl eq_refl)) as [RF U].
      destruct (IH _ _ _ E N') as (L & K & F & Sd).
      { intros f' I. destruct (H f' (or_intror I)) as [RF' U']. split; auto. apply assign_untied; auto. intros ->. now apply Nf. }
      split; [now rewrite L, assign_length|]. split; [intros x; rewrite K; apply kind_assign|]. split.
      + intros x Nx Nr. rewrite F; auto; [|intros [g I]; apply Nr; exists g; now right].
        apply assign_touches; auto; [intros ->; auto|]. intros p -> ->. apply Nr. exists f. now left.
      + intros S0. apply Sd. now apply sound_assign.
  Qed.

  Lemma ref_args_field : forall k f, In f (ref_args k) -> ref_field f.
  Proof. intros k f I. apply ref_args_iff in I as [pk A]. eapply asked_ref; eauto. Qed.
  Lemma new_untied : forall h k u fs f, In f (ref_args k) -> untied (h ++ [mkE k u (blank k ++ fs)]) (length h) f.
  Proof.
    intros h k u fs f I p. rewrite fval_new, Nat.eqb_refl. rewrite (new_blank k u fs f PNone); [discriminate|]. apply blank_ref. now apply ref_args_iff.
  Qed.

  Lemma make_entity_any : forall h ix k d w h' ix', make_entity (h, ix) k d = Ok (w, (h', ix')) ->
    w = PRef (length h) /\ length h' = S (length h) /\ kind_at h' (length h) = Some k
    /\ (forall x, x < length h -> (forall f, dict_get f d <> Some (PRef x)) -> hget h' x = hget h x)
    /\ (sound h -> sound h') /\ (forall e, In e ix' -> In e ix \/ snd e = length h)
    /\ exists u fs, assign_all (h ++ [mkE k u (blank k ++ fs)]) (length h) (map (fun f => (f, arg d f)) (ref_args k)) = Ok h'.
  Proof.
    intros h ix k d w h' ix' E. unfold SerialModel.make_entity in E.
    destruct (uids_of lower (arg d "uids")) as [u|]; [|discriminate]. cbn [bind] in E.
    destruct (construct h (typ_of k) _) as [fs|]; [|discriminate]. cbn [bind] in E.
    destruct (assign_all (h ++ [mkE k u (blank k ++ fs)]) (length h) (map (fun f => (f, arg d f)) (ref_args k))) as [h1|] eqn:A; [|discriminate].
    cbn [bind] in E. inv E. split; auto.
    destruct (assign_all_any _ _ _ _ A) as (L & K & F & Sd).
    { unfold keys. rewrite map_map. cbn. rewrite map_id. apply ref_args_nodup. }
    { intros f I. unfold keys in I. rewrite map_map in I. cbn in I. rewrite map_id in I. split; [eapply ref_args_field; eauto | now apply new_untied]. }
    split; [rewrite L, app_length; cbn; lia|]. split; [rewrite K, kind_new, Nat.eqb_refl; auto|]. split; [|split; [|split]].
    - intros x Lx Nr. rewrite F; [apply hget_app1; auto|lia|]. intros [f I]. apply in_map_iff in I as (f' & E & I). inv E.
      apply (Nr f). unfold arg in H1. destruct (dict_get f d); congruence.
    - intros S0. apply Sd. now apply sound_new.
    - intros e I. apply in_app_or in I as [I|I]; auto. right. apply in_map_iff in I as (p & <- & _). reflexivity.
    - exists u, fs. exact A.
  Qed.

  (** ** A whole text *)

  Lemma json_ind2 : forall P : json -> Prop, P JNull -> (forall a, P (JAtom a)) -> (forall l, Forall P l -> P (JArr l)) ->
    (forall l, Forall (fun kj => P (snd kj)) l -> P (JObj l)) -> forall j, P j.
  Proof.
    intros P H0 H1 H2 H3. fix IH 1. intros [|a|l|l]; [exact H0 | apply H1 | apply H2 | apply H3].
    - induction l as [|j l IHl]; constructor; [apply IH | exact IHl].
    - induction l as [|[k j] l IHl]; constructor; [apply IH | exact IHl].
  Qed.

  Definition above (n : nat) (w : pv) : Prop := forall o, w = PRef o -> n <= o.
  Definition indexed (sb : bool) (n : nat) (st : state) : Prop := sb = true -> forall e, In e (snd st) -> n <= snd e.

  (** From [st] to [st'] nothing below [n] changes; an invariant survives. *)
  Record grows (sb : bool) (n : nat) (st st' : state) : Prop := mkGrows {
    gr_length : length (fst st) <= length (fst st');
    gr_kept : forall o, o < n -> hget (fst st') o = hget (fst st) o;
    gr_index : indexed sb n st';
    gr_sound : sound (fst st) -> sound (fst st')
  }.

  Lemma grows_refl : forall sb n st, indexed sb n st -> grows sb n st st.
  Proof. intros. constructor; auto. Qed.
  Lemma grows_trans : forall sb n a b c, grows sb n a b -> grows sb n b c -> grows sb n a c.
  Proof. intros sb n a b c [L K I Sd] [L' K' I' Sd']. constructor; auto; [lia|]. intros o Lo. rewrite K'; auto. Qed.

  Lemma index_get_in : forall ix s i o, index_get ix s i = Some o -> exists e, In e ix /\ snd e = o.
  Proof.
    intros ix s i o E. unfold index_get in E. destruct (find _ ix) as [e|] eqn:F; [|discriminate]. inv E. apply find_some in F as [F _]. eauto.
  Qed.

  Lemma in_del : forall A k (d : list (string * A)) x, In x (dict_del k d) -> In x d.
  Proof. induction d as [|[k' v] d IH]; cbn; auto. intros x. destruct (String.eqb k k'); cbn; intuition. Qed.
  Lemma in_set : forall A k v (d : list (string * A)) f x, In (f, x) (dict_set k v d) -> (f = k /\ x = v) \/ In (f, x) d.
  Proof.
    induction d as [|[k' v'] d IH]; cbn.
    - intros f x [E|[]]. inv E. auto.
    - intros f x. destruct (String.eqb k k') eqn:E; cbn.
      + str_eq. subst. intros [X|X]; [inv X; auto | auto].
      + intros [X|X]; auto. destruct (IH _ _ X); auto.
  Qed.
  Lemma in_update : forall A (l acc : list (string * A)) f x, In (f, x) (dict_update l acc) -> In (f, x) l \/ In (f, x) acc.
  Proof.
    induction l as [|[k v] l IH]; intros acc f x I; auto. unfold dict_update in I. cbn [fold_left fst snd] in I. fold (dict_update l (dict_set k v acc)) in I.
    destruct (IH _ _ _ I) as [J|J]; [left; now right|]. apply in_set in J as [[-> ->]|J]; auto. left. now left.
  Qed.

  Lemma load_any : forall sb n st d w st', n <= length (fst st) -> indexed sb n st -> (forall f v, In (f, v) d -> above n v) ->
    load_and_index lower known construct sb st d = Ok (w, st') -> grows sb n st st' /\ above n w.
  Proof.
    intros sb n [h ix] d w st' Ln Ix Ab E. unfold load_and_index in E. destruct (dict_get "type" d) as [[|[| | |t]| | | | | | ]|]; try discriminate.
    2:{ inv E. split; [now apply grows_refl | intros o X; discriminate]. }
    assert (Ab' : forall f v, dict_get f (dict_del "type" d) = Some v -> above n v).
    { intros f v G. apply dict_get_In, in_del in G. eauto. }
    destruct (String.eqb t "link_by_uid").
    - unfold make_link in E. destruct (dict_get "scope" _) as [[|[| | |s]| | | | | | ]|]; try discriminate.
      destruct (dict_get "id" _) as [[|[| | |i]| | | | | | ]|]; try discriminate.
      cbn [snd] in E. destruct (if sb then index_get ix (lower s) i else None) as [o|] eqn:G; inv E; (split; [now apply grows_refl|]); intros x X; inv X.
      destruct sb; [|discriminate]. apply index_get_in in G as (e & I & <-). now apply Ix.
    - destruct (kind_of t) as [k|].
      + destruct st' as [h' ix']. destruct (make_entity_any _ _ _ _ _ _ _ E) as (-> & L & K & F & Sd & I & _). split.
        * constructor; cbn [fst snd] in *; auto; [lia| |].
          -- intros o Lo. apply F; [lia|]. intros f G. assert (X := Ab' _ _ G o eq_refl). lia.
          -- intros Sb e J. apply I in J as [J|J]; [now apply Ix | cbn in *; lia].
        * intros o X. inv X. auto.
      + destruct (known t); [|discriminate]. destruct (construct _ t _) as [fs|]; [|discriminate]. inv E. split; [now apply grows_refl | intros o X; discriminate].
  Qed.

  Lemma decode_any : forall j sb n st w st', n <= length (fst st) -> indexed sb n st ->
    decode sb st j = Ok (w, st') -> grows sb n st st' /\ above n w.
  Proof.
    induction j as [|a|l IH|l IH] using json_ind2; intros sb n st w st' Ln Ix E.
    - cbn in E. inv E. split; [now apply grows_refl | intros o X; discriminate].
    - cbn in E. inv E. split; [now apply grows_refl | intros o X; discriminate].
    - rewrite decode_arr_eq in E. destruct (decode_list lower known construct sb st l) as [[vs st1]|] eqn:D; [|discriminate]. cbn in E. inv E.
      split; [|intros o X; discriminate]. revert st vs st' Ln Ix D. induction IH as [|j l Hj F IHl]; intros st vs st' Ln Ix D; cbn in D.
      + inv D. now apply grows_refl.
      + destruct (decode sb st j) as [[v s1]|] eqn:Dj; [|discriminate]. cbn in D. destruct (decode_list _ _ _ sb s1 l) as [[vs' s2]|] eqn:Dl; [|discriminate]. cbn in D. inv D.
        destruct (Hj _ _ _ _ _ Ln Ix Dj) as [G _]. eapply grows_trans; [exact G|]. eapply IHl; eauto; [eapply Nat.le_trans; [exact Ln | apply G] | apply G].
    - rewrite decode_obj_eq in E. destruct (decode_pairs lower known construct sb st l) as [[vs st1]|] eqn:D; [|discriminate]. cbn [bind] in E.
      assert (X : grows sb n st st1 /\ forall k v, In (k, v) vs -> above n v).
      { clear E. revert st vs st1 Ln Ix D. induction IH as [|[k j] l Hj F IHl]; intros st vs st1 Ln Ix D; cbn in D.
        - inv D. split; [now apply grows_refl | intros ? ? []].
        - cbn in Hj. destruct (decode sb st j) as [[v s1]|] eqn:Dj; [|discriminate]. cbn in D. destruct (decode_pairs _ _ _ sb s1 l) as [[vs' s2]|] eqn:Dl; [|discriminate]. cbn in D. inv D.
          destruct (Hj _ _ _ _ _ Ln Ix Dj) as [G Av]. destruct (IHl s1 vs' st1) as [G' Av']; auto; [eapply Nat.le_trans; [exact Ln | apply G] | apply G |]. split; [eapply grows_trans; eauto|].
          intros k' v' [E|I]; [inv E; auto | eauto]. }
      destruct X as [G Av]. destruct (load_any sb n st1 (dict_update vs []) w st') as [G' Aw]; auto.
      { eapply Nat.le_trans; [exact Ln | apply G]. }
      { apply G. }
      { intros f v I. apply in_update in I as [I|[]]. eauto. }
      split; auto. eapply grows_trans; eauto.
  Qed.

  (** *** Without substitution every reference in the text is its own entity *)

  Definition unclaimed (h : heap) (w : pv) : Prop := forall o k, w = PRef o -> kind_at h o = Some k -> k = KProcR \/ k = KProcS -> untied h o "output_material".

  Lemma assign_all_inputs : forall args h o h' k, assign_all h o args = Ok h' -> kind_at h o = Some k -> NoDup (keys args) ->
    (forall f, In f (keys args) -> ref_field f /\ untied h o f) -> (forall v, In ("process", v) args -> unclaimed h v) ->
    (inputs_agree h -> inputs_agree h') /\ (k = KProcR \/ k = KProcS -> untied h o "output_material" -> untied h' o "output_material").
  Proof.
    induction args as [|[f v] args IH]; intros h o h' k E K N H C.
    - cbn in E. inv E. auto.
    - cbn [SerialModel.assign_all] in E. destruct (assign h o f v) as [h1 [e|]] eqn:A; [discriminate|].
      assert (E1 : h1 = fst (assign h o f v)) by (now rewrite A). cbn [keys map fst] in N. inversion N as [|? ? Nf N']; subst.
      destruct (H f (or_introl eq_refl)) as [RF U]. destruct (assign_ok_typed _ _ _ _ _ _ _ A K) as (pk & As & Ad).
      assert (K1 : kind_at (fst (assign h o f v)) o = Some k) by (rewrite kind_assign; auto).
      assert (Keep : (forall pk', role_of k f <> Some (Produce pk')) -> forall x, fval (fst (assign h o f v)) x "output_material" = fval h x "output_material").
      { intros NP. apply (assign_other_frame _ _ _ _ _ _ K NP). }
      destruct (IH _ _ _ k E K1 N') as [I1 I2].
      { intros f' I. destruct (H f' (or_intror I)) as [RF' U']. split; auto. apply assign_untied; auto. intros ->. now apply Nf. }
      { intros v' I p k' -> K' Hk q. rewrite kind_assign in K'. rewrite Keep; [eapply C; eauto; now right|].
        intros pk' R. apply role_produce in R as [-> _]. apply Nf. apply in_map_iff. exists ("process", PRef p). auto. }
      split.
      + intros B. apply I1. refine (inputs_agree_step (item_eq lower) h (GSet o f v) _ _ B).
        * intros m p mk m' Eo Km Hm Fo. injection Eo as -> -> ->. exfalso.
          destruct Ad as [X|[(s & i & X)|(p' & X & Kp)]]; try discriminate. injection X as <-.
          assert (Hk : pk = KProcR \/ pk = KProcS).
          { rewrite K in Km. injection Km as ->. unfold asked_kind in As. cbn in As. destruct Hm as [-> | ->]; repeat (destruct As as [As|As]; [injection As; intros; subst; auto; discriminate|]); contradiction. }
          apply (C (PRef p) (or_introl eq_refl) p pk eq_refl Kp Hk m' Fo).
        * intros x g w kx Eo Kx T [p F]. injection Eo as <- <- <-. destruct (U p F).
      + intros Hk Uo. apply I2; auto. intros q. rewrite Keep; auto. intros pk' R. apply role_produce in R as [_ Cp].
        destruct (couple_proc _ _ Cp) as [[X|X] _]; destruct Hk; congruence.
  Qed.

  Lemma decode_inputs : forall j st w st', decode false st j = Ok (w, st') ->
    (inputs_agree (fst st) -> inputs_agree (fst st')) /\ unclaimed (fst st') w /\ forall o, w = PRef o -> o < length (fst st').
  Proof.
    induction j as [|a|l IH|l IH] using json_ind2; intros st w st' E.
    - cbn in E. inv E. split; auto. split; [intros o k X; discriminate | intros o X; discriminate].
    - cbn in E. inv E. split; auto. split; [intros o k X; discriminate | intros o X; discriminate].
    - rewrite decode_arr_eq in E. destruct (decode_list lower known construct false st l) as [[vs st1]|] eqn:D; [|discriminate]. cbn in E. inv E.
      split; [|split; [intros o k X; discriminate | intros o X; discriminate]]. revert st vs st' D. induction IH as [|j l Hj F IHl]; intros st vs st' D; cbn in D.
      + inv D. auto.
      + destruct (decode false st j) as [[v s1]|] eqn:Dj; [|discriminate]. cbn in D. destruct (decode_list _ _ _ false s1 l) as [[vs' s2]|] eqn:Dl; [|discriminate]. cbn in D. inv D.
        destruct (Hj _ _ _ Dj) as [G _]. intros B. eapply IHl; eauto.
    - rewrite decode_obj_eq in E. destruct (decode_pairs lower known construct false st l) as [[vs st1]|] eqn:D; [|discriminate]. cbn [bind] in E.
      assert (X : length (fst st) <= length (fst st1) /\ (forall o, o < length (fst st) -> hget (fst st1) o = hget (fst st) o)
                  /\ (inputs_agree (fst st) -> inputs_agree (fst st1)) /\ forall k v, In (k, v) vs -> unclaimed (fst st1) v /\ forall o, v = PRef o -> o < length (fst st1)).
      { clear E. revert st vs st1 D. induction IH as [|[k j] l Hj F IHl]; intros st vs st1 D; cbn in D.
        - inv D. split; [auto|]. split; [auto|]. split; [auto|]. intros ? ? [].
        - cbn in Hj. destruct (decode false st j) as [[v s1]|] eqn:Dj; [|discriminate]. cbn in D. destruct (decode_pairs _ _ _ false s1 l) as [[vs' s2]|] eqn:Dl; [|discriminate]. cbn in D. inv D.
          destruct (Hj _ _ _ Dj) as (B & Uv & Lv). destruct (IHl _ _ _ Dl) as (L2 & K2 & B2 & U2).
          destruct (decode_any j false (length (fst st)) st v s1 (le_n _) ltac:(discriminate) Dj) as [[L1 K1 _ _] _].
          split; [eapply Nat.le_trans; eauto|]. split; [intros o Lo; rewrite K2; [apply K1; auto | eapply Nat.lt_le_trans; eauto]|]. split; [auto|].
          intros k' v' [Ev|I]; [|eauto]. injection Ev as <- <-. split; [|intros o ->; eapply Nat.lt_le_trans; [now apply Lv | exact L2]].
          intros o kk -> Kk Hk q. unfold kind_at in Kk. rewrite K2 in Kk by now apply Lv. unfold fval. rewrite K2 by now apply Lv. exact (Uv o kk eq_refl Kk Hk q). }
      destruct X as (L & K & B & U). clear IH D.
      unfold load_and_index in E. destruct (dict_get "type" (dict_update vs [])) as [[|[| | |t]| | | | | | ]|]; try discriminate.
      2:{ inv E. split; auto. split; [intros o k X; discriminate | intros o X; discriminate]. }
      assert (U' : forall f v, dict_get f (dict_del "type" (dict_update vs [])) = Some v -> unclaimed (fst st1) v /\ forall o, v = PRef o -> o < length (fst st1)).
      { intros f v G. apply dict_get_In, in_del, in_update in G as [G|[]]. eauto. }
      destruct (String.eqb t "link_by_uid").
      { unfold make_link in E. destruct (dict_get "scope" _) as [[|[| | |s]| | | | | | ]|]; try discriminate.
        destruct (dict_get "id" _) as [[|[| | |i]| | | | | | ]|]; try discriminate. inv E. split; auto. split; [intros o k X; discriminate | intros o X; discriminate]. }
      destruct (kind_of t) as [k|].
      + destruct st1 as [h ix], st' as [h' ix']. destruct (make_entity_any _ _ _ _ _ _ _ E) as (-> & Lh & Kn & F & _ & _ & u & fs & A). cbn [fst] in *.
        set (d := dict_del "type" (dict_update vs [])) in *.
        assert (Un : untied (h ++ [mkE k u (blank k ++ fs)]) (length h) "output_material" \/ ~ (k = KProcR \/ k = KProcS)).
        { destruct k; try (right; intros [X|X]; discriminate); left; intros q; rewrite fval_new, Nat.eqb_refl, (new_blank _ u fs "output_material" PNone) by reflexivity; discriminate. }
        destruct (assign_all_inputs _ _ _ _ k A) as [I1 I2].
        { rewrite kind_new, Nat.eqb_refl. reflexivity. }
        { unfold keys. rewrite map_map. cbn. rewrite map_id. apply ref_args_nodup. }
        { intros f I. unfold keys in I. rewrite map_map in I. cbn in I. rewrite map_id in I. split; [eapply ref_args_field; eauto | now apply new_untied]. }
        { intros v I p kp -> Kp Hk q. apply in_map_iff in I as (f & Ef & I). injection Ef as -> Ea. unfold arg in Ea.
          destruct (dict_get "process" d) as [v|] eqn:G; [subst v|discriminate]. destruct (U' _ _ G) as [Up Lp]. specialize (Lp p eq_refl).
          rewrite kind_new in Kp. rewrite fval_new. replace (Nat.eqb p (length h)) with false in * by (symmetry; apply Nat.eqb_neq; lia).
          exact (Up p kp eq_refl Kp Hk q). }
        split; [|split].
        * intros B0. apply I1. exact (inputs_agree_step (item_eq lower) h (GNew k u fs) ltac:(intros ? ? ? ? X; discriminate) ltac:(intros ? ? ? ? X; discriminate) (B B0)).
        * intros o kk X Kk Hk. injection X as <-. rewrite Kn in Kk. injection Kk as <-. destruct Un as [Un|Un]; [now apply I2 | contradiction].
        * intros o X. injection X as <-. lia.
      + destruct (known t); [|discriminate]. destruct (construct _ t _) as [fs|]; [|discriminate]. inv E. split; auto. split; [intros o k X; discriminate | intros o X; discriminate].
  Qed.
End Any.

(** ** The properties that survive *)

Section Instances.
  Variable eq : heap -> pv -> oid -> bool.

  Lemma outputs_new : forall h k u fs, outputs_agree h -> outputs_agree (h ++ [mkE k u (blank k ++ fs)]).
  Proof. intros h k u fs O. exact (outputs_agree_step eq h (GNew k u fs) O). Qed.
  Lemma outputs_assign : forall h o f v, outputs_agree h -> outputs_agree (fst (assign eq h o f v)).
  Proof. intros h o f v O. exact (outputs_agree_step eq h (GSet o f v) O). Qed.
  Lemma lists_new : forall h k u fs, lists_mirror h -> lists_mirror (h ++ [mkE k u (blank k ++ fs)]).
  Proof.
    intros h k u fs M. refine (mirror_step eq h (GNew k u fs) _ _ M).
    - intros ? ? ? ? ? ? ? ? ? E. discriminate.
    - intros ? ? ? ? E. discriminate.
  Qed.
  Lemma lists_assign : forall h o f v, untied h o f -> lists_mirror h -> lists_mirror (fst (assign eq h o f v)).
  Proof.
    intros h o f v U M. refine (mirror_step eq h (GSet o f v) _ _ M).
    - intros x cf w ck pk lf p l y E K L F. injection E as <- <- <-. destruct (U p F).
    - intros x g w k E K T [p F]. injection E as <- <- <-. destruct (U p F).
  Qed.
End Instances.
