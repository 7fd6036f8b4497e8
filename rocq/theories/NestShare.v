(** raw_loads shares nothing *)
From Coq Require Import String List Bool Arith Lia.
From Verif Require Import Base BaseFacts CidModel GraphModel GraphSpec GraphProofs EqModel EqSpec TravModel TravSpec SerialModel SerialSpec SerialProofs SerialEntity ViewModel ViewSpec ViewProofs LoadAnyProofs NestSpec.
Import ListNotations.
Open Scope string_scope.
Open Scope list_scope.
Open Scope nat_scope.

Section Share.
  Variable lower : string -> string.
  Variable known : string -> bool.
  Variable construct : heap -> string -> list (string * pv) -> res (list (string * pv)).
  Notation decode := (decode lower known construct).

  Lemma assign_all_fields : forall args h o h', assign_all lower h o args = Ok h' ->
    forall x f, ref_field f -> fval h' x f = fval h x f \/ (x = o /\ In (f, fval h' x f) args).
  Proof.
    induction args as [|[f0 v] args IH]; intros h o h' E x f RF; [cbn in E; inv E; auto|].
    cbn [assign_all] in E. destruct (assign (item_eq lower) h o f0 v) as [h1 [e|]] eqn:A; [discriminate|].
    destruct (IH _ _ _ E x f RF) as [Q|[-> I]]; [|right; split; auto; now right].
    assert (E1 : h1 = fst (assign (item_eq lower) h o f0 v)) by (now rewrite A).
    destruct (assign_field (item_eq lower) h o f0 v x f RF) as [Q'|(-> & -> & Q' & _)]; rewrite <- E1 in Q'.
    - left. congruence.
    - right. split; auto. left. congruence.
  Qed.

  (** No reference of an object from [n] on leads to [c]. *)
  Definition unref (n : nat) (g : heap) (c : oid) : Prop :=
    forall p k f, n <= p -> kind_at g p = Some k -> reference k f -> fval g p f <> PRef c.
  Definition bounded (n : nat) (g : heap) : Prop :=
    forall p k f c, n <= p -> kind_at g p = Some k -> reference k f -> fval g p f = PRef c -> c < length g.
  Definition free (n : nat) (g : heap) (w : pv) : Prop := forall o, w = PRef o -> o < length g /\ unref n g o.

  Lemma reference_field : forall k f, reference k f -> ref_field f.
  Proof. intros k f [pk A]. eapply asked_ref; eauto. Qed.

  Lemma make_entity_share : forall n h ix k d w h' ix', make_entity lower construct (h, ix) k d = Ok (w, (h', ix')) -> n <= length h -> unshared n h -> bounded n h ->
    (forall f v, In (f, v) d -> free n h v) -> (forall f f' x, In (f, PRef x) d -> In (f', PRef x) d -> f = f') ->
    unshared n h' /\ bounded n h' /\ free n h' w /\ (forall o, o < length h -> unref n h o -> (forall f, ~ In (f, PRef o) d) -> unref n h' o).
  Proof.
    intros n h ix k d w h' ix' E Ln U Bd Fr Di.
    destruct (make_entity_any lower construct (fun _ => True) (fun _ _ _ _ _ => Logic.I) (fun _ _ _ _ _ _ => Logic.I) h ix k d w h' ix' E) as (-> & L & K & _ & _ & _ & u & fs & A).
    assert (Kx : forall x, kind_at h' x = kind_at (h ++ [mkE k u (blank k ++ fs)]) x).
    { destruct (assign_all_any lower (fun _ => True) (fun _ _ _ _ _ _ => Logic.I) _ _ _ _ A) as (_ & Q & _); auto.
      - unfold keys. rewrite map_map. cbn. rewrite map_id. apply ref_args_nodup.
      - intros f I. unfold keys in I. rewrite map_map in I. cbn in I. rewrite map_id in I. split; [eapply ref_args_field; eauto | now apply new_untied]. }
    assert (Old : forall p kp f, p <> length h -> kind_at h' p = Some kp -> reference kp f -> kind_at h p = Some kp /\ fval h' p f = fval h p f).
    { intros p kp f Np Kp Rf. rewrite Kx, kind_new in Kp. assert (Q : Nat.eqb p (length h) = false) by (now apply Nat.eqb_neq). rewrite Q in Kp. split; auto.
      destruct (assign_all_fields _ _ _ _ A p f (reference_field _ _ Rf)) as [F|[X _]]; [|contradiction]. now rewrite F, fval_new, Q. }
    assert (New : forall f c, reference k f -> fval h' (length h) f = PRef c -> In (f, PRef c) d).
    { intros f c Rf F. destruct (assign_all_fields _ _ _ _ A (length h) f (reference_field _ _ Rf)) as [Q|[_ I]].
      - rewrite fval_new, Nat.eqb_refl, (new_blank k u fs f PNone) in Q; [congruence|]. apply blank_ref. auto.
      - rewrite F in I. apply in_map_iff in I as (f' & Ef & _). inv Ef. unfold arg in *. destruct (dict_get f d) as [v|] eqn:G; [|discriminate]. subst v. now apply dict_get_In. }
    assert (Kn : forall k', kind_at h' (length h) = Some k' -> k' = k) by (intros k' Q; congruence).
    assert (NoNew : forall p k' f, kind_at h' p = Some k' -> reference k' f -> n <= p -> fval h' p f <> PRef (length h)).
    { intros p k' f Kp Rf Lp F. destruct (Nat.eq_dec p (length h)) as [->|Np].
      - rewrite (Kn _ Kp) in Rf. destruct (Fr f _ (New _ _ Rf F) _ eq_refl). lia.
      - destruct (Old p k' f Np Kp Rf) as [Kp' Fo]. rewrite Fo in F. assert (Q := Bd _ _ _ _ Lp Kp' Rf F). lia. }
    split; [|split; [|split]].
    - intros p kp f p' kp' f' c Lp Lp' Kp Kp' Rf Rf' F F'. destruct (Nat.eq_dec p (length h)) as [->|Np], (Nat.eq_dec p' (length h)) as [->|Np'].
      + split; auto. rewrite (Kn _ Kp) in Rf. rewrite (Kn _ Kp') in Rf'. eapply Di; eauto.
      + exfalso. rewrite (Kn _ Kp) in Rf. destruct (Old p' kp' f' Np' Kp' Rf') as [Ko Fo]. rewrite Fo in F'.
        destruct (Fr f _ (New _ _ Rf F) c eq_refl) as [_ Q]. exact (Q _ _ _ Lp' Ko Rf' F').
      + exfalso. rewrite (Kn _ Kp') in Rf'. destruct (Old p kp f Np Kp Rf) as [Ko Fo]. rewrite Fo in F.
        destruct (Fr f' _ (New _ _ Rf' F') c eq_refl) as [_ Q]. exact (Q _ _ _ Lp Ko Rf F).
      + destruct (Old p kp f Np Kp Rf) as [Ko Fo]. destruct (Old p' kp' f' Np' Kp' Rf') as [Ko' Fo']. rewrite Fo in F. rewrite Fo' in F'. eapply U; eauto.
    - intros p kp f c Lp Kp Rf F. destruct (Nat.eq_dec p (length h)) as [->|Np].
      + rewrite (Kn _ Kp) in Rf. destruct (Fr f _ (New _ _ Rf F) c eq_refl). lia.
      + destruct (Old p kp f Np Kp Rf) as [Ko Fo]. rewrite Fo in F. assert (Q := Bd _ _ _ _ Lp Ko Rf F). lia.
    - intros o X. inv X. split; [lia|]. intros p kp f Lp Kp Rf. eauto.
    - intros o Lo Uo Nd p kp f Lp Kp Rf F. destruct (Nat.eq_dec p (length h)) as [->|Np].
      + rewrite (Kn _ Kp) in Rf. exact (Nd _ (New _ _ Rf F)).
      + destruct (Old p kp f Np Kp Rf) as [Ko Fo]. rewrite Fo in F. exact (Uo _ _ _ Lp Ko Rf F).
  Qed.

  Definition shares (n : nat) (st st' : state) : Prop :=
    length (fst st) <= length (fst st') /\ unshared n (fst st') /\ bounded n (fst st')
    /\ forall o, o < length (fst st) -> unref n (fst st) o -> unref n (fst st') o.

  Lemma shares_refl : forall n st, unshared n (fst st) -> bounded n (fst st) -> shares n st st.
  Proof. intros n st U B. split; [auto|]. split; [auto|]. split; auto. Qed.
  Lemma shares_trans : forall n a b c, shares n a b -> shares n b c -> shares n a c.
  Proof.
    intros n a b c (L & U & B & F) (L' & U' & B' & F'). split; [eapply Nat.le_trans; eauto|]. split; auto. split; auto.
    intros o Lo Uo. apply F'; auto. eapply Nat.lt_le_trans; eauto.
  Qed.
  Lemma shares_free : forall n st st' w, shares n st st' -> free n (fst st) w -> free n (fst st') w.
  Proof. intros n st st' w (L & _ & _ & F) H o E. destruct (H o E). split; auto. eapply Nat.lt_le_trans; eauto. Qed.

  Lemma decode_above : forall j st w st', decode false st j = Ok (w, st') -> forall o, w = PRef o -> length (fst st) <= o.
  Proof.
    intros j st w st' E o X.
    destruct (decode_any lower known construct (fun _ => True) (fun _ _ _ _ _ => Logic.I) (fun _ _ _ _ _ _ => Logic.I) j false (length (fst st)) st w st' (le_n _) ltac:(discriminate) E) as [_ Ab].
    now apply Ab.
  Qed.

  Lemma decode_share : forall j n st w st', n <= length (fst st) -> unshared n (fst st) -> bounded n (fst st) ->
    decode false st j = Ok (w, st') -> shares n st st' /\ free n (fst st') w.
  Proof.
    induction j as [|a|l IH|l IH] using json_ind2; intros n st w st' Ln U B E.
    - cbn in E. inv E. split; [now apply shares_refl | intros o X; discriminate].
    - cbn in E. inv E. split; [now apply shares_refl | intros o X; discriminate].
    - rewrite decode_arr_eq in E. destruct (decode_list lower known construct false st l) as [[vs st1]|] eqn:D; [|discriminate]. cbn in E. inv E.
      split; [|intros o X; discriminate]. revert st vs st' Ln U B D. induction IH as [|j l Hj F IHl]; intros st vs st' Ln U B D; cbn in D.
      + inv D. now apply shares_refl.
      + destruct (decode false st j) as [[v s1]|] eqn:Dj; [|discriminate]. cbn in D. destruct (decode_list _ _ _ false s1 l) as [[vs' s2]|] eqn:Dl; [|discriminate]. cbn in D. inv D.
        destruct (Hj _ _ _ _ Ln U B Dj) as [G _]. eapply shares_trans; [exact G|]. destruct G as (L1 & U1 & B1 & _).
        eapply IHl; eauto. eapply Nat.le_trans; eauto.
    - rewrite decode_obj_eq in E. destruct (decode_pairs lower known construct false st l) as [[vs st1]|] eqn:D; [|discriminate]. cbn [bind] in E.
      assert (X : shares n st st1 /\ (forall f v, In (f, v) vs -> free n (fst st1) v /\ forall o, v = PRef o -> length (fst st) <= o)
                  /\ forall f f' x, In (f, PRef x) vs -> In (f', PRef x) vs -> f = f').
      { clear E. revert st vs st1 Ln U B D. induction IH as [|[k j] l Hj F IHl]; intros st vs st1 Ln U B D; cbn in D.
        - inv D. split; [now apply shares_refl|]. split; [intros ? ? [] | intros ? ? ? []].
        - cbn in Hj. destruct (decode false st j) as [[v s1]|] eqn:Dj; [|discriminate]. cbn in D. destruct (decode_pairs _ _ _ false s1 l) as [[vs' s2]|] eqn:Dl; [|discriminate]. cbn in D. inv D.
          destruct (Hj _ _ _ _ Ln U B Dj) as [G Fv]. assert (Av := decode_above _ _ _ _ Dj). assert (G' := G). destruct G' as (L1 & U1 & B1 & _).
          destruct (IHl s1 vs' st1) as (G2 & Fs & Di); auto; [eapply Nat.le_trans; eauto|].
          split; [eapply shares_trans; eauto|]. split.
          + intros f v' [Ev|I]; [inv Ev; split; auto; eapply shares_free; eauto|]. destruct (Fs _ _ I) as [Q Q']. split; auto. intros o X. eapply Nat.le_trans; eauto.
          + assert (Sep : forall f x, v = PRef x -> ~ In (f, PRef x) vs').
            { intros f x -> I. destruct (Fs _ _ I) as [_ Q]. specialize (Q x eq_refl). destruct (Fv x eq_refl) as [Lx _]. apply (Nat.lt_irrefl x). eapply Nat.lt_le_trans; eauto. }
            intros f f' x [Ev|I] [Ev'|I']; [congruence | inv Ev; destruct (Sep f' x eq_refl I') | inv Ev'; destruct (Sep f x eq_refl I) | eauto]. }
      destruct X as (G & Fs & Di). clear IH D. assert (G' := G). destruct G' as (L1 & U1 & B1 & F1).
      unfold load_and_index in E. destruct (dict_get "type" (dict_update vs [])) as [[|[| | |t]| | | | | | ]|]; try discriminate.
      2:{ inv E. split; auto. intros o X; discriminate. }
      set (d := dict_del "type" (dict_update vs [])) in *.
      assert (Id : forall f v, In (f, v) d -> In (f, v) vs).
      { intros f v I. unfold d in I. apply (in_del known) in I. destruct (in_update _ _ _ _ _ I) as [J|[]]; exact J. }
      destruct (String.eqb t "link_by_uid").
      { unfold make_link in E. destruct (dict_get "scope" _) as [[|[| | |s]| | | | | | ]|]; try discriminate.
        destruct (dict_get "id" _) as [[|[| | |i]| | | | | | ]|]; try discriminate. inv E. split; auto. intros o X; discriminate. }
      destruct (kind_of t) as [k|].
      + destruct st1 as [h ix], st' as [h' ix']. cbn [fst] in *.
        destruct (make_entity_share n h ix k d w h' ix' E) as (U2 & B2 & Fw & K2); auto.
        { eapply Nat.le_trans; eauto. }
        { intros f v I. apply Id in I. now apply Fs with f. }
        { intros f f' x I I'. eapply Di; eauto. }
        destruct (make_entity_any lower construct (fun _ => True) (fun _ _ _ _ _ => Logic.I) (fun _ _ _ _ _ _ => Logic.I) h ix k d w h' ix' E) as (_ & Lh & _).
        assert (Q : forall o, o < length (fst st) -> unref n (fst st) o -> unref n h' o).
        { intros o Lo Uo. apply K2; [eapply Nat.lt_le_trans; eauto | auto |]. intros f I. destruct (Fs _ _ (Id _ _ I)) as [_ Q]. specialize (Q o eq_refl).
          apply (Nat.lt_irrefl o). eapply Nat.lt_le_trans; eauto. }
        split; auto. split; [cbn [fst]; eapply Nat.le_trans; [exact L1|]; rewrite Lh; auto|]. auto.
      + destruct (known t); [|discriminate]. destruct (construct _ t _) as [fs|]; [|discriminate]. inv E. split; auto. intros o X; discriminate.
  Qed.
End Share.
