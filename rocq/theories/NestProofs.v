(** raw_loads after raw_dumps *)
From Coq Require Import String List Bool Arith Lia Permutation.
From Verif Require Import Base BaseFacts CidModel GraphModel GraphSpec GraphProofs EqModel EqSpec EqProofs EqCopies TravModel TravSpec TravProofs SerialModel SerialSpec SerialSim SerialProofs SerialLinks SerialEntity SerialRecords FlattenProofs LoadProofs ViewModel ViewSpec ViewProofs ReprSpec ReprProofs NestSpec.
Import ListNotations.
Open Scope string_scope.
Open Scope list_scope.
Open Scope nat_scope.

(** ** What loading changes in objects that exist *)

Definition kept (g g' : heap) : Prop :=
  forall c e, hget g c = Some e -> exists e', hget g' c = Some e' /\ e_kind e' = e_kind e /\ e_uids e' = e_uids e
    /\ (forall f, In f (keys (e_fields e)) -> In f (keys (e_fields e')))
    /\ (forall f, In f (keys (e_fields e')) -> In f (keys (e_fields e)) \/ read_only (e_kind e) f)
    /\ (forall f, ~ read_only (e_kind e) f -> fget e' f = fget e f).

Lemma kept_refl : forall g, kept g g.
Proof. intros g c e H. exists e. repeat split; auto. Qed.

Lemma kept_trans : forall a b c, kept a b -> kept b c -> kept a c.
Proof.
  intros a b c H J o e E. destruct (H o e E) as (e1 & E1 & K1 & U1 & A1 & B1 & F1). destruct (J o e1 E1) as (e2 & E2 & K2 & U2 & A2 & B2 & F2).
  exists e2. split; auto. split; [congruence|]. split; [congruence|]. split; [auto|]. split.
  - intros f I. apply B2 in I as [I|I]; [auto|]. right. now rewrite <- K1.
  - intros f N. rewrite F2; [auto|]. now rewrite K1.
Qed.

Lemma kept_app : forall g x, kept g (g ++ [x]).
Proof. intros g x c e H. exists e. split; [|repeat split; auto]. rewrite hget_app1; auto. eapply hget_lt; eauto. Qed.

Lemma kept_kind : forall g g' c k, kept g g' -> kind_at g c = Some k -> kind_at g' c = Some k.
Proof.
  intros g g' c k H K. unfold kind_at in *. destruct (hget g c) as [e|] eqn:E; [|discriminate]. inv K. destruct (H c e E) as (e' & -> & K' & _). cbn. now rewrite K'.
Qed.

Lemma pv_ref_dec : forall v o, {v = PRef o} + {v <> PRef o}.
Proof. intros v o. destruct v as [| | |p| | | |]; try (right; discriminate). destruct (Nat.eq_dec p o) as [->|N]; [now left | right; congruence]. Qed.

Lemma kept_back : forall k n g cf f v, two k = Some (cf, f) -> (forall p, v = PRef p -> exists pk, kind_at g p = Some pk /\ read_only pk f) ->
  kept g (back k n g (cf, v)).
Proof.
  intros k n g cf f v T H c e E. destruct (pv_ref_dec v c) as [->|N].
  2:{ exists e. split; [|repeat split; auto]. now rewrite (back_other k n g cf f v c T N). }
  rewrite (back_same k n g cf f c e T E). eexists. split; [reflexivity|]. cbn [e_kind e_uids e_fields].
  destruct (H c eq_refl) as (pk & Kp & Ro). unfold kind_at in Kp. rewrite E in Kp. inv Kp.
  split; auto. split; auto. split; [|split].
  - intros f' I. destruct (string_dec f' f) as [->|Nf]; [apply dict_get_keys; rewrite dict_get_set_same; discriminate|].
    apply dict_get_keys. rewrite dict_get_set_other by auto. now apply dict_get_keys.
  - intros f' I. apply in_keys_set in I as [->|I]; auto.
  - intros f' Nf. unfold fget. cbn [e_fields]. rewrite dict_get_set_other; auto. intros ->. contradiction.
Qed.

Section Nest.
  Variable lower : string -> string.
  Variable known : string -> bool.
  Variable construct : heap -> string -> list (string * pv) -> res (list (string * pv)).
  Variable h : heap.
  Variable base : nat.
  (** The value written. *)
  Variable top : pv.
  Notation decode := (decode lower known construct).
  Notation representable := (representable lower known construct h).

  (** [c] is a copy of [o], down to a depth of [n] entities, which is all there is. *)
  Fixpoint cp (n : nat) (g : heap) (o c : oid) : Prop :=
    match n with
    | O => False
    | S n' => inside h top o /\ base <= c /\ exists e e', hget h o = Some e /\ hget g c = Some e' /\ e_kind e' = e_kind e /\ Permutation (e_uids e') (e_uids e)
        /\ (forall f, read_only (e_kind e) f -> In f (keys (e_fields e)))
        /\ (forall f, In f (keys (e_fields e')) <-> In f (keys (e_fields e)))
        /\ (forall f, In f (keys (e_fields e)) -> ~ read_only (e_kind e) f -> sim (renamed (cp n' g)) (read h o f) (fget e' f))
    end.

  Lemma renamed_mono : forall (P Q : oid -> oid -> Prop) v w, (forall o c, P o c -> Q o c) -> sim (renamed P) v w -> sim (renamed Q) v w.
  Proof. intros P Q v w H S. eapply sim_mono_in; [exact S|]. intros a b _ L. destruct a, b; cbn in *; auto. Qed.

  Lemma cp_kept : forall n g g' o c, kept g g' -> cp n g o c -> cp n g' o c.
  Proof.
    induction n as [|n IH]; intros g g' o c K; [auto|]. intros (In & B & e & e' & E & E' & Ke & Pu & Ro & Kf & F).
    split; auto. split; auto. destruct (K c e' E') as (e2 & E2 & K2 & U2 & A2 & B2 & F2). exists e, e2. split; auto. split; auto. split; [congruence|].
    split; [now rewrite U2|]. split; auto. split.
    - intros f. split; intros I; [apply B2 in I as [I|I]; [now apply Kf | rewrite Ke in I; auto] | apply A2; now apply Kf].
    - intros f I N. rewrite F2 by (now rewrite Ke). eapply renamed_mono; [|now apply F]. intros. eapply IH; eauto.
  Qed.
  Lemma cp_more : forall n g o c, cp n g o c -> cp (S n) g o c.
  Proof.
    induction n as [|n IH]; intros g o c; [contradiction|]. intros (In & B & e & e' & E & E' & Ke & Pu & Ro & Kf & F).
    split; auto. split; auto. exists e, e'. repeat (split; [assumption|]). intros f I N. eapply renamed_mono; [|now apply F]. auto.
  Qed.
  Lemma cp_kind : forall n g o c, cp n g o c -> kind_at h o = kind_at g c.
  Proof. intros [|n] g o c; [contradiction|]. intros (_ & _ & e & e' & E & E' & Ke & _). unfold kind_at. rewrite E, E'. cbn. now rewrite Ke. Qed.
  Lemma cp_relinked : forall n g a b, renamed (cp n g) a b -> relinked h g a b.
  Proof. intros n g a b. destruct a, b; cbn; auto. apply cp_kind. Qed.

  (** ** Reading values back *)

  Definition ext (n : nat) (g g' : heap) : Prop := kept g g' /\ lists_ok g' /\ length g <= length g'
    /\ forall c, length g <= c -> c < length g' -> exists o, cp n g' o c.
  Definition back_as (n : nat) (x : pv) (j : json) : Prop :=
    forall (g : heap) ix, base <= length g -> lists_ok g ->
      exists w g' ix', decode false (g, ix) j = Ok (w, (g', ix')) /\ ext n g g' /\ sim (renamed (cp n g')) x w.

  Lemma ext_refl : forall n g, lists_ok g -> ext n g g.
  Proof. intros n g L. split; [apply kept_refl|]. split; [auto|]. split; [auto|]. intros; lia. Qed.
  Lemma ext_trans : forall n a b c, ext n a b -> ext n b c -> ext n a c.
  Proof.
    intros n a b c (K & L & N & A) (K' & L' & N' & A'). split; [eapply kept_trans; eauto|]. split; auto. split; [lia|].
    intros x Lx Ux. destruct (Nat.lt_ge_cases x (length b)) as [Lt|Ge]; [|auto]. destruct (A x Lx Lt) as (o & C). exists o. eapply cp_kept; eauto.
  Qed.
  Lemma sim_ext : forall n g g' x w, ext n g g' -> sim (renamed (cp n g)) x w -> sim (renamed (cp n g')) x w.
  Proof. intros n g g' x w [K _] S. eapply renamed_mono; [|exact S]. intros. eapply cp_kept; eauto. Qed.

  Lemma list_back : forall n l js, Forall2 (back_as n) l js -> forall (g : heap) ix, base <= length g -> lists_ok g ->
    exists ws g' ix', decode_list lower known construct false (g, ix) js = Ok (ws, (g', ix')) /\ ext n g g' /\ Forall2 (sim (renamed (cp n g'))) l ws.
  Proof.
    induction 1 as [|x j l js C F IH]; intros g ix Bs L; [exists [], g, ix; split; [reflexivity|]; split; [now apply ext_refl | constructor]|].
    destruct (C g ix Bs L) as (w & g1 & ix1 & E1 & X1 & S1). assert (Y1 := X1). destruct Y1 as (K1 & L1 & N1 & _).
    destruct (IH g1 ix1) as (ws & g2 & ix2 & E2 & X2 & S2); [lia|auto|].
    exists (w :: ws), g2, ix2. cbn [decode_list]. rewrite E1. cbn. rewrite E2. cbn. split; auto.
    split; [eapply ext_trans; eauto|]. constructor; auto. eapply sim_ext; eauto.
  Qed.
  Lemma pairs_back : forall n l js, Forall2 (both (back_as n)) l js -> forall (g : heap) ix, base <= length g -> lists_ok g ->
    exists ws g' ix', decode_pairs lower known construct false (g, ix) js = Ok (ws, (g', ix')) /\ ext n g g' /\ Forall2 (both (sim (renamed (cp n g')))) l ws.
  Proof.
    induction 1 as [|[k x] [k' j] l js [E0 C] F IH]; intros g ix Bs L; [exists [], g, ix; split; [reflexivity|]; split; [now apply ext_refl | constructor]|].
    cbn in E0, C. subst k'. destruct (C g ix Bs L) as (w & g1 & ix1 & E1 & X1 & S1). assert (Y1 := X1). destruct Y1 as (K1 & L1 & N1 & _).
    destruct (IH g1 ix1) as (ws & g2 & ix2 & E2 & X2 & S2); [lia|auto|].
    exists ((k, w) :: ws), g2, ix2. cbn [decode_pairs]. rewrite E1. cbn. rewrite E2. cbn. split; auto.
    split; [eapply ext_trans; eauto|]. constructor; auto. split; auto. cbn. eapply sim_ext; eauto.
  Qed.

  Lemma members_back : forall n l js, NoDup (keys l) -> Forall2 (both (back_as n)) l js -> forall (g : heap) ix, base <= length g -> lists_ok g ->
    exists d g' ix', decode false (g, ix) (JObj (sort_keys js)) = load_and_index lower known construct false (g', ix') d
      /\ ext n g g' /\ dsim (sim (renamed (cp n g'))) l d.
  Proof.
    intros n l js N F g ix Bs L.
    destruct (Forall2_perm_l _ _ (fun q p => both (back_as n) p q) js l (sort_keys js)) as (l' & Pl & F').
    { clear - F. induction F; constructor; auto. }
    { symmetry. apply sort_keys_perm. }
    assert (F2 : Forall2 (both (back_as n)) l' (sort_keys js)) by (clear - F'; induction F'; constructor; auto).
    destruct (pairs_back n _ _ F2 g ix Bs L) as (ws & g' & ix' & E & X & S).
    exists ws, g', ix'. rewrite decode_obj_eq, E. cbn [bind].
    assert (N' : NoDup (keys l')) by (eapply perm_nodup; eauto).
    assert (Nw : NoDup (keys ws)) by (rewrite <- (keys_both _ _ _ _ _ S); auto).
    rewrite dict_update_nil by auto. split; auto. split; auto.
    apply dsim_perm_l with (l := l'); [|now symmetry]. split; [auto|]. split; [auto|]. exists ws. auto.
  Qed.

  Lemma typed_back : forall n l js t, NoDup (keys l) -> ~ In "type" (keys l) -> Forall2 (both (back_as n)) l js -> forall (g : heap) ix, base <= length g -> lists_ok g ->
    exists d g' ix', decode false (g, ix) (JObj (sort_keys (js ++ [("type", JAtom (AStr t))]))) = load_typed lower known construct false (g', ix') t d
      /\ ext n g g' /\ dsim (sim (renamed (cp n g'))) l d.
  Proof.
    intros n l js t N I F g ix Bs L.
    assert (F1 : Forall2 (both (back_as n)) (l ++ [("type", str t)]) (js ++ [("type", JAtom (AStr t))])).
    { apply Forall2_app; auto. constructor; [|constructor]. split; auto. cbn. intros g0 ix0 _ L0. exists (str t), g0, ix0. split; auto. split; [now apply ext_refl|reflexivity]. }
    destruct (members_back n (l ++ [("type", str t)]) (js ++ [("type", JAtom (AStr t))])) with (g := g) (ix := ix) as (d & g' & ix' & E & X & D); auto.
    { unfold keys. rewrite map_app. apply NoDup_app_intro; auto.
      - repeat constructor. intros [].
      - intros x I1 [<-|[]]. contradiction. }
    apply dsim_perm_l with (l' := ("type", str t) :: l) in D; [|symmetry; apply Permutation_cons_append].
    destruct (dsim_del _ _ _ _ _ D) as (y & Ey & Sy & D'). destruct y; cbn in Sy; try contradiction. subst a.
    exists (dict_del "type" d), g', ix'. split; auto. rewrite E. unfold load_and_index. rewrite Ey. reflexivity.
  Qed.

  Definition round (n : nat) (nested : oid -> res json) (x : oid) : Prop := exists j, nested x = Ok j /\ back_as n (PRef x) j.

  Lemma members_round : forall n nested l, Forall (fun kv => exists j, encode nested (snd kv) = Ok j /\ back_as n (snd kv) j) l ->
    exists js, encode_pairs nested l = Ok js /\ Forall2 (both (back_as n)) l js.
  Proof.
    induction 1 as [|[k x] l (j & E & C) _ (js & E' & F)]; [exists []; split; constructor|]. cbn in E, C. exists ((k, j) :: js). cbn [encode_pairs].
    rewrite E. cbn [bind]. rewrite E'. cbn [bind]. split; auto. constructor; auto. split; auto.
  Qed.

  Lemma value_round : forall n nested v, storable known construct h v -> (forall x, mentions v x -> round n nested x) ->
    exists j, encode nested v = Ok j /\ back_as n v j.
  Proof.
    intros n nested v. induction v using pv_ind2; intros St M.
    - exists JNull. split; auto. intros g ix _ L. exists PNone, g, ix. split; auto. split; [now apply ext_refl | exact I].
    - exists (JAtom a). split; auto. intros g ix _ L. exists (PAtom a), g, ix. split; auto. split; [now apply ext_refl | reflexivity].
    - eexists. split; [reflexivity|]. intros g ix _ L. exists (PLink s i), g, ix. split; [reflexivity|]. split; [now apply ext_refl|]. cbn. auto.
    - apply M. constructor.
    - inv St. assert (X : exists js, traverse (encode nested) l = Ok js /\ Forall2 (back_as n) l js).
      { revert H H1 M. induction l as [|x l IH]; intros H H1 M; [exists []; split; constructor|]. inv H. inv H1.
        destruct (H3 H2) as (j & E & C). { intros y My. apply M. econstructor; [now left | exact My]. }
        destruct (IH H4 H5) as (js & E' & F). { intros y My. apply M. inv My. econstructor; [right; eauto | eauto]. }
        exists (j :: js). cbn [traverse]. rewrite E. cbn [bind]. rewrite E'. cbn [bind]. auto. }
      destruct X as (js & E & F). exists (JArr js). rewrite encode_list_eq, E. split; auto. intros g ix Bs L.
      destruct (list_back n _ _ F g ix Bs L) as (ws & g' & ix' & E' & X & S). exists (PList ws), g', ix'. rewrite decode_arr_eq, E'. split; auto. split; auto.
      now apply sim_list.
    - inv St.
    - inv St. destruct (members_round n nested l) as (js & E & C).
      { rewrite Forall_forall in *. intros kv I. apply (H _ I); auto. intros x Mx. apply M. destruct kv as [k w]. econstructor; eauto. }
      exists (JObj (sort_keys js)). rewrite encode_dict_eq, E. split; auto. intros g ix Bs L.
      destruct (members_back n l js) with (g := g) (ix := ix) as (m & g' & ix' & Ed & X & D); auto.
      exists (PDict m), g', ix'. split; [|split; [auto | now apply sim_dict]]. rewrite Ed. unfold load_and_index.
      replace (dict_get "type" m) with (@None pv); auto. symmetry. apply dict_get_None. intros I. apply H2.
      eapply Permutation_in; [symmetry; eapply dsim_keys; eauto | exact I].
    - inv St. destruct (members_round n nested l) as (js & E & C).
      { rewrite Forall_forall in *. intros kv I. apply (H _ I); auto. intros x Mx. apply M. destruct kv as [k w]. econstructor; eauto. }
      eexists. rewrite encode_obj_eq, E. split; [reflexivity|]. intros g ix Bs L.
      destruct (typed_back n l js t) with (g := g) (ix := ix) as (d & g' & ix' & Ed & X & D); auto.
      destruct (H8 g' d) as (fs' & Ec & Pc).
      { apply sim_dict. eapply dsim_mono_in; eauto. intros k x y Ix Iy Sxy. eapply sim_mono_in; eauto. intros a b _. apply cp_relinked. }
      exists (PObj t fs'), g', ix'. rewrite Ed. unfold load_typed. apply String.eqb_neq in H4. rewrite H4, H3, H2. cbn [fst]. rewrite Ec. split; auto. split; auto.
      apply sim_obj. split; auto. apply dsim_perm_r with (m := d); auto. now symmetry.
  Qed.

  (** ** Entities *)

  Lemma lists_snoc : forall g k u fs, lists_ok g -> (forall f, read_only k f -> dict_get f fs = dict_get f (blank k)) -> lists_ok (g ++ [mkE k u fs]).
  Proof.
    intros g k u fs L B ck cf pk lf p Ls K. rewrite kind_new in K. rewrite fval_new. destruct (Nat.eqb p (length g)) eqn:E; [|eauto].
    injection K as K. cbn [e_kind] in K. subst k. unfold fget. cbn [e_fields]. rewrite B.
    - destruct Ls as [X|[X|X]]; inversion X; subst; cbn; eauto.
    - unfold read_only. destruct Ls as [X|[X|X]]; inversion X; subst; tauto.
  Qed.

  Lemma entity_round : forall n nested o e, inside h top o -> hget h o = Some e -> representable o e ->
    (forall f x, In f (keys (e_fields e)) -> ~ read_only (e_kind e) f -> mentions (read h o f) x -> round n nested x) ->
    exists j, encode nested (PDict (as_dict h o)) = Ok j /\ back_as (S n) (PRef o) j.
  Proof.
    intros n nested o e Ins He W M. set (l := ("uids", uids_val e) :: fields_of h o e).
    destruct (members_round n nested l) as (js & E & C).
    { assert (Q := members_storable lower known construct h o e W). fold l in Q. rewrite Forall_forall in *. intros [f v] I. cbn [snd]. apply value_round; [apply (Q _ I)|].
      intros x Mx. destruct I as [I|I].
      - inv I. apply mentions_within, within_uids in Mx as [Mx|[s Mx]]; discriminate.
      - apply fields_of_in in I as (A & B & ->). eauto. }
    eexists. split.
    { rewrite encode_dict_eq, (as_dict_eq h o e He). fold l. change (("uids", uids_val e) :: fields_of h o e ++ [("type", str (typ_of (e_kind e)))]) with (l ++ [("type", str (typ_of (e_kind e)))]).
      rewrite encode_pairs_app, E. reflexivity. }
    intros g0 ix0 Bs L0.
    destruct (typed_back n l js (typ_of (e_kind e))) with (g := g0) (ix := ix0) as (d & g & ix & Ed & X & D); auto.
    { apply (members_nodup lower known construct); auto. }
    { apply (members_type lower known construct); auto. }
    assert (X' := X). destruct X' as (Kp & Lg & Ln & An).
    destruct (make_entity_ok lower known construct h g ix o e d (renamed (cp n g)) He W D) as (u & fs & Em & Pu & Nf & Kf & Sf & Bf & Rf); auto.
    { intros f a b _ _ _. apply cp_relinked. }
    cbn zeta in *. rewrite fold_back_one in Em. set (k := e_kind e) in *.
    set (final := dict_update (map (fun f => (f, arg d f)) (ref_args k)) (blank k ++ fs)) in *.
    set (g1 := match two k with Some (cf, _) => back k (length g) g (cf, arg d cf) | None => g end) in *.
    assert (K1 : kept g g1 /\ lists_ok g1 /\ length g1 = length g).
    { unfold g1. destruct (two k) as [[cf f]|] eqn:T; [|split; [apply kept_refl|auto]]. split; [|split; [now apply back_lists | apply back_length]].
      apply kept_back with f; auto. intros p Ep. destruct (two_ref _ _ _ T) as (Rc & pk & Ak & Ro). exists pk. split; auto.
      assert (Sc := Rf cf Rc). rewrite Ep in Sc. destruct (rp_refs _ _ _ _ _ _ W cf Rc) as (k0 & pk' & Kk & Ak' & V).
      unfold kind_at in Kk. rewrite He in Kk. inv Kk. assert (pk' = pk) by (eapply asked_fun; eauto). subst pk'.
      destruct V as [V|[(s & i & V)|(q & V & Kq)]]; rewrite V in Sc; cbn in Sc; try contradiction. rewrite <- (cp_kind _ _ _ _ Sc). exact Kq. }
    destruct K1 as (K1 & L1 & N1).
    assert (K2 : kept g (g1 ++ [mkE k u final])) by (eapply kept_trans; [exact K1 | apply kept_app]).
    exists (PRef (length g)), (g1 ++ [mkE k u final]). eexists. split.
    { rewrite Ed. unfold load_typed. rewrite typ_not_link, kind_of_typ. exact Em. }
    assert (New : cp (S n) (g1 ++ [mkE k u final]) o (length g)).
    { cbn [cp]. split; [auto|]. split; [lia|]. exists e, (mkE k u final). split; auto. split; [rewrite <- N1; apply hget_app2|]. cbn [e_kind e_uids e_fields].
      split; auto. split; auto. split; [|split; [auto|]].
      - intros f Ro. apply (rp_blank _ _ _ _ _ _ W). apply blank_keys. auto.
      - intros f I N. destruct (Sf f I N) as (v' & Ev & Sv). unfold fget. cbn [e_fields]. rewrite Ev. eapply renamed_mono; [|exact Sv]. intros. eapply cp_kept; eauto. }
    split; [|exact New].
    split; [eapply kept_trans; eauto|]. split; [apply lists_snoc; auto|]. rewrite app_length, N1. cbn [length]. split; [lia|].
    intros c Lc Uc. destruct (Nat.eq_dec c (length g)) as [->|Nc]; [eauto|]. destruct (An c Lc) as (x & Cx); [lia|]. exists x. apply cp_more. eapply cp_kept; eauto.
  Qed.

  (** ** All of it *)

  Hypothesis W : all_representable lower known construct h top.
  Hypothesis PA : plain_attributes h top.

  Lemma inside_step : forall o e f x, inside h top o -> hget h o = Some e -> ~ read_only (e_kind e) f -> mentions (read h o f) x -> inside h top x.
  Proof. intros o e f x (y & My & Iy) E N M. exists y. split; auto. eapply if_field; eauto. Qed.

  Lemma inside_rank : forall o e f x, inside h top o -> hget h o = Some e -> In f (keys (e_fields e)) -> ~ read_only (e_kind e) f -> mentions (read h o f) x ->
    exists kx, kind_at h x = Some kx /\ rank kx < rank (e_kind e).
  Proof.
    intros o e f x I E If N M. destruct (W o I) as (e0 & E0 & Re). rewrite E in E0. inv E0.
    assert (K : kind_at h o = Some (e_kind e0)) by (unfold kind_at; now rewrite E).
    destruct (in_dec string_dec f (ref_args (e_kind e0))) as [Ir|Ir]; rewrite ref_args_iff in Ir.
    - rewrite (read_fval h o f _ K Ir) in M. destruct (rp_refs _ _ _ _ _ _ Re f Ir) as (k & pk & Kk & A & V). rewrite K in Kk. inv Kk.
      destruct V as [V|[(s & i & V)|(p & V & Kp)]]; rewrite V in M; inv M. exists pk. split; auto. now apply rank_ref with f.
    - destruct (PA o e0 f x I E If Ir N M) as [At An].
      assert (0 < rank (e_kind e0)).
      { destruct (e_kind e0) eqn:Ek; cbn; try lia; exfalso; apply An; unfold attribute_template; rewrite K; auto. }
      destruct At as [At|[At|At]]; eexists; (split; [exact At|]); cbn; lia.
  Qed.

  Lemma nested_round : forall m fuel o k, inside h top o -> kind_at h o = Some k -> rank k < m -> under h k < fuel -> round m (encode_nested h fuel) o.
  Proof.
    induction m as [|m IH]; intros fuel o k I K Rk Uk; [lia|]. destruct fuel as [|fuel]; [lia|].
    destruct (W o I) as (e & E & Re). assert (K' := K). unfold kind_at in K'. rewrite E in K'. inv K'.
    apply (entity_round m (encode_nested h fuel) o e I E Re). intros f x If N M. destruct (inside_rank o e f x I E If N M) as (kx & Kx & Lx).
    apply IH with kx; auto; [eapply inside_step; eauto | lia |]. assert (U := under_lt h x kx _ Kx Lx). lia.
  Qed.

  Lemma dumps_round : storable known construct h top -> exists j, raw_dumps h top = Ok j /\ back_as 6 top j.
  Proof.
    intros St. apply value_round; auto. intros x M. assert (I : inside h top x) by (exists x; split; [auto | constructor]).
    destruct (W x I) as (e & E & _). apply nested_round with (e_kind e); auto.
    - unfold kind_at. now rewrite E.
    - apply rank_small.
    - assert (U := under_le h (e_kind e)). lia.
  Qed.

  (** *** Reading through the getters *)

  Definition copy_in (g : heap) (o c : oid) : Prop := exists n, cp n g o c.

  Lemma fget_out : forall e f, ~ In f (keys (e_fields e)) -> fget e f = PNone.
  Proof. intros e f N. unfold fget. replace (dict_get f (e_fields e)) with (@None pv); auto. symmetry. now apply dict_get_None. Qed.

  Lemma copy_inside : forall g o c, copy_in g o c -> inside h top o /\ base <= c.
  Proof. intros g o c (n & C). destruct n as [|n]; [contradiction|]. destruct C as (I & B & _). auto. Qed.

  Lemma copy_fields : forall g o c, copy_in g o c -> exists e e', hget h o = Some e /\ hget g c = Some e'
    /\ e_kind e' = e_kind e /\ Permutation (e_uids e') (e_uids e)
    /\ (forall f, In f (keys (e_fields e')) <-> In f (keys (e_fields e)))
    /\ (forall f, In f (keys (e_fields e)) -> ~ read_only (e_kind e) f -> sim (renamed (copy_in g)) (read h o f) (fget e' f)).
  Proof.
    intros g o c (n & C). destruct n as [|n]; [contradiction|]. destruct C as (_ & B & e & e' & E & E' & Ke & Pu & Ro & Kf & F).
    exists e, e'. repeat (split; [assumption|]). intros f If N. eapply renamed_mono; [|now apply F]. intros. now exists n.
  Qed.

  Lemma copy_fval : forall g o c f e, copy_in g o c -> hget h o = Some e -> ~ read_only (e_kind e) f -> read h o f = fval h o f ->
    sim (renamed (copy_in g)) (fval h o f) (fval g c f).
  Proof.
    intros g o c f e C E N Rd. destruct (copy_fields g o c C) as (e0 & e' & E0 & E' & Ke & _ & Kf & F). rewrite E in E0. inv E0.
    unfold fval at 2. rewrite E'. destruct (in_dec string_dec f (keys (e_fields e0))) as [I|I]; [rewrite <- Rd; auto|].
    rewrite fget_out by (now rewrite Kf). unfold fval. rewrite E, fget_out by auto. exact Logic.I.
  Qed.

  Lemma copies_resemble : forall g, resembles h g (copy_in g).
  Proof.
    intros g o c C. destruct (copy_fields g o c C) as (e & e' & E & E' & Ke & Pu & Kf & F). exists e, e'. repeat (split; [assumption|]).
    intros f N. assert (K : kind_at h o = Some (e_kind e)) by (unfold kind_at; now rewrite E).
    assert (Kc : kind_at g c = Some (e_kind e)) by (unfold kind_at; rewrite E'; cbn; now rewrite Ke).
    destruct (ekind_eq_dec (e_kind e) KIngR) as [Er|Nr].
    2:{ rewrite (read_other h o _ f K Nr), (read_other g c _ f Kc Nr). eapply copy_fval; eauto. now apply read_other with (e_kind e). }
    rewrite Er in *. unfold read. rewrite K, Kc.
    destruct (String.eqb f "name" || String.eqb f "labels") eqn:Ef.
    2:{ eapply copy_fval; eauto; rewrite ?Er; auto. unfold read. now rewrite K, Ef. }
    assert (Ins := proj1 (copy_inside _ _ _ C)). destruct (W o Ins) as (e0 & E0 & Re). rewrite E in E0. inv E0.
    assert (Rs : reference KIngR "spec") by (exists KIngS; unfold asked_kind; cbn; tauto).
    assert (Nsp : ~ read_only KIngR "spec") by (now apply ref_not_ro).
    assert (Ssp : sim (renamed (copy_in g)) (fval h o "spec") (fval g c "spec")).
    { eapply copy_fval; eauto; rewrite ?Er; auto. now apply read_fval with KIngR. }
    assert (Ty := rp_refs _ _ _ _ _ _ Re "spec"). rewrite Er in Ty. destruct (Ty Rs) as (k & pk & Kk & A & V). rewrite K in Kk. inv Kk.
    assert (pk = KIngS). { eapply asked_fun; eauto. unfold asked_kind. cbn. tauto. } subst pk.
    assert (Own : read h o f = fval h o f -> sim (renamed (copy_in g)) (fval h o f) (fval g c f)) by (intros Q; eapply copy_fval; eauto; rewrite ?Er; auto).
    destruct V as [V|[(s & i & V)|(s & V & Ks)]]; rewrite V in Ssp |- *; destruct (fval g c "spec") as [| |s' i'|s'| | | |] eqn:Fs; cbn in Ssp; try contradiction.
    - apply Own. unfold read. now rewrite K, Ef, V.
    - apply Own. unfold read. now rewrite K, Ef, V.
    - rewrite (proj2 (is_kind_ref h KIngS s) Ks).
      assert (Cs := Ssp). destruct (copy_fields g s s' Cs) as (es & es' & Es & Es' & Kes & _).
      assert (Hk : e_kind es = KIngS) by (unfold kind_at in Ks; rewrite Es in Ks; now injection Ks).
      assert (Ks' : kind_at g s' = Some KIngS) by (unfold kind_at; rewrite Es'; cbn; congruence).
      rewrite (proj2 (is_kind_ref g KIngS s') Ks').
      eapply copy_fval; eauto.
      + rewrite Hk. intros [[X _]|[[X|X] _]]; discriminate.
      + apply read_other with KIngS; [unfold kind_at; rewrite Es; cbn; congruence | discriminate].
  Qed.
End Nest.
