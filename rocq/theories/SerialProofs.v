(** Encoding and decoding values. *)
From Coq Require Import String List Bool Arith Lia Permutation.
From Verif Require Import Base BaseFacts CidModel GraphModel GraphProofs EqModel EqSpec EqProofs EqCopies TravModel TravSpec SerialModel SerialSpec SerialSim.
Import ListNotations.
Open Scope string_scope.
Open Scope list_scope.
Open Scope nat_scope.

(** ** Sorting *)

Lemma insert_key_perm : forall A (kv : string * A) l, Permutation (insert_key kv l) (kv :: l).
Proof.
  induction l as [|kw r IH]; cbn; auto. destruct (String.leb (fst kv) (fst kw)); auto.
  rewrite IH. apply perm_swap.
Qed.
Lemma sort_keys_perm : forall A (l : list (string * A)), Permutation (sort_keys l) l.
Proof.
  induction l as [|kv r IH]; cbn; auto. unfold sort_keys in *. cbn [fold_right]. rewrite insert_key_perm. now constructor.
Qed.

Lemma dict_update_new : forall A (l acc : list (string * A)), NoDup (keys (acc ++ l)) -> dict_update l acc = acc ++ l.
Proof.
  intros A l. induction l as [|[k v] l IH]; intros acc N; [now rewrite app_nil_r|].
  unfold dict_update. cbn [fold_left fst snd]. fold (dict_update l (dict_set k v acc)).
  assert (X : dict_set k v acc = acc ++ [(k, v)]).
  { apply dict_set_new. unfold keys in *. rewrite map_app in N. cbn in N. apply NoDup_remove_2 in N. intros I. apply N. apply in_or_app. now left. }
  rewrite X. rewrite IH; rewrite <- app_assoc; auto.
Qed.
Lemma dict_update_nil : forall A (l : list (string * A)), NoDup (keys l) -> dict_update l [] = l.
Proof. intros. now rewrite dict_update_new. Qed.

Lemma dict_del_perm : forall A k (y : A) m, dict_get k m = Some y -> Permutation m ((k, y) :: dict_del k m).
Proof.
  induction m as [|[k' v] r IH]; cbn; [discriminate|]. destruct (String.eqb k k') eqn:E; intros H; str_eq.
  - injection H as ->. auto.
  - rewrite (IH H) at 1. apply perm_swap.
Qed.

Lemma dsim_del : forall P k x l m, dsim P ((k, x) :: l) m -> exists y, dict_get k m = Some y /\ P x y /\ dsim P l (dict_del k m).
Proof.
  intros P k x l m D. assert (G := dsim_get _ _ _ k D). cbn [dict_get] in G. rewrite String.eqb_refl in G.
  destruct (dict_get k m) as [y|] eqn:E; [|contradiction]. exists y. split; auto. split; auto.
  destruct D as (N & M & m' & Pm & F). inv F. destruct y0 as [k' y0]. destruct H1 as [E1 H1]. cbn in E1, H1. subst k'.
  assert (X := dict_del_perm _ _ _ _ E). rewrite X in Pm.
  assert (Ey : y0 = y).
  { assert (I : In (k, y0) m) by (rewrite X; apply (Permutation_in (l := (k, y0) :: l')); [exact Pm | now left]).
    assert (J := In_dict_get _ _ _ M I). congruence. }
  subst y0. apply Permutation_cons_inv in Pm. cbn in N. inv N. split; [auto|]. split.
  - apply perm_nodup with (l := l'); auto. rewrite <- (keys_both _ _ _ _ _ H3). auto.
  - eauto.
Qed.

(** ** Lists in the model as separate functions *)
Fixpoint encode_pairs (nested : oid -> res json) (l : list (string * pv)) : res (list (string * json)) :=
  match l with [] => Ok [] | (k, x) :: r => do j <- encode nested x; do js <- encode_pairs nested r; Ok ((k, j) :: js) end.

Lemma encode_list_eq : forall nested l, encode nested (PList l) = do js <- traverse (encode nested) l; Ok (JArr js).
Proof.
  intros. cbn [encode]. f_equal. induction l as [|x r IH]; cbn; auto. destruct (encode nested x); cbn; auto. rewrite IH. reflexivity.
Qed.
Lemma encode_dict_eq : forall nested l, encode nested (PDict l) = do js <- encode_pairs nested l; Ok (JObj (sort_keys js)).
Proof.
  intros. cbn [encode]. f_equal. induction l as [|[k x] r IH]; cbn; auto. destruct (encode nested x); cbn; auto. rewrite IH. reflexivity.
Qed.
Lemma encode_obj_eq : forall nested t l, encode nested (PObj t l) = do js <- encode_pairs nested l; Ok (JObj (sort_keys (js ++ [("type", JAtom (AStr t))]))).
Proof.
  intros. cbn [encode]. f_equal. induction l as [|[k x] r IH]; cbn; auto. destruct (encode nested x); cbn; auto. rewrite IH. reflexivity.
Qed.

Section D.
  Variable lower : string -> string.
  Variable known : string -> bool.
  Variable construct : heap -> string -> list (string * pv) -> res (list (string * pv)).
  Notation decode := (decode lower known construct).
  Notation load_and_index := (load_and_index lower known construct).

  Fixpoint decode_list (sb : bool) (st : state) (l : list json) : res (list pv * state) :=
    match l with
    | [] => Ok ([], st)
    | x :: r => do (v, st1) <- decode sb st x; do (vs, st2) <- decode_list sb st1 r; Ok (v :: vs, st2)
    end.
  Fixpoint decode_pairs (sb : bool) (st : state) (l : list (string * json)) : res (list (string * pv) * state) :=
    match l with
    | [] => Ok ([], st)
    | (k, x) :: r => do (v, st1) <- decode sb st x; do (vs, st2) <- decode_pairs sb st1 r; Ok ((k, v) :: vs, st2)
    end.
  Lemma decode_arr_eq : forall sb st l, decode sb st (JArr l) = do (vs, st') <- decode_list sb st l; Ok (PList vs, st').
  Proof.
    intros. cbn [SerialModel.decode]. f_equal. revert st. induction l as [|x r IH]; intros st; cbn; auto.
    destruct (decode sb st x) as [[v st1]|]; cbn; auto. rewrite IH. reflexivity.
  Qed.
  Lemma decode_obj_eq : forall sb st l, decode sb st (JObj l) =
    do (kvs, st') <- decode_pairs sb st l; load_and_index sb st' (dict_update kvs []).
  Proof.
    intros. cbn [SerialModel.decode]. f_equal. revert st. induction l as [|[k x] r IH]; intros st; cbn; auto.
    destruct (decode sb st x) as [[v st1]|]; cbn; auto. rewrite IH. reflexivity.
  Qed.

  (** What a link becomes while loading. *)
  Definition resolved (sb : bool) (st : state) (s i : string) : pv :=
    match (if sb then index_get (snd st) (lower s) i else None) with Some o => PRef o | None => PLink s i end.

  Variable h : heap.
  (** How the references of the original were written. *)
  Variable L1 : pv -> pv -> Prop.
  Hypothesis L1_leaf : forall a b, L1 a b -> (exists o, a = PRef o) \/ (exists s i, a = PLink s i).
  Hypothesis L1_link : forall a b, L1 a b -> exists s i, b = PLink s i.

  Definition L12 (sb : bool) (st : state) (a c : pv) : Prop := exists s i, L1 a (PLink s i) /\ c = resolved sb st s i.

  (** The links of [v] resolve to references that the constructors take. *)
  Definition resolvable (sb : bool) (st : state) (v : pv) : Prop :=
    forall a s i, within a v -> L1 a (PLink s i) -> relinked h (fst st) a (resolved sb st s i).

  (** [j] loads as [x]. *)
  Definition carries (x : pv) (j : json) : Prop :=
    forall sb st, resolvable sb st x -> exists w, decode sb st j = Ok (w, st) /\ sim (L12 sb st) x w.

  Lemma decode_list_carries : forall l js, Forall2 carries l js -> forall sb st, (forall x, In x l -> resolvable sb st x) ->
    exists ws, decode_list sb st js = Ok (ws, st) /\ Forall2 (sim (L12 sb st)) l ws.
  Proof.
    induction 1 as [|x j l js C F IH]; intros sb st H; [exists []; split; constructor|].
    destruct (C sb st) as (w & E & S); [apply H; now left|]. destruct (IH sb st) as (ws & E' & S'); [intros; apply H; now right|].
    exists (w :: ws). cbn [decode_list]. rewrite E. cbn. rewrite E'. cbn. split; auto.
  Qed.

  Lemma decode_pairs_carries : forall l js, Forall2 (both carries) l js -> forall sb st, (forall k x, In (k, x) l -> resolvable sb st x) ->
    exists ws, decode_pairs sb st js = Ok (ws, st) /\ Forall2 (both (sim (L12 sb st))) l ws.
  Proof.
    induction 1 as [|[k x] [k' j] l js [E0 C] F IH]; intros sb st H; [exists []; split; constructor|]. cbn in E0, C. subst k'.
    destruct (C sb st) as (w & E & S); [apply (H k); now left|]. destruct (IH sb st) as (ws & E' & S'); [intros; apply (H k0); now right|].
    exists ((k, w) :: ws). cbn [decode_pairs]. rewrite E. cbn. rewrite E'. cbn. split; auto. constructor; auto. split; auto.
  Qed.

  (** Members of a dictionary. *)
  Lemma load_members : forall l js sb st, NoDup (keys l) -> Forall2 (both carries) l js -> (forall k x, In (k, x) l -> resolvable sb st x) ->
    exists d, decode sb st (JObj (sort_keys js)) = load_and_index sb st d /\ dsim (sim (L12 sb st)) l d.
  Proof.
    intros l js sb st N F H.
    destruct (Forall2_perm_l _ _ (fun q p => both carries p q) js l (sort_keys js)) as (l' & Pl & F').
    { clear - F. induction F; constructor; auto. }
    { symmetry. apply sort_keys_perm. }
    assert (F2 : Forall2 (both carries) l' (sort_keys js)) by (clear - F'; induction F'; constructor; auto).
    destruct (decode_pairs_carries _ _ F2 sb st) as (ws & E & S).
    { intros k x I. apply (H k). eapply Permutation_in; [symmetry; exact Pl|exact I]. }
    exists ws. rewrite decode_obj_eq, E. cbn [bind].
    assert (N' : NoDup (keys l')) by (eapply perm_nodup; eauto).
    assert (Nw : NoDup (keys ws)) by (rewrite <- (keys_both _ _ _ _ _ S); auto).
    rewrite dict_update_nil by auto. split; auto.
    apply dsim_perm_l with (l := l'); [|now symmetry]. split; [auto|]. split; [auto|]. exists ws. auto.
  Qed.

  (** What is done with the members when they include a type. *)
  Definition load_typed (sb : bool) (st : state) (t : string) (d : list (string * pv)) : res (pv * state) :=
    if String.eqb t "link_by_uid" then make_link lower sb st d
    else match kind_of t with
         | Some k => make_entity lower construct st k d
         | None => if known t then do fs <- construct (fst st) t d; Ok (PObj t fs, st) else Err TypeError
         end.

  Lemma load_typed_members : forall l js t sb st, NoDup (keys l) -> ~ In "type" (keys l) -> Forall2 (both carries) l js ->
    (forall k x, In (k, x) l -> resolvable sb st x) ->
    forall js', Permutation (js ++ [("type", JAtom (AStr t))]) js' ->
    exists d, decode sb st (JObj (sort_keys js')) = load_typed sb st t d /\ dsim (sim (L12 sb st)) l d.
  Proof.
    intros l js t sb st N I F H js' Pj.
    assert (C : carries (str t) (JAtom (AStr t))).
    { intros sb' st' _. exists (str t). cbn. auto. }
    assert (F1 : Forall2 (both carries) (("type", str t) :: l) (("type", JAtom (AStr t)) :: js)) by (constructor; auto; split; auto).
    assert (P1 : Permutation (("type", JAtom (AStr t)) :: js) js') by (rewrite <- Pj; apply Permutation_cons_append).
    destruct (Forall2_perm_l _ _ (fun q p => both carries p q) (("type", JAtom (AStr t)) :: js) (("type", str t) :: l) js') as (l' & Pl & F').
    { clear - F1. induction F1; constructor; auto. }
    { exact P1. }
    assert (F2 : Forall2 (both carries) l' js') by (clear - F'; induction F'; constructor; auto).
    destruct (load_members l' js' sb st) as (d & E & D); auto.
    { eapply perm_nodup; [exact Pl|]. cbn. constructor; auto. }
    { intros k x J. apply (Permutation_in _ (Permutation_sym Pl)) in J. destruct J as [J|J].
      - inv J. intros a s i W La. inv W. apply L1_leaf in La as [[o La]|(s' & i' & La)]; discriminate.
      - eapply H; eauto. }
    apply dsim_perm_l with (l' := ("type", str t) :: l) in D; [|now symmetry].
    destruct (dsim_del _ _ _ _ _ D) as (y & Ey & Sy & D'). destruct y; cbn in Sy; try contradiction. subst a.
    exists (dict_del "type" d). split; auto. rewrite E. unfold SerialModel.load_and_index. rewrite Ey. reflexivity.
  Qed.

  Lemma encode_members : forall nested (l m : list (string * pv)), Forall2 (both (sim L1)) l m ->
    Forall (fun kv => forall w, sim L1 (snd kv) w -> exists j, encode nested w = Ok j /\ carries (snd kv) j) l ->
    exists js, encode_pairs nested m = Ok js /\ Forall2 (both carries) l js.
  Proof.
    induction 1 as [|[k x] [k' y] l m [E S] F IH]; intros H; [exists []; split; constructor|]. cbn in E, S. subst k'. inv H.
    destruct (H2 y S) as (j & E & C). destruct (IH H3) as (js & E' & F'). exists ((k, j) :: js). cbn [encode_pairs]. rewrite E. cbn. rewrite E'. cbn.
    split; auto. constructor; auto. split; auto.
  Qed.

  Lemma dsim_arrange : forall P l m, dsim P l m -> exists l', Permutation l l' /\ Forall2 (both P) l' m.
  Proof.
    intros P l m (N & M & m' & Pm & F). destruct (Forall2_perm_l _ _ (fun q p => both P p q) m' l m) as (l' & Pl & F'); auto.
    { clear - F. induction F; constructor; auto. }
    exists l'. split; auto. clear - F'. induction F'; constructor; auto.
  Qed.

  Lemma resolvable_sub : forall sb st x v, resolvable sb st v -> (forall a, within a x -> within a v) -> resolvable sb st x.
  Proof. intros sb st x v H I a s i W. apply H. auto. Qed.

  (** A value with its references written as links can be written, and read back with the links
      resolved. *)
  Lemma encode_value : forall nested v, storable known construct h v -> forall w, sim L1 v w ->
    exists j, encode nested w = Ok j /\ carries v j.
  Proof.
    intros nested v. induction v using pv_ind2; intros St w S;
    destruct (sim_inv _ _ _ S) as [[E ->]|[(a' & E & ->)|[(E & F & Lvw)|[(l0 & m & E & -> & F)|[(l0 & m & E & -> & F)|[(l0 & m & E & -> & F)|(t0 & l0 & m & E & -> & F)]]]]]];
    try discriminate; try (destruct E as [[? E]|(? & ? & E)]; discriminate); try (now inv St).
    - exists JNull. split; auto. intros sb st _. exists PNone. cbn. auto.
    - inv E. exists (JAtom a'). split; auto. intros sb st _. exists (PAtom a'). cbn. auto.
    - destruct (L1_link _ _ Lvw) as (s' & i' & ->). eexists. split; [reflexivity|]. intros sb st R.
      exists (resolved sb st s' i'). split.
      + cbn. unfold make_link, resolved. cbn. destruct (if sb then _ else _); auto.
      + assert (X : L12 sb st (PLink s i) (resolved sb st s' i')) by (exists s', i'; auto).
        revert X. unfold resolved. destruct (if sb then _ else _); cbn; auto.
    - destruct (L1_link _ _ Lvw) as (s' & i' & ->). eexists. split; [reflexivity|]. intros sb st R.
      exists (resolved sb st s' i'). split.
      + cbn. unfold make_link, resolved. cbn. destruct (if sb then _ else _); auto.
      + assert (X : L12 sb st (PRef o) (resolved sb st s' i')) by (exists s', i'; auto).
        revert X. unfold resolved. destruct (if sb then _ else _); cbn; auto.
    - inv E. inv St. assert (X : exists js, traverse (encode nested) m = Ok js /\ Forall2 carries l0 js).
      { clear S. revert H H1. induction F as [|x y l m Hxy F IH]; intros H H1; [exists []; split; constructor|]. inv H. inv H1.
        destruct (H3 H2 y Hxy) as (j & E & C). destruct (IH H4 H5) as (js & E' & F'). exists (j :: js). cbn [traverse]. rewrite E. cbn. rewrite E'. cbn. auto. }
      destruct X as (js & E & F'). exists (JArr js). rewrite encode_list_eq, E. split; auto. intros sb st R.
      destruct (decode_list_carries _ _ F' sb st) as (ws & E' & S').
      { intros x I. eapply resolvable_sub; eauto. intros. econstructor; eauto. }
      exists (PList ws). rewrite decode_arr_eq, E'. split; auto. apply sim_list. exact S'.
    - inv E. inv St. destruct (dsim_arrange _ _ _ F) as (l' & Pl & F').
      destruct (encode_members nested l' m F') as (js & E & C).
      { rewrite Forall_forall in *. intros kv I w. apply (Permutation_in _ (Permutation_sym Pl)) in I. intros Sw. apply (H _ I); auto. }
      exists (JObj (sort_keys js)). rewrite encode_dict_eq, E. split; auto. intros sb st R.
      destruct (load_members l' js sb st) as (d & Ed & Sd); auto.
      { eapply perm_nodup; eauto. }
      { intros k x I. eapply resolvable_sub; eauto. intros. econstructor; [eapply Permutation_in; [symmetry; exact Pl|exact I]|auto]. }
      exists (PDict d). assert (D : dsim (sim (L12 sb st)) l0 d) by (apply dsim_perm_l with (l := l'); auto; now symmetry).
      split; [|now apply sim_dict]. rewrite Ed. unfold SerialModel.load_and_index.
      replace (dict_get "type" d) with (@None pv); auto. symmetry. apply dict_get_None. intros I. apply H2.
      eapply Permutation_in; [symmetry; eapply dsim_keys; eauto | exact I].
    - inv E. inv St. destruct (dsim_arrange _ _ _ F) as (l' & Pl & F').
      destruct (encode_members nested l' m F') as (js & E & C).
      { rewrite Forall_forall in *. intros kv I w. apply (Permutation_in _ (Permutation_sym Pl)) in I. intros Sw. apply (H _ I); auto. }
      eexists. rewrite encode_obj_eq, E. split; [reflexivity|]. intros sb st R.
      destruct (load_typed_members l' js t0 sb st) with (js' := js ++ [("type", JAtom (AStr t0))]) as (d & Ed & Sd); auto.
      { eapply perm_nodup; eauto. }
      { intros I. apply H6. eapply Permutation_in; [symmetry; apply perm_keys; exact Pl|exact I]. }
      { intros k x I. eapply resolvable_sub; eauto. intros. econstructor; [eapply Permutation_in; [symmetry; exact Pl|exact I]|auto]. }
      assert (D : dsim (sim (L12 sb st)) l0 d) by (apply dsim_perm_l with (l := l'); auto; now symmetry).
      destruct (H8 (fst st) d) as (fs' & Ec & Pc).
      { apply sim_dict. eapply dsim_mono_in; eauto. intros k x y Ix Iy Sxy. eapply sim_mono_in; eauto. intros a b W (s & i & La & ->).
        apply R; auto. econstructor; eauto. }
      exists (PObj t0 fs'). rewrite Ed. unfold load_typed. apply String.eqb_neq in H4. rewrite H4, H3, H2, Ec. split; auto.
      apply sim_obj. split; auto. apply dsim_perm_r with (m := d); auto. now symmetry.
  Qed.
End D.
