(** loads after dumps *)
From Coq Require Import String List Bool Arith Lia Permutation.
From Verif Require Import Base BaseFacts CidModel GraphModel GraphSpec GraphProofs EqModel EqSpec EqProofs EqCopies TravModel TravSpec TravProofs TravProperties SerialModel SerialSpec SerialSim SerialProofs SerialLinks SerialEntity SerialRecords FlattenProofs.
Import ListNotations.
Open Scope string_scope.
Open Scope list_scope.
Open Scope nat_scope.

(** ** Positions *)

Fixpoint pos (x : oid) (l : list oid) : nat := match l with [] => 0 | y :: r => if y =? x then 0 else S (pos x r) end.

Lemma pos_split : forall x P Q, ~ In x P -> pos x (P ++ x :: Q) = length P.
Proof.
  induction P as [|y P IH]; intros Q H; cbn; [now rewrite Nat.eqb_refl|]. destruct (y =? x) eqn:E; [apply Nat.eqb_eq in E; subst; exfalso; apply H; now left|].
  rewrite IH; auto. intros I. apply H. now right.
Qed.
Lemma pos_lt : forall x P Q, In x P -> pos x (P ++ Q) < length P.
Proof.
  induction P as [|y P IH]; intros Q H; [contradiction|]. cbn. destruct (y =? x) eqn:E; [lia|]. destruct H as [->|H]; [rewrite Nat.eqb_refl in E; discriminate|].
  specialize (IH Q H). lia.
Qed.
Lemma pos_inj : forall l x y, In x l -> In y l -> pos x l = pos y l -> x = y.
Proof.
  induction l as [|z l IH]; intros x y Ix Iy H; [contradiction|]. cbn in H. destruct (z =? x) eqn:Ex, (z =? y) eqn:Ey; try discriminate.
  - apply Nat.eqb_eq in Ex. apply Nat.eqb_eq in Ey. congruence.
  - destruct Ix as [->|Ix]; [rewrite Nat.eqb_refl in Ex; discriminate|]. destruct Iy as [->|Iy]; [rewrite Nat.eqb_refl in Ey; discriminate|]. apply IH; auto.
Qed.
Lemma pos_nth : forall l x, In x l -> nth_error l (pos x l) = Some x.
Proof.
  induction l as [|z l IH]; intros x I; [contradiction|]. cbn. destruct (z =? x) eqn:E; [apply Nat.eqb_eq in E; now subst|].
  destruct I as [->|I]; [rewrite Nat.eqb_refl in E; discriminate|]. cbn. auto.
Qed.

Lemma find_none_iff : forall A (p : A -> bool) l, (forall y, In y l -> p y = false) -> find p l = None.
Proof. induction l as [|y l IH]; intros H; auto. cbn. rewrite H by now left. apply IH. intros. apply H. now right. Qed.

(** ** Two-sided references *)

(** The field of each class that has another side, and the field on the other side. *)
Definition two (k : ekind) : option (string * string) :=
  match k with
  | KMatR | KMatS => Some ("process", "output_material")
  | KMeasR => Some ("material", "measurements")
  | KIngR | KIngS => Some ("process", "ingredients")
  | _ => None
  end.

(** [y] belongs in field [f] of [x]. *)
Definition belongs (h : heap) (f : string) (x y : oid) : bool :=
  match kind_at h y with
  | Some k => match two k with
              | Some (cf, f') => String.eqb f' f && match fval h y cf with PRef p => p =? x | _ => false end
              | None => false
              end
  | None => false
  end.

Lemma belongs_iff : forall h f x y, belongs h f x y = true <-> exists k cf, kind_at h y = Some k /\ two k = Some (cf, f) /\ fval h y cf = PRef x.
Proof.
  intros h f x y. unfold belongs. split.
  - intros H. destruct (kind_at h y) as [k|]; [|discriminate]. destruct (two k) as [[cf f']|] eqn:T; [|discriminate].
    apply andb_true_iff in H as [H1 H2]. apply String.eqb_eq in H1. subst. destruct (fval h y cf) eqn:F; try discriminate. apply Nat.eqb_eq in H2. subst. eauto 6.
  - intros (k & cf & -> & -> & ->). now rewrite String.eqb_refl, Nat.eqb_refl.
Qed.

Lemma asked_fun : forall k f a b, asked_kind k f a -> asked_kind k f b -> a = b.
Proof.
  intros k f a b A B. unfold asked_kind in *. cbn in A, B. repeat destruct A as [A|A]; try contradiction; inv A; repeat destruct B as [B|B]; try contradiction; inv B; reflexivity.
Qed.

Lemma two_ref : forall k cf f, two k = Some (cf, f) -> reference k cf /\ exists pk, asked_kind k cf pk /\ read_only pk f.
Proof.
  intros k cf f H. destruct k; cbn in H; inv H; unfold reference, asked_kind, read_only;
  match goal with |- (exists pk, In (?k, ?f, pk) _) /\ _ => idtac end;
  (split; [eexists; cbn; tauto|]); eexists; (split; [cbn; tauto|]); tauto.
Qed.

Lemma fold_back_one : forall k n A g,
  fold_left (back k n) (map (fun f => (f, A f)) (ref_args k)) g
  = match two k with Some (cf, _) => back k n g (cf, A cf) | None => g end.
Proof.
  intros k n A g. destruct k; cbn [ref_args map fold_left two]; try reflexivity; unfold back; cbn [fst snd];
    repeat match goal with
    | |- context [match A ?f with PNone => _ | _ => _ end] => destruct (A f)
    end; cbn; reflexivity.
Qed.

(** What a two-sided reference [v] of the entity [n] does to the entity [q]. *)
Lemma back_other : forall k n g cf f v q, two k = Some (cf, f) -> v <> PRef q -> hget (back k n g (cf, v)) q = hget g q.
Proof.
  intros k n g cf f v q T N. unfold back. cbn [fst snd]. destruct v as [| | |p| | | |]; auto.
  assert (p <> q) by congruence.
  assert (X : forall f v, hget (set_field g p f v) q = hget g q).
  { intros f0 v0. unfold set_field. destruct (hget g p); auto. rewrite hget_hset. destruct (p =? q) eqn:E; auto. apply Nat.eqb_eq in E. contradiction. }
  destruct (role_of k cf) as [[]|]; auto.
Qed.
Lemma back_same : forall k n g cf f q e, two k = Some (cf, f) -> hget g q = Some e ->
  hget (back k n g (cf, PRef q)) q = Some (mkE (e_kind e) (e_uids e) (dict_set f (if String.eqb f "output_material" then PRef n else PList (items (fget e f) ++ [PRef n])) (e_fields e))).
Proof.
  intros k n g cf f q e T He. assert (X : forall f v, hget (set_field g q f v) q = Some (mkE (e_kind e) (e_uids e) (dict_set f v (e_fields e)))).
  { intros f0 v0. unfold set_field. rewrite He, hget_hset, Nat.eqb_refl, He. reflexivity. }
  unfold back. cbn [fst snd]. destruct k; cbn in T; inv T; cbn [role_of String.eqb Ascii.eqb Bool.eqb]; rewrite X; unfold fval; rewrite ?He; reflexivity.
Qed.

Section Load.
  Variable lower : string -> string.
  Variable known : string -> bool.
  Variable construct : heap -> string -> list (string * pv) -> res (list (string * pv)).
  Variable h : heap.
  Variable os : list oid.
  Variable g0 : heap.

  Notation well_formed := (well_formed lower known construct h).
  Notation decode := (decode lower known construct).
  Notation to_links := (to_links lower h None true).

  Hypothesis wf : forall o, In o os -> exists e, hget h o = Some e /\ well_formed o e.
  Hypothesis nodup : NoDup os.
  Hypothesis own : forall o o' s s' i, In o os -> In o' os -> uid_of h o s i -> uid_of h o' s' i -> lower s = lower s' -> o = o'.
  Hypothesis ordered : forall P o Q e f x, os = P ++ o :: Q -> hget h o = Some e -> In f (keys (e_fields e)) -> ~ read_only (e_kind e) f ->
    mentions (read h o f) x -> In x P.
  Hypothesis loose : forall o e f s i y s', In o os -> hget h o = Some e -> In f (keys (e_fields e)) -> ~ read_only (e_kind e) f ->
    within (PLink s i) (read h o f) -> In y os -> uid_of h y s' i -> lower s' <> lower s.
  Hypothesis lists0 : lists_ok g0.

  Definition copy (o : oid) : oid := length g0 + pos o os.
  Definition R (o c : oid) : Prop := In o os /\ c = copy o.

  Lemma copy_inj : forall x y, In x os -> In y os -> copy x = copy y -> x = y.
  Proof. unfold copy. intros x y Ix Iy E. apply (pos_inj os); auto. lia. Qed.

  (** What field [f] on the other side holds after loading the records of [P]. *)
  Definition rebuilt (P : list oid) (x : oid) (f : string) : pv :=
    if String.eqb f "output_material"
    then match find (belongs h f x) (rev P) with Some y => PRef (copy y) | None => PNone end
    else PList (map (fun y => PRef (copy y)) (filter (belongs h f x) P)).

  Definition copied (P : list oid) (o : oid) (e e' : entity) : Prop :=
    e_kind e' = e_kind e /\ Permutation (e_uids e') (e_uids e) /\ NoDup (keys (e_fields e'))
    /\ (forall f, In f (keys (e_fields e')) <-> In f (keys (e_fields e)))
    /\ (forall f, In f (keys (e_fields e)) -> ~ read_only (e_kind e) f -> sim (twin_leaf R) (read h o f) (fget e' f))
    /\ (forall f, read_only (e_kind e) f -> fget e' f = rebuilt P o f).

  (** The state after loading the records of [P]. *)
  Record inv (P : list oid) (st : state) : Prop := mkInv {
    i_len : length (fst st) = length g0 + length P;
    i_old : forall q, q < length g0 -> hget (fst st) q = hget g0 q;
    i_new : forall o e, In o P -> hget h o = Some e -> exists e', hget (fst st) (copy o) = Some e' /\ copied P o e e';
    i_index : forall s i c, index_get (snd st) (lower s) i = Some c <-> exists o s', In o P /\ c = copy o /\ uid_of h o s' i /\ lower s' = lower s
  }.

  Lemma inv_nil : inv [] (g0, []).
  Proof.
    split; cbn; auto; try contradiction. intros s i c. split; [discriminate|]. intros (o & _ & [] & _).
  Qed.

  (** Links resolve to the copies. *)
  Lemma resolved_ref : forall P Q st x s i, os = P ++ Q -> inv P st -> In x P -> uid_of h x s i -> resolved lower true st s i = PRef (copy x).
  Proof.
    intros P Q st x s i E Iv Ix U. unfold resolved. assert (X : index_get (snd st) (lower s) i = Some (copy x)).
    { apply (i_index _ _ Iv). exists x, s. auto. }
    now rewrite X.
  Qed.
  Lemma resolved_link : forall P st s i, inv P st -> (forall y s', In y P -> uid_of h y s' i -> lower s' <> lower s) -> resolved lower true st s i = PLink s i.
  Proof.
    intros P st s i Iv H. unfold resolved. destruct (index_get (snd st) (lower s) i) as [c|] eqn:E; auto.
    apply (i_index _ _ Iv) in E as (o & s' & Io & _ & U & El). exfalso. eapply H; eauto.
  Qed.
  Lemma to_links_uid : forall x b, to_links (PRef x) b -> exists s i, b = PLink s i /\ uid_of h x s i.
  Proof.
    intros x b H. assert (X := to_links_as_link _ _ _ _ H). destruct (to_links_link _ _ _ _ _ _ H) as (s & i & ->). exists s, i. auto.
  Qed.

  Lemma L12_twin : forall P Q st a b, os = P ++ Q -> inv P st -> (forall x, a = PRef x -> In x P) ->
    (forall s i y s', a = PLink s i -> In y P -> uid_of h y s' i -> lower s' <> lower s) ->
    L12 lower to_links true st a b -> twin_leaf R a b.
  Proof.
    intros P Q st a b E Iv Hr Hl (s & i & H & ->). destruct a as [| |s0 i0|x| | | |]; cbn in H; try contradiction.
    - inv H. rewrite (resolved_link P); auto. 1: cbn; auto. eauto.
    - destruct (to_links_uid x _ H) as (s1 & i1 & E1 & U). inv E1. rewrite (resolved_ref P Q st x); auto. cbn. split; auto. rewrite E. apply in_or_app. left. auto.
  Qed.

  Lemma copied_kind : forall P Q st x, os = P ++ Q -> inv P st -> In x P -> kind_at (fst st) (copy x) = kind_at h x.
  Proof.
    intros P Q st x E Iv I. destruct (wf x) as (e & He & _); [rewrite E; apply in_or_app; auto|].
    destruct (i_new _ _ Iv x e I He) as (e' & He' & K & _). unfold kind_at. rewrite He, He'. cbn. now rewrite K.
  Qed.

  Lemma twin_relinked : forall P Q st a b, os = P ++ Q -> inv P st -> (forall x, a = PRef x -> In x P) -> twin_leaf R a b -> relinked h (fst st) a b.
  Proof.
    intros P Q st a b E Iv Hr T. destruct a, b; cbn in *; try contradiction; auto. destruct T as [_ ->]. symmetry. eapply copied_kind; eauto.
  Qed.

  Lemma rebuilt_snoc : forall P x f o, rebuilt (P ++ [o]) x f =
    if belongs h f x o then (if String.eqb f "output_material" then PRef (copy o) else PList (items (rebuilt P x f) ++ [PRef (copy o)]))
    else rebuilt P x f.
  Proof.
    intros P x f o. unfold rebuilt. destruct (String.eqb f "output_material") eqn:Ef.
    - rewrite rev_app_distr. cbn [rev app find]. destruct (belongs h f x o); auto.
    - rewrite filter_app, map_app. cbn [filter]. destruct (belongs h f x o); cbn [map items]; [reflexivity|now rewrite app_nil_r].
  Qed.

  Lemma inv_lists : forall P Q st, os = P ++ Q -> inv P st -> lists_ok (fst st).
  Proof.
    intros P Q st E Iv ck cf pk lf p Ls K. destruct (Nat.lt_ge_cases p (length g0)) as [Lt|Ge].
    - unfold fval, kind_at in *. rewrite (i_old _ _ Iv p Lt) in *. apply (lists0 ck cf pk lf p Ls K).
    - assert (Lp := kind_lt _ _ _ K). rewrite (i_len _ _ Iv) in Lp.
      assert (Hn : exists x, nth_error P (p - length g0) = Some x).
      { destruct (nth_error P (p - length g0)) eqn:X; eauto. apply nth_error_None in X. lia. }
      destruct Hn as (x & Hx). assert (Ix := nth_error_In _ _ Hx).
      assert (Ec : copy x = p).
      { unfold copy. assert (X : pos x os = p - length g0); [|lia]. assert (In x os) by (rewrite E; apply in_or_app; auto).
        apply (proj1 (NoDup_nth_error os) nodup).
        - apply nth_error_Some. rewrite pos_nth by auto. discriminate.
        - rewrite pos_nth by auto. rewrite E, nth_error_app1; auto. apply nth_error_Some. congruence. }
      destruct (wf x) as (e & He & _); [rewrite E; apply in_or_app; auto|].
      destruct (i_new _ _ Iv x e Ix He) as (e' & He' & K' & _ & _ & _ & _ & B). rewrite Ec in He'.
      unfold kind_at in K. rewrite He' in K. inv K. unfold fval. rewrite He'. rewrite B.
      + unfold rebuilt. apply listed_name in Ls as [N _]. destruct (String.eqb lf "output_material") eqn:X; [apply String.eqb_eq in X; contradiction|]. eauto.
      + rewrite <- K'. unfold read_only. destruct Ls as [X|[X|X]]; inversion X; subst; try (rewrite <- H2); tauto.
  Qed.

  Lemma index_get_app : forall u n ix s i,
    index_get (map (fun p => ((lower (fst p), snd p), n)) u ++ ix) s i
    = if existsb (fun p => String.eqb (lower (fst p)) s && String.eqb (snd p) i) u then Some n else index_get ix s i.
  Proof.
    intros u n ix s i. unfold index_get. induction u as [|p u IH]; cbn [map app find existsb]; auto. cbn [fst snd].
    destruct (String.eqb (lower (fst p)) s && String.eqb (snd p) i); auto.
  Qed.

  (** One record. *)
  Lemma load_step : forall P o Q st e j, os = P ++ o :: Q -> inv P st -> hget h o = Some e ->
    (forall sb st, (forall f, In f (keys (e_fields e)) -> ~ read_only (e_kind e) f -> resolvable lower h to_links sb st (read h o f)) ->
      exists d, decode sb st j = make_entity lower construct st (e_kind e) d
        /\ dsim (sim (L12 lower to_links sb st)) (("uids", uids_val e) :: fields_of h o e) d) ->
    exists st', decode true st j = Ok (PRef (copy o), st') /\ inv (P ++ [o]) st'.
  Proof.
    intros P o Q st e j Eo Iv He Hj.
    assert (Io : In o os) by (rewrite Eo; apply in_or_app; right; now left).
    assert (NP : ~ In o P) by (rewrite Eo in nodup; apply NoDup_remove_2 in nodup; intros I; apply nodup, in_or_app; auto).
    assert (Ec : copy o = length (fst st)) by (rewrite (i_len _ _ Iv); unfold copy; rewrite Eo at 1; now rewrite pos_split).
    destruct (wf o Io) as (e0 & He0 & We). rewrite He in He0. inv He0. rename e0 into e.
    assert (Hr : forall f x, In f (keys (e_fields e)) -> ~ read_only (e_kind e) f -> mentions (read h o f) x -> In x P) by eauto.
    assert (Hl : forall f s i y s', In f (keys (e_fields e)) -> ~ read_only (e_kind e) f -> within (PLink s i) (read h o f) -> In y P -> uid_of h y s' i -> lower s' <> lower s).
    { intros f s i y s' If B Wl Iy. eapply loose; eauto. rewrite Eo. apply in_or_app. auto. }
    assert (Leaf : forall f a b, In f (keys (e_fields e)) -> ~ read_only (e_kind e) f -> within a (read h o f) -> L12 lower to_links true st a b -> twin_leaf R a b).
    { intros f a b If B Wa. apply (L12_twin P (o :: Q)); auto.
      - intros x ->. eapply Hr; eauto. now apply mentions_within.
      - intros s i y s' ->. eapply Hl; eauto. }
    destruct (Hj true st) as (d & Ed & Sd).
    { intros f If B a s i Wa Ha. eapply (twin_relinked P (o :: Q)); eauto.
      - intros x ->. eapply Hr; eauto. now apply mentions_within.
      - eapply (Leaf f); eauto. exists s, i. auto. }
    destruct st as [g ix]. cbn [fst snd] in *.
    destruct (make_entity_ok lower known construct h g ix o e d (L12 lower to_links true (g, ix)) He (wf_rep _ _ _ _ _ _ We) Sd) as (u & fs & Em & Pu & Nf & Kf & Sf & Bf & Rf).
    { intros f a b If B Wa Ha. apply (twin_relinked P (o :: Q) (g, ix)); eauto. intros x ->. eapply Hr; eauto. now apply mentions_within. }
    { apply (inv_lists P (o :: Q) (g, ix)); auto. }
    rewrite Ed, Em. clear Ed Em Hj. rewrite fold_back_one. set (n := length g) in *.
    set (g1 := match two (e_kind e) with Some (cf, _) => back (e_kind e) n g (cf, arg d cf) | None => g end).
    set (final := dict_update (map (fun f => (f, arg d f)) (ref_args (e_kind e))) (blank (e_kind e) ++ fs)) in *.
    rewrite Ec. eexists. split; [reflexivity|].
    assert (Len1 : length g1 = n).
    { unfold g1. destruct (two (e_kind e)) as [[cf f]|]; auto. apply back_length. }
    (* what the references of the new entity are *)
    assert (Arg : forall cf f, two (e_kind e) = Some (cf, f) -> sim (twin_leaf R) (fval h o cf) (arg d cf) /\ (forall x, fval h o cf = PRef x -> In x P)
       /\ (forall q, arg d cf = PRef q -> exists x, fval h o cf = PRef x /\ q = copy x)).
    { intros cf f T. apply two_ref in T as [Rc _]. assert (Ko : kind_at h o = Some (e_kind e)) by (unfold kind_at; now rewrite He).
      assert (If : In cf (keys (e_fields e))). { apply (wf_blank _ _ _ _ _ _ We). apply dict_get_keys. rewrite blank_ref; [discriminate|auto]. }
      assert (B : ~ read_only (e_kind e) cf) by (now apply ref_not_ro).
      assert (Er : read h o cf = fval h o cf) by (eapply read_fval; eauto).
      assert (S1 : sim (twin_leaf R) (fval h o cf) (arg d cf)).
      { eapply sim_mono_in; [apply Rf; auto|]. intros a b Wa. apply (Leaf cf); auto. now rewrite Er. }
      split; auto. split.
      - intros x Ex. apply (Hr cf x If B). rewrite Er, Ex. constructor.
      - intros q Eq. rewrite Eq in S1. destruct (wf_refs _ _ _ _ _ _ We cf Rc) as (k & pk & _ & _ & [X|[(s & i & X)|(p & X & _)]]); rewrite X in *; cbn in S1; try contradiction.
        destruct S1 as [_ ->]. eauto. }
    (* the old copies, with their new other sides *)
    assert (Old : forall x ex ex', In x P -> hget h x = Some ex -> hget g (copy x) = Some ex' -> copied P x ex ex' ->
       exists e2, hget g1 (copy x) = Some e2 /\ copied (P ++ [o]) x ex e2).
    { intros x ex ex' Ix Hx Hx' C. assert (Cs := C). destruct C as (K & Pm & N & Kfd & Sfd & Bfd).
      assert (Unch : (forall f, belongs h f x o = false) -> hget g1 (copy x) = Some ex' -> exists e2, hget g1 (copy x) = Some e2 /\ copied (P ++ [o]) x ex e2).
      { intros Hb Hg. exists ex'. split; auto. repeat split; auto; try (now apply Kfd). intros f Rd. rewrite rebuilt_snoc, Hb. auto. }
      unfold g1 in *. destruct (two (e_kind e)) as [[cf f]|] eqn:T.
      2: { apply Unch; auto. intros f. apply not_true_is_false. intros X. apply belongs_iff in X as (k & cf & K0 & T0 & _). unfold kind_at in K0. rewrite He in K0. inv K0. congruence. }
      destruct (Arg cf f eq_refl) as (S1 & A1 & A2).
      assert (Bl : forall f', belongs h f' x o = true -> f' = f /\ fval h o cf = PRef x).
      { intros f' X. apply belongs_iff in X as (k & cf' & K0 & T0 & F0). unfold kind_at in K0. rewrite He in K0. inv K0. rewrite T in T0. inv T0. auto. }
      destruct (fval h o cf) as [| |s i|p| | | |] eqn:Fv.
      all: try (apply Unch; [intros f'; apply not_true_is_false; intros X; apply Bl in X as [_ X]; discriminate|]; rewrite (back_other _ _ _ _ f); auto; intros X; destruct (A2 _ X) as (x0 & X1 & _); discriminate).
      destruct (Nat.eq_dec p x) as [->|Np].
      2: { apply Unch; [intros f'; apply not_true_is_false; intros X; apply Bl in X as [_ X]; congruence|]. rewrite (back_other _ _ _ _ f); auto.
           intros X. destruct (A2 _ X) as (x0 & X1 & X2). inv X1. apply Np. apply copy_inj; auto; rewrite Eo; apply in_or_app; auto. }
      assert (Ea : arg d cf = PRef (copy x)). { destruct (arg d cf); cbn in S1; try contradiction. now destruct S1 as [_ ->]. }
      rewrite Ea. rewrite (back_same _ _ _ _ f _ ex'); auto. eexists. split; [reflexivity|].
      assert (Bt : belongs h f x o = true). { apply belongs_iff. exists (e_kind e), cf. split; [unfold kind_at; now rewrite He|]. auto. }
      assert (Rof : read_only (e_kind ex) f).
      { destruct (two_ref _ _ _ T) as (Rc & pk & Ak & Ro). destruct (wf_refs _ _ _ _ _ _ We cf Rc) as (k & pk' & Kk & Ak' & Fx).
        rewrite Fv in Fx. destruct Fx as [X|[(s & i & X)|(p & X & Kp)]]; try discriminate. inv X. unfold kind_at in Kk. rewrite He in Kk. inv Kk.
        assert (pk' = pk) by (eapply asked_fun; eauto).
        subst pk'. unfold kind_at in Kp. rewrite Hx in Kp. now inv Kp. }
      assert (Inf : In f (keys (e_fields ex'))).
      { apply Kfd. destruct (wf x) as (ex0 & Hx0 & Wx); [rewrite Eo; apply in_or_app; auto|]. rewrite Hx in Hx0. inv Hx0.
        apply (wf_blank _ _ _ _ _ _ Wx). clear - Rof. unfold read_only in Rof. destruct Rof as [[-> ->]|[[->| ->] [->| ->]]]; cbn; tauto. }
      unfold copied. cbn [e_kind e_uids e_fields]. split; auto. split; auto. rewrite keys_set_old by auto. split; auto. split; auto. split.
      - intros f' If' B'. unfold fget. cbn [e_fields]. rewrite dict_get_set_other by (intros ->; contradiction). apply Sfd; auto.
      - intros f' Ro'. unfold fget. cbn [e_fields]. rewrite rebuilt_snoc. destruct (string_dec f' f) as [->|Nf'].
        + rewrite dict_get_set_same, Bt. rewrite <- Ec. destruct (String.eqb f "output_material"); auto. do 2 f_equal. f_equal. exact (Bfd f Rof).
        + rewrite dict_get_set_other by auto. replace (belongs h f' x o) with false; [apply Bfd; auto|]. symmetry. apply not_true_is_false. intros X. apply Bl in X as [X _]. contradiction. }
    split.
    - cbn [fst]. rewrite !app_length, Len1. assert (X := i_len _ _ Iv). cbn in X |- *. unfold n. lia.
    - intros q Lt. cbn [fst]. assert (X0 := i_len _ _ Iv). cbn [fst] in X0. rewrite hget_app1 by (rewrite Len1; unfold n; lia).
      rewrite <- (i_old _ _ Iv q Lt). cbn [fst]. unfold g1. destruct (two (e_kind e)) as [[cf f]|] eqn:T; auto. apply (back_other _ _ _ _ f); auto.
      intros X. destruct (Arg cf f eq_refl) as (_ & _ & A2). destruct (A2 _ X) as (x & _ & ->). unfold copy in Lt. lia.
    - intros x ex Ix Hx. cbn [fst]. apply in_app_or in Ix as [Ix|[<-|[]]].
      + destruct (i_new _ _ Iv x ex Ix Hx) as (ex' & Hx' & C). destruct (Old x ex ex' Ix Hx Hx' C) as (e2 & H2 & C2). exists e2. split; auto.
        rewrite hget_app1; auto. eapply hget_lt; eauto.
      + rewrite He in Hx. inv Hx. exists (mkE (e_kind ex) u final). split.
        { rewrite Ec, <- Len1. apply hget_app2. }
        unfold copied. cbn [e_kind e_uids e_fields]. split; auto. split; auto. split; auto. split; auto. split.
        * intros f If B. destruct (Sf f If B) as (v & Ev & Sv). unfold fget. cbn [e_fields]. rewrite Ev. eapply sim_mono_in; eauto.
        * intros f Ro. unfold fget. cbn [e_fields]. rewrite Bf by auto.
          assert (Nb : forall y, In y (P ++ [o]) -> belongs h f o y = false).
          { intros y Iy. apply not_true_is_false. intros X. apply belongs_iff in X as (k & cf & Ky & T & Fy).
            apply two_ref in T as [Rc _]. unfold kind_at in Ky. destruct (hget h y) as [ey|] eqn:Hy; [|discriminate]. inv Ky.
            assert (Iy' : In y os) by (rewrite Eo; apply in_app_or in Iy as [Iy|[<-|[]]]; apply in_or_app; [now left | right; now left]).
            destruct (wf y Iy') as (ey0 & Hy0 & Wy). rewrite Hy in Hy0. inv Hy0.
            assert (My : mentions (read h y cf) o).
            { rewrite (read_fval h y cf (e_kind ey0)); auto; [rewrite Fy; constructor|]. unfold kind_at. now rewrite Hy. }
            assert (If : In cf (keys (e_fields ey0))) by (apply (wf_blank _ _ _ _ _ _ Wy), dict_get_keys; rewrite blank_ref; [discriminate|auto]).
            apply NP. apply in_app_or in Iy as [Iy|[<-|[]]].
            - apply in_split in Iy as (P1 & P2 & ->). rewrite <- app_assoc in Eo. cbn in Eo. apply in_or_app. left. eapply (ordered P1 y); eauto. now apply ref_not_ro.
            - eapply (ordered P o); eauto. now apply ref_not_ro. }
          unfold rebuilt. destruct (String.eqb f "output_material") eqn:Ef.
          -- replace (find (belongs h f o) (rev (P ++ [o]))) with (@None oid).
             ++ apply String.eqb_eq in Ef. subst. unfold read_only in Ro. destruct Ro as [[_ X]|[[-> | ->] _]]; [discriminate| |]; reflexivity.
             ++ symmetry. apply find_none_iff. intros y Iy. apply Nb. now apply in_rev in Iy.
          -- replace (filter (belongs h f o) (P ++ [o])) with (@nil oid).
             ++ unfold read_only in Ro. destruct Ro as [[-> ->]|[[-> | ->] [-> | ->]]]; try discriminate; reflexivity.
             ++ symmetry. clear - Nb. induction (P ++ [o]) as [|y l IH]; auto. cbn. rewrite Nb by now left. apply IH. intros. apply Nb. now right.
    - intros s i c. cbn [snd]. rewrite index_get_app. destruct (existsb _ (rev u)) eqn:Ex.
      + apply existsb_exists in Ex as ([s1 i1] & I1 & X). cbn [fst snd] in X. apply andb_true_iff in X as [X1 X2]. apply String.eqb_eq in X1. apply String.eqb_eq in X2. subst i1.
        apply in_rev in I1. apply (Permutation_in _ Pu) in I1. split.
        * intros E. inv E. exists o, s1. split; [apply in_or_app; right; now left|]. split; auto. split; auto. exists e. auto.
        * intros (x & s2 & Ix & -> & U2 & El). assert (x = o); [|subst; now rewrite Ec].
          apply (own x o s2 s1 i); auto; [|exists e; auto|congruence]. rewrite Eo. apply in_app_or in Ix as [Ix|[<-|[]]]; apply in_or_app; [now left | right; now left].
      + rewrite (i_index _ _ Iv). split.
        * intros (x & s2 & Ix & H). exists x, s2. split; auto. apply in_or_app. now left.
        * intros (x & s2 & Ix & Ecx & U2 & El). exists x, s2. split; auto. apply in_app_or in Ix as [Ix|[<-|[]]]; auto. exfalso.
          destruct U2 as (e2 & He2 & I2). rewrite He in He2. inv He2. assert (X : existsb (fun p => String.eqb (lower (fst p)) (lower s) && String.eqb (snd p) i) (rev u) = true).
          { apply existsb_exists. exists (s2, i). split; [apply -> in_rev; eapply Permutation_in; [symmetry|]; eauto|]. cbn. now rewrite El, !String.eqb_refl. }
          congruence.
  Qed.

  (** All records. *)
  Lemma load_all : forall Q js P st, os = P ++ Q -> inv P st ->
    Forall2 (fun o j => exists e, hget h o = Some e /\ forall sb st, (forall f, In f (keys (e_fields e)) -> ~ read_only (e_kind e) f -> resolvable lower h to_links sb st (read h o f)) ->
      exists d, decode sb st j = make_entity lower construct st (e_kind e) d
        /\ dsim (sim (L12 lower to_links sb st)) (("uids", uids_val e) :: fields_of h o e) d) Q js ->
    exists st', decode_list lower known construct true st js = Ok (map (fun o => PRef (copy o)) Q, st') /\ inv os st'.
  Proof.
    induction Q as [|o Q IH]; intros js P st E Iv F; inversion F as [|? j ? js' (e & He & Hj) F']; subst.
    - exists st. split; auto. rewrite app_nil_r in E. rewrite E. exact Iv.
    - destruct (load_step P o Q st e j E Iv He Hj) as (st1 & E1 & Iv1).
      destruct (IH js' (P ++ [o]) st1) as (st2 & E2 & Iv2); auto; [now rewrite <- app_assoc|].
      exists st2. split; auto. cbn [decode_list map]. rewrite E1. cbn [bind]. rewrite E2. reflexivity.
  Qed.

  Hypothesis mir_proc : processes_agree h.
  Hypothesis mir_list : lists_mirror h.
  Hypothesis outputs : forall p, kind_at h p = Some KProcR \/ kind_at h p = Some KProcS ->
    fval h p "output_material" = PNone \/ exists m, fval h p "output_material" = PRef m.
  Hypothesis back_in : forall x f y, In x os -> mentions (fval h x f) y -> In y os.

  Lemma copy_R : forall x, In x os -> R x (copy x).
  Proof. intros. split; auto. Qed.

  Lemma rebuilt_output : forall x k, In x os -> kind_at h x = Some k -> read_only k "output_material" ->
    sim (twin_leaf R) (fval h x "output_material") (rebuilt os x "output_material").
  Proof.
    intros x k Ix K Ro. unfold rebuilt. change (String.eqb "output_material" "output_material") with true. cbv iota.
    assert (Kx : kind_at h x = Some KProcR \/ kind_at h x = Some KProcS).
    { unfold read_only in Ro. destruct Ro as [[_ X]|[[->| ->] _]]; [discriminate|auto|auto]. }
    assert (Bl : forall y, belongs h "output_material" x y = true -> fval h x "output_material" = PRef y).
    { intros y B. apply belongs_iff in B as (ky & cf & Ky & T & Fy). destruct ky; cbn in T; inv T.
      - assert (X := proj1 (mir_proc KMatS KProcS y x (or_intror (conj eq_refl eq_refl))) (conj Ky Fy)). tauto.
      - assert (X := proj1 (mir_proc KMatR KProcR y x (or_introl (conj eq_refl eq_refl))) (conj Ky Fy)). tauto. }
    destruct (find (belongs h "output_material" x) (rev os)) as [y|] eqn:Fd.
    - apply find_some in Fd as [Iy By]. apply in_rev in Iy. rewrite (Bl y By). cbn. now apply copy_R.
    - destruct (outputs x Kx) as [->|(m & Em)]; [exact I|]. exfalso.
      assert (Im : In m os) by (eapply back_in; [exact Ix|]; rewrite Em; constructor).
      apply in_rev in Im. assert (X := find_none _ _ Fd m Im). enough (belongs h "output_material" x m = true) by congruence.
      apply belongs_iff. destruct Kx as [Kx|Kx].
      + destruct (proj2 (mir_proc KMatR KProcR m x (or_introl (conj eq_refl eq_refl))) (conj Kx Em)) as [Km Fm]. exists KMatR, "process". auto.
      + destruct (proj2 (mir_proc KMatS KProcS m x (or_intror (conj eq_refl eq_refl))) (conj Kx Em)) as [Km Fm]. exists KMatS, "process". auto.
  Qed.

  Lemma rebuilt_list : forall x k f, In x os -> kind_at h x = Some k -> read_only k f -> f <> "output_material" ->
    exists xs ys, fval h x f = PList (map PRef xs) /\ rebuilt os x f = PList (map (fun y => PRef (copy y)) ys) /\ Permutation xs ys /\ NoDup xs /\ (forall y, In y xs -> In y os).
  Proof.
    intros x k f Ix K Ro Nf.
    assert (Ls : exists ck cf, listed ck cf k f /\ forall y, belongs h f x y = true <-> kind_at h y = Some ck /\ fval h y cf = PRef x).
    { assert (G : forall ck cf, listed ck cf k f -> (forall k', two k' = Some (cf, f) -> asked_kind k' cf k -> k' = ck) -> two ck = Some (cf, f) ->
          forall y, belongs h f x y = true <-> kind_at h y = Some ck /\ fval h y cf = PRef x).
      { intros ck cf Ls Un T y. rewrite belongs_iff. split.
        - intros (k' & cf' & Ky & T' & Fy). enough (k' = ck /\ cf' = cf) by (destruct H; subst; auto).
          unfold read_only in Ro.
          destruct Ro as [[-> ->]|[[->| ->] [->| ->]]]; try congruence; destruct Ls as [X|[X|X]]; inv X; destruct k'; cbn in T'; inv T'; auto; exfalso.
          + (* an ingredient spec whose process is a process run *)
            destruct (mir_list KIngS "process" KProcS "ingredients") as [_ M]; [unfold listed; tauto|]. specialize (M y x Ky Fy). congruence.
          + destruct (mir_list KIngR "process" KProcR "ingredients") as [_ M]; [unfold listed; tauto|]. specialize (M y x Ky Fy). congruence.
        - intros [Ky Fy]. exists ck, cf. auto. }
      unfold read_only in Ro. destruct Ro as [[-> ->]|[[->| ->] [->| ->]]]; try congruence.
      - exists KMeasR, "material". split; [unfold listed; tauto|]. apply G; auto; [unfold listed; tauto|]. intros [] T; cbn in T; inv T; auto.
      - exists KIngR, "process". split; [unfold listed; tauto|]. apply G; auto; [unfold listed; tauto|]. intros [] T A; cbn in T; inv T; auto.
        exfalso. clear - A. unfold asked_kind in A. cbn in A. repeat destruct A as [A|A]; try contradiction; inv A.
      - exists KIngS, "process". split; [unfold listed; tauto|]. apply G; auto; [unfold listed; tauto|]. intros [] T A; cbn in T; inv T; auto.
        exfalso. clear - A. unfold asked_kind in A. cbn in A. repeat destruct A as [A|A]; try contradiction; inv A. }
    destruct Ls as (ck & cf & Ls & B). destruct (mir_list ck cf k f Ls) as [M _]. destruct (M x K) as (xs & Ex & Nx & Mx).
    assert (Ins : forall y, In y xs -> In y os).
    { intros y Iy. apply (back_in x f y Ix). rewrite Ex. eapply m_list; [apply in_map; exact Iy|constructor]. }
    exists xs, (filter (belongs h f x) os). split; auto. split.
    - unfold rebuilt. destruct (String.eqb f "output_material") eqn:Ef; auto. apply String.eqb_eq in Ef. contradiction.
    - split; auto. apply NoDup_Permutation; auto; [now apply NoDup_filter|]. intros y. rewrite filter_In, B, <- Mx. split; [auto|tauto].
  Qed.
End Load.
