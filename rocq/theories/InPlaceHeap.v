From Coq Require Import String List Bool Arith Lia.
From Verif Require Import Base BaseFacts GraphModel GraphSpec GraphProofs EqModel EqSpec EqProofs TravModel TravSpec TravProperties SerialModel SerialSpec SerialProofs LoadLinkProofs InPlaceModel InPlaceSpec InPlaceProofs.
Import ListNotations.
Open Scope string_scope.
Open Scope list_scope.
Open Scope nat_scope.

(** ** What assignments change *)

(** [h'] is [h] after assignments to attributes that [P] allows. *)
Inductive edits (P : oid -> string -> Prop) : heap -> heap -> Prop :=
| ed_refl : forall h, edits P h h
| ed_set : forall h h' o f v, edits P h h' -> P o f -> edits P h (set_field h' o f v).

Lemma edits_trans : forall P a b c, edits P a b -> edits P b c -> edits P a c.
Proof. intros P a b c H K. induction K; auto. econstructor; eauto. Qed.
Lemma edits_one : forall (P : oid -> string -> Prop) h o f v, P o f -> edits P h (set_field h o f v).
Proof. intros. econstructor; eauto. constructor. Qed.
Lemma edits_mono : forall (P P' : oid -> string -> Prop) a b, (forall o f, P o f -> P' o f) -> edits P a b -> edits P' a b.
Proof. intros P P' a b M H. induction H; econstructor; eauto. Qed.

Lemma edits_kind : forall P h h', edits P h h' -> forall x, kind_at h' x = kind_at h x.
Proof. intros P h h' H. induction H; intros; auto. now rewrite kind_set_field. Qed.
Lemma edits_uids : forall P h h', edits P h h' -> forall x, option_map e_uids (hget h' x) = option_map e_uids (hget h x).
Proof. intros P h h' H. induction H; intros; auto. now rewrite uids_set_field. Qed.
Lemma edits_length : forall P h h', edits P h h' -> length h' = length h.
Proof. intros P h h' H. induction H; intros; auto. now rewrite set_field_length. Qed.
Lemma edits_fval : forall P h h', edits P h h' -> forall x f, ~ P x f -> fval h' x f = fval h x f.
Proof.
  intros P h h' H. induction H; intros x f' N; auto. rewrite fval_set_other; auto.
  destruct (Nat.eq_dec o x) as [->|]; [|auto]. destruct (string_dec f f') as [->|]; [contradiction|auto].
Qed.

(** The attributes an entity has. *)
Definition names_at (h : heap) (o : oid) : list string := match hget h o with Some e => keys (e_fields e) | None => [] end.

Lemma names_set : forall h o f v x, names_at (set_field h o f v) x = if Nat.eqb o x then match hget h x with Some e => keys (dict_set f v (e_fields e)) | None => [] end else names_at h x.
Proof.
  intros h o f v x. unfold names_at, set_field. destruct (hget h o) as [e|] eqn:E.
  - rewrite hget_hset. destruct (Nat.eqb o x) eqn:Q; auto. apply Nat.eqb_eq in Q. subst. rewrite E. reflexivity.
  - destruct (Nat.eqb o x) eqn:Q; auto. apply Nat.eqb_eq in Q. subst. now rewrite E.
Qed.

Lemma edits_names : forall P h h', edits P h h' -> forall x, (NoDup (names_at h x) -> NoDup (names_at h' x)) /\ (forall f, In f (names_at h x) -> In f (names_at h' x))
  /\ (forall f, ~ P x f -> In f (names_at h' x) -> In f (names_at h x)).
Proof.
  intros P h h' H. induction H as [|h h' o f v H IH p]; intros x; auto. destruct (IH x) as (A & B & C). rewrite names_set. destruct (Nat.eqb o x) eqn:Q; auto.
  apply Nat.eqb_eq in Q. subst x. unfold names_at in A, B, C. destruct (hget h' o) as [e|] eqn:E.
  - split; [intros N; apply NoDup_keys_set; auto|]. split; [intros f' I; apply In_keys_set; auto|]. intros f' N I. apply In_keys_set in I as [->|I]; [contradiction|auto].
  - split; [intros _; constructor|]. split; [intros f' I; exact (B f' I)|]. intros f' N [].
Qed.

Lemma read_only_produce : forall k f pk, role_of k f = Some (Produce pk) -> read_only pk "output_material".
Proof. intros k f pk R. destruct k; cbn in R; repeat break_if; inversion R; subst; unfold read_only; auto. Qed.
Lemma read_only_owned : forall k f pk lf, role_of k f = Some (Owned pk lf) -> read_only pk lf.
Proof. intros k f pk lf R. apply role_owned in R. destruct R as [E|[E|E]]; inv E; unfold read_only; auto. Qed.

(** An assignment changes the attribute, and apart from it only attributes that are not assignable. *)
Lemma assign_effect : forall eq h o f w h' k r, kind_at h o = Some k -> role_of k f = Some r -> assign eq h o f w = (h', None) ->
  fval h' o f = w /\ edits (fun x f' => (x = o /\ f' = f) \/ ~ field_of h x f') h h'.
Proof.
  intros eq h o f w h' k r K R A. unfold assign in A. rewrite K, R in A.
  set (P := fun x f' => (x = o /\ f' = f) \/ ~ field_of h x f').
  assert (Ro : forall p pk lf, kind_at h p = Some pk -> read_only pk lf -> P p lf).
  { intros p pk lf Kp RO. right. intros (k' & K' & [N _]). rewrite Kp in K'. injection K' as <-. auto. }
  assert (Self : P o f) by (left; auto).
  assert (Ho : hget h o <> None) by (eapply kind_hget; eauto).
  assert (Pl : forall h1 pk, edits P h h1 -> hget h1 o <> None -> set_plain pk f h1 o w = (h', None) -> fval h' o f = w /\ edits P h h').
  { intros h1 pk Ed H1 X. unfold set_plain in X. assert (h' = set_field h1 o f w) as -> by (destruct w; try (break_if); inv X; auto).
    split; [apply fval_set_same; auto|]. econstructor; eauto. }
  destruct r as [pk|pk lf|pk|].
  - assert (f = "process") as -> by (apply role_produce in R; tauto). assert (RO := read_only_produce _ _ _ R). unfold set_process in A.
    set (h1 := match fval h o "process" with PRef p => if is_kind h pk (PRef p) then set_field h p "output_material" PNone else h | _ => h end) in A.
    assert (E1 : edits P h h1). { unfold h1. destruct (fval h o "process"); try constructor. destruct (is_kind h pk (PRef o0)) eqn:Q; [|constructor]. apply is_kind_ref in Q. apply edits_one. eauto. }
    assert (K1 : forall x, kind_at h1 x = kind_at h x) by (apply (edits_kind _ _ _ E1)). clearbody h1.
    assert (G1 : hget h1 o <> None) by (eapply kind_hget; rewrite K1; eauto).
    destruct w; try discriminate; try (injection A as <-; split; [now apply fval_set_same|econstructor; eauto]).
    destruct (is_kind h1 pk (PRef o0)) eqn:Q; [|discriminate]. apply is_kind_ref in Q. rewrite K1 in Q. injection A as <-. split.
    + apply fval_set_same. eapply kind_hget. rewrite kind_set_field, K1. eauto.
    + econstructor; [|exact Self]. econstructor; [exact E1|eauto].
  - assert (RO := read_only_owned _ _ _ _ R). unfold set_owned in A.
    match type of A with match ?d with _ => _ end = _ => set (dd := d) in A end.
    destruct dd as [h1|e] eqn:D; [|discriminate]. unfold dd in D. clear dd.
    assert (E1 : edits P h h1).
    { destruct (fval h o f); try (injection D as <-; constructor). destruct (is_kind h pk (PRef o0)) eqn:Q; [|injection D as <-; constructor]. apply is_kind_ref in Q.
      destruct (fval h o0 lf); try discriminate. destruct (remove eq h o l); [|discriminate]. injection D as <-. apply edits_one. eauto. }
    assert (K1 : forall x, kind_at h1 x = kind_at h x) by (apply (edits_kind _ _ _ E1)). clear D.
    assert (G1 : hget h1 o <> None) by (eapply kind_hget; rewrite K1; eauto).
    destruct w; try discriminate; try (injection A as <-; split; [now apply fval_set_same|econstructor; eauto]).
    destruct (is_kind h1 pk (PRef o0)) eqn:Q; [|discriminate]. apply is_kind_ref in Q. rewrite K1 in Q. cbv zeta in A.
    destruct (fval (set_field h1 o f (PRef o0)) o0 lf); try discriminate. injection A as <-. split.
    + rewrite fval_set_other; [now apply fval_set_same|]. right. apply role_owned in R. destruct R as [E|[E|E]]; inv E; discriminate.
    + econstructor; [|eauto]. econstructor; [exact E1|exact Self].
  - apply (Pl h pk); auto. constructor.
  - apply role_ing_spec in R as [-> ->]. unfold set_ing_spec in A. cbv zeta in A.
    match type of A with set_plain _ _ ?x _ _ = _ => set (h1 := x) in A end.
    assert (E1 : edits P h h1).
    { unfold h1. assert (T : forall f', f' = "name" \/ f' = "labels" -> P o f') by (intros f' Hf; right; intros (k' & K' & [_ N]); rewrite K in K'; injection K' as <-; auto).
      destruct (fval h o "spec"); try constructor. destruct (is_kind h KIngS (PRef o0)); [|constructor]. econstructor; [|apply T; auto]. apply edits_one. apply T. auto. }
    apply (Pl h1 KIngS); auto. eapply kind_hget. rewrite (edits_kind _ _ _ E1). eauto.
Qed.

Lemma skipped_own : forall k f, skipped k f || own_text k f = false <-> assignable k f.
Proof.
  intros k f. unfold assignable. rewrite <- skipped_iff. rewrite orb_false_iff. split.
  - intros [A B]. split; [congruence|]. intros [-> [->| ->]]; discriminate.
  - intros [A B]. split; [destruct (skipped k f); auto; contradiction A; auto|]. destruct k; auto. unfold own_text. destruct (String.eqb_spec f "name"); [exfalso; apply B; auto|].
    destruct (String.eqb_spec f "labels"); [exfalso; apply B; auto|]. reflexivity.
Qed.

Lemma attrs_In : forall h o f v, NoDup (names_at h o) -> (In (f, v) (attrs h o) <-> field_of h o f /\ In f (names_at h o) /\ v = fval h o f).
Proof.
  intros h o f v N. unfold attrs, field_of, names_at, fval, kind_at in *. destruct (hget h o) as [e|]; cbn [option_map].
  - rewrite filter_In. cbn [fst]. rewrite negb_true_iff, skipped_own. split.
    + intros [I A]. split; [eauto|]. split; [change f with (fst (f, v)); now apply in_map|]. unfold fget. now rewrite (In_dict_get _ _ _ N I).
    + intros ((k & K & A) & I & ->). injection K as <-. split; auto. unfold fget. destruct (dict_get_Some_key _ _ I) as [w E]. rewrite E. now apply dict_get_In.
  - split; [intros []|]. intros ((k & K & _) & _). discriminate.
Qed.

(** A value whose replacement is the same object and that is not changed in place is not changed at all. *)
Lemma not_replaced : forall g v, (forall r, is_ref r -> is_ref (g r)) -> replaced v (replace g v) = false -> container v = false -> replace g v = v.
Proof.
  intros g v G H C. destruct v; cbn in *; try discriminate; auto.
  - destruct (G (PLink scope id)) as [[x E]|(s & i & E)]; [right; eauto| |]; rewrite E in *; cbn in H; [discriminate|]. apply negb_false_iff, andb_prop in H as [A B].
    apply String.eqb_eq in A. apply String.eqb_eq in B. now subst.
  - destruct (G (PRef o)) as [[x E]|(s & i & E)]; [left; eauto| |]; rewrite E in *; cbn in H; [|discriminate]. apply negb_false_iff, Nat.eqb_eq in H. now subst.
Qed.

(** ** Storing *)
Section Store.
  Variable lower : string -> string.
  Variable refuses : heap -> string -> list (string * pv) -> string -> pv -> option exn.
  Variable g : pv -> pv.
  Hypothesis g_ref : forall r, is_ref r -> is_ref (g r).
  Hypothesis g_idem : forall r, is_ref r -> g (g r) = g r.
  (** The heap at the beginning. *)
  Variable h0 : heap.

  Notation R := (replace g).

  Lemma R_idem : forall v, R (R v) = R v.
  Proof. intros v. rewrite replace_comp by auto. apply replace_ext; intros; apply g_idem; [left|right]; eauto. Qed.

  (** What the changed heap has to do with the one at the beginning. *)
  Record base (h : heap) : Prop := mkBase {
    b_kind : forall x, kind_at h x = kind_at h0 x;
    b_uids : forall x, option_map e_uids (hget h x) = option_map e_uids (hget h0 x);
    b_length : length h = length h0;
    b_field : forall x f, field_of h0 x f -> fval h x f = fval h0 x f \/ fval h x f = R (fval h0 x f);
    b_nodup : forall x, NoDup (names_at h x);
    b_names : forall x f, field_of h0 x f -> (In f (names_at h x) <-> In f (names_at h0 x))
  }.

  Lemma base_refl : (forall x, NoDup (names_at h0 x)) -> base h0.
  Proof. intros N. constructor; auto. tauto. Qed.

  Lemma field_same : forall h x f, (forall x, kind_at h x = kind_at h0 x) -> field_of h x f <-> field_of h0 x f.
  Proof. intros h x f K. unfold field_of. now rewrite K. Qed.

  (** The attributes that hold their new values stay as they are. *)
  Definition grows (h h' : heap) : Prop := forall x f, field_of h0 x f -> fval h x f = R (fval h0 x f) -> fval h' x f = R (fval h0 x f).

  Lemma base_edits : forall h h' o f, base h -> In f (names_at h o) -> fval h' o f = R (fval h0 o f) ->
    edits (fun x f' => (x = o /\ f' = f) \/ ~ field_of h x f') h h' -> base h' /\ grows h h' /\ (forall x f', field_of h0 x f' -> (x = o /\ f' = f) \/ fval h' x f' = fval h x f').
  Proof.
    intros h h' o f B Io Fo Ed.
    assert (Fr : forall x f', field_of h0 x f' -> (x = o /\ f' = f) \/ fval h' x f' = fval h x f').
    { intros x f' Ff. destruct (Nat.eq_dec x o) as [->|N1]; [destruct (string_dec f' f) as [->|N2]; [auto|]|]; right; apply (edits_fval _ _ _ Ed); intros [[]|X]; try contradiction; try congruence; apply X; apply field_same; auto; apply B. }
    split; [constructor|split]; auto.
    - intros x. rewrite (edits_kind _ _ _ Ed). apply B.
    - intros x. rewrite (edits_uids _ _ _ Ed). apply B.
    - rewrite (edits_length _ _ _ Ed). apply B.
    - intros x f' Ff. destruct (Fr x f' Ff) as [[-> ->]|E]; [auto|]. rewrite E. now apply B.
    - intros x. apply (edits_names _ _ _ Ed). apply B.
    - intros x f' Ff. destruct (edits_names _ _ _ Ed x) as (_ & N2 & N3). rewrite <- (b_names _ B x f' Ff). split; [|auto]. intros J.
      destruct (Nat.eq_dec x o) as [->|N1]; [destruct (string_dec f' f) as [->|N4]; [auto|]|]; apply N3; auto; intros [[]|X]; try congruence; apply X; apply field_same; auto; apply B.
    - intros x f' Ff E. destruct (Fr x f' Ff) as [[-> ->]|E']; [auto|]. now rewrite E'.
  Qed.

  (** [v] is what attribute [f] of [o] held when its attributes were listed. *)
  Definition listed_as (h : heap) (o : oid) (f : string) (v : pv) : Prop :=
    field_of h0 o f /\ In f (names_at h0 o) /\ (v = fval h0 o f \/ (v = R (fval h0 o f) /\ fval h o f = R (fval h0 o f))).

  Lemma listed_R : forall h o f v, listed_as h o f v -> R v = R (fval h0 o f).
  Proof. intros h o f v (_ & _ & [->|[-> _]]); auto using R_idem. Qed.

  (** Every exception comes from a setter. *)
  Definition set_error (h : heap) (o : oid) (f : string) (e : exn) : Prop :=
    (exists k r, kind_at h0 o = Some k /\ role_of k f = Some r /\ snd (assign (item_eq lower) h o f (R (fval h0 o f))) = Some e)
    \/ (exists k fs, kind_at h0 o = Some k /\ role_of k f = None /\ refuses h (typ_of k) fs f (R (fval h0 o f)) = Some e).

  Lemma store_effect : forall h o f v, base h -> listed_as h o f v ->
    match store lower refuses h o f v (R v) with
    | Ok h' => base h' /\ grows h h' /\ fval h' o f = R (fval h0 o f)
        /\ (forall x f', field_of h0 x f' -> (x = o /\ f' = f) \/ fval h' x f' = fval h x f')
        /\ (h' = h
            \/ (h' = set_field h o f (R (fval h0 o f)) /\ (container v = true \/ forall k, kind_at h0 o = Some k -> role_of k f = None))
            \/ (replaced v (R v) = true /\ assign (item_eq lower) h o f (R (fval h0 o f)) = (h', None)))
    | Err e => replaced v (R v) = true /\ set_error h o f e
    end.
  Proof.
    intros h o f v B L. assert (Rv := listed_R _ _ _ _ L). destruct L as (Ff & In0 & D). unfold store.
    assert (In1 : In f (names_at h o)) by (apply (b_names _ B); auto). destruct Ff as (k & K & A). assert (Kh : kind_at h o = Some k) by (rewrite (b_kind _ B); auto).
    assert (Ho : hget h o <> None) by (eapply kind_hget; eauto). destruct (hget h o) as [e|] eqn:He; [|contradiction]. clear Ho.
    assert (Ke : e_kind e = k) by (unfold kind_at in Kh; rewrite He in Kh; cbn in Kh; congruence). rewrite Ke.
    assert (One : edits (fun x f' => (x = o /\ f' = f) \/ ~ field_of h x f') h (set_field h o f (R v))) by (apply edits_one; auto).
    assert (Sv : fval (set_field h o f (R v)) o f = R (fval h0 o f)) by (rewrite <- Rv; apply fval_set_same; congruence).
    destruct (replaced v (R v)) eqn:Rp.
    - destruct (role_of k f) as [r|] eqn:Ro.
      + rewrite Rv. destruct (assign (item_eq lower) h o f (R (fval h0 o f))) as [h' [x|]] eqn:As.
        * split; auto. left. exists k, r. rewrite As. auto.
        * destruct (assign_effect _ _ _ _ _ _ _ _ Kh Ro As) as [Fv Ed]. destruct (base_edits _ _ _ _ B In1 Fv Ed) as (B' & G' & Fr). auto 10.
      + destruct (refuses h (typ_of k) (e_fields e) f (R v)) as [x|] eqn:Rf.
        * split; auto. right. exists k, (e_fields e). rewrite <- Rv. auto.
        * destruct (base_edits _ _ _ _ B In1 Sv One) as (B' & G' & Fr). split; auto. split; auto. split; auto. split; auto. right. left. rewrite Rv. split; auto.
          right. intros k' K'. congruence.
    - destruct (container v) eqn:C.
      + destruct (base_edits _ _ _ _ B In1 Sv One) as (B' & G' & Fr). split; auto. split; auto. split; auto. split; auto. right. left. rewrite Rv. auto.
      + assert (Rvv := not_replaced g v g_ref Rp C). split; auto. split; [intros x f' _ Eq; exact Eq|]. split; [|split; auto].
        destruct D as [->|[-> Fv]]; [|auto]. destruct (b_field _ B o f) as [E|E]; [exists k; auto|congruence|auto].
  Qed.
End Store.
