From Coq Require Import String List Bool Arith Lia.
From Verif Require Import Base BaseFacts GraphModel GraphSpec GraphProofs GraphProperties EqModel EqSpec EqProofs EqProperties TravModel TravSpec TravProperties SerialModel SerialSpec SerialProofs LoadLinkProofs InstSpec SubstProperties InPlaceModel InPlaceSpec InPlaceProofs InPlaceHeap.
Import ListNotations.
Open Scope string_scope.
Open Scope list_scope.
Open Scope nat_scope.

(** ** Both sides of references *)

Definition agreeing (h : heap) : Prop := lists_mirror h /\ processes_agree h.

Lemma all_own_same : forall h h', (forall x, option_map e_uids (hget h' x) = option_map e_uids (hget h x)) -> all_own h -> all_own h'.
Proof.
  intros h h' U [A B]. assert (G : forall x e, hget h' x = Some e -> exists e', hget h x = Some e' /\ e_uids e' = e_uids e).
  { intros x e H. assert (Q := U x). rewrite H in Q. destruct (hget h x) as [e'|]; [|discriminate]. cbn in Q. exists e'. split; auto. congruence. }
  split.
  - intros x e H. apply G in H as (e' & H & <-). eapply A; eauto.
  - intros a b ea eb Ha Hb Sp. apply G in Ha as (ea' & Ha & E1). apply G in Hb as (eb' & Hb & E2). eapply B; eauto. now rewrite E1, E2.
Qed.

Lemma own_no_twin : forall lower h op, all_own h -> lists_mirror h -> no_twin (item_eq lower) h op.
Proof.
  intros lower h op O M x cf v ck pk lf p l y -> K L Fv Fl I N. destruct (M ck cf pk lf L) as [M1 M2].
  destruct (M1 p (M2 x p K Fv)) as (xs & E & _ & _). assert (l = map PRef xs) by congruence. subst l.
  apply in_map_iff in I as [z [<- Iz]]. unfold item_eq, value_eq. cbn [peq].
  destruct (equals_at lower h 2 z x) eqn:Q; auto. exfalso. apply N. f_equal.
  apply (equality_symmetric_partial lower h (proj1 O) (proj2 O)). exact Q.
Qed.

Lemma typed_no_reject : forall h o f v, well_typed h o f v -> no_reject h (GSet o f v).
Proof. intros h o f v W o' f' v' k E _ _ _. now inv E. Qed.

Lemma agreeing_assign : forall lower h o f v, all_own h -> agreeing h -> well_typed h o f v -> not_stolen h (GSet o f v) -> agreeing (fst (assign (item_eq lower) h o f v)).
Proof.
  intros lower h o f v O [M A] W N. split.
  - apply (mirror_step (item_eq lower) h (GSet o f v)); auto using own_no_twin, typed_no_reject.
  - assert (Oa : outputs_agree h) by (intros mk pk m p C Kp Fp; apply (A mk pk m p C); auto). assert (Ia : inputs_agree h) by (intros mk pk m p C Km Fp; apply (A mk pk m p C); auto).
    apply (outputs_agree_step (item_eq lower) h (GSet o f v)) in Oa. apply (inputs_agree_step (item_eq lower) h (GSet o f v)) in Ia; auto using typed_no_reject.
    intros mk pk m p C. split; intros [X Y]; [eapply Ia|eapply Oa]; eauto.
Qed.

(** A well typed reference is accepted. *)
Lemma assign_accepted : forall lower h o f v, all_own h -> lists_mirror h -> well_typed h o f v -> snd (assign (item_eq lower) h o f v) = None.
Proof.
  intros lower h o f v O M W. assert (W' := W). destruct W' as (k & pk & K & A & _).
  assert (NT : (role_of k f = Some (Plain pk) \/ role_of k f = Some IngRunSpec) -> ~ two_sided k f).
  { intros D T. apply two_sided_role in T as (pk' & _ & [E|[lf E]]); destruct D; congruence. }
  destruct (GraphProofs.asked_role _ _ _ A) as [R|[[R Ep]|[R|[lf R]]]].
  - eapply one_sided_accepted; eauto.
  - eapply one_sided_accepted; eauto.
  - assert (C := R). apply role_produce in C as [-> C]. eapply process_accepted; eauto. destruct (couple_proc _ _ C); auto.
  - apply role_owned in R. eapply (well_typed_reference_accepted_partial (item_eq lower) h k f pk lf o v); eauto using own_no_twin.
Qed.

Lemma agreeing_set : forall h o f w k, kind_at h o = Some k -> role_of k f = None -> ~ read_only k f -> agreeing h -> agreeing (set_field h o f w).
Proof.
  intros h o f w k K R N [M A]. split.
  - eapply mirror_frame; [intros; apply kind_set_field| |exact M]. intros ck cf pk lf L. split; intros x Kx; apply fval_set_other.
    + destruct (Nat.eq_dec o x) as [->|]; [|auto]. right. intros ->. rewrite K in Kx. injection Kx as ->. apply N. apply role_owned in L. eapply read_only_owned; eauto.
    + destruct (Nat.eq_dec o x) as [->|]; [|auto]. right. intros ->. rewrite K in Kx. injection Kx as ->. apply role_owned in L. congruence.
  - assert (F1 : forall p, (kind_at h p = Some KProcR \/ kind_at h p = Some KProcS) -> fval (set_field h o f w) p "output_material" = fval h p "output_material").
    { intros p Kp. apply fval_set_other. destruct (Nat.eq_dec o p) as [->|]; [|auto]. right. intros ->. apply N. unfold read_only. destruct Kp as [X|X]; rewrite K in X; injection X as ->; auto. }
    assert (F2 : forall m, (kind_at h m = Some KMatR \/ kind_at h m = Some KMatS) -> fval (set_field h o f w) m "process" = fval h m "process").
    { intros m Km. apply fval_set_other. destruct (Nat.eq_dec o m) as [->|]; [|auto]. right. intros ->. destruct Km as [X|X]; rewrite K in X; injection X as ->; discriminate. }
    intros mk pk m p C. assert (C' := couple_proc _ _ C). destruct C' as [Cm Cp]. rewrite !kind_set_field. split; intros [X Y].
    + rewrite F2 in Y by (destruct Cm; subst; auto). destruct (proj1 (A mk pk m p C)) as [U V]; auto. split; auto. rewrite F1; auto. destruct Cp; subst; auto.
    + rewrite F1 in Y by (destruct Cp; subst; auto). destruct (proj2 (A mk pk m p C)) as [U V]; auto. split; auto. rewrite F2; auto. destruct Cm; subst; auto.
Qed.

Lemma text_read : forall h h' o f, kind_at h o = Some KIngR -> (forall x, kind_at h' x = kind_at h x) -> f = "name" \/ f = "labels" ->
  fval h' o "spec" = fval h o "spec" -> fval h' o f = fval h o f -> (forall s, kind_at h s = Some KIngS -> fval h' s f = fval h s f) -> read h' o f = read h o f.
Proof.
  intros h h' o f K KK D Es Eo Ess. unfold read. rewrite KK, K. assert (T : (String.eqb f "name" || String.eqb f "labels")%bool = true) by (destruct D as [->| ->]; reflexivity).
  rewrite T, Es. destruct (fval h o "spec") as [| | |s| | | |]; auto. assert (Q : is_kind h' KIngS (PRef s) = is_kind h KIngS (PRef s)) by (unfold is_kind; now rewrite KK).
  rewrite Q. destruct (is_kind h KIngS (PRef s)) eqn:Z; auto. apply Ess. now apply is_kind_ref.
Qed.

(** Replacing a reference by a link or by None leaves the name and labels of an ingredient run as they read. *)
Lemma assign_texts : forall eq h o f w h', kind_at h o = Some KIngR -> role_of KIngR f <> None -> (w = PNone \/ exists s i, w = PLink s i) ->
  assign eq h o f w = (h', None) -> forall f', f' = "name" \/ f' = "labels" -> read h' o f' = read h o f'.
Proof.
  intros eq h o f w h' K R D A f' D'. assert (KK : forall x, kind_at h' x = kind_at h x) by (intros x; assert (Q := kind_assign eq h o f w x); rewrite A in Q; exact Q).
  assert (Nf : f' <> "spec" /\ f' <> "process" /\ f' <> "material" /\ f' <> "ingredients") by (destruct D' as [->| ->]; repeat split; discriminate). destruct Nf as (N1 & N2 & N3 & N4).
  unfold assign in A. rewrite K in A. cbn [role_of] in A, R. destruct (String.eqb_spec f "process") as [->|].
  { assert (Fr : forall x f2, f2 <> "process" -> f2 <> "ingredients" -> fval h' x f2 = fval h x f2) by (intros x f2 X Y; assert (Q := owned_frame eq KProcR "process" "ingredients" h o w x f2 (or_introl X) Y); rewrite A in Q; exact Q).
    apply text_read; auto; apply Fr; discriminate. }
  destruct (String.eqb_spec f "material") as [->|].
  { assert (Fr : forall x f2, f2 <> "material" -> fval h' x f2 = fval h x f2) by (intros x f2 X; assert (Q := plain_frame KMatR "material" h o w x f2 (or_intror (not_eq_sym X))); rewrite A in Q; exact Q).
    apply text_read; auto; apply Fr; discriminate. }
  destruct (String.eqb_spec f "spec") as [->|]; [|contradiction]. unfold set_ing_spec in A. cbv zeta in A.
  match type of A with set_plain _ _ ?x _ _ = _ => set (h1 := x) in A end.
  assert (E : h' = set_field h1 o "spec" w) by (destruct D as [->|(s & i & ->)]; cbn in A; now inv A).
  assert (T : (String.eqb f' "name" || String.eqb f' "labels")%bool = true) by (destruct D' as [->| ->]; reflexivity).
  assert (K1 : forall x, kind_at h1 x = kind_at h x) by (intros x; rewrite <- KK, E, kind_set_field; reflexivity).
  assert (Ho : hget h1 o <> None) by (eapply kind_hget; rewrite K1; eauto).
  unfold read. rewrite KK, K, T, E, fval_set_same by auto. rewrite fval_set_other by auto. transitivity (fval h1 o f'). { destruct D as [->|(s & i & ->)]; reflexivity. }
  unfold h1. destruct (fval h o "spec") as [| | |s| | | |]; auto. destruct (is_kind h KIngS (PRef s)); auto. assert (H0 : hget h o <> None) by (eapply kind_hget; eauto).
  destruct D' as [->| ->]; [rewrite fval_set_other by (right; discriminate); now apply fval_set_same|]. apply fval_set_same. eapply kind_hget. rewrite kind_set_field. eauto.
Qed.

(** ** Entities to links *)

Lemma fval_unnamed : forall h o f, ~ In f (names_at h o) -> fval h o f = PNone.
Proof.
  intros h o f N. unfold fval, fget, names_at in *. destruct (hget h o) as [e|]; auto. destruct (dict_get f (e_fields e)) eqn:D; auto. exfalso. apply N. apply dict_get_In in D. apply in_map_iff. exists (f, p). auto.
Qed.

Lemma plain_clean : forall v l, plain_tuples v -> within (PTuple l) v -> clean (PTuple l).
Proof. intros v l P W. split; [apply (P l W)|]. intros l' s i W'. apply (P l'). eapply within_trans; eauto. Qed.

Definition linking (lower : string -> string) (h : heap) (scope : option string) (fb : bool) (top : option oid) (r : pv) : pv :=
  match r with
  | PRef o => if match top with Some t => Nat.eqb t o | None => false end then r else match link_of lower h scope fb o with Ok l => l | Err _ => r end
  | _ => r
  end.

Lemma link_of_link : forall lower h scope fb o l, link_of lower h scope fb o = Ok l -> exists s i, l = PLink s i.
Proof. intros lower h scope fb o l H. destruct (proj1 (link_exact lower h scope fb o) l H) as (s & i & -> & _). eauto. Qed.

Lemma linking_link : forall lower h scope fb top o, linking lower h scope fb top (PRef o) = PRef o \/ exists s i, linking lower h scope fb top (PRef o) = PLink s i.
Proof.
  intros. cbn [linking]. destruct (match top with Some t => _ | None => _ end); auto. destruct (link_of lower h scope fb o) eqn:L; auto. apply link_of_link in L as (s & i & ->). eauto.
Qed.
Lemma linking_ref : forall lower h scope fb top r, is_ref r -> is_ref (linking lower h scope fb top r).
Proof.
  intros lower h scope fb top r [[o ->]|(s & i & ->)]; [|right; cbn; eauto]. destruct (linking_link lower h scope fb top o) as [->|(s & i & ->)]; [left|right]; eauto.
Qed.
Lemma linking_idem : forall lower h scope fb top r, is_ref r -> linking lower h scope fb top (linking lower h scope fb top r) = linking lower h scope fb top r.
Proof.
  intros lower h scope fb top r [[o ->]|(s & i & ->)]; [|reflexivity]. destruct (linking_link lower h scope fb top o) as [E|(s & i & ->)]; [now rewrite E|reflexivity].
Qed.

Lemma link_of_same : forall lower h h' scope fb o, (option_map e_uids (hget h' o) = option_map e_uids (hget h o)) -> link_of lower h' scope fb o = link_of lower h scope fb o.
Proof.
  intros lower h h' scope fb o U. unfold link_of. destruct (hget h' o), (hget h o); try discriminate; auto. cbn in U. inversion U as [Eu]. rewrite Eu. reflexivity.
Qed.

Section ToLinks.
  Variable lower : string -> string.
  Variable refuses : heap -> string -> list (string * pv) -> string -> pv -> option exn.
  Variable rejects : heap -> oid -> string -> pv -> option exn.
  Variable scope : option string.
  Variable fb : bool.
  Variable h0 : heap.
  Variable top : option oid.
  Notation g := (linking lower h0 scope fb top).
  Notation R := (replace g).

  Definition link_good (v : pv) : Prop := plain_tuples v /\ (forall l, within (PTuple l) v -> hashable (PTuple l) = true)
    /\ (forall o, mentions v o -> exists s i, link_for lower h0 scope fb o s i)
    /\ (forall h' t fs k x, (forall y, kind_at h' y = kind_at h0 y) -> within (PObj t fs) v -> In (k, x) fs -> refuses h' t fs k (R x) = None).

  Lemma link_good_in : forall v x, within x v -> link_good v -> link_good x.
  Proof.
    intros v x W (A & B & C & D). split; [|split; [|split]].
    - intros l W'. apply A. eapply within_trans; eauto.
    - intros l W'. apply B. eapply within_trans; eauto.
    - intros o M. apply C. apply mentions_within. apply mentions_within in M. eapply within_trans; eauto.
    - intros h' t fs k y K W'. apply D; auto. eapply within_trans; eauto.
  Qed.

  Variable J : heap -> Prop.
  Definition link_inv (st : istate) : Prop := base g h0 (fst st) /\ J (fst st) /\ (forall k w, In (k, w) (snd st) -> w = R k /\ clean k)
    /\ match top with Some t => In (PRef t, PRef t) (snd st) | None => True end.
  Definition link_le (st st' : istate) : Prop := grows g h0 (fst st) (fst st').

  Lemma memo_hit : forall st k w, link_inv st -> clean k -> memo_get (snd st) k = Some w -> w = R k.
  Proof. intros st k w (_ & _ & M & _) C H. apply memo_get_In in H as (k' & Hin & Q). destruct (M _ _ Hin) as [-> Ck]. apply key_eq_clean in Q; auto. now subst. Qed.

  Lemma link_at_ok : forall st v, is_ref v -> link_inv st -> link_good v ->
    match to_link_at lower scope fb st v with
    | Ok (w, st') => w = g v /\ link_inv st' /\ link_le st st' /\ forall x, mentions w x -> True
    | Err _ => False
    end.
  Proof.
    intros st v Rv I G. assert (RE : R v = g v) by (destruct Rv as [[o ->]|(s & i & ->)]; reflexivity). unfold to_link_at.
    destruct (memo_get (snd st) v) as [w|] eqn:Mg.
    { split; [rewrite <- RE; eapply memo_hit; eauto using clean_ref|]. split; [auto|]. split; [intros ? ?; auto|auto]. }
    assert (Push : forall w, w = g v -> link_inv (fst st, (v, w) :: snd st)).
    { intros w ->. destruct I as (B & Hj & M & T). split; [auto|]. split; [auto|]. split; [|destruct top; cbn [snd]; [right|]; auto].
      intros k w [E|Hin]; [inv E; rewrite RE; auto using clean_ref|auto]. }
    destruct Rv as [[o ->]|(s & i & ->)].
    - rewrite (link_of_same lower h0); [|apply I]. destruct G as (_ & _ & L & _). destruct (L o) as (s & i & Lf); [constructor|].
      destruct (proj2 (link_exact lower h0 scope fb o) s i Lf) as [l Hl]. rewrite Hl. cbn [bind].
      assert (E : l = g (PRef o)).
      { cbn [linking]. rewrite Hl. destruct top as [t|] eqn:Ht; [|reflexivity]. destruct (Nat.eqb_spec t o) as [->|]; [|reflexivity]. exfalso.
        destruct I as (_ & _ & _ & T). rewrite Ht in T. apply (memo_get_ref (snd st) (PRef o) (PRef o)) in T; [congruence|left; eauto]. }
      split; [auto|]. split; [apply Push; auto|]. split; [intros ? ?; auto|auto].
    - split; [reflexivity|]. split; [apply Push; reflexivity|]. split; [intros ? ?; auto|auto].
  Qed.

  Lemma link_memo_ok : forall st l w, link_inv st -> link_good (PTuple l) -> memo_get (snd st) (PTuple l) = Some w -> w = R (PTuple l) /\ forall x, mentions w x -> True.
  Proof. intros st l w I (P & _) M. split; [|auto]. eapply memo_hit; eauto. eapply plain_clean; eauto. constructor. Qed.

  Lemma link_push_ok : forall st l, link_inv st -> link_good (PTuple l) -> (forall x, mentions (R (PTuple l)) x -> True) ->
    link_inv (fst st, (PTuple l, R (PTuple l)) :: snd st) /\ link_le st (fst st, (PTuple l, R (PTuple l)) :: snd st).
  Proof.
    intros st l (B & Hj & M & T) (P & _) _. split; [|intros ? ?; auto]. split; [auto|]. split; [auto|]. split; [|destruct top; cbn [snd]; [right|]; auto].
    intros k w [E|Hin]; [|auto]. inv E. split; auto. eapply plain_clean; eauto. constructor.
  Qed.

  Lemma link_set_ok : forall st t fs k x e, link_inv st -> link_good (PObj t fs) -> In (k, x) fs -> refuses (fst st) t fs k (R x) = Some e -> False.
  Proof. intros st t fs k x e (B & _) (_ & _ & _ & S) Hin E. rewrite S in E; [discriminate|apply B|constructor|auto]. Qed.

  Lemma link_change : forall v st, link_inv st -> link_good v ->
    match change refuses (to_link_at lower scope fb) st v with Ok (w, st') => w = R v /\ link_inv st' /\ link_le st st' | Err _ => False end.
  Proof.
    intros v st I G. assert (X := change_ok refuses (to_link_at lower scope fb) g link_inv link_le link_good (fun _ => False) (fun _ _ => True)).
    specialize (X (fun s x f F E => E) (fun a b c L1 L2 x f F E => L2 x f F (L1 x f F E)) (fun _ _ _ _ H => H) link_good_in link_at_ok link_memo_ok link_push_ok).
    specialize (X (fun l (H : link_good (PTuple l)) N => eq_true_false_abs _ (proj1 (proj2 H) l (w_self _)) N) link_set_ok v st I G).
    destruct (change _ _ st v) as [[w st']|e]; [|exact X]. destruct X as (A & B & C & _). auto.
  Qed.
End ToLinks.

(** In a value that is not an entity. *)
Lemma links_value : forall lower refuses rejects scope fb h v, (forall x, NoDup (names_at h x)) -> (forall o, v <> PRef o) ->
  link_good lower refuses scope fb h None v ->
  substitute_links_in lower refuses rejects scope fb h v = Ok (replace (linking lower h scope fb None) v, h).
Proof.
  intros lower refuses rejects scope fb h v N NR G. assert (I : link_inv lower scope fb h None (fun h' => h' = h) (h, [])).
  { split; [apply base_refl; auto|]. split; [auto|]. split; [intros k w []|auto]. }
  assert (X := link_change lower refuses scope fb h None (fun h' => h' = h) v (h, []) I G).
  assert (E : substitute_links_in lower refuses rejects scope fb h v = (do (w, (h', _)) <- change refuses (to_link_at lower scope fb) (h, []) v; Ok (w, h'))) by (destruct v; try reflexivity; exfalso; eapply NR; reflexivity).
  rewrite E. destruct (change _ _ (h, []) v) as [[w [h' m]]|e]; [|destruct X]. destruct X as (-> & (_ & Eh & _) & _). cbn in Eh. subst. reflexivity.
Qed.

Lemma role_asked : forall k f r, role_of k f = Some r -> exists pk, asked_kind k f pk.
Proof.
  intros k f r H. unfold asked_kind.
  destruct k; cbn [role_of] in H; repeat match type of H with context [String.eqb f ?s] => destruct (String.eqb_spec f s) as [->|] end; try discriminate; eexists; cbn; auto 20.
Qed.

Section Entity.
  Variable lower : string -> string.
  Variable refuses : heap -> string -> list (string * pv) -> string -> pv -> option exn.
  Variable rejects : heap -> oid -> string -> pv -> option exn.
  Variable scope : option string.
  Variable fb : bool.
  Variable h0 : heap.
  Variable o : oid.
  Notation g := (linking lower h0 scope fb (Some o)).
  Notation R := (replace g).

  Hypothesis names : forall x, NoDup (names_at h0 x).
  Hypothesis typed : refs_typed h0.
  Hypothesis agree : agreeing h0.
  Hypothesis own : all_own h0.
  Hypothesis good : forall f, field_of h0 o f -> link_good lower refuses scope fb h0 (Some o) (fval h0 o f).
  Hypothesis set_acc : forall h' k fs f, (forall y, kind_at h' y = kind_at h0 y) -> kind_at h0 o = Some k -> role_of k f = None -> field_of h0 o f -> refuses h' (typ_of k) fs f (R (fval h0 o f)) = None.
  Hypothesis item_acc : forall h' f l x, (forall y, kind_at h' y = kind_at h0 y) -> field_of h0 o f -> fval h0 o f = PList l -> In x l -> rejects h' o f (R x) = None.

  Definition entity_inv (h : heap) : Prop := agreeing h /\ (forall x f, x <> o -> field_of h0 x f -> fval h x f = fval h0 x f)
    /\ (kind_at h0 o = Some KIngR -> forall f, f = "name" \/ f = "labels" -> read h o f = read h0 o f).

  Lemma role_value : forall k f r, kind_at h0 o = Some k -> role_of k f = Some r ->
    well_typed h0 o f (R (fval h0 o f)) /\ container (fval h0 o f) = false /\ (replaced (fval h0 o f) (R (fval h0 o f)) = true -> exists s i, R (fval h0 o f) = PLink s i).
  Proof.
    intros k f r K Ro. apply role_asked in Ro as [pk A]. destruct (typed o k f pk K A) as (k' & pk' & K' & A' & D).
    destruct D as [->|[(s & i & ->)|(p & -> & Kp)]].
    - cbn. split; [exists k', pk'; auto|]. split; [auto|discriminate].
    - cbn. split; [exists k', pk'; eauto 10|]. split; [auto|]. eauto.
    - change (R (PRef p)) with (g (PRef p)). destruct (linking_link lower h0 scope fb (Some o) p) as [->|(s & i & ->)].
      + split; [exists k', pk'; eauto 10|]. split; [auto|]. cbn. rewrite Nat.eqb_refl. discriminate.
      + split; [exists k', pk'; eauto 10|]. split; [auto|]. eauto.
  Qed.

  Notation Inv := (link_inv lower scope fb h0 (Some o) entity_inv).

  Lemma entity_store : forall st f v, Inv st -> field_of h0 o f /\ In f (names_at h0 o) /\ v = fval h0 o f -> (forall x, mentions (R v) x -> True) ->
    match store lower refuses (fst st) o f v (R v) with
    | Ok h2 => Inv (h2, snd st) /\ link_le lower scope fb h0 (Some o) st (h2, snd st) /\ (field_of h0 o f /\ fval h2 o f = R (fval h0 o f))
    | Err _ => False
    end.
  Proof.
    intros [h m] f v (B & (Ag & Fr & Tx) & Rest) (Ff & Nf & ->) _. cbn [fst snd] in *.
    assert (X := store_effect lower refuses g (linking_ref lower h0 scope fb (Some o)) (linking_idem lower h0 scope fb (Some o)) h0 h o f (fval h0 o f) B (conj Ff (conj Nf (or_introl eq_refl)))).
    assert (KK := b_kind _ _ _ B). assert (Ow : all_own h) by (apply (all_own_same h0); [apply B|auto]).
    assert (Ff' := Ff). destruct Ff' as (k & K & As). assert (Kh : kind_at h o = Some k) by (now rewrite KK).
    destruct (store lower refuses h o f (fval h0 o f) (R (fval h0 o f))) as [h2|e].
    - destruct X as (B2 & G2 & Fv & Fr2 & D). split; [split; [exact B2|]|split; [exact G2|auto]]. split; [|exact Rest].
      assert (F2 : forall x f0, x <> o -> field_of h0 x f0 -> fval h2 x f0 = fval h0 x f0).
      { intros x f0 Nx F0. destruct (Fr2 x f0 F0) as [[-> _]|E]; [contradiction|]. rewrite E. now apply Fr. }
      cbn [fst]. destruct D as [->|[[-> D]|[Rp A]]]; [split; auto| |].
      + assert (Ro : role_of k f = None). { destruct D as [D|D]; [|auto]. destruct (role_of k f) as [r|] eqn:Ro; [|auto]. destruct (role_value k f r K Ro) as (_ & C & _). congruence. }
        split; [eapply agreeing_set; eauto; apply As|]. split; [auto|]. intros Ki f0 D0. rewrite <- Tx by auto. assert (k = KIngR) by congruence. subst k.
        assert (Nff : f <> f0) by (intros ->; apply As; auto). assert (Nsp : f <> "spec") by (intros ->; discriminate).
        apply text_read; auto; [intros; apply kind_set_field| | |]; try (apply fval_set_other; auto). intros s Ks. apply fval_set_other. left. congruence.
      + assert (Ro : exists r, role_of k f = Some r). { destruct (role_of k f) as [r|] eqn:Ro; [eauto|]. exfalso. unfold assign in A. rewrite Kh, Ro in A. discriminate. }
        destruct Ro as [r Ro]. destruct (role_value k f r K Ro) as (W & _ & L). destruct (L Rp) as (s & i & E).
        assert (Wh : well_typed h o f (R (fval h0 o f))) by (rewrite E; destruct W as (k1 & pk & K1 & A1 & _); exists k1, pk; rewrite KK; eauto 10).
        assert (Q := agreeing_assign lower h o f (R (fval h0 o f)) Ow Ag Wh). rewrite A in Q. cbn [fst] in Q. split; [apply Q; rewrite E; intros ? ? ? ? Z; inv Z|].
        split; [auto|]. intros Ki f0 D0. rewrite <- Tx by auto. assert (k = KIngR) by congruence. subst k. eapply assign_texts; eauto. congruence.
    - destruct X as (Rp & [(k1 & r & K1 & Ro & E)|(k1 & fs & K1 & Ro & E)]).
      + destruct (role_value k1 f r K1 Ro) as (W & _ & L). destruct (L Rp) as (s & i & El).
        assert (Wh : well_typed h o f (R (fval h0 o f))) by (rewrite El; destruct W as (k2 & pk & K2 & A2 & _); exists k2, pk; rewrite KK; eauto 10).
        rewrite (assign_accepted lower h o f) in E; auto; [discriminate|apply Ag].
      + rewrite set_acc in E; auto. discriminate.
  Qed.

  Lemma links_entity : hget h0 o <> None -> exists h', substitute_links_in lower refuses rejects scope fb h0 (PRef o) = Ok (PRef o, h')
    /\ base g h0 h' /\ entity_inv h' /\ (forall f, field_of h0 o f -> fval h' o f = R (fval h0 o f)).
  Proof.
    intros Ho. set (m := [(PRef o, PRef o)]). assert (Gtop : g (PRef o) = PRef o) by (cbn; now rewrite Nat.eqb_refl).
    assert (I : Inv (h0, m)).
    { split; [apply base_refl; auto|]. split; [split; auto|]. split; [|left; reflexivity]. intros k w [E|[]]. inv E. split; [now rewrite <- Gtop at 1|apply clean_ref; left; eauto]. }
    assert (X := attrs_ok lower refuses rejects (to_link_at lower scope fb) g Inv (link_le lower scope fb h0 (Some o)) (link_good lower refuses scope fb h0 (Some o)) (fun _ => False) (fun _ _ => True)).
    specialize (X (fun s x f F E => E) (fun a b c L1 L2 x f F E => L2 x f F (L1 x f F E)) (fun _ _ _ _ H => H) (link_good_in lower refuses scope fb h0 (Some o)) (link_at_ok lower refuses scope fb h0 (Some o) entity_inv)
      (link_memo_ok lower refuses scope fb h0 (Some o) entity_inv) (link_push_ok lower refuses scope fb h0 (Some o) entity_inv)).
    specialize (X (fun l (H : link_good lower refuses scope fb h0 (Some o) (PTuple l)) N => eq_true_false_abs _ (proj1 (proj2 H) l (w_self _)) N) (link_set_ok lower refuses scope fb h0 (Some o) entity_inv)).
    specialize (X o (fun _ f v => field_of h0 o f /\ In f (names_at h0 o) /\ v = fval h0 o f) (fun st f _ => field_of h0 o f /\ fval (fst st) o f = R (fval h0 o f))).
    specialize (X (fun _ _ _ _ _ H => H)).
    assert (Qg : forall (s : istate) f v, field_of h0 o f /\ In f (names_at h0 o) /\ v = fval h0 o f -> link_good lower refuses scope fb h0 (Some o) v) by (intros s f v (F & _ & ->); auto).
    assert (Qi : forall (st : istate) f l x e, Inv st -> field_of h0 o f /\ In f (names_at h0 o) /\ PList l = fval h0 o f -> In x l -> rejects (fst st) o f (R x) = Some e -> False).
    { intros st f l x e (B & _) (F & _ & E) Hin Er. rewrite (item_acc (fst st) f l x) in Er; auto; [discriminate|apply B]. }
    specialize (X Qg Qi (fun s s' f v L (H : field_of h0 o f /\ _) => conj (proj1 H) (L o f (proj1 H) (proj2 H))) entity_store (attrs h0 o) (h0, m) I).
    assert (At : forall f v, In (f, v) (attrs h0 o) -> field_of h0 o f /\ In f (names_at h0 o) /\ v = fval h0 o f) by (intros f v Hin; apply attrs_In in Hin; auto).
    specialize (X At). unfold substitute_links_in, change_entity. cbn [fst]. fold m. destruct (change_attrs _ _ _ _ o (h0, m) (attrs h0 o)) as [[h' m']|e]; [|destruct X].
    destruct X as (I' & _ & P'). cbn [bind]. exists h'. split; [reflexivity|]. destruct I' as (B & Ei & _). split; [exact B|]. split; [exact Ei|].
    intros f F. destruct (in_dec string_dec f (names_at h0 o)) as [Hin|N].
    - destruct (P' f (fval h0 o f)) as [[_ E] _]; [apply attrs_In; auto|exact E].
    - rewrite (fval_unnamed h0 o f N). apply fval_unnamed. cbn in B. intros Hin. apply N. now apply (b_names _ _ _ B).
  Qed.
End Entity.
