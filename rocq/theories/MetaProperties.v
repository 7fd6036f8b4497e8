(** C70: the plain fields of entities, attributes and sources, whatever is assigned to them. *)
From Coq Require Import String List Bool Arith Lia.
From Verif Require Import Base PyStr ValuesModel ValuesSpec ValuesProofs TextSpec TextProofs MetaModel MetaSpec.
Import ListNotations.
Open Scope string_scope.
Open Scope list_scope.

Definition content_of (s : setter) : content :=
  match s with SetText => AText | SetMaybe => MaybeText | SetTexts => Texts | SetLinks => Links | SetSource => MaybeSource
  | SetMember ms => OneOf (map mvalue ms) | SetPlain => Anything | NoSetter => Fixed end.

Lemma contents_setter : forall c f k, contents c f k -> content_of (setter_of c f) = k.
Proof.
  intros c f k H. destruct H; try reflexivity; try (destruct c; try reflexivity; exfalso; unfold an_object, an_attribute in *; cbn in *; intuition congruence).
Qed.

Lemma refused_none : forall ok l, refused_at ok l = None <-> Forall (fun x => ok x = true) l.
Proof.
  intros ok. induction l as [|x r IH]; cbn; [split; auto|]. destruct (ok x) eqn:E.
  - rewrite IH. split; [intros; constructor; auto|]. intros H. now inversion H.
  - split; [discriminate|]. intros H. inversion H. congruence.
Qed.
Lemma text_iff : forall x, is_text x = true <-> a_text x.
Proof. intros []; cbn; unfold a_text; split; try discriminate; eauto; intros [s H]; congruence. Qed.
Lemma link_iff : forall x, is_link x = true <-> a_link x.
Proof. intros []; cbn; unfold a_link; split; try discriminate; eauto; intros (? & ? & H); congruence. Qed.
Lemma Forall_iff : forall A (P Q : A -> Prop) l, (forall x, P x <-> Q x) -> (Forall P l <-> Forall Q l).
Proof. intros. split; intros F; eapply Forall_impl; try exact F; firstorder. Qed.

Lemma trimmed_ok : forall s, strip s = s -> trimmed s.
Proof. intros s E. destruct (strip_split s) as (a & b & _ & _ & _ & T). now rewrite E in T. Qed.
Definition enum (names : list string) : list member := map (fun s => mkMember s []) names.
Definition good_names (names : list string) : Prop := forall n, In n names -> strip n = n.
Lemma reads_plain : forall n s, strip n = n -> (reads_as s (mkMember n []) <-> spells s n).
Proof.
  intros n s T. split.
  - intros (t & [->|[]] & _ & R). exact R.
  - intros R. exists n. repeat split; auto; try (left; reflexivity); now apply trimmed_ok.
Qed.
Lemma from_names : forall names s, good_names names ->
  (exists m, In m names /\ spells s m /\ from_str (enum names) (Some s) true = Ok (Some (mkMember m [])))
  \/ ((forall m, In m names -> ~ spells s m) /\ from_str (enum names) (Some s) true = Err ValueError).
Proof.
  intros names s G. destruct (from_str_cases (enum names) s) as [(m & (l1 & l2 & E & R & _) & H)|[U H]].
  - left. assert (I : In m (enum names)) by (rewrite E; apply in_elt). apply in_map_iff in I as (n & <- & I). exists n. repeat split; auto. apply reads_plain in R; auto.
  - right. split; [|apply (H true)]. intros m I R. apply (U (mkMember m [])); [apply in_map_iff; eauto|]. apply reads_plain; auto.
Qed.
Lemma spells_one : forall s m n, strip m = m -> strip n = n -> spells s m -> spells s n -> lower m = lower n.
Proof. intros s m n Tm Tn R1 R2. apply reads_iff in R1, R2; try (now apply trimmed_ok). congruence. Qed.

Definition sample_names : list string := ["experimental"; "production"; "virtual"; "unknown"].
Definition origin_names : list string := ["measured"; "predicted"; "summary"; "specified"; "computed"; "unknown"].
Definition enum_setter (s : setter) : Prop := forall ms, s = SetMember ms -> exists names, ms = enum names /\ good_names names /\ forall a b, In a names -> In b names -> lower a = lower b -> a = b.
Lemma setters_good : forall c f, enum_setter (setter_of c f).
Proof.
  assert (N : forall names, names = sample_names \/ names = origin_names -> good_names names /\ forall a b, In a names -> In b names -> lower a = lower b -> a = b).
  { intros names [->| ->]; (split; [intros n I; repeat (destruct I as [<-|I]; [reflexivity|]); destruct I|]);
      intros a b Ia Ib E; repeat (destruct Ia as [<-|Ia]; [repeat (destruct Ib as [<-|Ib]; [first [reflexivity|discriminate E]|]); destruct Ib|]); destruct Ia. }
  intros c f ms E. destruct f, c; cbn in E; try discriminate E; injection E as <-; first [exists sample_names; split; [reflexivity|apply N; auto]|exists origin_names; split; [reflexivity|apply N; auto]].
Qed.

(** A setter, given anything but an iterator. *)
Lemma set_value_outcome : forall s a i, enum_setter s -> (forall n, a <> GOnce n) ->
  (exists v, takes (content_of s) a v /\ set_value s a i = (Ok v, i))
  \/ ((forall v, ~ takes (content_of s) a v) /\ exists e, refusal (content_of s) a e /\ set_value s a i = (Err e, i)).
Proof.
  intros s a i G O. destruct s; cbn [content_of set_value].
  - destruct a as [|[]| |]; try (right; split; [intros v H; inversion H|eexists; split; [apply r_other; auto|reflexivity]]). left. eexists. split; [constructor|reflexivity].
  - destruct a as [|[]| |]; try (right; split; [intros v H; inversion H|eexists; split; [apply r_other; auto|reflexivity]]); left; eexists; (split; [constructor|reflexivity]).
  - destruct a as [|x|l|n]; cbn [validate_list as_list]; [left; eexists; split; [constructor|reflexivity]| | |now destruct (O n)].
    + destruct x; cbn; try (right; split; [intros v H; inversion H|eexists; split; [apply r_other; auto|reflexivity]]). left; eexists; split; [constructor|reflexivity].
    + destruct (refused_at is_text l) eqn:E.
      * right. split; [|eexists; split; [apply r_other; auto|reflexivity]]. intros v H. inversion H as [ | | | | |? F| | | | | | | ]; subst. apply (Forall_iff _ _ _ _ text_iff) in F. apply refused_none in F. congruence.
      * left. eexists. split; [constructor|reflexivity]. apply (Forall_iff _ _ _ _ text_iff). now apply refused_none.
  - destruct a as [|x|l|n]; cbn [validate_list as_list]; [left; eexists; split; [constructor|reflexivity]| | |now destruct (O n)].
    + destruct x; cbn; try (right; split; [intros v H; inversion H|eexists; split; [apply r_other; auto|reflexivity]]). left; eexists; split; [constructor|reflexivity].
    + destruct (refused_at is_link l) eqn:E.
      * right. split; [|eexists; split; [apply r_other; auto|reflexivity]]. intros v H. inversion H as [ | | | | | | | |? F| | | | ]; subst. apply (Forall_iff _ _ _ _ link_iff) in F. apply refused_none in F. congruence.
      * left. eexists. split; [constructor|reflexivity]. apply (Forall_iff _ _ _ _ link_iff). now apply refused_none.
  - destruct a as [|[]| |]; try (right; split; [intros v H; inversion H|eexists; split; [apply r_other; auto 6|reflexivity]]); left; eexists; (split; [constructor|reflexivity]).
  - destruct (G ms eq_refl) as (names & -> & Gn & _). assert (Mn : map mvalue (enum names) = names) by (unfold enum; rewrite map_map; apply map_id). rewrite Mn.
    destruct a as [|x|l|n]; [right; split; [intros v H; inversion H|eexists; split; [constructor|reflexivity]]| |right; split; [intros v H; inversion H|eexists; split; [apply r_member_other; discriminate|reflexivity]]|now destruct (O n)].
    destruct x; try (right; split; [intros v H; inversion H|eexists; split; [apply r_member_other; discriminate|reflexivity]]).
    destruct (from_names names s Gn) as [(m & I & R & E)|[U E]]; rewrite E; cbn [bind].
    + left. eexists. split; [constructor; eauto|reflexivity].
    + right. split; [intros v H; inversion H; subst; eapply U; eauto|]. eexists. split; [constructor|reflexivity].
  - left. eexists. split; [constructor|reflexivity].
  - right. split; [intros v H; inversion H|]. eexists. split; [constructor|reflexivity].
Qed.

Lemma field_eqb_iff : forall f g, field_eqb f g = true <-> f = g.
Proof. intros [] []; cbn; split; congruence. Qed.
Lemma put_changed : forall o f v, only_changed o (put f v o) f v.
Proof.
  intros o f v. split; [reflexivity|]. cbn. rewrite (proj2 (field_eqb_iff f f) eq_refl). split; [reflexivity|].
  intros g N. destruct (field_eqb g f) eqn:E; auto. apply field_eqb_iff in E. contradiction.
Qed.

(** Assigning any value but an iterator to any of these fields stores exactly it, or is refused with the exception for it and changes
    nothing. No iterator is touched. *)
Theorem assign_outcome : forall o f k a i, contents (o_cls o) f k -> (forall n, a <> GOnce n) ->
  (exists v o', takes k a v /\ assign o f a i = (o', None, i) /\ only_changed o o' f v)
  \/ ((forall v, ~ takes k a v) /\ exists e, refusal k a e /\ assign o f a i = (o, Some e, i)).
Proof.
  intros o f k a i C O. rewrite <- (contents_setter _ _ _ C). unfold assign. destruct (set_value_outcome (setter_of (o_cls o) f) a i (setters_good _ _) O) as [(v & T & ->)|(N & e & R & ->)].
  - left. exists v. eexists. split; [exact T|]. split; [reflexivity|]. apply put_changed.
  - right. split; auto. exists e. auto.
Qed.
(** What is stored is determined by what is given. *)
Theorem takes_one : forall c f k a v w, contents c f k -> takes k a v -> takes k a w -> v = w.
Proof.
  intros c f k a v w C T1 T2. destruct T1; inversion T2; subst; try reflexivity.
  assert (X := contents_setter _ _ _ C). destruct (setter_of c f) eqn:S; try discriminate X. injection X as <-.
  destruct (setters_good c f _ S) as (ns & -> & G & D). unfold enum in *. rewrite map_map, map_id in *. f_equal. f_equal. apply D; auto. eapply spells_one; eauto.
Qed.

(** An iterator assigned to a list is not stored: the list is empty afterwards. The iterator is used up, or, if it has an item that is
    refused, is left behind that item. *)
Theorem assign_iterator : forall o f k n i, contents (o_cls o) f k -> k = Texts \/ k = Links ->
  let good := if match k with Texts => true | _ => false end then a_text else a_link in
  (Forall good (i n) /\ exists o' i', assign o f (GOnce n) i = (o', None, i') /\ only_changed o o' f (HList []) /\ i' n = [] /\ forall m, m <> n -> i' m = i m)
  \/ (exists l x r i', i n = l ++ x :: r /\ Forall good l /\ ~ good x /\ assign o f (GOnce n) i = (o, Some TypeError, i') /\ i' n = r /\ forall m, m <> n -> i' m = i m).
Proof.
  intros o f k n i C K good.
  assert (R : forall ok l r, refused_at ok l = Some r -> exists a x, l = a ++ x :: r /\ Forall (fun x => ok x = true) a /\ ok x = false).
  { intros ok. induction l as [|x l IH]; cbn; [discriminate|]. intros r. destruct (ok x) eqn:E.
    - intros H. destruct (IH r H) as (a & y & -> & F & Y). exists (x :: a), y. auto.
    - intros [= <-]. exists [], x. auto. }
  assert (Dn : forall l m, m <> n -> drain n l i m = i m) by (intros l m N; unfold drain; destruct (Nat.eqb_spec m n); congruence).
  assert (Ds : forall l, drain n l i n = l) by (intros l; unfold drain; now rewrite Nat.eqb_refl).
  assert (Main : forall ok P s, (forall x, ok x = true <-> P x) -> setter_of (o_cls o) f = s -> set_value s (GOnce n) i = as_list (validate_list ok (GOnce n) i) ->
    (Forall P (i n) /\ exists o' i', assign o f (GOnce n) i = (o', None, i') /\ only_changed o o' f (HList []) /\ i' n = [] /\ forall m, m <> n -> i' m = i m)
    \/ (exists l x r i', i n = l ++ x :: r /\ Forall P l /\ ~ P x /\ assign o f (GOnce n) i = (o, Some TypeError, i') /\ i' n = r /\ forall m, m <> n -> i' m = i m)).
  { intros ok P s Iff Es Ev. unfold assign. rewrite Es, Ev. cbn [validate_list]. destruct (refused_at ok (i n)) as [r|] eqn:Q; cbn [as_list].
    - right. destruct (R ok (i n) r Q) as (l & x & E & F & X). exists l, x, r. eexists. split; [exact E|]. split; [apply (Forall_iff _ _ _ _ Iff); exact F|].
      split; [intros Px; apply Iff in Px; congruence|]. split; [reflexivity|]. split; [apply Ds|apply Dn].
    - left. split; [apply (Forall_iff _ _ _ _ Iff); now apply refused_none|]. eexists. eexists. split; [reflexivity|]. split; [apply put_changed|]. split; [apply Ds|apply Dn]. }
  assert (X := contents_setter _ _ _ C). destruct K as [-> | ->]; destruct (setter_of (o_cls o) f) eqn:S; try discriminate X.
  - apply (Main is_text a_text SetTexts text_iff); auto.
  - apply (Main is_link a_link SetLinks link_iff); auto.
Qed.

(** ** Histories *)

Lemma set_value_may : forall s a i v i', enum_setter s -> set_value s a i = (Ok v, i') -> may_hold (content_of s) v.
Proof.
  intros s a i v i' G H. assert (L : forall ok P s, (forall x, ok x = true <-> P x) -> (forall l, Forall P l -> may_hold (content_of s) (HList l)) ->
    as_list (validate_list ok a i) = (Ok v, i') -> may_hold (content_of s) v).
  { intros ok P s0 Iff M E. destruct a as [|x|l|n]; cbn in E.
    - injection E as <- _. apply M. constructor.
    - destruct (ok x) eqn:X; [|discriminate]. injection E as <- _. apply M. constructor; [apply Iff; exact X|constructor].
    - destruct (refused_at ok l) eqn:X; [discriminate|]. injection E as <- _. apply M. apply (Forall_iff _ _ _ _ Iff). now apply refused_none.
    - destruct (refused_at ok (i n)); [discriminate|]. injection E as <- _. apply M. constructor. }
  destruct s; cbn [set_value] in H.
  - destruct a as [|[]| |]; try discriminate. injection H as <- _. constructor.
  - destruct a as [|[]| |]; try discriminate; injection H as <- _; constructor.
  - apply (L is_text a_text SetTexts text_iff); auto. intros l F. now constructor.
  - apply (L is_link a_link SetLinks link_iff); auto. intros l F. now constructor.
  - destruct a as [|[]| |]; try discriminate; injection H as <- _; constructor.
  - destruct (G ms eq_refl) as (names & -> & Gn & _). destruct a as [|[s| | |]| |]; try discriminate.
    destruct (from_names names s Gn) as [(m & I & R & E)|[U E]]; rewrite E in H; cbn [bind] in H; [|discriminate]. injection H as <- _.
    cbn [content_of]. unfold enum. rewrite map_map, map_id. now constructor.
  - injection H as <- _. constructor.
  - discriminate.
Qed.

Definition well_kept (o : object) : Prop := forall f k v, contents (o_cls o) f k -> o_get o f = Some v -> may_hold k v.
Lemma assign_cls : forall o f a i o' x i', assign o f a i = (o', x, i') -> o_cls o' = o_cls o.
Proof. intros o f a i o' x i'. unfold assign. destruct (set_value _ a i) as [[v|e] j]; intros [= <- _ _]; reflexivity. Qed.
Lemma assign_kept : forall o f a i o' x i', well_kept o -> assign o f a i = (o', x, i') -> well_kept o'.
Proof.
  intros o f a i o' x i' W. unfold assign. destruct (set_value _ a i) as [[v|e] j] eqn:S; intros [= <- _ _]; auto.
  intros g k w C E. cbn in E. destruct (field_eqb g f) eqn:Q; [|now apply (W g k w)]. apply field_eqb_iff in Q as ->. injection E as <-.
  rewrite <- (contents_setter _ _ _ C). eapply set_value_may; [apply setters_good|]. exact S.
Qed.
Lemma assign_all_kept : forall fs args o i o' i', well_kept o -> assign_all fs args o i = (Ok o', i') -> well_kept o' /\ o_cls o' = o_cls o.
Proof.
  induction fs as [|f r IH]; intros args o i o' i' W H; cbn in H; [injection H as <- _; auto|].
  destruct (assign o f (args f) i) as [[o1 [e|]] i1] eqn:A; [discriminate|]. apply IH in H as [H1 H2]; [|eapply assign_kept; eauto]. split; auto. rewrite H2. eapply assign_cls; eauto.
Qed.
Lemma construct_kept : forall c args i o i', construct c args i = (Ok o, i') -> well_kept o /\ o_cls o = c.
Proof.
  intros c args i o i' H. unfold construct in H. destruct (assign_all _ _ _ _) as [[o1|e] i1] eqn:A; [|discriminate].
  destruct (attribute_template c && _); [discriminate|]. injection H as <- _. apply assign_all_kept in A; [exact A|]. intros f k v _ E. discriminate.
Qed.
Lemma nth_replace : forall l x y o, nth_error (replace x o l) y = if (Nat.eqb x y && Nat.ltb x (length l))%bool then Some o else nth_error l y.
Proof.
  induction l as [|z r IH]; intros x y o; [destruct x, y; cbn; now rewrite ?andb_false_r|]. destruct x as [|x], y as [|y]; cbn; auto. rewrite IH. reflexivity.
Qed.

(** Whatever the program does, every field of every object holds only what it may hold. *)
Theorem fields_well_kept : forall ps i x o f k v, nth_error (objects (run (mkW [] i) ps)) x = Some o -> contents (o_cls o) f k -> o_get o f = Some v -> may_hold k v.
Proof.
  intros ps i x o f k v N C G.
  assert (Inv : Forall well_kept (objects (run (mkW [] i) ps))).
  { assert (Gen : forall w, Forall well_kept (objects w) -> Forall well_kept (objects (run w ps))).
    { clear. unfold run. induction ps as [|p ps IH]; intros w F; cbn; auto. apply IH. destruct p as [c args|x f a]; cbn.
      - destruct (construct c args (its w)) as [[o|e] j] eqn:E; cbn; auto. apply Forall_app. split; auto. constructor; [|constructor]. eapply construct_kept; eauto.
      - destruct (nth_error (objects w) x) as [o|] eqn:E; auto. destruct (assign o f a (its w)) as [[o' e] j] eqn:A. cbn.
        assert (W : well_kept o') by (eapply assign_kept; [|exact A]; rewrite Forall_forall in F; apply F; eapply nth_error_In; eauto).
        apply Forall_forall. intros q Q. apply In_nth_error in Q as (y & Q). rewrite nth_replace in Q. destruct (Nat.eqb x y && _)%bool; [injection Q as <-; exact W|].
        rewrite Forall_forall in F. apply F. eapply nth_error_In; eauto. }
    apply Gen. constructor. }
  rewrite Forall_forall in Inv. apply (Inv o (nth_error_In _ _ N) f k v C G).
Qed.

(** What was assigned last is there, whatever else the program does in between: constructions, assignments to other objects and
    to other fields, and assignments that are refused. *)
Definition disturbs (k : content) (x : nat) (f : field) (p : op) : Prop := exists a, p = Assign x f a /\ ((exists v, takes k a v) \/ exists n, a = GOnce n).
Lemma step_other : forall w p x f k o, nth_error (objects w) x = Some o -> contents (o_cls o) f k -> ~ disturbs k x f p ->
  exists o', nth_error (objects (step w p)) x = Some o' /\ o_cls o' = o_cls o /\ o_get o' f = o_get o f.
Proof.
  intros w p x f k o N K D. destruct p as [c args|y g a]; cbn.
  - destruct (construct c args (its w)) as [[q|e] j]; cbn; eauto. exists o. split; auto. rewrite nth_error_app1; auto. apply nth_error_Some. congruence.
  - destruct (nth_error (objects w) y) as [q|] eqn:Q; eauto. destruct (assign q g a (its w)) as [[q' e] j] eqn:A. cbn. rewrite nth_replace.
    destruct (Nat.eqb_spec y x) as [->|Ne]; [|cbn; eauto]. rewrite N in Q. injection Q as <-. cbn [andb].
    assert (L : x < length (objects w)) by (apply nth_error_Some; congruence). apply Nat.ltb_lt in L. rewrite L. exists q'. split; auto. split; [eapply assign_cls; eauto|].
    destruct (field_eqb f g) eqn:E.
    + apply field_eqb_iff in E as ->. destruct (assign_outcome o g k a (its w) K) as [(v & o' & T & _)|(_ & e' & _ & A')].
      * intros n ->. apply D. eexists. split; [reflexivity|eauto].
      * exfalso. apply D. eexists. split; [reflexivity|eauto].
      * rewrite A in A'. injection A' as -> _ _. reflexivity.
    + unfold assign in A. destruct (set_value _ a _) as [[v|e'] j']; injection A as <- _ _; auto. cbn. now rewrite E.
Qed.
Theorem last_assignment : forall w x f a o k v ps, nth_error (objects w) x = Some o -> contents (o_cls o) f k -> takes k a v ->
  (forall p, In p ps -> ~ disturbs k x f p) ->
  exists o', nth_error (objects (run w (Assign x f a :: ps))) x = Some o' /\ o_cls o' = o_cls o /\ o_get o' f = Some v.
Proof.
  intros w x f a o k v ps N C T D.
  assert (S : exists o', nth_error (objects (step w (Assign x f a))) x = Some o' /\ o_cls o' = o_cls o /\ o_get o' f = Some v).
  { cbn. rewrite N. destruct (assign o f a (its w)) as [[q e] j] eqn:A. cbn. rewrite nth_replace, Nat.eqb_refl. cbn [andb]. assert (L : x < length (objects w)) by (apply nth_error_Some; congruence).
    apply Nat.ltb_lt in L. rewrite L. exists q. split; auto. split; [eapply assign_cls; eauto|].
    destruct (match a with GOnce n => true | _ => false end) eqn:O.
    - destruct a; try discriminate. inversion T; subst. assert (X := contents_setter _ _ _ C). unfold assign in A. destruct (setter_of (o_cls o) f); try discriminate X.
      cbn in A. injection A as <- _ _. cbn. now rewrite (proj2 (field_eqb_iff f f) eq_refl).
    - destruct (assign_outcome o f k a (its w) C) as [(v' & o' & T' & A' & _ & G & _)|(No & _)]; [intros n ->; discriminate| |now destruct (No v)].
      rewrite A in A'. injection A' as <- _ _. rewrite G. f_equal. eapply takes_one; eauto. }
  destruct S as (o1 & N1 & C1 & G1). cbn [run fold_left]. fold (run (step w (Assign x f a)) ps). revert D N1 C1 G1. generalize (step w (Assign x f a)) o1. clear - ps C.
  induction ps as [|p ps IH]; intros w1 o1 D N1 C1 G1; cbn; [eauto|].
  destruct (step_other w1 p x f k o1 N1) as (o2 & N2 & C2 & G2); [now rewrite C1|apply D; left; reflexivity|]. eapply IH; eauto; [intros q I; apply D; right; exact I|congruence|congruence].
Qed.
(** A field nothing acceptable is assigned to keeps what it holds. *)
Theorem unassigned_kept : forall ps w x f k o, nth_error (objects w) x = Some o -> contents (o_cls o) f k -> (forall p, In p ps -> ~ disturbs k x f p) ->
  exists o', nth_error (objects (run w ps)) x = Some o' /\ o_cls o' = o_cls o /\ o_get o' f = o_get o f.
Proof.
  induction ps as [|p ps IH]; intros w x f k o N C D; cbn; [eauto|].
  destruct (step_other w p x f k o N C) as (o2 & N2 & C2 & G2); [apply D; left; reflexivity|].
  destruct (IH (step w p) x f k o2 N2) as (o3 & N3 & C3 & G3); [now rewrite C2|intros q I; apply D; right; exact I|]. exists o3. split; auto. split; congruence.
Qed.

(** ** Constructors *)

Lemma contents_any : forall c f, In f (init_order c) -> exists k, contents c f k.
Proof.
  intros c f I. destruct c; cbn in I; repeat (destruct I as [<-|I]; [eexists; first
    [apply c_notes|apply c_description|apply c_labels|apply c_names|apply c_allowed|apply c_sample|apply c_by|apply c_date
    |apply c_name; [unfold an_object; cbn; tauto|discriminate]|apply c_other_name; unfold an_object; cbn; intuition discriminate
    |apply c_tags; [unfold an_attribute; cbn; intuition discriminate|discriminate]
    |apply c_links; unfold an_object, an_attribute; cbn; tauto|apply c_source; tauto|apply c_origin; unfold an_attribute; cbn; tauto]|]); destruct I.
Qed.
Lemma init_argument : forall c f, In f (init_order c) <-> argument c f.
Proof.
  intros c f. split.
  - intros I. destruct (contents_any c f I) as (k & K). assert (X := contents_setter _ _ _ K).
    destruct f; destruct c; cbn in I; try (exfalso; intuition discriminate);
      try (apply a_name; discriminate); try (apply a_notes; unfold an_object, an_attribute; cbn; tauto); try (apply a_description; unfold a_template; cbn; tauto);
      (eapply a_other; [cbn; intuition discriminate|exact K|rewrite <- X; discriminate]).
  - intros H. destruct H as [c A B|c A|c A|c f k N C F].
    + destruct c; cbn; try congruence; tauto.
    + unfold an_object, an_attribute in A. destruct c; cbn in *; intuition discriminate.
    + unfold a_template in A. destruct c; cbn in *; intuition discriminate.
    + destruct C; cbn in N; try (exfalso; tauto); try congruence; try (cbn; tauto).
      * unfold an_attribute in *. destruct c; cbn in *; try congruence; try tauto; exfalso; intuition congruence.
      * unfold an_object, an_attribute in *. destruct c; cbn in *; intuition discriminate.
      * destruct H as [-> | ->]; cbn; tauto.
      * unfold an_attribute in *. destruct c; cbn in *; intuition discriminate.
Qed.
Lemma init_nodup : forall c, NoDup (init_order c).
Proof. intros []; cbn; repeat constructor; cbn; intuition discriminate. Qed.

Lemma assign_all_outcome : forall fs c args o i, o_cls o = c -> NoDup fs -> (forall f, In f fs -> In f (init_order c)) -> (forall f n, args f <> GOnce n) ->
  (exists o', assign_all fs args o i = (Ok o', i) /\ o_cls o' = c /\ (forall f, ~ In f fs -> o_get o' f = o_get o f)
     /\ forall f, In f fs -> exists k v, contents c f k /\ takes k (args f) v /\ o_get o' f = Some v)
  \/ (exists f k e, assign_all fs args o i = (Err e, i) /\ In f fs /\ contents c f k /\ refusal k (args f) e /\ forall v, ~ takes k (args f) v).
Proof.
  induction fs as [|f r IH]; intros c args o i Ec Nd In0 O; cbn [assign_all].
  - left. exists o. repeat split; auto. intros f [].
  - destruct (contents_any c f) as (k & K); [apply In0; left; reflexivity|]. assert (K' : contents (o_cls o) f k) by (now rewrite Ec).
    inversion_clear Nd as [|? ? Nf Nr].
    destruct (assign_outcome o f k (args f) i K' (O f)) as [(v & o1 & T & -> & C1 & G1 & G2)|(No & e & R & ->)].
    + destruct (IH c args o1 i) as [(o2 & E & C2 & H1 & H2)|(g & k' & e & E & Ig & X)]; auto; [congruence|intros g I; apply In0; right; exact I| |].
      * left. exists o2. split; [exact E|]. split; [exact C2|]. split.
        { intros g Ng. rewrite H1; [|intros I; apply Ng; right; exact I]. apply G2. intros ->. apply Ng. left. reflexivity. }
        intros g [<-|I]; [|auto]. exists k, v. rewrite H1; auto.
      * right. exists g, k', e. split; [exact E|]. split; [right; exact Ig|exact X].
    + right. exists f, k, e. split; [reflexivity|]. split; [left; reflexivity|]. auto.
Qed.

(** A constructor, given anything but iterators: every argument is stored as an assignment would store it, or one is
    refused and there is no object. Only attribute templates, of the templates and attributes, look at their name. *)
Theorem construct_outcome : forall c args i, (forall f n, args f <> GOnce n) ->
  (exists o, construct c args i = (Ok o, i) /\ o_cls o = c /\ (forall f, argument c f -> exists k v, contents c f k /\ takes k (args f) v /\ o_get o f = Some v)
     /\ (forall f, ~ argument c f -> o_get o f = None) /\ (an_attribute_template c -> exists s, args Name = GOne (IText s)))
  \/ (exists e, construct c args i = (Err e, i) /\
       ((exists f k, argument c f /\ contents c f k /\ refusal k (args f) e /\ forall v, ~ takes k (args f) v)
        \/ (an_attribute_template c /\ e = ValueError /\ forall s, args Name <> GOne (IText s)))).
Proof.
  intros c args i O. unfold construct.
  assert (T : attribute_template c = true <-> an_attribute_template c) by (unfold an_attribute_template; destruct c; cbn; intuition discriminate).
  destruct (assign_all_outcome (init_order c) c args (mkObj c (fun _ => None)) i eq_refl (init_nodup c) (fun f I => I) O) as [(o & -> & C & H1 & H2)|(f & k & e & -> & I & K & R & N)].
  - destruct (attribute_template c && negb (named_by_text (args Name)))%bool eqn:Q.
    + right. exists ValueError. split; [reflexivity|]. right. apply andb_true_iff in Q as [Q1 Q2]. split; [now apply T|]. split; [reflexivity|]. intros s E. rewrite E in Q2. discriminate.
    + left. exists o. split; [reflexivity|]. split; [exact C|]. split; [intros f A; apply H2; now apply init_argument|]. split.
      * intros f A. rewrite H1; [reflexivity|]. intros I. apply A. now apply init_argument.
      * intros A. apply T in A. rewrite A in Q. cbn in Q. destruct (args Name) as [|[]| |]; try discriminate Q. eauto.
  - right. exists e. split; [reflexivity|]. left. exists f, k. split; [now apply init_argument|]. auto.
Qed.

(** ** Findings *)

Definition new (c : cls) : world := step (mkW [] (fun _ => [IText "a"; IText "b"])) (New c (fun f => match f with Name => GOne (IText "x") | SampleKind | Origin => GOne (IText "unknown") | _ => GNone end)).
Definition get_of (w : world) (x : nat) (f : field) : option held := match nth_error (objects w) x with Some o => o_get o f | None => None end.
(** Tags given by an iterator are lost without an error, although its items are texts. *)
Theorem iterator_lost_refuted : exists w, get_of w 0 Tags = Some (HList []) /\ Forall a_text (its w 7) /\ its w 7 <> []
  /\ get_of (step w (Assign 0 Tags (GOnce 7))) 0 Tags = Some (HList []) /\ its (step w (Assign 0 Tags (GOnce 7))) 7 = [].
Proof. exists (new ProcessRun). split; [reflexivity|]. split; [repeat constructor; eexists; reflexivity|]. split; [discriminate|]. split; reflexivity. Qed.
(** Notes, descriptions and the names of templates and attributes hold whatever is assigned; the name of an attribute template is only
    looked at by the constructor. *)
Theorem texts_unchecked_refuted :
  get_of (step (new ProcessRun) (Assign 0 Notes (GOne (IThing 3)))) 0 Notes = Some (HAny (GOne (IThing 3)))
  /\ get_of (step (new PropertyTemplate) (Assign 0 Name GNone)) 0 Name = Some (HAny GNone)
  /\ (forall i, fst (construct PropertyTemplate (fun _ => GNone) i) = Err ValueError)
  /\ (exists o, forall i, construct MaterialTemplate (fun _ => GNone) i = (Ok o, i) /\ o_get o Name = Some (HAny GNone)).
Proof. split; [reflexivity|]. split; [reflexivity|]. split; [reflexivity|]. eexists. intros i. split; reflexivity. Qed.

Example meta_ex : contents MaterialRun SampleKind (OneOf ["experimental"; "production"; "virtual"; "unknown"])
  /\ takes (OneOf ["experimental"; "production"; "virtual"; "unknown"]) (GOne (IText " Virtual")) (HMember (mkMember "virtual" []))
  /\ get_of (run (new MaterialRun) [Assign 0 SampleKind (GOne (IText " Virtual")); Assign 0 SampleKind GNone; Assign 0 Tags (GOne (IText "t")); Assign 0 Tags (GMany [IText "u"; IThing 1])]) 0 SampleKind = Some (HMember (mkMember "virtual" []))
  /\ get_of (run (new MaterialRun) [Assign 0 Tags (GOne (IText "t")); Assign 0 Tags (GMany [IText "u"; IThing 1])]) 0 Tags = Some (HList [IText "t"])
  /\ get_of (run (new IngredientRun) [Assign 0 Name (GOne (IText "t"))]) 0 Name = None.
Proof.
  split; [constructor|]. split; [constructor; [cbn; tauto|]|repeat split]. exists " ", "Virtual", "". split; [reflexivity|]. split; [|split; [|reflexivity]].
  - intros [|[|n]] c; cbn; intros H; try discriminate H. injection H as <-. reflexivity.
  - intros n c H. destruct n; discriminate H.
Qed.

Print Assumptions assign_outcome.
Print Assumptions takes_one.
Print Assumptions assign_iterator.
Print Assumptions fields_well_kept.
Print Assumptions last_assignment.
Print Assumptions unassigned_kept.
Print Assumptions construct_outcome.
Print Assumptions iterator_lost_refuted.
Print Assumptions texts_unchecked_refuted.
