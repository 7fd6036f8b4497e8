From Coq Require Import String List Bool Arith Lia.
From Verif Require Import Base BaseFacts GraphModel GraphSpec GraphProofs GraphProperties EqModel EqSpec EqProofs EqProperties TravModel TravSpec TravProperties SerialModel SerialSpec SerialProofs LoadLinkProofs InstSpec InPlaceModel InPlaceSpec InPlaceProofs InPlaceHeap InPlaceLinks.
Import ListNotations.
Open Scope string_scope.
Open Scope list_scope.
Open Scope nat_scope.

(** ** Values *)

Lemma replace_within : forall g x v, within x v -> within (replace g x) (replace g v).
Proof.
  intros g x v H. induction H; cbn [replace]; [constructor|eapply w_list|eapply w_tuple|eapply w_dict|eapply w_obj]; eauto using in_map.
  - apply in_map_iff. eexists. split; [|eassumption]. reflexivity.
  - apply in_map_iff. eexists. split; [|eassumption]. reflexivity.
Qed.

Lemma within_replace : forall g y v, (forall r, is_ref r -> is_ref (g r)) -> within y (replace g v) -> exists x, within x v /\ y = replace g x.
Proof.
  intros g y v G. induction v using pv_ind2; cbn [replace]; intros W.
  - inversion W; subst. exists PNone. split; [constructor|auto].
  - inversion W; subst. exists (PAtom a). split; [constructor|auto].
  - assert (y = g (PLink s i)) by (destruct (G (PLink s i)) as [[o E]|(s' & i' & E)]; [right; eauto| |]; rewrite E in *; inversion W; auto). exists (PLink s i). split; [constructor|auto].
  - assert (y = g (PRef o)) by (destruct (G (PRef o)) as [[o' E]|(s' & i' & E)]; [left; eauto| |]; rewrite E in *; inversion W; auto). exists (PRef o). split; [constructor|auto].
  - inversion W; subst. { exists (PList l). split; [constructor|auto]. } match goal with X : In _ (map _ _) |- _ => apply in_map_iff in X as (z & <- & Iz) end. rewrite Forall_forall in H. destruct (H z Iz) as (u & Wu & ->); auto. exists u. split; auto. eapply w_list; eauto.
  - inversion W; subst. { exists (PTuple l). split; [constructor|auto]. } match goal with X : In _ (map _ _) |- _ => apply in_map_iff in X as (z & <- & Iz) end. rewrite Forall_forall in H. destruct (H z Iz) as (u & Wu & ->); auto. exists u. split; auto. eapply w_tuple; eauto.
  - inversion W; subst. { exists (PDict l). split; [constructor|auto]. } match goal with X : In _ (map _ _) |- _ => apply in_map_iff in X as ([k' z] & E & Iz) end. inv E. rewrite Forall_forall in H. destruct (H _ Iz) as (u & Wu & ->); auto. exists u. split; auto. eapply w_dict; eauto.
  - inversion W; subst. { exists (PObj t l). split; [constructor|auto]. } match goal with X : In _ (map _ _) |- _ => apply in_map_iff in X as ([k' z] & E & Iz) end. inv E. rewrite Forall_forall in H. destruct (H _ Iz) as (u & Wu & ->); auto. exists u. split; auto. eapply w_obj; eauto.
Qed.

Lemma clean_replace : forall g v, (forall r, is_ref r -> is_ref (g r)) -> clean v -> clean (replace g v).
Proof.
  intros g v G [A B]. assert (Ref : forall r, is_ref r -> forall a, g r <> PAtom a) by (intros r Hr a E; destruct (G r Hr) as [[o E']|(s & i & E')]; congruence).
  assert (RefT : forall r, is_ref r -> forall a, g r <> PTuple a) by (intros r Hr a E; destruct (G r Hr) as [[o E']|(s & i & E')]; congruence).
  assert (Atom : forall a x, PAtom a = replace g x -> x = PAtom a).
  { intros a x E. destruct x; cbn in E; try discriminate; auto; exfalso; symmetry in E; eapply Ref; [|exact E| |exact E]; [right|left]; eauto. }
  split.
  - intros a W. apply within_replace in W as (x & Wx & E); auto. apply Atom in E. subst. auto.
  - intros l s i W E. apply within_replace in W as (x & Wx & Ex); auto.
    destruct x; cbn in Ex; try discriminate; try (symmetry in Ex; eapply RefT; [|exact Ex]; [right|left]; eauto; fail).
    + exfalso. symmetry in Ex. eapply RefT; [|exact Ex]. right; eauto.
    + exfalso. symmetry in Ex. eapply RefT; [|exact Ex]. left; eauto.
    + assert (El : map (replace g) l0 = l) by congruence. rewrite E in El.
      destruct l0 as [|a [|b [|? ?]]]; try discriminate. cbn in El. inversion El as [[Ea Eb]]. symmetry in Ea, Eb. apply Atom in Ea. apply Atom in Eb. subst. eapply (B _ s i Wx). reflexivity.
Qed.

Lemma hashable_replace : forall g v, (forall r, is_ref r -> is_ref (g r)) -> hashable (replace g v) = hashable v.
Proof.
  intros g v G. induction v using pv_ind2; cbn [replace]; auto.
  - destruct (G (PLink s i)) as [[o ->]|(s' & i' & ->)]; [right; eauto| |]; reflexivity.
  - destruct (G (PRef o)) as [[o' ->]|(s' & i' & ->)]; [left; eauto| |]; reflexivity.
  - cbn [hashable]. induction H as [|x l Hx Hl IH]; cbn; auto. now rewrite Hx, IH.
Qed.

Lemma links_list : forall l, (fix go (l : list pv) := match l with [] => [] | x :: r => links_in x ++ go r end) l = flat_map links_in l.
Proof. induction l as [|x l IH]; cbn; [auto|now rewrite IH]. Qed.
Lemma links_pairs : forall l, (fix go (l : list (string * pv)) := match l with [] => [] | (_, x) :: r => links_in x ++ go r end) l = flat_map (fun kv => links_in (snd kv)) l.
Proof. induction l as [|[k x] l IH]; cbn; [auto|now rewrite IH]. Qed.

Lemma links_in_spec : forall v s i, within (PLink s i) v -> In (s, i) (links_in v).
Proof.
  intros v s i W. remember (PLink s i) as r. induction W; subst; cbn [links_in]; rewrite ?links_list, ?links_pairs; try (left; reflexivity); apply in_flat_map; eexists; split; eauto.
Qed.

(** ** Links to entities *)

Section ToObjects.
  Variable lower : string -> string.
  Variable refuses : heap -> string -> list (string * pv) -> string -> pv -> option exn.
  Variable rejects : heap -> oid -> string -> pv -> option exn.
  Variable ix : index.
  Variable h0 : heap.
  Variable v0 : pv.
  Variable J : heap -> Prop.
  Variable E : exn -> Prop.
  Notation names := (index_get ix).
  Notation g := (resolve names).
  Notation R := (replace g).

  Lemma g_ref : forall r, is_ref r -> is_ref (g r).
  Proof. intros r [[o ->]|(s & i & ->)]; cbn [resolve]; [left; eauto|]. destruct (names s i); [left|right]; eauto. Qed.
  Lemma g_idem : forall r, is_ref r -> g (g r) = g r.
  Proof. intros r [[o ->]|(s & i & ->)]; cbn [resolve]; auto. destruct (names s i) eqn:N; auto. cbn [resolve]. now rewrite N. Qed.
  Lemma RR : forall v, R (R v) = R v.
  Proof. apply R_idem; auto using g_ref, g_idem. Qed.

  (** The values gone through: the argument and the attributes of the entities involved. *)
  Definition tracked (t : pv) : Prop := t = v0 \/ exists x f, involved h0 names v0 x /\ field_of h0 x f /\ t = fval h0 x f.
  Definition Good (v : pv) : Prop := exists t x, tracked t /\ within x t /\ (v = x \/ v = R x).

  Hypothesis distinct : forall x, NoDup (names_at h0 x).
  Hypothesis plain : forall t, tracked t -> plain_tuples t.
  Hypothesis hash : forall t l, tracked t -> within (PTuple l) t -> hashable (PTuple l) = false -> E TypeError.
  Hypothesis setter : forall t h' c fs fs' k x e, tracked t -> within (PObj c fs) t -> In (k, x) fs -> (forall y, kind_at h' y = kind_at h0 y) -> refuses h' c fs' k (R x) = Some e -> E e.
  Hypothesis item : forall h' o f l x e, involved h0 names v0 o -> field_of h0 o f -> fval h0 o f = PList l -> In x l -> (forall y, kind_at h' y = kind_at h0 y) -> rejects h' o f (R x) = Some e -> E e.
  Hypothesis J_store : forall h o f v, base g h0 h -> J h -> involved h0 names v0 o -> listed_as g h0 h o f v ->
    match store lower refuses h o f v (R v) with Ok h' => J h' | Err e => E e end.

  Lemma Good_in : forall v x, within x v -> Good v -> Good x.
  Proof.
    intros v x W (t & y & T & Wy & D). destruct D as [->| ->].
    - exists t, x. split; auto. split; [eapply within_trans; eauto|auto].
    - apply within_replace in W as (z & Wz & ->); [|apply g_ref]. exists t, z. split; auto. split; [eapply within_trans; eauto|auto].
  Qed.

  Lemma Good_R : forall v, Good v -> exists t x, tracked t /\ within x t /\ R v = R x.
  Proof. intros v (t & x & T & W & D). exists t, x. split; auto. split; auto. destruct D as [->| ->]; auto using RR. Qed.

  Lemma tracked_mentions : forall t y, tracked t -> mentions (R t) y -> involved h0 names v0 y.
  Proof. intros t y [->|(x & f & Hx & F & ->)] M; [now apply in_value|eapply in_field; eauto]. Qed.

  Lemma Good_mentions : forall v y, Good v -> mentions (R v) y -> involved h0 names v0 y.
  Proof.
    intros v y G M. apply Good_R in G as (t & x & T & W & Er). rewrite Er in M. eapply tracked_mentions; eauto. apply mentions_within. apply mentions_within in M. eapply within_trans; eauto. now apply replace_within.
  Qed.

  Lemma tuple_of : forall l x, PTuple l = R x -> exists l', x = PTuple l' /\ l = map R l'.
  Proof.
    intros l x Q. destruct x; cbn [replace] in Q; try discriminate.
    - exfalso. match type of Q with _ = g (PLink ?a ?b) => destruct (g_ref (PLink a b)) as [[o Z]|(? & ? & Z)] end; [right; eauto| |]; congruence.
    - inv Q. eauto.
  Qed.

  Lemma Good_clean : forall l, Good (PTuple l) -> clean (PTuple l).
  Proof.
    intros l (t & x & T & W & [<-|D]); [eapply plain_clean; eauto|]. rewrite D. apply tuple_of in D as (l' & -> & _). apply clean_replace; [apply g_ref|]. eapply plain_clean; eauto.
  Qed.

  Lemma Good_hash : forall l, Good (PTuple l) -> hashable (PTuple l) = false -> E TypeError.
  Proof.
    intros l (t & x & T & W & [<-|D]) H; [eapply hash; eauto|]. rewrite D in H. rewrite hashable_replace in H by apply g_ref. apply tuple_of in D as (l' & -> & _). eapply hash; eauto.
  Qed.

  (** *** The table *)
  Definition V (st : istate) (x : oid) : Prop := exists k, In (k, PRef x) (snd st).
  Definition L : list (string * string) := links_in v0 ++ flat_map (fun e => flat_map (fun kv => links_in (snd kv)) (e_fields e)) h0.
  Definition U : list pv := map PRef (seq 0 (length h0)) ++ map (fun p => PLink (fst p) (snd p)) L.
  Definition todo (m : memo) : nat := length (filter (fun r => match memo_get m r with None => true | _ => false end) U).

  Record inv (O : oid -> Prop) (n : nat) (st : istate) : Prop := mkInv {
    i_base : base g h0 (fst st);
    i_J : J (fst st);
    i_memo : forall k w, In (k, w) (snd st) -> w = R k /\ clean k /\ (forall x, mentions w x -> V st x);
    i_sound : forall x, V st x -> involved h0 names v0 x;
    i_frame : forall x f, ~ V st x -> field_of h0 x f -> fval (fst st) x f = fval h0 x f;
    i_done : forall x, V st x -> O x \/ forall f, field_of h0 x f -> fval (fst st) x f = R (fval h0 x f) /\ forall y, mentions (R (fval h0 x f)) y -> V st y;
    i_todo : todo (snd st) < n
  }.
  Definition le (st st' : istate) : Prop := grows g h0 (fst st) (fst st') /\ incl (snd st) (snd st').

  Lemma le_refl : forall s, le s s.
  Proof. intros s. split; [intros ? ?; auto|apply incl_refl]. Qed.
  Lemma le_trans : forall a b c, le a b -> le b c -> le a c.
  Proof. intros a b c [A1 A2] [B1 B2]. split; [intros x f F H; auto|eapply incl_tran; eauto]. Qed.
  Lemma V_le : forall s s' x, le s s' -> V s x -> V s' x.
  Proof. intros s s' x [_ I] [k H]. exists k. auto. Qed.

  Lemma memo_known : forall m m' r, incl m m' -> memo_get m r <> None -> memo_get m' r <> None.
  Proof.
    intros m m' r I H N. destruct (memo_get m r) as [w|] eqn:M; [|auto]. apply memo_get_In in M as (k & Hin & Q). unfold memo_get in N. destruct (find _ m') eqn:F; [discriminate|].
    apply I in Hin. apply (find_none _ _ F) in Hin. cbn in Hin. congruence.
  Qed.

  Lemma filter_le : forall (A : Type) (p q : A -> bool) l, (forall x, q x = true -> p x = true) -> length (filter q l) <= length (filter p l).
  Proof. intros A p q l H. induction l as [|x l IH]; cbn; auto. destruct (q x) eqn:Q; [rewrite (H _ Q); cbn; lia|]. destruct (p x); cbn; lia. Qed.
  Lemma filter_lt : forall (A : Type) (p q : A -> bool) l x, (forall x, q x = true -> p x = true) -> In x l -> p x = true -> q x = false -> length (filter q l) < length (filter p l).
  Proof.
    intros A p q l x H I P N. induction l as [|y l IH]; [destruct I|]. destruct I as [->|I]; cbn.
    - rewrite P, N. cbn. assert (Z := filter_le A p q l H). lia.
    - specialize (IH I). destruct (q y) eqn:Q; [rewrite (H _ Q); cbn; lia|]. destruct (p y); cbn; lia.
  Qed.

  Lemma todo_le : forall m m', incl m m' -> todo m' <= todo m.
  Proof.
    intros m m' I. apply filter_le. intros x. destruct (memo_get m x) eqn:M; auto. destruct (memo_get m' x) eqn:M'; auto. exfalso. apply (memo_known m m' x I); congruence.
  Qed.
  Lemma todo_push : forall m r w, In r U -> is_ref r -> memo_get m r = None -> todo ((r, w) :: m) < todo m.
  Proof.
    intros m r w Hin Hr N. apply filter_lt with (x := r); auto.
    - intros x. destruct (memo_get m x) eqn:M; auto. destruct (memo_get ((r, w) :: m) x) eqn:M'; auto. exfalso. apply (memo_known m ((r, w) :: m) x); [intros z; cbn; auto|congruence|auto].
    - now rewrite N.
    - assert (Z := memo_get_ref ((r, w) :: m) r w Hr (or_introl eq_refl)). destruct (memo_get ((r, w) :: m) r); congruence.
  Qed.

  Lemma hit : forall O n st k w, inv O n st -> clean k -> memo_get (snd st) k = Some w -> w = R k /\ forall x, mentions w x -> V st x.
  Proof. intros O n st k w I C H. apply memo_get_In in H as (k' & Hin & Q). destruct (i_memo _ _ _ I _ _ Hin) as (-> & Ck & M). apply key_eq_clean in Q; auto. subst. auto. Qed.

  Lemma in_links : forall v s i, Good v -> within (PLink s i) v -> In (PLink s i) U.
  Proof.
    intros v s i G W. apply (Good_in _ _ W) in G as (t & x & T & Wx & D).
    assert (Wt : within (PLink s i) t).
    { destruct D as [<-|D]; auto. destruct x; cbn [replace] in D; try discriminate. cbn [resolve] in D. match type of D with _ = match ?a with _ => _ end => destruct a; [discriminate|] end. inv D. auto. }
    clear - T Wt. apply in_or_app. right. apply in_map_iff. exists (s, i). split; [reflexivity|]. apply in_or_app. destruct T as [->|(x & f & _ & _ & ->)]; [left; now apply links_in_spec|right].
    unfold fval, fget in Wt. destruct (hget h0 x) as [e|] eqn:He; [|inversion Wt]. apply in_flat_map. exists e. split; [eapply nth_error_In; exact He|].
    destruct (dict_get f (e_fields e)) as [w|] eqn:D; [|inversion Wt]. apply in_flat_map. exists (f, w). split; [now apply dict_get_In|now apply links_in_spec].
  Qed.

  Lemma filter_len : forall (A : Type) (p : A -> bool) l, length (filter p l) <= length l.
  Proof. intros A p l. induction l as [|x l IH]; cbn; auto. destruct (p x); cbn; lia. Qed.

  Lemma Good_setter : forall O n s t fs k x e, inv O n s -> Good (PObj t fs) -> In (k, x) fs -> refuses (fst s) t fs k (R x) = Some e -> E e.
  Proof.
    intros O n s t fs k x e Hi (tt & y & T & W & D) Hin Er. destruct D as [<-|D].
    - apply (setter tt (fst s) t fs fs k x e); auto. apply (i_base _ _ _ Hi).
    - destruct y; cbn [replace] in D; try discriminate; [cbn [resolve] in D; destruct (names _ _); discriminate|]. inv D.
      apply in_map_iff in Hin as ([k' z] & Q & Hin). inv Q. rewrite RR in Er. eapply (setter tt (fst s)); eauto. apply (i_base _ _ _ Hi).
  Qed.

  (** *** The attributes of one entity *)
  Section Attributes.
    Variable O : oid -> Prop.
    Variable n : nat.
    Variable o : oid.
    Notation O' := (fun x => O x \/ x = o).
    Hypothesis walk : forall st v, is_ref v -> inv O' n st -> Good v ->
      match to_object_at lower refuses rejects ix n st v with
      | Ok (w, st') => w = g v /\ inv O' n st' /\ le st st' /\ forall x, mentions w x -> V st' x
      | Err e => E e
      end.
    Hypothesis Ho : involved h0 names v0 o.

    Definition visiting (st : istate) : Prop := inv O' n st /\ V st o.

    Lemma visiting_at : forall st v, is_ref v -> visiting st -> Good v ->
      match to_object_at lower refuses rejects ix n st v with
      | Ok (w, st') => w = g v /\ visiting st' /\ le st st' /\ forall x, mentions w x -> V st' x
      | Err e => E e
      end.
    Proof.
      intros st v Rv [I Vo] G. assert (X := walk st v Rv I G). destruct (to_object_at _ _ _ _ n st v) as [[w st']|e]; [|exact X]. destruct X as (A & B & C & D).
      split; auto. split; [split; auto; eapply V_le; eauto|auto].
    Qed.

    Lemma visiting_memo : forall st l w, visiting st -> Good (PTuple l) -> memo_get (snd st) (PTuple l) = Some w -> w = R (PTuple l) /\ forall x, mentions w x -> V st x.
    Proof. intros st l w [I _] G M. eapply hit; eauto using Good_clean. Qed.
  End Attributes.

  Lemma inv_push : forall O n st l, inv O n st -> Good (PTuple l) -> (forall x, mentions (R (PTuple l)) x -> V st x) ->
    inv O n (fst st, (PTuple l, R (PTuple l)) :: snd st) /\ le st (fst st, (PTuple l, R (PTuple l)) :: snd st).
  Proof.
    intros O n st l I G M. assert (Lst : le st (fst st, (PTuple l, R (PTuple l)) :: snd st)) by (split; [intros ? ?; auto|intros z; cbn; auto]).
    assert (VV : forall x, V (fst st, (PTuple l, R (PTuple l)) :: snd st) x <-> V st x).
    { intros x. split; [|apply V_le; auto]. intros [k [Q|Hin]]; [discriminate|exists k; auto]. }
    split; auto. destruct I as [B Hj Hm Hs Hf Hd Ht]. constructor; cbn [fst snd]; auto.
    - intros k w [Q|Hin]; [inv Q; split; [auto|]; split; [now apply Good_clean|]|]. { intros x Mx. apply VV. auto. }
      destruct (Hm _ _ Hin) as (A1 & A2 & A3). split; auto. split; auto. intros x Mx. apply VV. auto.
    - intros x Vx. apply Hs. now apply VV.
    - intros x f N F. apply Hf; auto. rewrite <- VV. auto.
    - intros x Vx. apply VV in Vx. destruct (Hd x Vx) as [Ox|D]; auto. right. intros f F. destruct (D f F) as [D1 D2]. split; auto. intros y My. apply VV. auto.
    - eapply Nat.le_lt_trans; [|exact Ht]. apply todo_le. intros z; cbn; auto.
  Qed.

  Lemma object_at_ok : forall n O st v, is_ref v -> inv O n st -> Good v ->
    match to_object_at lower refuses rejects ix n st v with
    | Ok (w, st') => w = g v /\ inv O n st' /\ le st st' /\ forall x, mentions w x -> V st' x
    | Err e => E e
    end.
  Proof.
    induction n as [|n IH]; intros O st v Rv I G.
    { exfalso. destruct I as [_ _ _ _ _ _ Ht]. lia. }
    assert (RE : R v = g v) by (destruct Rv as [[o ->]|(s & i & ->)]; reflexivity).
    cbn [to_object_at]. destruct (memo_get (snd st) v) as [w|] eqn:Mg.
    { destruct (hit _ _ _ _ _ I (clean_ref _ Rv) Mg) as [-> M]. split; auto. split; auto. split; auto using le_refl. }
    change (match v with PLink s i => match names s i with Some o => PRef o | None => v end | _ => v end) with (g v).
    set (st1 := (fst st, (v, g v) :: snd st) : istate).
    assert (L1 : le st st1) by (split; [intros ? ?; auto|intros z; cbn; auto]).
    assert (T1 : todo (snd st1) < S n) by (eapply Nat.le_lt_trans; [|apply I]; apply todo_le; apply L1).
    destruct (g_ref v Rv) as [[o Eo]|(s & i & El)].
    - assert (E1 : st1 = (fst st, (v, PRef o) :: snd st)) by (unfold st1; now rewrite Eo). clearbody st1. subst st1. set (st1 := (fst st, (v, PRef o) :: snd st) : istate) in *. rewrite Eo in *. assert (Ho : involved h0 names v0 o) by (eapply Good_mentions; [exact G|]; rewrite RE, ?Eo; constructor).
      assert (Vo : V st1 o) by (exists v; left; reflexivity).
      assert (VV : forall x, V st1 x -> x = o \/ V st x) by (intros x [k [Q|Hin]]; [inv Q; auto|right; exists k; auto]).
      assert (I1 : forall m, todo (snd st1) < m -> inv (fun x => O x \/ x = o) m st1).
      { intros m Hm. destruct I as [B Hj Hmm Hs Hf Hd Ht]. constructor; auto.
        - intros k w [Q|Hin]. { inv Q. split; [congruence|]. split; [now apply clean_ref|]. intros x M. inversion M; subst. auto. }
          destruct (Hmm _ _ Hin) as (A1 & A2 & A3). split; auto. split; auto. intros x M. eapply V_le; eauto.
        - intros x Vx. destruct (VV x Vx) as [->|Vs]; auto.
        - intros x f N F. apply Hf; auto. intros Vx. apply N. eapply V_le; eauto.
        - intros x Vx. destruct (VV x Vx) as [->|Vs]; auto. destruct (Hd x Vs) as [Ox|D]; auto. right. intros f F. destruct (D f F) as [D1 D2]. split; auto. intros y My. eapply V_le; eauto. }
      destruct (Nat.lt_ge_cases o (length h0)) as [Lo|Lo].
      + (* the key is new, so that there is less to do *)
        assert (Hu : In v U).
        { destruct Rv as [[o' ->]|(s & i & ->)].
          - cbn in Eo. inv Eo. apply in_or_app. left. apply in_map. apply in_seq. lia.
          - eapply in_links; [exact G|constructor]. }
        assert (T2 : todo (snd st1) < n) by (assert (Z := todo_push (snd st) v (PRef o) Hu Rv Mg); destruct I as [_ _ _ _ _ _ Ht]; unfold st1; cbn [snd]; lia).
        specialize (I1 n T2).
        assert (X := attrs_ok lower refuses rejects (to_object_at lower refuses rejects ix n) g (visiting O n o) le Good E V le_refl le_trans V_le Good_in
          (visiting_at O n o (IH _)) (visiting_memo O n o)).
        assert (Pu : forall st l, visiting O n o st -> Good (PTuple l) -> (forall x, mentions (R (PTuple l)) x -> V st x) ->
          visiting O n o (fst st, (PTuple l, R (PTuple l)) :: snd st) /\ le st (fst st, (PTuple l, R (PTuple l)) :: snd st)).
        { intros s l [Hi Hv] Hg Hm. destruct (inv_push _ _ _ _ Hi Hg Hm) as [A B]. split; auto. split; auto. eapply V_le; eauto. }
        assert (Se : forall st t fs k x e, visiting O n o st -> Good (PObj t fs) -> In (k, x) fs -> refuses (fst st) t fs k (R x) = Some e -> E e).
        { intros s t fs k x e [Hi _] Hg Hin Er. eapply Good_setter; eauto. }
        specialize (X Pu Good_hash Se o (fun st f v => listed_as g h0 (fst st) o f v) (fun st f _ => field_of h0 o f /\ fval (fst st) o f = R (fval h0 o f))).
        assert (Ql : forall s s' f v, le s s' -> listed_as g h0 (fst s) o f v -> listed_as g h0 (fst s') o f v).
        { intros s s' f u [Gr _] (F & Nf & D). split; auto. split; auto. destruct D as [->|[-> D]]; auto. }
        assert (Qg : forall (s : istate) f v, listed_as g h0 (fst s) o f v -> Good v).
        { intros s f u (F & _ & D). exists (fval h0 o f), (fval h0 o f). split; [right; eauto|]. split; [constructor|]. destruct D as [->|[-> _]]; auto. }
        assert (Qi : forall st f l x e, visiting O n o st -> listed_as g h0 (fst st) o f (PList l) -> In x l -> rejects (fst st) o f (R x) = Some e -> E e).
        { intros s f l x e [Hi _] (F & _ & D) Hin Er. assert (Kk := b_kind _ _ _ (i_base _ _ _ Hi)). destruct D as [D|[D _]]; [eapply item; eauto|].
          destruct (fval h0 o f) eqn:Fv; cbn [replace] in D; try discriminate; [cbn [resolve] in D; destruct (names _ _); discriminate|]. inv D.
          apply in_map_iff in Hin as (z & Q & Hin). subst x. rewrite RR in Er. eapply item; eauto. }
        assert (So : forall st f v, visiting O n o st -> listed_as g h0 (fst st) o f v -> (forall x, mentions (R v) x -> V st x) ->
          match store lower refuses (fst st) o f v (R v) with
          | Ok h2 => visiting O n o (h2, snd st) /\ le st (h2, snd st) /\ (field_of h0 o f /\ fval h2 o f = R (fval h0 o f))
          | Err e => E e
          end).
        { intros [h m] f u [Hi Hv] Lu _. cbn [fst snd] in *. destruct Hi as [B Hj Hmm Hs Hf Hd Ht]. cbn [fst snd] in *.
          assert (Y := J_store h o f u B Hj Ho Lu). assert (Z := store_effect lower refuses g g_ref g_idem h0 h o f u B Lu).
          destruct (store lower refuses h o f u (R u)) as [h2|e]; [|exact Y]. destruct Z as (B2 & G2 & Fv & Fr & _).
          assert (L2 : le (h, m) (h2, m)) by (split; [exact G2|apply incl_refl]).
          split; [|split; [exact L2|split; [apply Lu|exact Fv]]]. split; [|exact Hv]. constructor; cbn [fst snd]; auto.
          - intros x f' N F'. destruct (Fr x f' F') as [[-> _]|Q]; [contradiction|]. rewrite Q. now apply Hf.
          - intros x Vx. destruct (Hd x Vx) as [Ox|D]; auto. right. intros f' F'. destruct (D f' F') as [D1 D2]. split; auto. }
        specialize (X Ql Qg Qi (fun s s' f v Ls (H : field_of h0 o f /\ _) => conj (proj1 H) (proj1 Ls o f (proj1 H) (proj2 H))) So (attrs (fst st1) o) st1 (conj I1 Vo)).
        assert (B1 := i_base _ _ _ I1).
        assert (Hl : forall f v, In (f, v) (attrs (fst st1) o) -> listed_as g h0 (fst st1) o f v).
        { intros f u Hin. apply attrs_In in Hin as (F & Nf & ->); [|apply B1]. apply (field_same h0) in F; [|apply B1]. split; [auto|]. split; [now apply (b_names _ _ _ B1)|].
          destruct (b_field _ _ _ B1 o f F) as [Q|Q]; auto. }
        specialize (X Hl). unfold change_entity. match goal with |- context [bind ?c _] => match type of X with match ?d with _ => _ end => change c with d end end. destruct (change_attrs _ _ _ _ o st1 (attrs (fst st1) o)) as [st2|e]; cbn [bind]; [|exact X].
        destruct X as ([I2 V2] & L2 & P2). split; auto. split; [|split; [eapply le_trans; eauto|intros x M; inversion M; subst; auto]].
        assert (Done : forall f, field_of h0 o f -> fval (fst st2) o f = R (fval h0 o f) /\ forall y, mentions (R (fval h0 o f)) y -> V st2 y).
        { intros f F. destruct (in_dec string_dec f (names_at h0 o)) as [Nf|Nf].
          - assert (Hin : In (f, fval (fst st1) o f) (attrs (fst st1) o)) by (apply attrs_In; [apply B1|]; split; [apply (field_same h0); [apply B1|auto]|]; split; [now apply (b_names _ _ _ B1)|auto]).
            destruct (P2 _ _ Hin) as [[_ Q] M]. split; auto. intros y My. apply M. erewrite listed_R; eauto using g_ref, g_idem.
          - rewrite (fval_unnamed h0 o f Nf). split; [|intros y M; inversion M]. apply fval_unnamed. intros Hin. apply Nf. now apply (b_names _ _ _ (i_base _ _ _ I2)). }
        destruct I2 as [B2 Hj2 Hmm2 Hs2 Hf2 Hd2 Ht2]. constructor; auto.
        intros x Vx. destruct (Hd2 x Vx) as [[Ox| ->]|D]; auto.
      + assert (No : hget h0 o = None) by (now apply nth_error_None).
        assert (Nh : hget (fst st1) o = None) by (apply nth_error_None; unfold st1; cbn [fst]; rewrite (b_length _ _ _ (i_base _ _ _ I)); auto).
        unfold change_entity, attrs. match goal with |- context [hget ?a o] => change (hget a o) with (hget (fst st1) o) end. rewrite Nh. cbn [change_attrs bind]. split; auto. split; [|split; [auto|intros x M; inversion M; subst; auto]].
        destruct (I1 (S n) T1) as [B Hj Hmm Hs Hf Hd Ht]. constructor; auto. intros x Vx. destruct (Hd x Vx) as [[Ox| ->]|D]; auto. right. intros f (k & K & _). unfold kind_at in K. now rewrite No in K.
    - assert (E1 : st1 = (fst st, (v, PLink s i) :: snd st)) by (unfold st1; now rewrite El). clearbody st1. subst st1. set (st1 := (fst st, (v, PLink s i) :: snd st)) in *. rewrite El in *. split; auto. assert (VV : forall x, V st1 x -> V st x) by (intros x [k [Q|Hin]]; [inv Q|exists k; auto]).
      split; [|split; [auto|intros x M; inversion M]]. destruct I as [B Hj Hmm Hs Hf Hd Ht]. constructor; auto.
      + intros k w [Q|Hin]. { inv Q. split; [congruence|]. split; [now apply clean_ref|]. intros x M. inversion M. }
        destruct (Hmm _ _ Hin) as (A1 & A2 & A3). split; auto. split; auto. intros x M. eapply V_le; eauto.
      + intros x f N F. apply Hf; auto. intros Vx. apply N. eapply V_le; eauto.
      + intros x Vx. destruct (Hd x (VV x Vx)) as [Ox|D]; auto. right. intros f F. destruct (D f F) as [D1 D2]. split; auto. intros y My. eapply V_le; eauto.
  Qed.

  Theorem objects_ok : J h0 -> match substitute_objects_in lower refuses rejects ix h0 v0 with
    | Ok (w, h') => w = R v0 /\ base g h0 h' /\ J h'
        /\ (forall x f, involved h0 names v0 x -> field_of h0 x f -> fval h' x f = R (fval h0 x f))
        /\ (forall x f, ~ involved h0 names v0 x -> field_of h0 x f -> fval h' x f = fval h0 x f)
    | Err e => E e
    end.
  Proof.
    intros J0. set (n := depth h0 v0). set (O := fun _ : oid => False).
    assert (T0 : todo [] < n).
    { unfold n, depth, todo. apply Nat.lt_succ_r. eapply Nat.le_trans; [apply filter_len|]. unfold U, L. rewrite app_length, !map_length, seq_length. lia. }
    assert (I0 : inv O n (h0, [])).
    { constructor; cbn [fst snd]; auto; [apply base_refl; auto|intros k w []|intros x [k []]|intros x [k []]]. }
    assert (X := change_ok refuses (to_object_at lower refuses rejects ix n) g (inv O n) le Good E V le_refl le_trans V_le Good_in (object_at_ok n O)).
    assert (Me : forall st l w, inv O n st -> Good (PTuple l) -> memo_get (snd st) (PTuple l) = Some w -> w = R (PTuple l) /\ forall x, mentions w x -> V st x) by (intros; eapply hit; eauto using Good_clean).
    assert (Se : forall st t fs k x e, inv O n st -> Good (PObj t fs) -> In (k, x) fs -> refuses (fst st) t fs k (R x) = Some e -> E e) by (intros; eapply Good_setter; eauto).
    specialize (X Me (inv_push O n) Good_hash Se v0 (h0, []) I0).
    assert (G0 : Good v0) by (exists v0, v0; split; [left; auto|]; split; [constructor|auto]). specialize (X G0).
    unfold substitute_objects_in. fold n. destruct (change _ _ (h0, []) v0) as [[w [h' m]]|e]; cbn [bind]; [|exact X].
    destruct X as (-> & [B Hj Hm Hs Hf Hd Ht] & Hl & Hv). cbn [fst snd] in *. split; auto. split; auto. split; auto.
    assert (All : forall x, involved h0 names v0 x -> V (h', m) x).
    { intros x Hx. induction Hx as [x Mx|x f y Hx IH F My]; auto. destruct (Hd x IH) as [[]|D]. apply (D f F). exact My. }
    split; intros x f Hx F.
    - destruct (Hd x (All x Hx)) as [[]|D]. apply (D f F).
    - apply Hf; auto.
  Qed.
End ToObjects.

(** ** When nothing is refused *)

Lemma couple_not_read_only : forall mk pk, couple mk pk -> assignable mk "process".
Proof. intros mk pk C. apply couple_proc in C as [[->| ->] _]; split; [intros X|intros [X _]|intros X|intros [X _]]; try discriminate; unfold read_only in X; cbn in X; intuition discriminate. Qed.

Section Tidy.
  Variable lower : string -> string.
  Variable refuses : heap -> string -> list (string * pv) -> string -> pv -> option exn.
  Variable ix : index.
  Variable h0 : heap.
  Variable v0 : pv.
  Notation names := (index_get ix).
  Notation g := (resolve names).
  Notation R := (replace g).

  Hypothesis own : all_own h0.
  Hypothesis typed : forall o k f pk, involved h0 names v0 o -> kind_at h0 o = Some k -> asked_kind k f pk -> well_typed h0 o f (R (fval h0 o f)).
  Hypothesis single : forall m m' p mk pk, couple mk pk -> kind_at h0 m = Some mk -> kind_at h0 m' = Some mk -> R (fval h0 m "process") = PRef p -> R (fval h0 m' "process") = PRef p -> m = m'.
  Hypothesis set_acc : forall h' o k fs f, involved h0 names v0 o -> (forall y, kind_at h' y = kind_at h0 y) -> kind_at h0 o = Some k -> role_of k f = None -> field_of h0 o f -> refuses h' (typ_of k) fs f (R (fval h0 o f)) = None.

  Lemma tidy_store : forall h o f v, base g h0 h -> agreeing h -> involved h0 names v0 o -> listed_as g h0 h o f v ->
    match store lower refuses h o f v (R v) with Ok h' => agreeing h' | Err _ => False end.
  Proof.
    intros h o f v B Ag Ho Lu. assert (X := store_effect lower refuses g (g_ref ix) (g_idem ix) h0 h o f v B Lu).
    assert (KK := b_kind _ _ _ B). assert (Ow : all_own h) by (apply (all_own_same h0); [apply B|auto]).
    assert (Rv := listed_R g (g_ref ix) (g_idem ix) h0 h o f v Lu). destruct Lu as ((k & K & As) & Nf & D). assert (Kh : kind_at h o = Some k) by (now rewrite KK).
    assert (Ty : forall r, role_of k f = Some r -> well_typed h o f (R (fval h0 o f)) /\ container v = false).
    { intros r Ro. apply role_asked in Ro as [pk A]. destruct (typed o k f pk Ho K A) as (k1 & pk1 & K1 & A1 & W). split; [exists k1, pk1; rewrite !KK; split; auto; split; auto; destruct W as [W|[W|(p & W & Kp)]]; auto; right; right; exists p; now rewrite KK|].
      rewrite <- Rv in W. destruct v; auto; destruct W as [W|[(s & i & W)|(p & W & _)]]; discriminate. }
    destruct (store lower refuses h o f v (R v)) as [h2|e].
    - destruct X as (B2 & G2 & Fv & Fr2 & [->|[[-> C]|[Rp A]]]); auto.
      + eapply agreeing_set; eauto; [|apply As]. destruct C as [C|C]; [|auto]. destruct (role_of k f) as [r|] eqn:Ro; auto. destruct (Ty r eq_refl). congruence.
      + assert (Ro : exists r, role_of k f = Some r) by (destruct (role_of k f) as [r|] eqn:Ro; [eauto|]; exfalso; unfold assign in A; rewrite Kh, Ro in A; discriminate).
        destruct Ro as [r Ro]. destruct (Ty r Ro) as [W _]. assert (Q := agreeing_assign lower h o f (R (fval h0 o f)) Ow Ag W). rewrite A in Q. apply Q.
        intros m p mk m' Op Km Dm Fo. inversion Op as [[E1 E2 E3]]. subst m f.
        destruct W as (k1 & pk & K1 & A1 & W). rewrite E3 in W. destruct W as [W|[(s & i & W)|(p' & W & Kp)]]; try discriminate. inv W. assert (k1 = mk) by congruence. subst k1.
        assert (Cp : couple mk pk). { destruct (GraphProofs.asked_role _ _ _ A1) as [R1|[[R1 Ep]|[R1|[lf R1]]]]; [| |apply role_produce in R1; apply R1|]; exfalso; destruct Dm as [-> | ->]; cbn in R1; discriminate. }
        destruct Ag as [_ Pa]. destruct (proj2 (Pa mk pk m' p' Cp)) as [Km' Fm']; auto.
        assert (k = mk) by congruence. subst k. rewrite KK in Km'.
        apply (single m' o p' mk pk); auto. destruct (b_field _ _ _ B m' "process") as [Q1|Q1]; [exists mk; split; auto; eapply couple_not_read_only; eauto| |]; [|congruence]. rewrite <- Q1, Fm'. reflexivity.
    - destruct X as (Rp & [(k1 & r & K1 & Ro & Er)|(k1 & fs & K1 & Ro & Er)]).
      + assert (k1 = k) by congruence. subst. destruct (Ty r Ro) as [W _]. rewrite (assign_accepted lower h o f) in Er; auto; [discriminate|apply Ag].
      + rewrite (set_acc h o) in Er; auto; [discriminate|]. exists k. auto.
  Qed.
End Tidy.

(** ** Exceptions *)
Lemma assign_exn : forall eq h o f v e, snd (assign eq h o f v) = Some e -> e <> RecursionError.
Proof.
  intros eq h o f v e H. unfold assign in H. destruct (kind_at h o) as [k|]; [|cbn in H; congruence]. destruct (role_of k f) as [[pk|pk lf|pk|]|]; [| | | |cbn in H; congruence].
  - unfold set_process in H. cbv zeta in H. destruct v; cbn [snd] in H; try congruence. destruct (is_kind _ pk _); cbn [snd] in H; congruence.
  - unfold set_owned in H. cbv zeta in H. match type of H with snd (match ?d with _ => _ end) = _ => assert (D : forall x, d = Err x -> x <> RecursionError) by (intros x Q; repeat break_match; congruence); destruct d as [h1|x]; [|cbn in H; inv H; auto] end.
    destruct v; cbn [snd] in H; try congruence. destruct (is_kind _ pk _); [|cbn in H; congruence]. destruct (fval _ _ lf); cbn [snd] in H; congruence.
  - unfold set_plain in H. destruct v; try (destruct (is_kind _ pk _)); cbn [snd] in H; congruence.
  - unfold set_ing_spec, set_plain in H. cbv zeta in H. destruct v; try (destruct (is_kind _ KIngS _)); cbn [snd] in H; congruence.
Qed.
