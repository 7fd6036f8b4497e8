(** Cached answers are right. *)
From Coq Require Import String Ascii List Bool Arith Lia.
From Verif Require Import Base PyStr ScaleModel ScaleUnmangle CacheModel CacheSpec.
Import ListNotations.
Open Scope list_scope.
Open Scope nat_scope.

Lemma teqb_iff : forall x y, teqb x y = true <-> x = y.
Proof.
  induction x as [|a x IH]; destruct y as [|b y]; cbn [teqb]; split; intros H; try discriminate; auto.
  - apply andb_prop in H as (A & B). apply Ascii.eqb_eq in A. apply IH in B. congruence.
  - injection H as -> ->. rewrite Ascii.eqb_refl. cbn. now apply IH.
Qed.

(** *** The cache *)
Section Lru.
  Context {K V R : Type} (cmp : K -> K -> comparison) (maxsize : nat).
  Lemma find_hit : forall k (c c' : list (K * V)) e, find cmp k c = Ok (Some (e, c')) -> In e c /\ cmp k (fst e) = Same /\ incl c' c.
  Proof.
    induction c as [|x c IH]; intros c' e H; cbn [find] in H; [discriminate|]. destruct (cmp k (fst x)) eqn:C; try discriminate.
    - injection H as <- <-. repeat split; auto; [now left|]. intros y; now right.
    - destruct (find cmp k c) as [[[y c2]|]|] eqn:F; try discriminate. injection H as <- <-. destruct (IH c2 y eq_refl) as (A & B & D).
      repeat split; auto; [now right|]. intros z [->|Z]; [now left|right; now apply D].
  Qed.
  Lemma find_raises : forall k (c : list (K * V)) x, find cmp k c = Err x -> exists e, In e c /\ cmp k (fst e) = Raises.
  Proof.
    induction c as [|y c IH]; intros x H; cbn [find] in H; [discriminate|]. destruct (cmp k (fst y)) eqn:C; try discriminate.
    - destruct (find cmp k c) as [[[z c2]|]|] eqn:F; try discriminate. destruct (IH _ eq_refl) as (e0 & I & D). exists e0. split; auto. now right.
    - exists y. split; auto. now left.
  Qed.
  Lemma in_firstn : forall n (l : list (K * V)) x, In x (firstn n l) -> In x l.
  Proof. intros n l x H. rewrite <- (firstn_skipn n l). apply in_or_app. now left. Qed.

  Lemma cached_spec : forall (compute : R -> R * res V) k c r (Q : R -> K * V -> Prop) (Good : R -> res V -> Prop) (Next : R -> Prop) c2 r2 o2,
    cached cmp maxsize compute k c r = (c2, (r2, o2)) ->
    Next r -> (forall e, In e c -> Q r e) ->
    (forall e, In e c -> cmp k (fst e) <> Raises) ->
    (forall e, In e c -> Q r e -> cmp k (fst e) = Same -> Good r (Ok (snd e))) ->
    (forall r' out, compute r = (r', out) -> Next r' /\ Good r' out /\ (forall v, out = Ok v -> Q r' (k, v)) /\ (forall e, Q r e -> Q r' e)) ->
    Next r2 /\ Good r2 o2 /\ (forall e, In e c2 -> Q r2 e).
  Proof.
    intros compute k c r Q Good Next c2 r2 o2 H N A NR HS HC. unfold cached in H. destruct (find cmp k c) as [[[e c']|]|x] eqn:F.
    - injection H as <- <- <-. destruct (find_hit _ _ _ _ F) as (I & S & J). split; auto. split; [apply HS; auto|].
      intros y [->|Y]; auto.
    - destruct (compute r) as [r' out] eqn:C. destruct (HC r' out eq_refl) as (N' & G & V' & M). destruct out as [v|x].
      + injection H as <- <- <-. split; auto. split; auto. intros y Y. apply in_firstn in Y. destruct Y as [<-|Y]; auto.
      + injection H as <- <- <-. split; auto.
    - exfalso. destruct (find_raises _ _ _ F) as (e & I & D). now apply (NR e I).
  Qed.
End Lru.

Section Proofs.
  Context (E : engine) (uses : text -> list text) (unit_uses : unit_t E -> list text) (good : defs E -> text -> Prop).
  Context (P : pint_ok E uses unit_uses) (T : texts_ok E uses good).
  Notation rgy := (registry E).
  Notation readsE := (reads E good).
  Notation knowsE := (knows E unit_uses).

  (** *** The names of a registry *)
  Definition sound (d : defs E) (names : scaling_names (value E)) : Prop :=
    forall n v, lookup_name (value E) n names = Some v ->
      exists s x, good d s /\ In x (scaled_in s) /\ internal_name E d x n /\ evaluate E d (term x) = Ok v.
  Definition grows (a b : scaling_names (value E)) : Prop :=
    forall n v, lookup_name (value E) n a = Some v -> lookup_name (value E) n b = Some v.

  Lemma lookup_app : forall n a b, lookup_name (value E) n (a ++ b) = match lookup_name (value E) n a with Some v => Some v | None => lookup_name (value E) n b end.
  Proof. induction a as [|[m v] a IH]; intros b; cbn [app lookup_name]; auto. destruct (teqb m n); auto. Qed.
  Lemma grows_app : forall a b, grows a (a ++ b).
  Proof. intros a b n v H. rewrite lookup_app, H. reflexivity. Qed.
  Lemma grows_refl : forall a, grows a a. Proof. intros a n v H. exact H. Qed.
  Lemma grows_trans : forall a b c, grows a b -> grows b c -> grows a c.
  Proof. intros a b c H K n v L. apply K, H, L. Qed.

  Lemma sound_same : forall d a b n v w, sound d a -> sound d b -> lookup_name (value E) n a = Some v -> lookup_name (value E) n b = Some w -> v = w.
  Proof.
    intros d a b n v w A B H K. destruct (A n v H) as (s & x & G & I & N & V). destruct (B n w K) as (s' & y & G' & I' & N' & V').
    pose proof (unambiguous E uses good T d s s' x y n G G' I I' N N'). congruence.
  Qed.
  Lemma mangled_own : forall d x n, internal_name E d x n -> own_name n = true.
  Proof.
    intros d x n H. unfold internal_name, mangled in H. destruct (unit_of x); [destruct (long_name E d _); [|discriminate]|];
      assert (X : exists r, n = us :: r) by (injection H as <-; eauto); destruct X as (r & ->); reflexivity.
  Qed.
  Lemma sound_own : forall d a n, sound d a -> own_name n = false -> lookup_name (value E) n a = None.
  Proof.
    intros d a n A H. destruct (lookup_name (value E) n a) eqn:L; auto. destruct (A n _ L) as (s & x & _ & _ & N & _). apply mangled_own in N. congruence.
  Qed.

  Lemma store_indep : forall d s todo input a b, good d s -> incl todo (scaled_in s) -> sound d a -> sound d b ->
    let x := store_and_mangle (long_name E d) (value E) (evaluate E d) input todo a in
    let y := store_and_mangle (long_name E d) (value E) (evaluate E d) input todo b in
    snd x = snd y /\ sound d (fst x) /\ grows a (fst x)
    /\ (forall out, snd x = Ok out -> forall t n, In t todo -> internal_name E d t n -> lookup_name (value E) n (fst x) <> None).
  Proof.
    intros d s todo. induction todo as [|t todo IH]; intros input a b G I A B; cbn [store_and_mangle fst snd].
    { repeat split; auto; try apply grows_refl. }
    assert (It : In t (scaled_in s)) by (apply I; now left). assert (I' : incl todo (scaled_in s)) by (intros z Z; apply I; now right).
    destruct (mangled (long_name E d) t) as [n|x] eqn:M; [|cbn; repeat split; auto; try apply grows_refl; try discriminate].
    assert (HA : forall c v, sound d c -> lookup_name (value E) n c = Some v -> evaluate E d (term t) = Ok v).
    { intros c v C L. destruct (C n v L) as (s' & y & G' & Iy & N & V). rewrite <- V. now apply (unambiguous E uses good T d s s' t y n). }
    assert (Add : forall c v, sound d c -> lookup_name (value E) n c = None -> evaluate E d (term t) = Ok v -> sound d (c ++ [(n, v)])).
    { intros c v C L V n' v' H. rewrite lookup_app in H. destruct (lookup_name (value E) n' c) eqn:L'; [injection H as <-; now apply C|].
      cbn [lookup_name] in H. destruct (teqb n n') eqn:Q; [|discriminate]. injection H as <-. apply teqb_iff in Q as <-. exists s, t. repeat split; auto. }
    assert (Fin : forall c, lookup_name (value E) n c <> None -> forall c', grows c c' -> lookup_name (value E) n c' <> None).
    { intros c L c' W. destruct (lookup_name (value E) n c) eqn:Q; [|congruence]. rewrite (W n v Q). discriminate. }
    destruct (lookup_name (value E) n a) as [v|] eqn:La; destruct (lookup_name (value E) n b) as [w|] eqn:Lb.
    - specialize (IH (sub_term (term t) n false 0 input) a b G I' A B). cbv zeta in IH. destruct IH as (R & S & W & N). repeat split; auto.
      intros out O t' n' [<-|J] H; [|eapply N; eauto]. unfold internal_name in H. assert (n' = n) by congruence. subst n'. apply (Fin a); [congruence|auto].
    - rewrite (HA a v A La). assert (B' : sound d (b ++ [(n, v)])) by exact (Add b v B Lb (HA a v A La)).
      specialize (IH (sub_term (term t) n false 0 input) a (b ++ [(n, v)]) G I' A B'). cbv zeta in IH. destruct IH as (R & S & W & N). repeat split; auto.
      intros out O t' n' [<-|J] H; [|eapply N; eauto]. unfold internal_name in H. assert (n' = n) by congruence. subst n'. apply (Fin a); [congruence|auto].
    - rewrite (HA b w B Lb). assert (A' : sound d (a ++ [(n, w)])) by exact (Add a w A La (HA b w B Lb)).
      specialize (IH (sub_term (term t) n false 0 input) (a ++ [(n, w)]) b G I' A' B). cbv zeta in IH. destruct IH as (R & S & W & N). repeat split; auto.
      + eapply grows_trans; [apply grows_app|exact W].
      + intros out O t' n' [<-|J] H; [|eapply N; eauto]. unfold internal_name in H. assert (n' = n) by congruence. subst n'. apply (Fin (a ++ [(n, w)])); [|auto].
        rewrite lookup_app, La. cbn [lookup_name]. assert (Q : teqb n n = true) by (now apply teqb_iff). rewrite Q. discriminate.
    - destruct (evaluate E d (term t)) as [v|x] eqn:V; [|cbn; repeat split; auto; try apply grows_refl; try discriminate].
      assert (A' : sound d (a ++ [(n, v)])) by (apply Add; auto). assert (B' : sound d (b ++ [(n, v)])) by (apply Add; auto).
      specialize (IH (sub_term (term t) n false 0 input) (a ++ [(n, v)]) (b ++ [(n, v)]) G I' A' B'). cbv zeta in IH. destruct IH as (R & S & W & N). repeat split; auto.
      + eapply grows_trans; [apply grows_app|exact W].
      + intros out O t' n' [<-|J] H; [|eapply N; eauto]. unfold internal_name in H. assert (n' = n) by congruence. subst n'. apply (Fin (a ++ [(n, v)])); [|auto].
        rewrite lookup_app, La. cbn [lookup_name]. assert (Q : teqb n n = true) by (now apply teqb_iff). rewrite Q. discriminate.
  Qed.
  Lemma preprocess_indep : forall d s a b, good d s -> sound d a -> sound d b ->
    let x := preprocess (long_name E d) (value E) (evaluate E d) s a in
    let y := preprocess (long_name E d) (value E) (evaluate E d) s b in
    snd x = snd y /\ sound d (fst x) /\ grows a (fst x)
    /\ (forall out, snd x = Ok out -> forall t n, In t (scaled_in s) -> internal_name E d t n -> lookup_name (value E) n (fst x) <> None).
  Proof.
    intros d s a b G A B x y. subst x y. unfold preprocess, scaling.
    pose proof (store_indep d s (scaled_in s) (scientific s) a b G (fun z Z => Z) A B) as H. unfold scaled_in in *.
    destruct (find_blocks (tokenizer (scientific s))) as [bs|e]; [|cbn; repeat split; auto; try apply grows_refl; try discriminate].
    destruct (identify_factors (scientific s) (tl bs)) as [l|e]; [exact H|cbn; repeat split; auto; try apply grows_refl; try discriminate].
  Qed.
  Lemma sound_nil : forall d, sound d []. Proof. intros d n v H. discriminate. Qed.

  (** *** Registries *)
  Lemma parse_defs : forall s (r : rgy), reg_defs E (fst (reg_parse E s r)) = reg_defs E r /\ reg_id E (fst (reg_parse E s r)) = reg_id E r.
  Proof. intros s r. unfold reg_parse. destruct (preprocess _ _ _ s _) as [d o]. split; reflexivity. Qed.
  Lemma reads_sound : forall d id r, readsE d id r -> reg_defs E r = d /\ reg_id E r = id /\ sound d (reg_names E r).
  Proof.
    induction 1 as [|r s R (D & I & S) G]; [repeat split; apply sound_nil|]. destruct (parse_defs s r) as (A & B). rewrite A, B. repeat split; auto.
    unfold reg_parse. rewrite D. pose proof (preprocess_indep d s (reg_names E r) (reg_names E r) G S S) as (_ & H & _). destruct (preprocess _ _ _ s _) as [x o]. exact H.
  Qed.
  Definition grown (r r' : rgy) : Prop := grows (reg_names E r) (reg_names E r').
  Lemma knows_grown : forall r r' u, grown r r' -> knowsE r u -> knowsE r' u.
  Proof. intros r r' u W H n I O. specialize (H n I O). unfold look in *. destruct (lookup_name (value E) n (reg_names E r)) eqn:L; [|congruence]. rewrite (W n v L). discriminate. Qed.
  Lemma knows_agree : forall d id id' r r' u, readsE d id r -> readsE d id' r' -> knowsE r u -> knowsE r' u -> agree E (unit_uses u) (look E r) (look E r').
  Proof.
    intros d id id' r r' u R R' H H' n I. apply reads_sound in R as (_ & _ & S), R' as (_ & _ & S'). unfold look. destruct (own_name n) eqn:O.
    - specialize (H n I O). specialize (H' n I O). unfold look in *. destruct (lookup_name (value E) n (reg_names E r)) eqn:L; [|congruence].
      destruct (lookup_name (value E) n (reg_names E r')) eqn:L'; [|congruence]. f_equal. exact (sound_same d _ _ n _ _ S S' L L').
    - now rewrite (sound_own d _ n S O), (sound_own d _ n S' O).
  Qed.

  Lemma parse_indep : forall d id id' r r' s, readsE d id r -> readsE d id' r' -> good d s ->
    snd (reg_parse E s r) = snd (reg_parse E s r') /\ grown r (fst (reg_parse E s r))
    /\ (forall u, snd (reg_parse E s r) = Ok u -> knowsE (fst (reg_parse E s r)) u).
  Proof.
    intros d id id' r r' s R R' G. apply reads_sound in R as (D & I & S), R' as (D' & I' & S'). unfold reg_parse. rewrite D, D'.
    pose proof (preprocess_indep d s (reg_names E r) (reg_names E r') G S S') as (A & B & C & N).
    pose proof (preprocess_indep d s (reg_names E r') (reg_names E r) G S' S) as (_ & B' & _ & N').
    pose proof (preprocess_indep d s (reg_names E r) [] G S (sound_nil d)) as (A0 & _).
    destruct (preprocess _ _ _ s (reg_names E r)) as [x o]. destruct (preprocess _ _ _ s (reg_names E r')) as [x' o']. cbn [fst snd] in *. subst o'.
    destruct o as [out|e]; [|repeat split; auto; discriminate].
    assert (U : forall n, In n (uses out) -> own_name n = true -> lookup_name (value E) n x <> None /\ lookup_name (value E) n x' <> None).
    { intros n J O. destruct (self_contained E uses good T d s out n G) as (t & It & Nt); auto; [unfold preprocessed; now rewrite <- A0|]. split; [eapply N; eauto|eapply N'; eauto]. }
    repeat split; auto.
    - apply (parse_local E uses unit_uses P). intros n J. unfold look. cbn [reg_names with_names]. destruct (own_name n) eqn:O.
      + destruct (U n J O) as (Ux & Ux'). destruct (lookup_name (value E) n x) eqn:L; [|congruence]. destruct (lookup_name (value E) n x') eqn:L'; [|congruence].
        f_equal. exact (sound_same d _ _ n _ _ B B' L L').
      + now rewrite (sound_own d _ n B O), (sound_own d _ n B' O).
    - intros u H n J O. unfold look. cbn [reg_names with_names]. apply (U n); auto. eapply (parse_names E uses unit_uses P); eauto.
  Qed.

  (** *** Uncached functions *)
  Lemma parse_raw_indep : forall d id r a ret, readsE d id r -> (forall s, In s (arg_texts E a ret) -> good d s) ->
    let x := parse_raw E a ret r in
    snd x = snd (parse_raw E a ret (fresh E d id)) /\ readsE d id (fst x) /\ grown r (fst x)
    /\ (forall g u, snd x = Ok (PUnit E g u) -> (exists g', a = AUnit E g' u) \/ (g = id /\ knowsE (fst x) u)).
  Proof.
    intros d id r a ret R Ht x. subst x. assert (I : reg_id E r = id) by (apply reads_sound in R; apply R).
    assert (Main : forall s, good d s -> snd (reg_parse E s r) = snd (reg_parse E s (fresh E d id)) /\ readsE d id (fst (reg_parse E s r)) /\ grown r (fst (reg_parse E s r)) /\ (forall u, snd (reg_parse E s r) = Ok u -> knowsE (fst (reg_parse E s r)) u)).
    { intros s G. destruct (parse_indep d id id r (fresh E d id) s R (reads_fresh _ _ _ _) G) as (A & B & C). repeat split; auto. now apply reads_text. }
    unfold parse_raw. destruct a as [|s|g u|]; cbn [arg_texts] in Ht.
    - destruct (of_bool ret).
      + destruct (Main [] (Ht [] (or_introl eq_refl))) as (A & B & C & D). destruct (reg_parse E [] r) as [r1 o]. destruct (reg_parse E [] (fresh E d id)) as [r2 o2]. cbn [fst snd] in *. subst o2.
        repeat split; auto; [destruct o; auto; cbn; now rewrite I|]. intros g u H. destruct o as [u'|]; [|discriminate]. injection H as <- <-. right. split; auto.
      + repeat split; auto; try apply grows_refl; try discriminate.
    - destruct (Main _ (Ht _ (or_introl eq_refl))) as (A & B & C & D). destruct (reg_parse E (unmangled s) r) as [r1 o]. destruct (reg_parse E (unmangled s) (fresh E d id)) as [r2 o2]. cbn [fst snd] in *. subst o2.
      repeat split; auto; [destruct o; auto; cbn; now rewrite I|]. intros g u H. destruct o as [u'|]; [|discriminate]. destruct (of_bool ret); [|discriminate]. injection H as <- <-. right. split; auto.
    - repeat split; auto; [apply grows_refl|]. intros g' u' H. injection H as <- <-. left. eauto.
    - repeat split; auto; try apply grows_refl; try discriminate.
  Qed.

  Lemma convert_raw_indep : forall d id r v s1 s2, readsE d id r -> (teqb s1 s2 = false -> good d s1 /\ good d s2) ->
    let x := convert_raw E v s1 s2 r in
    snd x = snd (convert_raw E v s1 s2 (fresh E d id)) /\ readsE d id (fst x) /\ grown r (fst x).
  Proof.
    intros d id r v s1 s2 R G x. subst x. unfold convert_raw. destruct (teqb s1 s2); [repeat split; auto; apply grows_refl|]. destruct (G eq_refl) as (G1 & G2).
    pose proof (reads_fresh E good d id) as R0.
    destruct (parse_indep d id id r (fresh E d id) s1 R R0 G1) as (A1 & B1 & C1). destruct (parse_indep d id id (fresh E d id) r s1 R0 R G1) as (_ & _ & C1').
    pose proof (reads_text E good d id r s1 R G1) as R1. pose proof (reads_text E good d id (fresh E d id) s1 R0 G1) as R1'.
    destruct (reg_parse E s1 r) as [r1 o1]. destruct (reg_parse E s1 (fresh E d id)) as [r1' o1']. cbn [fst snd] in *. subst o1'.
    destruct o1 as [u1|e]; [|repeat split; auto].
    destruct (parse_indep d id id r1 r1' s2 R1 R1' G2) as (A2 & B2 & C2). destruct (parse_indep d id id r1' r1 s2 R1' R1 G2) as (_ & B2' & C2').
    pose proof (reads_text E good d id r1 s2 R1 G2) as R2. pose proof (reads_text E good d id r1' s2 R1' G2) as R2'.
    destruct (reg_parse E s2 r1) as [r2 o2]. destruct (reg_parse E s2 r1') as [r2' o2']. cbn [fst snd] in *. subst o2'.
    destruct o2 as [u2|e]; cbn [fst snd]; [|repeat split; auto; eapply grows_trans; eauto].
    repeat split; auto; [|eapply grows_trans; eauto].
    pose proof (reads_sound _ _ _ R2) as (D2 & _). pose proof (reads_sound _ _ _ R2') as (D2' & _). rewrite D2, D2'.
    apply (convert_local E uses unit_uses P).
    - apply (knows_agree d id id); auto; [eapply knows_grown; [exact B2|]|eapply knows_grown; [exact B2'|]]; auto.
    - apply (knows_agree d id id); auto.
  Qed.
  Lemma res_agree_refl : forall x, res_agree E x x.
  Proof. intros [v|e]; cbn; auto. now left. Qed.
  Lemma convert_raw_num : forall r v w s1 s2, num_eqb E v w = true -> res_agree E (snd (convert_raw E v s1 s2 r)) (snd (convert_raw E w s1 s2 r)).
  Proof.
    intros r v w s1 s2 H. unfold convert_raw. destruct (teqb s1 s2); [cbn; now right|].
    destruct (reg_parse E s1 r) as [r1 [u1|e]]; [|apply res_agree_refl]. destruct (reg_parse E s2 r1) as [r2 [u2|e]]; [|apply res_agree_refl].
    cbn [snd]. now apply (convert_num E uses unit_uses P).
  Qed.

  Lemma base_of_indep : forall d id r r' u, readsE d id r -> readsE d id r' -> knowsE r u -> knowsE r' u -> snd (base_of E u r) = snd (base_of E u r').
  Proof.
    intros d id r r' u R R' H H'. unfold base_of. cbn [snd]. pose proof (reads_sound _ _ _ R) as (D & I & _). pose proof (reads_sound _ _ _ R') as (D' & I' & _).
    rewrite D, D', I, I'. rewrite (base_local E uses unit_uses P d (look E r) (look E r') u); auto. now apply (knows_agree d id id).
  Qed.
  Lemma base_of_plain : forall u r g b x y r', snd (base_of E u r) = Ok (g, b, x, y) -> g = reg_id E r /\ knowsE r' b.
  Proof.
    intros u r g b x y r' H. unfold base_of in H. cbn [snd] in H. destruct (pint_base E _ _ u) as [[[b' x'] y']|] eqn:B; [|discriminate]. injection H as <- <- <- <-.
    split; auto. intros n I O. rewrite (base_plain E uses unit_uses P _ _ _ _ _ _ B n I) in O. discriminate.
  Qed.
  Lemma base_raw_indep : forall d id r a, readsE d id r ->
    (forall s, a = AStr E s -> good d s) -> (forall g u, a = AUnit E g u -> g = id /\ knowsE r u) ->
    let x := base_raw E a r in
    right E unit_uses good d id (Base_ E a) (RBase E (snd x)) /\ readsE d id (fst x) /\ grown r (fst x)
    /\ (forall g b v w, snd x = Ok (g, b, v, w) -> g = id /\ forall r', knowsE r' b).
  Proof.
    intros d id r a R Hs Hu x. subst x. unfold base_raw, right. destruct a as [|s|g u|].
    - repeat split; auto; try apply grows_refl; try discriminate.
    - specialize (Hs s eq_refl). pose proof (reads_fresh E good d id) as R0.
      destruct (parse_indep d id id r (fresh E d id) s R R0 Hs) as (A & B & C). destruct (parse_indep d id id (fresh E d id) r s R0 R Hs) as (_ & _ & C').
      pose proof (reads_text E good d id r s R Hs) as R1. pose proof (reads_text E good d id (fresh E d id) s R0 Hs) as R1'. unfold base_raw.
      destruct (reg_parse E s r) as [r1 o]. destruct (reg_parse E s (fresh E d id)) as [r1' o']. cbn [fst snd] in *. subst o'.
      destruct o as [u|e]; [|repeat split; auto; discriminate]. split; [|split; [|split]]; auto.
      + eapply base_of_indep; eauto.
      + intros g b v w H. pose proof (fun r' => base_of_plain _ _ _ _ _ _ r' H) as K. split; [|intros r'; apply K]. destruct (K r1) as (-> & _). now apply reads_sound in R1.
    - destruct (Hu g u eq_refl) as (-> & Kn). assert (I : reg_id E r = id) by (apply reads_sound in R; apply R). rewrite I, Nat.eqb_refl. split; [|split; [|split]]; auto.
      + intros r' R' K'. unfold base_raw. assert (I' : reg_id E r' = id) by (apply reads_sound in R'; apply R'). rewrite I', Nat.eqb_refl. eapply base_of_indep; eauto.
      + apply grows_refl.
      + intros g b v w H. pose proof (fun r' => base_of_plain _ _ _ _ _ _ r' H) as K. split; [|intros r'; apply K]. destruct (K r) as (-> & _). auto.
    - repeat split; auto; try apply grows_refl; try discriminate.
  Qed.

  (** *** The state *)
  Context (Z : sizes) (d0 : defs E).
  Notation past := (list (op E * answer E)).
  Definition now_defs (p : past) := in_force E d0 (map fst p).
  Definition now_id (p : past) := epoch E (map fst p).
  Definition known (p : past) := concat (map (fun q => answer_units E (snd q)) p).

  Definition unit_current (id : nat) (a : arg E) : Prop := forall g u, a = AUnit E g u -> g = id.
  Definition parse_entry d id (r : rgy) (e : (arg E * option bool) * parsed E) : Prop :=
    Ok (snd e) = snd (parse_raw E (fst (fst e)) (snd (fst e)) (fresh E d id)) /\ unit_current id (fst (fst e))
    /\ (forall g u, snd e = PUnit E g u -> g = id /\ knowsE r u).
  Definition convert_entry d id (e : (num E * text * text) * num E) : Prop :=
    let '(v, s1, s2) := fst e in Ok (snd e) = snd (convert_raw E v s1 s2 (fresh E d id)).
  Definition base_entry d id (e : arg E * based E) : Prop :=
    right E unit_uses good d id (Base_ E (fst e)) (RBase E (Ok (snd e))) /\ unit_current id (fst e)
    /\ (let '(g, b, _, _) := snd e in g = id /\ forall r, knowsE r b).

  Record inv (p : past) (s : module_state E) : Prop := {
    inv_reads : readsE (now_defs p) (now_id p) (reg E s);
    inv_next : next E s = S (now_id p);
    inv_known : forall g u, In (g, u) (known p) -> g <= now_id p /\ (g = now_id p -> knowsE (reg E s) u);
    inv_parse : forall e, In e (parse_cache E s) -> parse_entry (now_defs p) (now_id p) (reg E s) e;
    inv_convert : forall e, In e (convert_cache E s) -> convert_entry (now_defs p) (now_id p) e;
    inv_base : forall e, In e (base_cache E s) -> base_entry (now_defs p) (now_id p) e
  }.

  Lemma in_force_snoc : forall l d o, in_force E d (l ++ [o]) = in_force E (in_force E d l) [o].
  Proof. induction l as [|x l IH]; intros d o; auto. destruct x as [| | |[]]; exact (IH _ _). Qed.
  Lemma epoch_snoc : forall l o, epoch E (l ++ [o]) = epoch E l + epoch E [o].
  Proof. induction l as [|x l IH]; intros o; auto. destruct x as [| | |[]]; try exact (IH _). exact (f_equal S (IH _)). Qed.
  Lemma now_snoc : forall p o a, now_defs (p ++ [(o, a)]) = in_force E (now_defs p) [o] /\ now_id (p ++ [(o, a)]) = now_id p + epoch E [o].
  Proof. intros p o a. unfold now_defs, now_id. rewrite map_app. cbn [map fst]. split; [apply in_force_snoc|apply epoch_snoc]. Qed.
  Lemma known_snoc : forall p o a, known (p ++ [(o, a)]) = known p ++ answer_units E a.
  Proof. intros p o a. unfold known. rewrite map_app, concat_app. cbn [map concat snd]. now rewrite app_nil_r. Qed.

  Lemma cmp_arg_same : forall a b, cmp_arg E a b = Same -> a = b.
  Proof.
    intros [|s|g u|] [|s'|g' u'|] H; cbn in H; try discriminate; auto.
    - destruct (teqb s s') eqn:Q; [|discriminate]. apply teqb_iff in Q. now subst.
    - destruct (unit_eqb E u u') eqn:Q; [|discriminate]. apply (unit_eqb_ok E uses unit_uses P) in Q as ->. destruct (g =? g') eqn:G; [|discriminate]. apply Nat.eqb_eq in G. now subst.
  Qed.
  Lemma cmp_arg_raises : forall id a b, unit_current id a -> unit_current id b -> cmp_arg E a b <> Raises.
  Proof.
    intros id [|s|g u|] [|s'|g' u'|] A B H; cbn in H; try discriminate; [destruct (teqb s s'); discriminate|].
    destruct (unit_eqb E u u'); [|discriminate]. rewrite (A g u eq_refl), (B g' u' eq_refl), Nat.eqb_refl in H. discriminate.
  Qed.
  Lemma same_ret_eq : forall a b, same_ret a b = true -> a = b.
  Proof. intros [[]|] [[]|] H; cbn in H; congruence. Qed.

  Lemma step_ok : forall p s o s' a, inv p s -> fair_call E good d0 p o -> step E Z o s = (s', a) ->
    right E unit_uses good (now_defs p) (now_id p) o a /\ inv (p ++ [(o, a)]) s'.
  Proof.
    intros p s o s' a I (Ht & Hu) St. destruct (now_snoc p o a) as (Nd & Ni). pose proof (known_snoc p o a) as Nk.
    destruct I as [IR IN IK IP IC IB]. fold (now_defs p) in Ht. fold (now_id p) in Hu. fold (known p) in Hu.
    destruct o as [x ret|v s1 s2|x|ch]; cbn [step] in St; cbn [in_force epoch] in Nd, Ni; rewrite ?Nat.add_0_r in Ni.
    - (* parse_units *)
      destruct (cached (cmp_parse E) (parse_size Z) (parse_raw E x ret) (x, ret) (parse_cache E s) (reg E s)) as [c [r out]] eqn:C. injection St as <- <-.
      assert (Uc : unit_current (now_id p) x) by (intros g u ->; apply (Hu g u); now left).
      assert (Kx : forall g u, x = AUnit E g u -> g = now_id p /\ knowsE (reg E s) u) by (intros g u ->; destruct (Hu g u) as (-> & K); [now left|]; split; auto; destruct (IK _ u K) as (_ & K2); now apply K2).
      eapply cached_spec with (Q := parse_entry (now_defs p) (now_id p))
        (Good := fun r o => o = snd (parse_raw E x ret (fresh E (now_defs p) (now_id p))) /\ (forall g u, o = Ok (PUnit E g u) -> g = now_id p /\ knowsE r u))
        (Next := fun r => readsE (now_defs p) (now_id p) r /\ grown (reg E s) r) in C.
      + destruct C as ((Rr & Gr) & (Ro & Ku) & Cq). split; [exact Ro|]. constructor; cbn [reg next parse_cache convert_cache base_cache]; rewrite ?Nd, ?Ni; auto.
        intros g u K. rewrite Nk in K. apply in_app_or in K as [K|K].
        * destruct (IK g u K) as (L & M). split; auto. intros Q. eapply knows_grown; [exact Gr|auto].
        * cbn [answer_units] in K. destruct out as [[| |g' u']|]; try contradiction. destruct K as [K|[]]. injection K as -> ->. destruct (Ku g u eq_refl) as (-> & ?). split; auto.
      + split; auto. apply grows_refl.
      + exact IP.
      + intros e Ie. destruct (IP e Ie) as (_ & U & _). unfold cmp_parse. destruct (same_ret _ _); [|discriminate]. now apply (cmp_arg_raises (now_id p)).
      + intros e Ie (V & U & K) S. unfold cmp_parse in S. cbn [fst snd] in S. destruct (same_ret ret (snd (fst e))) eqn:Q; [|discriminate]. apply same_ret_eq in Q. apply cmp_arg_same in S. rewrite Q, S. split; auto.
        intros g u H. injection H as H. now apply K.
      + intros r' o Cm. pose proof (parse_raw_indep (now_defs p) (now_id p) (reg E s) x ret IR Ht) as (A & B & G & K). rewrite Cm in A, B, G, K. cbn [fst snd] in *.
        assert (Ku : forall g u, o = Ok (PUnit E g u) -> g = now_id p /\ knowsE r' u).
        { intros g u ->. destruct (K g u eq_refl) as [(g' & ->)|H]; auto. destruct (Kx g' u eq_refl) as (-> & Kn). split; [|eapply knows_grown; eauto]. cbn in Cm. injection Cm as _ <-. reflexivity. }
        split; [split; auto|]. split; [split; auto|]. split.
        * intros v ->. split; [|split]; cbn [fst snd]; auto. intros g u ->. now apply Ku.
        * intros e (V & U & Ke). split; [|split]; auto. intros g u H. destruct (Ke g u H) as (-> & ?). split; auto. eapply knows_grown; eauto.
    - (* convert_units *)
      destruct (cached (cmp_convert E) (convert_size Z) (convert_raw E v s1 s2) (v, s1, s2) (convert_cache E s) (reg E s)) as [c [r out]] eqn:C. injection St as <- <-.
      assert (Gt : teqb s1 s2 = false -> good (now_defs p) s1 /\ good (now_defs p) s2) by (intros Q; cbn [op_texts] in Ht; rewrite Q in Ht; split; apply Ht; cbn; auto).
      eapply cached_spec with (Q := fun _ => convert_entry (now_defs p) (now_id p))
        (Good := fun _ o => res_agree E o (snd (convert_raw E v s1 s2 (fresh E (now_defs p) (now_id p)))))
        (Next := fun r => readsE (now_defs p) (now_id p) r /\ grown (reg E s) r) in C.
      + destruct C as ((Rr & Gr) & Ro & Cq). split; [exact Ro|]. constructor; cbn [reg next parse_cache convert_cache base_cache]; rewrite ?Nd, ?Ni; auto.
        * intros g u K. rewrite Nk in K. cbn [answer_units] in K. rewrite app_nil_r in K. destruct (IK g u K) as (L & M). split; auto. intros Q. eapply knows_grown; [exact Gr|auto].
        * intros e Ie. destruct (IP e Ie) as (V & U & K). split; [|split]; auto. intros g u H. destruct (K g u H). split; auto. eapply knows_grown; eauto.
      + split; auto. apply grows_refl.
      + exact IC.
      + intros [[[w r1] r2] z] _. cbn [fst]. unfold cmp_convert. destruct (num_eqb E v w && teqb s1 r1 && teqb s2 r2)%bool; discriminate.
      + intros [[[w r1] r2] z] Ie V S. unfold convert_entry in V. cbn [fst snd] in *. unfold cmp_convert in S. cbn [fst] in S. destruct (num_eqb E v w) eqn:Q; [|discriminate]. cbn [andb] in S.
        destruct (teqb s1 r1) eqn:Q1; [|discriminate]. destruct (teqb s2 r2) eqn:Q2; [|discriminate]. apply teqb_iff in Q1 as <-. apply teqb_iff in Q2 as <-. rewrite V.
        apply convert_raw_num. now rewrite (num_eqb_sym E uses unit_uses P).
      + intros r' o Cm. pose proof (convert_raw_indep (now_defs p) (now_id p) (reg E s) v s1 s2 IR Gt) as (A & B & G). rewrite Cm in A, B, G. cbn [fst snd] in *.
        split; [split; auto|]. split; [rewrite A; apply res_agree_refl|]. split; auto. intros z ->. unfold convert_entry. cbn [fst snd]. exact A.
    - (* get_base_units *)
      destruct (cached (cmp_arg E) (base_size Z) (base_raw E x) x (base_cache E s) (reg E s)) as [c [r out]] eqn:C. injection St as <- <-.
      assert (Uc : unit_current (now_id p) x) by (intros g u ->; apply (Hu g u); now left).
      assert (Kx : forall g u, x = AUnit E g u -> g = now_id p /\ knowsE (reg E s) u) by (intros g u ->; destruct (Hu g u) as (-> & K); [now left|]; split; auto; destruct (IK _ u K) as (_ & K2); now apply K2).
      assert (Gt : forall t, x = AStr E t -> good (now_defs p) t) by (intros t ->; apply Ht; now left).
      eapply cached_spec with (Q := fun _ => base_entry (now_defs p) (now_id p))
        (Good := fun _ o => right E unit_uses good (now_defs p) (now_id p) (Base_ E x) (RBase E o) /\ (forall g b v w, o = Ok (g, b, v, w) -> g = now_id p /\ forall r, knowsE r b))
        (Next := fun r => readsE (now_defs p) (now_id p) r /\ grown (reg E s) r) in C.
      + destruct C as ((Rr & Gr) & (Ro & Ku) & Cq). split; [exact Ro|]. constructor; cbn [reg next parse_cache convert_cache base_cache]; rewrite ?Nd, ?Ni; auto.
        * intros g u K. rewrite Nk in K. apply in_app_or in K as [K|K].
          -- destruct (IK g u K) as (L & M). split; auto. intros Q. eapply knows_grown; [exact Gr|auto].
          -- cbn [answer_units] in K. destruct out as [[[[g' b] y] w]|]; try contradiction. destruct K as [K|[]]. injection K as -> ->. destruct (Ku _ _ _ _ eq_refl) as (-> & ?). split; auto.
        * intros e Ie. destruct (IP e Ie) as (V & U & K). split; [|split]; auto. intros g u H. destruct (K g u H). split; auto. eapply knows_grown; eauto.
      + split; auto. apply grows_refl.
      + exact IB.
      + intros e Ie. destruct (IB e Ie) as (_ & U & _). now apply (cmp_arg_raises (now_id p)).
      + intros e Ie (V & U & K) S. apply cmp_arg_same in S. rewrite S. split; auto. intros g b v w H. injection H as H. rewrite H in K. exact K.
      + intros r' o Cm. pose proof (base_raw_indep (now_defs p) (now_id p) (reg E s) x IR Gt Kx) as (A & B & G & K). rewrite Cm in A, B, G, K. cbn [fst snd] in *.
        split; [split; auto|]. split; [split; auto|]. split; auto. intros v ->. split; [|split]; cbn [fst snd]; auto. destruct v as [[[g b] y] w]. eapply K; eauto.
    - (* change_definitions_file *)
      cbn [step] in St. destruct ch as [e|e|dir e|dir d]; cbn [change reg next cwd] in St; injection St as <- <-; (split; [reflexivity|]);
        cbn [in_force epoch] in Nd, Ni; rewrite ?Nat.add_0_r in Ni; constructor; cbn [reg next parse_cache convert_cache base_cache]; rewrite ?Nd, ?Ni; auto; try (intros z []);
        rewrite ?Nk; cbn [answer_units]; rewrite ?app_nil_r; auto.
      + apply reads_fresh || idtac. rewrite IN. replace (now_id p + 1) with (S (now_id p)) by lia. apply reads_fresh.
      + lia.
      + intros g u K. destruct (IK g u K) as (L & _). split; [lia|]. intros ->. lia.
  Qed.

  Lemma run_ok : forall ops p s l s', inv p s -> run E Z ops s = (l, s') ->
    (forall q o a f, l = q ++ (o, a) :: f -> fair_call E good d0 (p ++ q) o) ->
    forall q o a f, l = q ++ (o, a) :: f -> right E unit_uses good (now_defs (p ++ q)) (now_id (p ++ q)) o a.
  Proof.
    induction ops as [|o ops IH]; intros p s l s' I Rn F q o' a' f El; cbn [run] in Rn.
    - injection Rn as <- <-. destruct q; discriminate.
    - destruct (step E Z o s) as [s1 a] eqn:St. destruct (run E Z ops s1) as [l1 s2] eqn:R1. injection Rn as <- <-.
      assert (Fc : fair_call E good d0 p o) by (specialize (F [] o a l1 eq_refl); now rewrite app_nil_r in F).
      destruct (step_ok p s o s1 a I Fc St) as (Rt & I1). destruct q as [|[o2 a2] q]; cbn [app] in El.
      + injection El as <- <- <-. now rewrite app_nil_r.
      + injection El as <- <- El. replace (p ++ (o, a) :: q) with ((p ++ [(o, a)]) ++ q) by (now rewrite <- app_assoc).
        eapply IH; eauto. intros q' o3 a3 f3 E3. replace ((p ++ [(o, a)]) ++ q') with (p ++ (o, a) :: q') by (now rewrite <- app_assoc). eapply F. cbn [app]. now rewrite E3.
  Qed.
  Lemma inv_start : forall dir, inv [] (start E d0 dir).
  Proof. intros dir. constructor; cbn; auto; try (intros z []); [apply reads_fresh|]. intros g u []. Qed.
  Theorem cached_right : forall ops dir, let l := fst (run E Z ops (start E d0 dir)) in fair E good d0 l -> all_right E unit_uses good d0 l.
  Proof.
    intros ops dir l F p o a f El. destruct (run E Z ops (start E d0 dir)) as [l' s'] eqn:R. cbn [fst] in *. subst l.
    apply (run_ok ops [] _ l' s' (inv_start dir) R) with (q := p) (f := f); auto.
  Qed.
End Proofs.
