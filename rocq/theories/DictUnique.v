(** What the rules of C55 say is unique. *)
From Coq Require Import String List Bool ZArith QArith Qabs Qpower Lia Lqa.
From Verif Require Import Base BaseFacts PyStr BoundsModel BoundsProofs ValuesModel ValuesSpec ValuesProofs TextSpec TextProofs DictModel DictSpec DictFloat DictProofs DictFullSpec DictRound DictFullProofs.
Import ListNotations.
Open Scope Z_scope.

Lemma odd_not_even : forall n k, Z.even n = false -> 2 ^ 52 < n -> 0 <= k -> ~ even_float (inject_Z (n * 2 ^ k)).
Proof.
  intros n k N L K (m & e & M & Q).
  assert (P : forall j, 0 <= j -> (inject_Z (n * 2 ^ k) * inject_Z (2 ^ j) == inject_Z m * Qpower 2 (e + j))%Q).
  { intros j J. rewrite Q, <- Qmult_assoc. apply Qmult_comp; [reflexivity|]. rewrite (Zpower_Qpower 2 j) by lia. symmetry. apply (Qpower_plus 2). discriminate. }
  destruct (Z.le_gt_cases e k) as [E|E].
  - set (j := Z.max 0 (- e)). assert (J : 0 <= j) by lia. assert (EJ : 0 <= e + j) by lia. specialize (P j J). rewrite <- (Zpower_Qpower 2 (e + j)) in P by lia. rewrite <- !inject_Z_mult in P. apply (proj1 (inject_Z_injective _ _)) in P.
    rewrite <- Z.mul_assoc, <- Z.pow_add_r in P by lia. replace (k + j) with ((k - e) + (e + j)) in P by lia. rewrite Z.pow_add_r, Z.mul_assoc in P by lia.
    apply Z.mul_reg_r in P; [|apply Z.pow_nonzero; lia]. pose proof (pow2_pos (k - e)). nia.
  - specialize (P 0 (Z.le_refl 0)). rewrite Z.add_0_r in P. rewrite <- (Zpower_Qpower 2 e) in P by lia. rewrite <- !inject_Z_mult in P. apply (proj1 (inject_Z_injective _ _)) in P.
    rewrite Z.mul_1_r in P. replace e with (((e - k - 1) + 1) + k) in P by lia. rewrite Z.pow_add_r, Z.mul_assoc in P by lia. apply Z.mul_reg_r in P; [|apply Z.pow_nonzero; lia].
    rewrite P, Z.pow_add_r, Z.even_mul, Z.even_mul in N by lia. change (Z.even (2 ^ 1)) with true in N. rewrite !orb_true_r in N. discriminate.
Qed.
Lemma tie_odd : forall a k q, 2 ^ 53 <= a -> k = Z.log2 a - 52 -> is_float q -> ~ (q == inject_Z (near a k * 2 ^ k))%Q ->
  (Qabs (inject_Z a - q) == Qabs (inject_Z a - inject_Z (near a k * 2 ^ k)))%Q -> exists n, Z.even n = false /\ 2 ^ 52 < n /\ (q == inject_Z (n * 2 ^ k))%Q.
Proof.
  intros a k p A K F N Q. pose proof (between_grid a k p A K F) as G. pose proof (k_pos a k A K). pose proof (down_range a k A K) as D. destruct (split_a a k A K) as [S R].
  pose proof (pow2_pos (k - 1)) as H0. assert (P2 : 2 ^ k = 2 * 2 ^ (k - 1)) by (replace k with (1 + (k - 1)) at 1 by lia; now rewrite Z.pow_add_r by lia).
  unfold near in *. set (h := 2 ^ (k - 1)) in *. set (d := down a k) in *. set (r := rest a k) in *.
  assert (Dd : (inject_Z a == inject_Z (d * 2 ^ k) + inject_Z r)%Q) by (rewrite <- inject_Z_plus; now rewrite S at 1).
  assert (Du : (inject_Z ((d + 1) * 2 ^ k) == inject_Z (d * 2 ^ k) + inject_Z (2 ^ k))%Q) by (rewrite <- inject_Z_plus; apply inject_Z_injective; ring).
  assert (Hk : (inject_Z (2 ^ k) == 2 * inject_Z h)%Q) by (rewrite P2, inject_Z_mult; reflexivity).
  assert (R0 : (0 <= inject_Z r)%Q) by (change 0%Q with (inject_Z 0); rewrite <- Zle_Qle; lia).
  assert (R1 : (inject_Z r < 2 * inject_Z h)%Q) by (rewrite <- Hk, <- Zlt_Qlt; lia).
  destruct ((r <? h) || ((r =? h) && Z.even d)) eqn:C.
  - assert (L : r <= h). { apply orb_true_iff in C as [C|C]; [apply Z.ltb_lt in C; lia|]. apply andb_true_iff in C as [C _]. apply Z.eqb_eq in C. lia. }
    assert (LQ : (inject_Z r <= inject_Z h)%Q) by now rewrite <- Zle_Qle.
    assert (X : (Qabs (inject_Z a - inject_Z (d * 2 ^ k)) == inject_Z r)%Q) by (rewrite Qabs_pos by lra; lra).
    rewrite X in Q. destruct G as [G|G].
    + exfalso. apply N. rewrite Qabs_pos in Q by lra. lra.
    + rewrite Qabs_neg in Q by lra. assert (E : (inject_Z r == inject_Z h)%Q) by lra. apply (proj1 (inject_Z_injective _ _)) in E.
      exists (d + 1). rewrite E, Z.ltb_irrefl, Z.eqb_refl in C. cbn in C. split; [now rewrite Z.even_add, C|]. split; [lia|]. rewrite E in *. lra.
  - apply orb_false_iff in C as [C1 C2]. apply Z.ltb_ge in C1.
    assert (LQ : (inject_Z h <= inject_Z r)%Q) by now rewrite <- Zle_Qle.
    assert (X : (Qabs (inject_Z a - inject_Z ((d + 1) * 2 ^ k)) == 2 * inject_Z h - inject_Z r)%Q) by (rewrite Qabs_neg by lra; lra).
    rewrite X in Q. destruct G as [G|G].
    + rewrite Qabs_pos in Q by lra. assert (E : (inject_Z r == inject_Z h)%Q) by lra. apply (proj1 (inject_Z_injective _ _)) in E.
      exists d. rewrite E, Z.eqb_refl in C2. cbn [andb] in C2. split; auto. split; [|rewrite E in *; lra].
      assert (d <> 2 ^ 52) by (intros X'; rewrite X' in C2; discriminate). lia.
    + exfalso. apply N. rewrite Qabs_neg in Q by lra. lra.
Qed.
Lemma round_unique : forall z q, Z.abs (round53 z) < 2 ^ 1024 -> rounds_to z q -> (q == inject_Z (round53 z))%Q.
Proof.
  intros z q B [F H]. destruct (Qeq_dec q (inject_Z (round53 z))) as [E|E]; auto. exfalso.
  pose proof (round53_rounds z B) as [F' H']. specialize (H' q F E). assert (E' : ~ (inject_Z (round53 z) == q)%Q) by (intros X; apply E; now symmetry). specialize (H _ F' E').
  destruct H' as [H'|[H' _]]; destruct H as [H|[H EV]]; try lra. clear F' E' B. rewrite round53_eq in *.
  destruct (Z.ltb_spec (Z.abs z) (2 ^ 53)) as [L|L].
  - rewrite (Qabs_wd (inject_Z z - inject_Z z) 0) in H' by ring. change (Qabs 0) with 0%Q in H'. apply E.
    assert (X : (Qabs (inject_Z z - q) <= 0)%Q) by lra. apply Qabs_Qle_condition in X. lra.
  - set (k := Z.log2 (Z.abs z) - 52) in *. destruct (Z.lt_trichotomy z 0) as [S|[->|S]]; [|cbn in L; lia|].
    + rewrite Z.sgn_neg in * by auto. replace (-1 * (near (Z.abs z) k * 2 ^ k)) with (- (near (Z.abs z) k * 2 ^ k)) in * by ring. rewrite inject_Z_opp in *.
      destruct (tie_odd (Z.abs z) k (- q) L eq_refl) as (n & N & G & Q).
      * now apply is_float_opp.
      * intros X. apply E. rewrite <- X. ring.
      * rewrite Z.abs_neq, inject_Z_opp by lia. rewrite <- (Qabs_opp (- inject_Z z - - q)), <- (Qabs_opp (- inject_Z z - _)).
        rewrite (Qabs_wd (- (- inject_Z z - - q)) (inject_Z z - q)) by ring. rewrite H. apply Qabs_wd. rewrite Z.abs_neq by lia. ring.
      * apply even_float_opp in EV. destruct EV as (m & e & M & X). apply (odd_not_even n k N G); [pose proof (k_pos (Z.abs z) k L eq_refl); lia|]. exists m, e. split; auto. now rewrite <- Q.
    + rewrite Z.sgn_pos, Z.mul_1_l in * by auto. revert H' H E L. unfold k. rewrite (Z.abs_eq z) by lia. intros H' H E L.
      destruct (tie_odd z _ q L eq_refl F E H) as (n & N & G & Q). destruct EV as (m & e & M & X). apply (odd_not_even n (Z.log2 z - 52) N G); [pose proof (k_pos z _ L eq_refl); lia|]. exists m, e. split; auto. now rewrite <- Q.
Qed.

Open Scope string_scope.
Open Scope list_scope.
Definition agree (st : option dv) (e : option exn) (st' : option dv) (e' : option exn) : Prop :=
  e = e' /\ match st, st' with Some w, Some w' => same_stored w w' | None, None => True | _, _ => False end.
Lemma agree_refl : forall st e, agree st e st e.
Proof. intros [w|] e; split; auto. now left. Qed.
Lemma agree_none : forall e, agree None e None e.
Proof. intros e. split; auto. Qed.
Lemma agree_same : forall v w e, v = w -> agree (Some v) e (Some w) e.
Proof. intros v w e ->. apply agree_refl. Qed.

Section Unique.
  Variable units : string -> res string.
  Variable check : dv -> dv -> option exn.
  Notation does := (does units check).

  Lemma float_unique : forall v w w', ~ overflows v -> as_float_of v w -> as_float_of v w' -> agree (Some w) None (Some w') None.
  Proof.
    intros v w w' N [(f & -> & ->)|(z & p & -> & -> & P)] [(f' & E & ->)|(z' & q & E & -> & Q)]; try discriminate; [apply agree_refl|]. injection E as <-.
    assert (B : (Z.abs (round53 z) < 2 ^ 1024)%Z). { apply round53_large. apply Z.nle_gt. intros L. apply N. exists z. auto. }
    split; auto. right. left. exists p, q. repeat split; auto. rewrite (round_unique z p), (round_unique z q); auto. reflexivity.
  Qed.
  Ltac known :=
    repeat match goal with
    | H : special _ |- _ => destruct H as [H|[H|H]]
    | H : overflows _ |- _ => destruct H as (?z & H & ?L)
    | H : number _ |- _ => destruct H as [[?z H]|[?f H]]
    | H : finite _ _ |- _ => destruct H as [H|(?z & H & ?E)]
    | H : textual _ |- _ => destruct H as [?s H]
    | H : text _ _ |- _ => destruct H as [H|H]
    | H : sequence _ _ |- _ => destruct H as [H|H]
    | H : instance _ _ |- _ => destruct H as [?s H]
    | H : _ \/ _ |- _ => destruct H as [H|H]
    | H : _ /\ _ |- _ => destruct H as [H ?H]
    end; subst; try discriminate; try congruence.
  Ltac out :=
    exfalso; match goal with
    | H : ~ number _ |- _ => apply H; unfold number; eauto; fail
    | H : ~ overflows _ |- _ => apply H; unfold overflows; eauto; fail
    | H : ~ textual _ |- _ => apply H; unfold textual, text; eauto; fail
    | H : ~ instance _ _ |- _ => apply H; unfold instance; eauto; fail
    | H : forall l, ~ sequence _ l |- _ => eapply H; unfold sequence; eauto; fail
    | H : forall l, _ <> _ |- _ => eapply H; reflexivity
    | H : ~ ?P, H' : ?P |- _ => exact (H H')
    | H : unhashable ?v |- _ => inversion H; fail
    end.
  Ltac quick := try apply agree_refl; try apply agree_none; try (known; fail); try (known; out; fail).

  Lemma crosses_fun : forall b read v p q, finite v p -> finite v q -> ~ crosses b read p -> crosses b read q -> False.
  Proof. intros b read v p q P Q N C. rewrite (finite_fun _ _ _ P Q) in N. contradiction. Qed.
  Lemma real_fun : forall b read v st e st' e', does (AReal b) read v st e -> does (AReal b) read v st' e' -> agree st e st' e'.
  Proof.
    intros b read v st e st' e' H1 H2. inversion H1; subst; inversion H2; subst; quick.
    all: try (match goal with P : finite ?v ?p, Q : finite ?v ?q, N : ~ crosses ?b ?r ?p, C : crosses ?b ?r ?q |- _ => exact (False_ind _ (crosses_fun b r v p q P Q N C)) end). eapply float_unique; eauto.
  Qed.
  Lemma whole_eq : forall v p q y z, finite v p -> finite v q -> p == inject_Z y -> q == inject_Z z -> y = z.
  Proof. intros v p q y z P Q Y Z'. rewrite (finite_fun _ _ _ P Q) in Y. rewrite Y in Z'. now apply (proj1 (inject_Z_injective _ _)) in Z'. Qed.
  Lemma overflow_float : forall v q z, overflows v -> finite v q -> q == inject_Z z -> is_float (inject_Z z) -> False.
  Proof.
    intros v q z (y & -> & L) F E I. apply finite_int in F. subst q. apply (proj1 (inject_Z_injective _ _)) in E. subst y. apply float_exact_int in I. destruct I as [X B].
    apply (exact_gap z X) in B. apply (Z.lt_irrefl (Z.abs z)). eapply Z.lt_le_trans; eauto.
  Qed.
  Lemma broken_whole : forall v p q z, finite v p -> finite v q -> (forall z, is_float (inject_Z z) -> ~ p == inject_Z z) -> q == inject_Z z -> is_float (inject_Z z) -> False.
  Proof. intros v p q z P Q N E I. rewrite (finite_fun _ _ _ P Q) in N. eapply N; eauto. Qed.
  Lemma whole_fun : forall b read v st e st' e', does (AWhole b) read v st e -> does (AWhole b) read v st' e' -> agree st e st' e'.
  Proof.
    intros b read v st e st' e' H1 H2. inversion H1; subst; inversion H2; subst; quick.
    all: try (match goal with O : overflows ?v, Q : finite ?v ?q, E : ?q == inject_Z ?z, I : is_float (inject_Z ?z) |- _ => exact (False_ind _ (overflow_float v q z O Q E I)) end). all: try (match goal with P : finite ?v ?p, Q : finite ?v ?q, N : (forall z, _ -> ~ ?p == _), E : ?q == inject_Z ?z, I : is_float (inject_Z ?z) |- _ => exact (False_ind _ (broken_whole v p q z P Q N E I)) end). all: try (match goal with P : finite ?v ?p, Q : finite ?v ?q, N : ~ crosses ?b ?r ?p, C : crosses ?b ?r ?q |- _ => exact (False_ind _ (crosses_fun b r v p q P Q N C)) end).
    apply agree_same. f_equal. match goal with P : finite ?v ?p, Q : finite ?v ?q, A : ?p == inject_Z ?y, B : ?q == inject_Z ?z |- ?y = ?z => exact (whole_eq v p q y z P Q A B) end.
  Qed.
  Lemma integer_fun : forall read v st e st' e', does AnInteger read v st e -> does AnInteger read v st' e' -> agree st e st' e'.
  Proof.
    intros read v st e st' e' H1 H2. inversion H1; subst; inversion H2; subst; quick.
    all: try (exfalso; match goal with P : finite ?v ?p, Q : finite ?v ?q, N : forall z, ~ ?p == _, E : ?q == inject_Z ?z |- _ => apply (N z); rewrite (finite_fun _ _ _ P Q); exact E end).
    apply agree_same. f_equal. match goal with P : finite ?v ?p, Q : finite ?v ?q, A : ?p == inject_Z ?y, B : ?q == inject_Z ?z |- ?y = ?z => exact (whole_eq v p q y z P Q A B) end.
  Qed.
  Lemma agree_int : forall z z' e e', agree (Some (DInt z)) e (Some (DInt z')) e' -> z = z'.
  Proof. intros z z' e e' [_ [H|[(p & q & H & _)|(d & d' & H & _)]]]; congruence. Qed.
  Lemma range_fun : forall b read v st e st' e', does (ARange b) read v st e -> does (ARange b) read v st' e' -> agree st e st' e'.
  Proof.
    intros b read v st e st' e' H1 H2. inversion H1; subst; inversion H2; subst; try apply agree_none;
    match goal with A : does AnInteger read v _ _, B : does AnInteger read v _ _ |- _ => pose proof (integer_fun _ _ _ _ _ _ A B) as X end; try (destruct X as [X1 X2]; cbn in X2; congruence || contradiction).
    all: try (destruct X as [X1 _]; rewrite X1; apply agree_none). all: apply agree_int in X; subst; try contradiction. apply agree_refl.
  Qed.
  Lemma number_fun : forall read v st e st' e', does ANumber read v st e -> does ANumber read v st' e' -> agree st e st' e'.
  Proof.
    intros read v st e st' e' H1 H2. inversion H1; subst; inversion H2; subst; quick. eapply float_unique; eauto.
  Qed.
  Lemma unit_fun : forall read v st e st' e', does AUnit read v st e -> does AUnit read v st' e' -> agree st e st' e'.
  Proof.
    intros read v st e st' e' H1 H2. inversion H1; subst; inversion H2; subst; quick.
    all: known. all: try (match goal with A : units ?s = _, B : units ?t = _ |- _ => assert (s = t) by congruence; subst; rewrite A in B; injection B as <- end); apply agree_refl.
  Qed.
  Lemma sequence_fun : forall v l l', sequence v l -> sequence v l' -> l = l'.
  Proof. intros v l l' [->| ->] [H|H]; congruence. Qed.
  Lemma text_fun : forall v s t, text v s -> text v t -> s = t.
  Proof. intros v s t [->| ->] [H|H]; congruence. Qed.
  Lemma texts_source : forall v l l', (sequence v l /\ Forall (fun x => ~ unhashable x) l) \/ v = DSet l -> (sequence v l' /\ Forall (fun x => ~ unhashable x) l') \/ v = DSet l' -> l = l'.
  Proof. intros v l l' [[H _]|H] [[K _]|K]; [eapply sequence_fun; eauto| | |congruence]; known. Qed.
  Lemma texts_fun : forall read v st e st' e', does Texts read v st e -> does Texts read v st' e' -> agree st e st' e'.
  Proof.
    intros read v st e st' e' H1 H2. inversion H1; subst; inversion H2; subst; quick.
    all: try (match goal with A : _ \/ ?v = DSet ?l, B : _ \/ ?v = DSet ?l' |- _ => assert (l = l') by (exact (texts_source v l l' A B)); subst end).
    all: try apply agree_refl.
    all: try (exfalso; match goal with F : Forall textual ?l, I : In ?x ?l, N : ~ textual ?x |- _ => apply N; rewrite Forall_forall in F; auto end).
    all: try (exfalso; match goal with A : sequence ?v ?l, B : (sequence ?v ?l' /\ _) \/ _, I : In ?x ?l, U : unhashable ?x |- _ =>
      destruct B as [[B F]|B]; [assert (l = l') by (exact (sequence_fun v l l' A B)); subst; rewrite Forall_forall in F; exact (F x I U)|subst; destruct A; discriminate] end).
  Qed.
  Lemma text_rule_fun : forall read v st e st' e', does AText read v st e -> does AText read v st' e' -> agree st e st' e'.
  Proof. intros read v st e st' e' H1 H2. inversion H1; subst; inversion H2; subst; quick. Qed.
  Lemma nums_fun : forall (l : list (dv * dv)) xs ys, Forall2 (fun p x => num (snd p) = Some x) l xs -> Forall2 (fun p x => num (snd p) = Some x) l ys -> xs = ys.
  Proof. intros l xs ys F. revert ys. induction F as [|p x l xs P F IH]; intros ys G; inversion G as [|? y ? ys' Q G']; subst; auto. f_equal; [congruence|auto]. Qed.
  Lemma nums_in : forall (l : list (dv * dv)) xs p, Forall2 (fun p x => num (snd p) = Some x) l xs -> In p l -> number (snd p).
  Proof. intros l xs p F. induction F as [|q x l xs P F IH]; intros I; [contradiction|]. destruct I as [<-|I]; auto. apply number_iff. congruence. Qed.
  Lemma prob_fun : forall read v st e st' e', does Probabilities read v st e -> does Probabilities read v st' e' -> agree st e st' e'.
  Proof.
    intros read v st e st' e' H1 H2. inversion H1; subst; inversion H2; subst; quick.
    all: try (exfalso; match goal with F : Forall2 _ ?l _, I : In ?p ?l, N : ~ number (snd ?p) |- _ => exact (N (nums_in l _ p F I)) end).
    all: try (exfalso; match goal with F : Forall (fun p => textual (fst p)) ?l, I : In ?p ?l, N : ~ textual (fst ?p) |- _ => apply N; rewrite Forall_forall in F; auto end).
    all: match goal with A : Forall2 _ ?l ?xs, B : Forall2 _ ?l ?ys |- _ => assert (xs = ys) by (exact (nums_fun l xs ys A B)); subst end.
    all: match goal with A : sum_is ?xs ?s, B : sum_is ?xs ?t |- _ => pose proof (sum_fun xs s t A B); tauto end.
  Qed.
  Lemma item_fun : forall v r r', item v r -> item v r' -> r = r'.
  Proof.
    intros v r r' H1 H2. inversion H1; subst; inversion H2; subst; try reflexivity; try (known; fail); try (exfalso; known; out; fail).
    all: try (match goal with A : sequence ?v ?l, B : sequence ?v ?l' |- _ => pose proof (sequence_fun v l l' A B) as E; try (injection E as -> ->); try (subst; cbn in *; congruence) end).
    all: try reflexivity; try contradiction; try (cbn in *; congruence).
  Qed.
  Lemma items_fun : forall l ps qs, Forall2 (fun v p => item v (Ok p)) l ps -> Forall2 (fun v p => item v (Ok p)) l qs -> ps = qs.
  Proof.
    intros l ps qs F. revert qs. induction F as [|p x l xs P F IH]; intros ys G; inversion G as [|? y ? ys' Q G']; subst; auto. f_equal; [|auto]. pose proof (item_fun _ _ _ P Q). congruence.
  Qed.
  Lemma items_stop : forall l ps l1 v l2 qs e, Forall2 (fun v p => item v (Ok p)) l ps -> l = l1 ++ v :: l2 -> Forall2 (fun v p => item v (Ok p)) l1 qs -> item v (Err e) -> False.
  Proof.
    intros l ps l1 v l2 qs e F E G I. subst l. apply Forall2_app_inv_l in F. destruct F as (a & b & _ & F & _). inversion F as [|? p ? ? P]; subst. pose proof (item_fun _ _ _ P I). discriminate.
  Qed.
  Lemma first_item : forall l1 v l2 m1 w m2 ps qs e e', l1 ++ v :: l2 = m1 ++ w :: m2 -> Forall2 (fun v p => item v (Ok p)) l1 ps -> Forall2 (fun v p => item v (Ok p)) m1 qs ->
    item v (Err e) -> item w (Err e') -> e = e'.
  Proof.
    induction l1 as [|x l1 IH]; intros v l2 m1 w m2 ps qs e e' E F G I J; destruct m1 as [|y m1]; cbn [app] in E; injection E as E1 E2; subst.
    - pose proof (item_fun _ _ _ I J). congruence.
    - inversion G as [|? p ? ? P]; subst. pose proof (item_fun _ _ _ P I). discriminate.
    - inversion F as [|? p ? ? P]; subst. pose proof (item_fun _ _ _ P J). discriminate.
    - inversion F as [|? p ? ? P F']; subst. inversion G as [|? q ? ? Q G']; subst. exact (IH _ _ _ _ _ _ _ _ _ E2 F' G' I J).
  Qed.
  Lemma quant_fun : forall read v st e st' e', does Quantities read v st e -> does Quantities read v st' e' -> agree st e st' e'.
  Proof.
    intros read v st e st' e' H1 H2. inversion H1; subst; inversion H2; subst; quick.
    - split; auto. right. right. exists d, d0. repeat split; auto;
      (assert (ps0 = ps) by (eapply items_fun; eauto); subst ps0; match goal with A : table_of ps d, B : table_of ps d0 |- _ => rewrite (A p), (B p) || (intros; apply B, A) end; auto).
    - exfalso. match goal with A : Forall2 _ (?a ++ ?x :: ?b) ?ps, B : Forall2 _ ?a ?qs, I : item ?x (Err ?e) |- _ => exact (items_stop _ ps a x b qs e A eq_refl B I) end.
    - exfalso. match goal with A : Forall2 _ (?a ++ ?x :: ?b) ?ps, B : Forall2 _ ?a ?qs, I : item ?x (Err ?e) |- _ => exact (items_stop _ ps a x b qs e A eq_refl B I) end.
    - match goal with |- agree None (Some ?a) None (Some ?b) => assert (a = b) end; [|subst; apply agree_none]. match goal with E : _ ++ _ :: _ = _ ++ _ :: _ |- _ => first [eapply first_item; [exact E|eassumption..]|eapply first_item; [symmetry; exact E|eassumption..]] end.
  Qed.
  Lemma formula_fun : forall read v st e st' e', does AFormula read v st e -> does AFormula read v st' e' -> agree st e st' e'.
  Proof.
    intros read v st e st' e' H1 H2. inversion H1; subst; inversion H2; subst; quick.
    all: exfalso; match goal with A : text ?v ?s, B : text ?v ?t |- _ => assert (s = t) by (exact (text_fun v s t A B)); subst end; auto.
  Qed.
  Lemma inchi_fun : forall read v st e st' e', does AnInChI read v st e -> does AnInChI read v st' e' -> agree st e st' e'.
  Proof.
    intros read v st e st' e' H1 H2. inversion H1; subst; inversion H2; subst; quick.
    all: match goal with A : text ?v ?s, B : text ?v ?t |- _ => assert (s = t) by (exact (text_fun v s t A B)); subst end.
    all: try (exfalso; match goal with H : forall r, _ <> _ |- _ => eapply H; reflexivity end).
    match goal with A : inchi_of _ _, B : inchi_of _ _ |- _ => apply inchi_exactly in A, B; subst end. apply agree_refl.
  Qed.
  Lemma value_not_none : ~ a_value DNone.
  Proof. intros (c & _ & s & H). discriminate. Qed.
  Lemma value_fun : forall read v st e st' e', does AValue read v st e -> does AValue read v st' e' -> agree st e st' e'.
  Proof.
    intros read v st e st' e' H1 H2. inversion H1; subst; inversion H2; subst; quick. all: try (exfalso; apply value_not_none; assumption). all: known.
    match goal with A : check _ _ = _, B : check _ _ = _ |- _ => rewrite A in B; injection B as <- end. apply agree_refl.
  Qed.
  Lemma template_fun : forall k read v st e st' e', does (ATemplate k) read v st e -> does (ATemplate k) read v st' e' -> agree st e st' e'.
  Proof.
    intros k read v st e st' e' H1 H2. inversion H1; subst; inversion H2; subst; quick. all: known.
    match goal with A : check _ _ = _, B : check _ _ = _ |- _ => rewrite A in B; injection B as <- end. apply agree_refl.
  Qed.
  Lemma reads_one : forall s o o', In o ["measured"; "predicted"; "summary"; "specified"; "computed"; "unknown"] -> In o' ["measured"; "predicted"; "summary"; "specified"; "computed"; "unknown"] ->
    ValuesSpec.reads s o -> ValuesSpec.reads s o' -> o = o'.
  Proof.
    intros s o o' I J R R'.
    assert (T : forall o, In o ["measured"; "predicted"; "summary"; "specified"; "computed"; "unknown"] -> trimmed o).
    { intros x X. assert (E : strip x = x) by (cbn in X; repeat (destruct X as [<-|X]; [reflexivity|]); contradiction). destruct (strip_split x) as (a & b & _ & _ & _ & TT). now rewrite E in TT. }
    apply reads_iff in R; [|auto]. apply reads_iff in R'; [|auto]. assert (E : lower o = lower o') by congruence.
    cbn in I, J. repeat (destruct I as [<-|I]); try contradiction; repeat (destruct J as [<-|J]); try contradiction; try reflexivity; discriminate E.
  Qed.
  Lemma origin_fun : forall read v st e st' e', does AnOrigin read v st e -> does AnOrigin read v st' e' -> agree st e st' e'.
  Proof.
    intros read v st e st' e' H1 H2. inversion H1; subst; inversion H2; subst; quick.
    all: match goal with A : text ?v ?s, B : text ?v ?t |- _ => assert (s = t) by (exact (text_fun v s t A B)); subst end.
    - apply agree_same. f_equal. eapply reads_one; eauto.
    - exfalso. match goal with N : (forall o, _ -> ~ _), I : In ?o _, R : ValuesSpec.reads _ ?o |- _ => exact (N o I R) end.
    - exfalso. match goal with N : (forall o, _ -> ~ _), I : In ?o _, R : ValuesSpec.reads _ ?o |- _ => exact (N o I R) end.
  Qed.
  Lemma listed_fun : forall v l l', listed v l -> listed v l' -> l = l'.
  Proof. intros v l l' H1 H2. inversion H1; subst; inversion H2; subst; try reflexivity; try (known; fail); try (known; out; fail). Qed.
  Lemma list_fun : forall c read v st e st' e', does (ListOf c) read v st e -> does (ListOf c) read v st' e' -> agree st e st' e'.
  Proof.
    intros c read v st e st' e' H1 H2. inversion H1; subst; inversion H2; subst; quick.
    all: match goal with A : listed ?v ?s, B : listed ?v ?t |- _ => assert (s = t) by (exact (listed_fun v s t A B)); subst end; try apply agree_refl.
    all: exfalso; match goal with F : Forall (instance _) ?l, I : In ?p ?l, N : ~ instance _ ?p |- _ => apply N; rewrite Forall_forall in F; auto end.
  Qed.
  Theorem does_fun : forall r read v st e st' e', does r read v st e -> does r read v st' e' -> agree st e st' e'.
  Proof.
    intros [] read v st e st' e' H1 H2; eauto using real_fun, whole_fun, integer_fun, range_fun, number_fun, unit_fun, texts_fun, text_rule_fun, prob_fun, quant_fun, formula_fun, inchi_fun, value_fun, template_fun, origin_fun, list_fun.
    - inversion H1; subst; inversion H2; subst; quick.
    - inversion H1; subst; inversion H2; subst; quick.
    - inversion H1; subst; inversion H2; subst; quick.
  Qed.
End Unique.
