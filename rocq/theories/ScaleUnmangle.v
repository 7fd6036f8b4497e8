(** Turning internal names back into text: it ends, it leaves none, and it shows the numbers. *)
From Coq Require Import String Ascii List Bool Arith Lia.
From Verif Require Import Base PyStr ScaleModel ScaleSpec.
Import ListNotations.
Open Scope list_scope.

Lemma teqb_refl : forall x, teqb x x = true.
Proof. induction x as [|a x IH]; cbn; auto. now rewrite Ascii.eqb_refl. Qed.
Lemma teqb_eq : forall x y, teqb x y = true -> x = y.
Proof.
  induction x as [|a x IH]; intros [|b y] H; cbn in H; try discriminate; auto.
  apply andb_true_iff in H as (A & B). apply Ascii.eqb_eq in A. subst. f_equal. auto.
Qed.

Lemma starts_app : forall p s, starts p (p ++ s) = true.
Proof. induction p as [|a p IH]; intros s; cbn [starts app]; auto. rewrite Ascii.eqb_refl. apply IH. Qed.
Lemma starts_split : forall p s, starts p s = true -> exists r, s = p ++ r.
Proof.
  induction p as [|a p IH]; intros s H; cbn; eauto. destruct s as [|b s]; cbn in H; [discriminate|].
  apply andb_true_iff in H as (A & B). apply Ascii.eqb_eq in A. subst. destruct (IH _ B) as (r & ->). eauto.
Qed.

(** *** Spans *)
Lemma span_spec : forall f s a b, span f s = (a, b) ->
  s = a ++ b /\ Forall (fun c => f c = true) a /\ match b with c :: _ => f c = false | [] => True end.
Proof.
  induction s as [|c s IH]; intros a b H; cbn in H.
  - injection H as <- <-. auto.
  - destruct (f c) eqn:F; [|injection H as <- <-; auto].
    destruct (span f s) as [a' b'] eqn:E. injection H as <- <-. destruct (IH _ _ eq_refl) as (-> & A & B). repeat split; auto.
Qed.
Lemma span_app : forall f a b, Forall (fun c => f c = true) a -> match b with c :: _ => f c = false | [] => True end -> span f (a ++ b) = (a, b).
Proof.
  induction a as [|c a IH]; intros b A B; cbn.
  - destruct b as [|c b]; auto. cbn. now rewrite B.
  - inversion A; subst. rewrite H1. now rewrite IH.
Qed.

Lemma digit_word : forall c, is_digit c = true -> is_word c = true.
Proof. intros c H. unfold is_word. rewrite H. now rewrite orb_true_r. Qed.
Lemma alpha_word : forall c, is_alpha c = true -> is_word c = true.
Proof. intros c H. unfold is_word. now rewrite H. Qed.
Lemma us_word : is_word us = true. Proof. reflexivity. Qed.
Lemma word_not : forall c d, is_word c = false -> is_word d = true -> Ascii.eqb c d = false.
Proof. intros c d C D. apply Ascii.eqb_neq. intros ->. congruence. Qed.
Lemma nonword_digit : forall c, is_word c = false -> is_digit c = false.
Proof. intros c H. destruct (is_digit c) eqn:E; auto. apply digit_word in E. congruence. Qed.
Lemma nonword_alpha : forall c, is_word c = false -> is_alpha c = false.
Proof. intros c H. destruct (is_alpha c) eqn:E; auto. apply alpha_word in E. congruence. Qed.
Lemma is_e_alpha : forall c, is_e c = true -> is_alpha c = true.
Proof. intros c H. unfold is_e in H. apply orb_true_iff in H as [H|H]; apply Ascii.eqb_eq in H; subst; reflexivity. Qed.
Lemma nonword_e : forall c, is_word c = false -> is_e c = false.
Proof. intros c H. destruct (is_e c) eqn:E; auto. apply is_e_alpha, alpha_word in E. congruence. Qed.
Lemma digit_not_us : forall c, is_digit c = true -> Ascii.eqb c us = false.
Proof. intros c H. apply Ascii.eqb_neq. intros ->. discriminate. Qed.
Lemma digit_not_e : forall c, is_digit c = true -> is_e c = false.
Proof. intros c H. destruct (is_e c) eqn:E; auto. unfold is_e in E. apply orb_true_iff in E as [E|E]; apply Ascii.eqb_eq in E; subst; discriminate. Qed.
Lemma digit_not_alpha : forall c, is_digit c = true -> is_alpha c = false.
Proof.
  intros c H. unfold is_digit, is_alpha, is_upper, is_lower, in_range in *. apply andb_true_iff in H as (A & B).
  apply Nat.leb_le in A, B. cbn in A, B. apply orb_false_iff. split; apply andb_false_iff; left; apply Nat.leb_gt; cbn; lia.
Qed.

(** *** The pattern looks no further than the end of a word *)
Section Local.
  Context (c : ascii) (y : text) (C : is_word c = false).

  Lemma digits_local : forall s, digits_at (s ++ c :: y) = match digits_at s with Some (d, r) => Some (d, r ++ c :: y) | None => None end.
  Proof.
    intros s. unfold digits_at. destruct (span is_digit s) as [a b] eqn:E. apply span_spec in E as (-> & A & B).
    rewrite <- app_assoc. rewrite span_app; auto.
    - destruct a; auto.
    - destruct b as [|b0 b]; cbn; auto. now apply nonword_digit.
  Qed.

  Lemma frac_local : forall s, match_frac (s ++ c :: y) = let '(m, p, r) := match_frac s in (m, p, r ++ c :: y).
  Proof.
    intros [|a s]; cbn [match_frac app].
    - rewrite word_not; auto.
    - destruct (Ascii.eqb a us); auto. rewrite digits_local. destruct (digits_at s) as [[d r]|]; auto.
  Qed.
  Lemma exp_local : forall s, match_exp (s ++ c :: y) = let '(m, p, r) := match_exp s in (m, p, r ++ c :: y).
  Proof.
    intros [|a s]; cbn [match_exp app].
    - rewrite (nonword_e c); auto.
    - destruct (is_e a); auto. destruct s as [|b s]; cbn [app].
      + rewrite word_not; auto. unfold digits_at. cbn. now rewrite (nonword_digit c).
      + destruct (Ascii.eqb b us).
        * rewrite digits_local. destruct (digits_at s) as [[d r]|]; auto.
        * change (b :: s ++ c :: y) with ((b :: s) ++ c :: y). rewrite digits_local. destruct (digits_at (b :: s)) as [[d r]|]; auto.
  Qed.
  Lemma tail_local : forall s, match_tail (s ++ c :: y) = let '(m, p, r) := match_tail s in (m, p, r ++ c :: y).
  Proof.
    intros [|a [|b s]]; cbn [match_tail app].
    - destruct y as [|y0 y']; cbn; auto. rewrite word_not; auto.
    - rewrite (nonword_alpha c); auto. now rewrite andb_false_r.
    - destruct (Ascii.eqb a us && is_alpha b); auto.
  Qed.
  Lemma number_local : forall s, match_number (s ++ c :: y) = match_number s.
  Proof.
    intros s. unfold match_number. rewrite digits_local. destruct (digits_at s) as [[d r]|]; auto.
    rewrite frac_local. destruct (match_frac r) as [[f f'] r2]. rewrite exp_local. destruct (match_exp r2) as [[e e'] r3].
    rewrite tail_local. destruct (match_tail r3) as [[u u'] r4]. auto.
  Qed.
  Lemma here_local : forall a s, match_here ((a :: s) ++ c :: y) = match_here (a :: s).
  Proof.
    intros a s. cbn [match_here app]. destruct (Ascii.eqb a us); auto. destruct s as [|b s]; cbn [app].
    - rewrite word_not; auto. assert (X : match_number (c :: y) = None) by (unfold match_number, digits_at; cbn; now rewrite (nonword_digit c)).
      now rewrite X.
    - destruct (Ascii.eqb b us).
      + now rewrite number_local.
      + change (b :: s ++ c :: y) with ((b :: s) ++ c :: y). now rewrite number_local.
  Qed.
  Lemma search_local : forall s b, search b (s ++ c :: y) = match search b s with Some m => Some m | None => search false y end.
  Proof.
    induction s as [|a s IH]; intros b.
    - cbn [app search]. assert (X : match_here (c :: y) = None) by (cbn [match_here]; rewrite word_not; auto).
      rewrite X, C. destruct b; auto.
    - change ((a :: s) ++ c :: y) with (a :: (s ++ c :: y)). cbn [search].
      change (a :: s ++ c :: y) with ((a :: s) ++ c :: y). rewrite here_local.
      destruct (if b then None else match_here (a :: s)); auto.
  Qed.
End Local.

(** *** What a match looks like *)
Lemma digits_at_spec : forall s d r, digits_at s = Some (d, r) ->
  s = d ++ r /\ all_digits d /\ match r with c :: _ => is_digit c = false | [] => True end.
Proof.
  intros s d r H. unfold digits_at in H. destruct (span is_digit s) as [a b] eqn:E. apply span_spec in E as (-> & A & B).
  destruct a as [|a0 a]; [discriminate|]. injection H as <- <-. repeat split; auto. discriminate.
Qed.

(** The match is a prefix; its replacement has no underscore. *)
Definition no_us (s : text) : Prop := Forall (fun c => Ascii.eqb us c = false) s.
Lemma digits_no_us : forall d, Forall (fun c => is_digit c = true) d -> no_us d.
Proof. intros d H. eapply Forall_impl; [|exact H]. intros c D. rewrite Ascii.eqb_sym. now apply digit_not_us. Qed.
Lemma no_us_unders : forall s, no_us s -> unders s = 0.
Proof. unfold unders. induction 1 as [|c s H _ IH]; cbn [filter]; auto. now rewrite H. Qed.

Lemma frac_spec : forall s m p r, match_frac s = (m, p, r) -> s = m ++ r /\ no_us p.
Proof.
  intros s m p r H. unfold match_frac in H. destruct s as [|c s]; [injection H as <- <- <-; split; [auto|constructor]|].
  destruct (Ascii.eqb c us) eqn:E; [|injection H as <- <- <-; split; [auto|constructor]].
  destruct (digits_at s) as [[d r']|] eqn:D; [|injection H as <- <- <-; split; [auto|constructor]].
  injection H as <- <- <-. apply digits_at_spec in D as (-> & (_ & D) & _). apply Ascii.eqb_eq in E. subst. split; auto.
  constructor; [reflexivity|]. now apply digits_no_us.
Qed.
Lemma exp_spec : forall s m p r, match_exp s = (m, p, r) -> s = m ++ r /\ no_us p.
Proof.
  intros s m p r H. unfold match_exp in H. destruct s as [|c s]; [injection H as <- <- <-; split; [auto|constructor]|].
  destruct (is_e c) eqn:E; [|injection H as <- <- <-; split; [auto|constructor]].
  assert (NU : Ascii.eqb us c = false). { apply Ascii.eqb_neq. intros <-. discriminate. }
  destruct s as [|b s]; [injection H as <- <- <-; split; [auto|constructor]|].
  destruct (Ascii.eqb b us) eqn:U.
  - destruct (digits_at s) as [[d r']|] eqn:D; [|injection H as <- <- <-; split; [auto|constructor]].
    injection H as <- <- <-. apply digits_at_spec in D as (-> & (_ & D) & _). apply Ascii.eqb_eq in U. subst. split; auto.
    constructor; auto. constructor; [reflexivity|]. now apply digits_no_us.
  - destruct (digits_at (b :: s)) as [[d r']|] eqn:D; [|injection H as <- <- <-; split; [auto|constructor]].
    injection H as <- <- <-. apply digits_at_spec in D as (-> & (_ & D) & _). split; auto. constructor; auto. now apply digits_no_us.
Qed.
Lemma tail_spec : forall s m p r, match_tail s = (m, p, r) -> s = m ++ r /\ no_us p.
Proof.
  intros s m p r H. unfold match_tail in H. destruct s as [|c [|b s]]; try (injection H as <- <- <-; split; [auto|constructor]).
  destruct (Ascii.eqb c us) eqn:U; cbn [andb] in H; [|injection H as <- <- <-; split; [auto|constructor]].
  destruct (is_alpha b); [|injection H as <- <- <-; split; [auto|constructor]].
  injection H as <- <- <-. apply Ascii.eqb_eq in U. subst. split; auto. repeat constructor.
Qed.
Lemma number_spec : forall s m p, match_number s = Some (m, p) ->
  (exists r, s = m ++ r) /\ no_us p /\ exists d r, m = d :: r /\ is_digit d = true.
Proof.
  intros s m p H. unfold match_number in H. destruct (digits_at s) as [[d r1]|] eqn:D; [|discriminate].
  destruct (match_frac r1) as [[f f'] r2] eqn:F. destruct (match_exp r2) as [[e e'] r3] eqn:X. destruct (match_tail r3) as [[u u'] r4] eqn:T.
  injection H as <- <-. apply digits_at_spec in D as (-> & (NE & D) & _). apply frac_spec in F as (-> & F). apply exp_spec in X as (-> & X).
  apply tail_spec in T as (-> & T). split; [exists r4; now rewrite <- !app_assoc|]. split.
  - apply Forall_app. split; [now apply digits_no_us|]. repeat (apply Forall_app; split; auto).
  - destruct d as [|d0 d]; [congruence|]. inversion D; subst. exists d0, (d ++ f ++ e ++ u). auto.
Qed.
Lemma here_spec : forall s m p, match_here s = Some (m, p) ->
  (exists r, s = m ++ r) /\ no_us p /\ exists d r, is_digit d = true /\ (m = us :: d :: r \/ m = us :: us :: d :: r).
Proof.
  intros s m p H. unfold match_here in H. destruct s as [|c s]; [discriminate|]. destruct (Ascii.eqb c us) eqn:U; [|discriminate].
  apply Ascii.eqb_eq in U. subst c. destruct s as [|b s]; [discriminate|]. destruct (Ascii.eqb b us) eqn:V.
  - apply Ascii.eqb_eq in V. subst b. destruct (match_number s) as [[m' p']|] eqn:N; [|discriminate]. injection H as <- <-.
    apply number_spec in N as ((r & ->) & P & d & r' & -> & D). split; [exists r; auto|]. split; [constructor; [reflexivity|auto]|]. exists d, r'. auto.
  - destruct (match_number (b :: s)) as [[m' p']|] eqn:N; [|discriminate]. injection H as <- <-.
    apply number_spec in N as ((r & ->) & P & d & r' & -> & D). split; [exists r; auto|]. split; auto. exists d, r'. auto.
Qed.
Lemma search_spec : forall s b m p, search b s = Some (m, p) -> exists x y, s = x ++ y /\ match_here y = Some (m, p)
  /\ match rev x with c :: _ => is_word c = false | [] => b = false end.
Proof.
  induction s as [|c s IH]; intros b m p H; [discriminate|]. cbn [search] in H.
  destruct (if b then None else match_here (c :: s)) as [[m' p']|] eqn:E.
  - injection H as <- <-. destruct b; [discriminate|]. exists [], (c :: s). repeat split; auto.
  - apply IH in H as (x & y & -> & M & B). exists (c :: x), y. split; auto. split; auto. cbn [rev]. destruct (rev x) eqn:R; cbn; auto.
Qed.

(** *** Underscores disappear *)
Lemma unders_app : forall x y, unders (x ++ y) = unders x + unders y.
Proof. intros x y. unfold unders. now rewrite filter_app, app_length. Qed.

(** Replacing something that starts with an underscore by something without. *)
Lemma replace_unders : forall old new, no_us new -> (exists r, old = us :: r) ->
  forall s k, unders (replace_from old new k s) <= unders s.
Proof.
  intros old new N (r0 & O). induction s as [|c s IH]; intros k; cbn [replace_from]; [lia|].
  assert (Cc : unders (c :: s) = (if Ascii.eqb us c then 1 else 0) + unders s) by (unfold unders; cbn [filter]; destruct (Ascii.eqb us c); cbn; lia).
  destruct k as [|k].
  - destruct (starts old (c :: s)) eqn:S.
    + rewrite unders_app, (no_us_unders _ N). specialize (IH (pred (length old))). lia.
    + specialize (IH 0). assert (C2 : unders (c :: replace_from old new 0 s) = (if Ascii.eqb us c then 1 else 0) + unders (replace_from old new 0 s)) by (unfold unders; cbn [filter]; destruct (Ascii.eqb us c); cbn; lia). lia.
  - specialize (IH k). lia.
Qed.
Lemma replace_unders_lt : forall old new, no_us new -> (exists r, old = us :: r) ->
  forall x y, contains old (x ++ y) = true -> unders (replace_all old new (x ++ y)) < unders (x ++ y).
Proof.
  intros old new N O x y. generalize (x ++ y). clear x y. intros s. unfold replace_all. induction s as [|c s IH]; intros H.
  - destruct O as (r & ->). discriminate.
  - cbn [contains] in H. cbn [replace_from]. destruct (starts old (c :: s)) eqn:S.
    + rewrite unders_app, (no_us_unders _ N). pose proof (replace_unders _ _ N O s (pred (length old))) as L.
      destruct O as (r & E). assert (c = us). { rewrite E in S. cbn [starts] in S. apply andb_true_iff in S as (S & _). apply Ascii.eqb_eq in S. auto. }
      subst c. unfold unders at 2. cbn [filter]. change (Ascii.eqb us us) with true. cbn [length]. unfold unders in L at 2. lia.
    + cbn [orb] in H. specialize (IH H). unfold unders in *. cbn [filter]. destruct (Ascii.eqb us c); cbn [length]; lia.
Qed.
Lemma contains_app : forall m x y, contains m (x ++ m ++ y) = true.
Proof.
  induction x as [|c x IH]; intros y; cbn [app].
  - assert (X := starts_app m y). destruct (m ++ y); cbn [contains]; now rewrite X.
  - cbn [contains]. rewrite IH. apply orb_true_r.
Qed.

Lemma loop_some : forall n s, unders s <= n -> exists r, unmangle_loop n s = Some r /\ search false r = None.
Proof.
  induction n as [|n IH]; intros s L; cbn [unmangle_loop]; destruct (search false s) as [[m p]|] eqn:E; eauto.
  - apply search_spec in E as (x & y & -> & M & _). apply here_spec in M as ((r & ->) & _ & d & q & _ & M).
    rewrite !unders_app in L. assert (1 <= unders m); [|lia]. destruct M as [-> | ->]; unfold unders; cbn; lia.
  - apply search_spec in E as (x & y & -> & M & _). apply here_spec in M as ((r & ->) & P & d & q & _ & M). apply IH.
    assert (O : exists z, m = us :: z) by (destruct M as [-> | ->]; eauto).
    pose proof (replace_unders_lt m p P O x (m ++ r) (contains_app m x r)). lia.
Qed.
(** Rounds beyond what is needed change nothing. *)
Lemma loop_more : forall n s r k, unmangle_loop n s = Some r -> unmangle_loop (k + n) s = Some r.
Proof.
  induction n as [|n IH]; intros s r k H; cbn [unmangle_loop] in H.
  - destruct (search false s) as [[m p]|] eqn:E; [discriminate|]. destruct (k + 0); cbn [unmangle_loop]; rewrite E; auto.
  - replace (k + S n) with (S (k + n)) by lia. cbn [unmangle_loop]. destruct (search false s) as [[m p]|]; auto.
Qed.
Lemma loop_det : forall n m s r q, unmangle_loop n s = Some r -> unmangle_loop m s = Some q -> r = q.
Proof.
  intros n m s r q A B. apply (loop_more _ _ _ m) in A. apply (loop_more _ _ _ n) in B. rewrite Nat.add_comm in B. congruence.
Qed.

(** *** No match, no internal name *)
Lemma number_digit : forall d r, is_digit d = true -> exists m p, match_number (d :: r) = Some (m, p).
Proof.
  intros d r D. unfold match_number, digits_at. cbn [span]. rewrite D. destruct (span is_digit r) as [a b].
  destruct (match_frac b) as [[f f'] r2]. destruct (match_exp r2) as [[e e'] r3]. destruct (match_tail r3) as [[u u'] r4]. eauto.
Qed.
Lemma here_internal : forall d r s, is_digit d = true -> s = d :: r \/ s = us :: d :: r -> exists m p, match_here (us :: s) = Some (m, p).
Proof.
  intros d r s D [-> | ->]; cbn [match_here]; change (Ascii.eqb us us) with true; cbn match.
  - rewrite digit_not_us; auto. destruct (number_digit d r D) as (m & p & ->). eauto.
  - destruct (number_digit d r D) as (m & p & ->). eauto.
Qed.
Lemma search_none_app : forall x b y, search b (x ++ y) = None -> match rev x with c :: _ => is_word c = false | [] => b = false end -> search false y = None.
Proof.
  induction x as [|c x IH]; intros b y H R.
  - cbn in R. now subst b.
  - cbn [app search] in H. destruct (if b then None else match_here (c :: x ++ y)); [discriminate|].
    apply (IH _ _ H). cbn [rev] in R. destruct (rev x) eqn:E; cbn in R; auto.
Qed.
Lemma search_none : forall s, search false s = None -> ~ internal s.
Proof.
  intros s H (x & y & -> & R & d & r & D & Y). apply search_none_app in H; [|destruct (rev x); auto].
  cbn [search] in H. destruct (here_internal d r y D Y) as (m & p & E). rewrite E in H. discriminate.
Qed.
Lemma internal_search : forall s, ~ internal s -> search false s = None.
Proof.
  intros s H. destruct (search false s) as [[m p]|] eqn:E; auto. exfalso. apply H.
  apply search_spec in E as (x & y & -> & M & R). apply here_spec in M as ((z & ->) & _ & d & r & D & [-> | ->]).
  - exists x, (d :: r ++ z). split; auto. split; [destruct (rev x); auto|]. eauto 6.
  - exists x, (us :: d :: r ++ z). split; auto. split; [destruct (rev x); auto|]. eauto 6.
Qed.

Theorem unmangle_ends : forall s, exists r, unmangle s = Some r /\ ~ internal r.
Proof. intros s. destruct (loop_some (unders s) s (le_n _)) as (r & A & B). exists r. split; auto. now apply search_none. Qed.
Theorem unmangle_id : forall s, ~ internal s -> unmangle s = Some s.
Proof. intros s H. apply internal_search in H. unfold unmangle. destruct (unders s); cbn [unmangle_loop]; now rewrite H. Qed.
