(** The tokens the model makes are those of the specification, and only those. *)
From Coq Require Import String Ascii List Bool Arith ZArith Lia.
From Verif Require Import Base PyStr ScaleModel ScaleSpec ScaleUnmangle ScaleShow ScaleMangle ScaleParse LexSpec LexProofs.
Import ListNotations.
Open Scope list_scope.
Open Scope nat_scope.

(** ** First characters *)
Lemma start_iff : forall c, is_start c = true <-> is_alpha c = true \/ c = us.
Proof. intros c. unfold is_start. rewrite orb_true_iff, Ascii.eqb_eq. reflexivity. Qed.
Lemma start_word : forall c, is_start c = true -> is_word c = true.
Proof. intros c H. unfold is_word, is_start in *. apply orb_prop in H as [H|H]; rewrite H; auto using orb_true_r. Qed.
Lemma numeral_head : forall w, numeral w -> exists c r, w = c :: r /\ (is_digit c = true \/ c = dot).
Proof.
  intros w N. destruct N as [w R|w R _|w e R _|w f e R _ _|f e R _]; try (destruct (run_head _ _ R) as (c & r & -> & C); cbn [app]; eauto 9 using zero_digit; fail).
Qed.
Lemma name_head : forall w, name w -> exists c r, w = c :: r /\ is_start c = true.
Proof. intros w (c & r & -> & H & _). exists c, r. split; auto. now apply start_iff. Qed.
Lemma operator_head : forall w, operator w -> exists c r, w = c :: r /\ existsb (Ascii.eqb c) operators = true.
Proof.
  intros w H. unfold operator in H. cbn [map In] in H. repeat (destruct H as [<-|H]; [eexists _, _; split; [reflexivity|reflexivity]|]). contradiction.
Qed.
Lemma operators_not : forall c, existsb (Ascii.eqb c) operators = true -> is_space c = false /\ is_start c = false /\ is_digit c = false.
Proof.
  intros c H. unfold operators in H. cbn [t list_ascii_of_string existsb] in H.
  repeat (apply orb_prop in H as [H|H]; [apply Ascii.eqb_eq in H; subst c; repeat split; reflexivity|]). discriminate.
Qed.
Lemma digit_start : forall c, is_digit c = true \/ c = dot -> is_start c = false /\ is_space c = false.
Proof.
  intros c [H| ->]; [|split; reflexivity]. split; [|apply space_not_word; now apply digit_word].
  unfold is_start. rewrite digit_not_alpha, digit_not_us; auto.
Qed.

(** ** Names *)
Lemma span_split : forall f s, s = fst (span f s) ++ snd (span f s) /\ Forall (fun c => f c = true) (fst (span f s))
  /\ match snd (span f s) with c :: _ => f c = false | [] => True end.
Proof.
  intros f s. induction s as [|c r IH]; cbn [span]; [repeat split; constructor|]. destruct (f c) eqn:C; [|repeat split; auto; constructor].
  destruct (span f r) as [a b]. cbn [fst snd] in *. destruct IH as (E & F & L). repeat split; auto. cbn [app]. now rewrite <- E.
Qed.
Lemma name_longest : forall c r, is_start c = true -> longest name (fst (span is_word (c :: r))) (c :: r).
Proof.
  intros c r H. destruct (span_split is_word (c :: r)) as (E & F & L). split; [|split].
  - cbn [span]. rewrite (start_word c H). destruct (span is_word r) as [a b] eqn:Sp. cbn [fst]. exists c, a. split; auto. split; [now apply start_iff|].
    destruct (span_split is_word r) as (_ & Fr & _). rewrite Sp in Fr. exact Fr.
  - exists (snd (span is_word (c :: r))). exact E.
  - intros w' s E' N. set (a := fst (span is_word (c :: r))) in *. set (b := snd (span is_word (c :: r))) in *.
    assert (W : Forall (fun x => is_word x = true) w') by (destruct N as (c' & r' & -> & Hc & Fr); constructor; auto; apply start_word; now apply start_iff).
    clearbody a b. rewrite E in E'. clear E N H. revert w' E' W. induction a as [|x a IH]; intros w' E' W.
    + destruct w' as [|y w']; [auto|]. cbn [app] in E'. subst b. inversion W; subst. congruence.
    + destruct w' as [|y w']; cbn [length]; [lia|]. cbn [app] in E'. injection E' as <- E'. inversion F; subst. inversion W; subst. specialize (IH H2 w' E' H4). lia.
Qed.

(** ** Operators *)
Lemma starts_iff : forall w s, starts w s = true <-> exists r, s = w ++ r.
Proof.
  induction w as [|a w IH]; intros s; cbn [starts]; [split; [intros _; now exists s|reflexivity]|]. destruct s as [|b s]; [split; [discriminate|intros (r & E); discriminate]|].
  rewrite andb_true_iff, Ascii.eqb_eq, IH. split.
  - intros (-> & r & ->). now exists r.
  - intros (r & E). injection E as -> ->. eauto.
Qed.
Definition op_len (s : text) : nat :=
  if starts (t "**") s || starts (t "//") s then 2 else if starts (t "...") s then 3
  else match s with c :: _ => if existsb (Ascii.eqb c) operators then 1 else 0 | [] => 0 end.
Lemma operator_cases : forall w, operator w <-> w = t "**" \/ w = t "//" \/ w = t "..." \/ exists c, w = [c] /\ existsb (Ascii.eqb c) operators = true.
Proof.
  intros w. unfold operator, operators. cbn [map In t list_ascii_of_string existsb]. split.
  - intros H. destruct H as [<-|H]; [left; reflexivity|]. destruct H as [<-|H]; [right; left; reflexivity|]. destruct H as [<-|H]; [right; right; left; reflexivity|].
    right; right; right. repeat (destruct H as [<-|H]; [eexists; split; [reflexivity|reflexivity]|]). contradiction.
  - intros [-> |[-> |[-> |(c & -> & H)]]]; auto. do 3 right.
    repeat (apply orb_prop in H as [H|H]; [apply Ascii.eqb_eq in H; subst c; repeat ((left; reflexivity) || right); fail|]). discriminate.
Qed.
Lemma op_len_max : forall w r, operator w -> length w <= op_len (w ++ r).
Proof.
  intros w r O. apply operator_cases in O as [-> |[-> |[-> |(c & -> & H)]]]; try (cbn; lia).
  unfold op_len. destruct (_ || _); [cbn; lia|]. destruct (starts _ _); [cbn; lia|]. cbn [app]. rewrite H. cbn. lia.
Qed.
Lemma op_longest : forall s, 0 < op_len s -> longest operator (firstn (op_len s) s) s.
Proof.
  intros s H. assert (M : forall w' r, s = w' ++ r -> operator w' -> length w' <= op_len s) by (intros w' r -> O; now apply op_len_max).
  assert (E : exists w r, s = w ++ r /\ operator w /\ op_len s = length w).
  { unfold op_len in *. destruct (starts (t "**") s) eqn:A; [|destruct (starts (t "//") s) eqn:B; [|destruct (starts (t "...") s) eqn:C]]; cbn [orb] in *.
    - apply starts_iff in A as (r & ->). exists (t "**"), r. repeat split; auto. apply operator_cases; auto.
    - apply starts_iff in B as (r & ->). exists (t "//"), r. repeat split; auto. apply operator_cases; auto.
    - apply starts_iff in C as (r & ->). exists (t "..."), r. repeat split; auto. apply operator_cases; auto.
    - destruct s as [|c r]; [lia|]. destruct (existsb _ _) eqn:X; [|lia]. exists [c], r. repeat split; auto. apply operator_cases. eauto 6. }
  destruct E as (w & r & E & O & L). rewrite L in *. split; [|split].
  - now rewrite E, firstn_len.
  - exists (skipn (length w) s). now rewrite firstn_skipn.
  - intros w' r' E' O'. specialize (M w' r' E' O'). rewrite E, firstn_len. exact M.
Qed.
Lemma op_none : forall s, op_len s = 0 -> starts_none operator s.
Proof. intros s H w r -> O. pose proof (op_len_max w r O). assert (length w = 0) by lia. destruct w; [|discriminate]. destruct (operator_head [] O) as (c & q & E & _). discriminate. Qed.

(** ** The whole text *)
Lemma lex_step : forall n s c r pos, s = c :: r -> 0 < n <= length s -> lex_from (S pos) (n - 1) r = lex_from (pos + n) 0 (skipn n s).
Proof.
  intros n s c r pos E L. assert (X : r = firstn (n - 1) r ++ skipn (n - 1) r) by (now rewrite firstn_skipn).
  assert (Len : length (firstn (n - 1) r) = n - 1) by (rewrite firstn_length; subst s; cbn [length] in L; lia).
  rewrite X at 1. rewrite <- Len at 1. rewrite lex_skip. subst s. destruct n as [|n]; [lia|]. cbn [skipn]. replace (S n - 1) with n in * by lia. f_equal. lia.
Qed.
Lemma lex_from_cons : forall pos c r, lex_from pos 0 (c :: r) =
  let tok k n := mkT k (firstn n (c :: r)) pos (pos + n) :: lex_from (S pos) (n - 1) r in
  if is_space c then lex_from (S pos) 0 r
  else if is_start c then tok NAME (length (fst (span is_word (c :: r))))
  else match number_len (c :: r) with
       | 0 => match op_len (c :: r) with 0 => tok ERRORTOKEN 1 | n => tok OP n end
       | n => tok NUMBER n
       end.
Proof.
  intros pos c r. cbv zeta. cbn [lex_from]. destruct (is_space c); auto. destruct (is_start c); auto. destruct (number_len (c :: r)); auto.
  unfold op_len. destruct (starts (t "**") (c :: r) || starts (t "//") (c :: r)); auto. destruct (starts (t "...") (c :: r)); auto. destruct (existsb _ _); auto.
Qed.
Lemma longest_len : forall P w s, longest P w s -> length w <= length s /\ firstn (length w) s = w.
Proof. intros P w s (_ & (r & ->) & _). rewrite app_length, firstn_len. split; [lia|auto]. Qed.

Lemma tokens_lexed : forall s pos, lexes pos s (lex_from pos 0 s).
Proof.
  intros s. remember (length s) as n eqn:N. assert (L : length s <= n) by lia. clear N. revert s L. induction n as [|n IH]; intros s L pos.
  { destruct s; [constructor|cbn [length] in L; lia]. }
  destruct s as [|c r]; [constructor|]. rewrite lex_from_cons. cbv zeta. destruct (is_space c) eqn:Sp.
  { apply lx_space; auto. apply IH. cbn [length] in L. lia. }
  assert (T : forall k m, 0 < m <= length (c :: r) ->
    match k with
    | NAME => longest name (firstn m (c :: r)) (c :: r)
    | NUMBER => longest numeral (firstn m (c :: r)) (c :: r)
    | OP => longest operator (firstn m (c :: r)) (c :: r) /\ starts_none numeral (c :: r)
    | ERRORTOKEN => exists c', firstn m (c :: r) = [c'] /\ is_space c' = false /\ starts_none name (c :: r) /\ starts_none numeral (c :: r) /\ starts_none operator (c :: r)
    end -> lexes pos (c :: r) (mkT k (firstn m (c :: r)) pos (pos + m) :: lex_from (S pos) (m - 1) r)).
  { intros k m Lm H. rewrite (lex_step m (c :: r) c r pos eq_refl Lm).
    assert (Lw : length (firstn m (c :: r)) = m) by (rewrite firstn_length; lia).
    assert (IHs : lexes (pos + m) (skipn m (c :: r)) (lex_from (pos + m) 0 (skipn m (c :: r)))) by (apply IH; rewrite skipn_length; cbn [length] in *; lia).
    pose proof (firstn_skipn m (c :: r)) as FS. revert H Lw FS IHs. generalize (lex_from (pos + m) 0 (skipn m (c :: r))) (skipn m (c :: r)) (firstn m (c :: r)).
    intros l y w H Lw FS IHs. rewrite <- FS in *. rewrite <- Lw in *. apply lx_token; assumption. }
  destruct (is_start c) eqn:St.
  { pose proof (name_longest c r St) as H. destruct (longest_len _ _ _ H) as [A B]. apply T.
    - split; auto. destruct H as (Nm & _). destruct (name_head _ Nm) as (x & y & -> & _). cbn [length]. lia.
    - now rewrite B. }
  destruct (number_len (c :: r)) as [|k] eqn:Nl.
  - pose proof (number_none _ Nl) as Nn. destruct (op_len (c :: r)) as [|k] eqn:Ol.
    + pose proof (op_none _ Ol) as On. apply T; [cbn [length]; lia|]. exists c. repeat split; auto.
      intros w s E Nm. destruct (name_head w Nm) as (x & y & -> & X). injection E as <- _. congruence.
    + pose proof (op_longest (c :: r) ltac:(rewrite Ol; lia)) as H. rewrite Ol in H. apply T; auto.
      destruct H as (O & _ & M). split; [lia|]. destruct (le_lt_dec (S k) (length (c :: r))); auto.
      exfalso. rewrite firstn_all2 in O by lia. pose proof (op_len_max _ [] O) as X. rewrite app_nil_r, Ol in X.
      apply operator_cases in O as [E |[E |[E |(c' & E & H)]]]; rewrite E in *; cbn in Ol, l; lia || (injection Ol as <-; lia) || idtac.
      unfold op_len in Ol. cbn [length] in l. destruct (starts (t "**") [c'] || starts (t "//") [c']) eqn:Z; [apply orb_prop in Z as [Z|Z]; cbn in Z; rewrite andb_false_r in Z; discriminate|].
      destruct (starts (t "...") [c']) eqn:Z2; [cbn in Z2; rewrite andb_false_r in Z2; discriminate|]. rewrite H in Ol. lia.
  - pose proof (number_longest (c :: r) ltac:(rewrite Nl; lia)) as H. rewrite Nl in H. apply T; auto.
    destruct (number_len_numeral (c :: r)) as (w & y & E & _ & Len); [lia|]. rewrite E, app_length. lia.
Qed.

Lemma longest_unique : forall P w w' s, longest P w s -> longest P w' s -> w = w'.
Proof.
  intros P w w' s A B. destruct (longest_len _ _ _ A) as [_ FA]. destruct (longest_len _ _ _ B) as [_ FB].
  destruct A as (PA & (ra & EA) & MA). destruct B as (PB & (rb & EB) & MB). specialize (MA _ _ EB PB). specialize (MB _ _ EA PA).
  rewrite <- FA, <- FB. f_equal. lia.
Qed.

Definition token_at (k : kind) (w q : text) : Prop :=
  match k with
  | NAME => longest name w q
  | NUMBER => longest numeral w q
  | OP => longest operator w q /\ starts_none numeral q
  | ERRORTOKEN => exists c, w = [c] /\ is_space c = false /\ starts_none name q /\ starts_none numeral q /\ starts_none operator q
  end.
Lemma token_head : forall k w s, token_at k w (w ++ s) -> exists c r, w = c :: r /\ is_space c = false.
Proof.
  intros [] w s K; cbn [token_at] in K.
  - destruct K as (Nm & _). destruct (name_head _ Nm) as (x & y & -> & X). exists x, y. split; auto. now apply space_not_word, start_word.
  - destruct K as (Nm & _). destruct (numeral_head _ Nm) as (x & y & -> & X). exists x, y. split; auto. now apply digit_start.
  - destruct K as ((Nm & _) & _). destruct (operator_head _ Nm) as (x & y & -> & X). exists x, y. split; auto. now apply operators_not.
  - destruct K as (x & -> & X & _). exists x, []. auto.
Qed.
Lemma not_name_number : forall q w w', longest name w q -> longest numeral w' q -> False.
Proof.
  intros q w w' (N & (r & ->) & _) (N' & (r' & E) & _). destruct (name_head _ N) as (x & y & -> & X). destruct (numeral_head _ N') as (x' & y' & -> & X').
  injection E as <- _. destruct (digit_start _ X'). congruence.
Qed.
Lemma not_name_op : forall q w w', longest name w q -> longest operator w' q -> False.
Proof.
  intros q w w' (N & (r & ->) & _) (N' & (r' & E) & _). destruct (name_head _ N) as (x & y & -> & X). destruct (operator_head _ N') as (x' & y' & -> & X').
  injection E as <- _. destruct (operators_not _ X') as (_ & Y & _). congruence.
Qed.
Lemma not_none : forall P q w, longest P w q -> starts_none P q -> False.
Proof. intros P q w (H & (r & ->) & _) N. exact (N w r eq_refl H). Qed.
Lemma token_unique : forall k w k' w' q, (exists s, q = w ++ s) -> (exists s, q = w' ++ s) -> token_at k w q -> token_at k' w' q -> k = k' /\ w = w'.
Proof.
  intros k w k' w' q Q Q' K K'. destruct k, k'; cbn [token_at] in K, K'; try (split; [reflexivity|]);
    try (eapply longest_unique; [apply K|apply K']; fail);
    try (exfalso; eapply not_name_number; [apply K|apply K']; fail); try (exfalso; eapply not_name_number; [apply K'|apply K]; fail);
    try (exfalso; eapply not_name_op; [apply K|apply K']; fail); try (exfalso; eapply not_name_op; [apply K'|apply K]; fail);
    try (exfalso; destruct K' as [K' N]; exact (not_none _ _ _ K N)); try (exfalso; destruct K as [K N]; exact (not_none _ _ _ K' N)).
  1-3: exfalso; destruct K' as (c & _ & _ & A & B & C); eauto using not_none.
  - exfalso; eapply not_none; [apply K|exact C].
  - exfalso; destruct K as (c & _ & _ & A & B & C); eauto using not_none.
  - exfalso; destruct K as (c & _ & _ & A & B & C); eauto using not_none.
  - exfalso; destruct K as (c & _ & _ & A & B & C). eapply not_none; [apply K'|exact C].
  - destruct K as (c & -> & _). destruct K' as (c' & -> & _). destruct Q as (s & ->), Q' as (s' & E). cbn [app] in E. now injection E as <- _.
Qed.

Lemma lexes_unique : forall pos s l, lexes pos s l -> forall l', lexes pos s l' -> l = l'.
Proof.
  intros pos s l H. induction H as [n|n c s l Sp H IH|n k w s l K H IH]; intros l' H'.
  - remember (@nil ascii) as q eqn:Q. inversion H' as [| |n' k' w' s' l0 K' H0 E1 E2 E3]; auto; [congruence|].
    exfalso. destruct (token_head k' w' s' K') as (x & y & -> & _). rewrite Q in E2. discriminate.
  - inversion H' as [|n' c' s' l0 Sp' H0 E1 E2 E3|n' k' w' s' l0 K' H0 E1 E2 E3]; subst; [now apply IH|].
    exfalso. destruct (token_head _ _ _ K') as (x & y & -> & X). injection E2 as -> _. congruence.
  - change (token_at k w (w ++ s)) in K. destruct (token_head _ _ _ K) as (x & y & W & X). remember (w ++ s) as q eqn:Q.
    inversion H' as [n' E1 E2 E3|n' c' s' l0 Sp' H0 E1 E2 E3|n' k' w' s' l0 K' H0 E1 E2 E3].
    + rewrite <- E2, W in Q. discriminate.
    + rewrite <- E2, W in Q. injection Q as -> _. congruence.
    + change (token_at k' w' (w' ++ s')) in K'. rewrite E2 in K'. destruct (token_unique k w k' w' q) as [<- <-]; eauto.
      subst n'. rewrite Q in E2. apply app_inv_head in E2. subst s'. f_equal. now apply IH.
Qed.

Theorem tokenizer_lexes : forall s l, lexes 0 s l <-> tokenizer s = l.
Proof.
  intros s l. split.
  - intros H. symmetry. eapply lexes_unique; [exact H|]. apply tokens_lexed.
  - intros <-. apply tokens_lexed.
Qed.
