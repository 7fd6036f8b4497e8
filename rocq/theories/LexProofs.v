(** Facts about the reading of a unit text: the tokens. *)
From Coq Require Import String Ascii List Bool Arith ZArith QArith Lia.
From Verif Require Import Base PyStr ScaleModel ScaleSpec ScaleUnmangle ScaleShow ScaleMangle ScaleParse LexSpec.
Import ListNotations.
Open Scope list_scope.
Open Scope nat_scope.

(** ** Runs *)
Definition run_len (p : ascii -> bool) : text -> nat := fix go (s : text) : nat :=
  match s with
  | c :: r =>
      if p c then
        match r with
        | c' :: ((c'' :: _) as r') => if Ascii.eqb c' us && p c'' then S (S (go r')) else S (go r)
        | _ => S (go r)
        end
      else 0
  | [] => 0
  end.
Lemma digits_run : forall s, digits_len s = run_len is_digit s. Proof. reflexivity. Qed.
Lemma zeros_run : forall s, zeros_len s = run_len is_zero s. Proof. reflexivity. Qed.

Section Run.
  Variable p : ascii -> bool.
  Hypothesis p_us : p us = false.
  Lemma p_not_us : forall c, p c = true -> Ascii.eqb c us = false.
  Proof. intros c H. apply Ascii.eqb_neq. intros ->. congruence. Qed.

  Lemma run_len_cons : forall c r, run_len p (c :: r) =
    if p c then match r with
                | c' :: ((c'' :: _) as r') => if Ascii.eqb c' us && p c'' then S (S (run_len p r')) else S (run_len p r)
                | _ => S (run_len p r)
                end else 0.
  Proof. reflexivity. Qed.
  Lemma run_len_digit : forall c c' r, p c = true -> p c' = true -> run_len p (c :: c' :: r) = S (run_len p (c' :: r)).
  Proof. intros c c' r A B. rewrite run_len_cons, A. destruct r; auto. now rewrite p_not_us. Qed.
  Lemma run_len_group : forall c c' r, p c = true -> p c' = true -> run_len p (c :: us :: c' :: r) = S (S (run_len p (c' :: r))).
  Proof. intros c c' r A B. rewrite run_len_cons, A, B. reflexivity. Qed.
  Lemma run_head : forall w, run p w -> exists c r, w = c :: r /\ p c = true.
  Proof. intros w H. destruct H; eauto. Qed.
  Lemma run_len_pos : forall c r, p c = true -> 0 < run_len p (c :: r).
  Proof. intros c r H. rewrite run_len_cons, H. destruct r as [|a [|b r]]; try lia. destruct (_ && _); lia. Qed.
  Lemma run_len_zero : forall s, run_len p s = 0 -> match s with c :: _ => p c = false | [] => True end.
  Proof. intros [|c r] H; auto. destruct (p c) eqn:E; auto. pose proof (run_len_pos c r E). lia. Qed.
  Lemma run_len_none : forall c r, p c = false -> run_len p (c :: r) = 0.
  Proof. intros c r H. now rewrite run_len_cons, H. Qed.

  Lemma run_len_max : forall w, run p w -> forall y, length w <= run_len p (w ++ y).
  Proof.
    intros w H. induction H as [c C|c w C R IH|c w C R IH]; intros y.
    - apply run_len_pos with (r := y) in C. exact C.
    - destruct (run_head w R) as (d & r & -> & D). cbn [app]. rewrite run_len_digit by auto. specialize (IH y). cbn [app length] in *. lia.
    - destruct (run_head w R) as (d & r & -> & D). cbn [app]. rewrite run_len_group by auto. specialize (IH y). cbn [app length] in *. lia.
  Qed.
  Lemma run_len_exact : forall w, run p w -> forall y, match y with c :: _ => p c = false /\ c <> us | [] => True end -> run_len p (w ++ y) = length w.
  Proof.
    intros w H. induction H as [c C|c w C R IH|c w C R IH]; intros y Y.
    - cbn [app length]. rewrite run_len_cons, C. destruct y as [|a [|b y]]; auto; destruct Y as [A B].
      + now rewrite run_len_none.
      + apply Ascii.eqb_neq in B. rewrite B. cbn [andb]. now rewrite run_len_none.
    - destruct (run_head w R) as (d & r & -> & D). cbn [app]. rewrite run_len_digit by auto. specialize (IH y Y). cbn [app length] in *. lia.
    - destruct (run_head w R) as (d & r & -> & D). cbn [app]. rewrite run_len_group by auto. specialize (IH y Y). cbn [app length] in *. lia.
  Qed.
  (** What is counted is a run, and the rest of the text. *)
  Lemma run_len_run : forall s, 0 < run_len p s -> exists w y, s = w ++ y /\ run p w /\ run_len p s = length w.
  Proof.
    intros s. remember (length s) as n eqn:N. assert (L : length s <= n) by lia. clear N. revert s L.
    induction n as [|n IH]; intros [|c r] L H; cbn [length] in L; [cbn in H; lia|lia|cbn in H; lia|].
    destruct (p c) eqn:C; [|rewrite run_len_none in H by auto; lia].
    destruct r as [|a r].
    - exists [c], []. split; [reflexivity|]. split; [now constructor|]. rewrite run_len_cons, C. reflexivity.
    - destruct (p a) eqn:A.
      + destruct (IH (a :: r)) as (w & y & E & R & Len); [lia|now apply run_len_pos|].
        exists (c :: w), y. split; [now rewrite E|]. split; [now constructor|]. rewrite run_len_digit by auto. cbn [length]. lia.
      + destruct (Ascii.eqb a us) eqn:U; [|].
        * apply Ascii.eqb_eq in U. subst a. destruct r as [|b r].
          -- exists [c], [us]. split; [reflexivity|]. split; [now constructor|]. rewrite run_len_cons, C. cbn [length]. rewrite run_len_none by auto. reflexivity.
          -- destruct (p b) eqn:B.
             ++ destruct (IH (b :: r)) as (w & y & E & R & Len); [cbn [length] in L |- *; lia|now apply run_len_pos|].
                exists (c :: us :: w), y. split; [now rewrite E|]. split; [now apply run_group|]. rewrite run_len_group by auto. cbn [length]. lia.
             ++ exists [c], (us :: b :: r). split; [reflexivity|]. split; [now constructor|]. rewrite run_len_cons, C, B, andb_false_r, run_len_none by auto. reflexivity.
        * exists [c], (a :: r). split; [reflexivity|]. split; [now constructor|]. rewrite run_len_cons, C. destruct r; [|rewrite U; cbn [andb]]; now rewrite run_len_none.
  Qed.
End Run.

Lemma digit_us : is_digit us = false. Proof. reflexivity. Qed.
Lemma zero_us : is_zero us = false. Proof. reflexivity. Qed.
Lemma zero_digit : forall c, is_zero c = true -> is_digit c = true.
Proof. intros c H. apply Ascii.eqb_eq in H. subst. reflexivity. Qed.
Lemma run_mono : forall p q w, (forall c, p c = true -> q c = true) -> run p w -> run q w.
Proof. intros p q w H R. induction R; [apply run_one | apply run_more | apply run_group]; auto. Qed.

(** ** Exponents *)
Lemma e_not_digit : forall e, e = "e"%char \/ e = "E"%char -> is_digit e = false /\ e <> us /\ is_e e = true /\ Ascii.eqb e dot = false.
Proof. intros e [-> | ->]; repeat split; discriminate. Qed.
Lemma is_e_cases : forall c, is_e c = true -> c = "e"%char \/ c = "E"%char.
Proof. intros c H. apply orb_prop in H as [H|H]; apply Ascii.eqb_eq in H; auto. Qed.
Lemma digit_not_sign : forall c, is_digit c = true -> Ascii.eqb c dash || Ascii.eqb c "+"%char = false.
Proof. intros c H. apply orb_false_iff. split; apply Ascii.eqb_neq; intros ->; discriminate. Qed.

Lemma exp_len_max : forall e, exponent_part e -> forall y, length e <= exp_len (e ++ y).
Proof.
  intros w (e & sg & d & -> & E & Sg & R) y. destruct (e_not_digit e E) as (_ & _ & I & _). cbn [app exp_len]. rewrite I.
  pose proof (run_len_max is_digit digit_us d R y) as M. destruct (run_head _ _ R) as (c & r & -> & C).
  destruct Sg as [-> | [-> | ->]]; cbn [app length t list_ascii_of_string] in *.
  - rewrite digit_not_sign by auto. change (digits_len (c :: r ++ y)) with (run_len is_digit (c :: r ++ y)). destruct (run_len is_digit _); lia.
  - change (Ascii.eqb "+" dash || Ascii.eqb "+" "+") with true. cbn match. change (digits_len (c :: r ++ y)) with (run_len is_digit (c :: r ++ y)). destruct (run_len is_digit _); lia.
  - change (Ascii.eqb "-" dash || Ascii.eqb "-" "+") with true. cbn match. change (digits_len (c :: r ++ y)) with (run_len is_digit (c :: r ++ y)). destruct (run_len is_digit _); lia.
Qed.
Lemma exp_len_part : forall s, 0 < exp_len s -> exists e y, s = e ++ y /\ exponent_part e /\ exp_len s = length e.
Proof.
  intros [|e r] H; cbn [exp_len] in H |- *; [lia|]. destruct (is_e e) eqn:I; [|lia]. apply is_e_cases in I. destruct r as [|c r]; [lia|].
  destruct (Ascii.eqb c dash || Ascii.eqb c "+"%char) eqn:Sg.
  - change (digits_len r) with (run_len is_digit r) in *. destruct (run_len is_digit r) as [|n] eqn:L; [lia|].
    destruct (run_len_run is_digit digit_us r) as (w & y & -> & R & Len); [lia|].
    exists (e :: [c] ++ w), y. cbn [app]. split; [reflexivity|]. split.
    + exists e, [c], w. repeat split; auto. right. apply orb_prop in Sg as [X|X]; apply Ascii.eqb_eq in X; subst c; [right|left]; reflexivity.
    + cbn [length]. lia.
  - change (digits_len (c :: r)) with (run_len is_digit (c :: r)) in *. destruct (run_len is_digit (c :: r)) as [|n] eqn:L; [lia|].
    destruct (run_len_run is_digit digit_us (c :: r)) as (w & y & Ew & R & Len); [lia|].
    exists (e :: [] ++ w), y. cbn [app]. split; [now rewrite Ew|]. split.
    + exists e, [], w. repeat split; auto.
    + cbn [length]. lia.
Qed.

(** ** Numerals *)
Lemma starts_zero : forall c r, starts (t "0") (c :: r) = is_zero c.
Proof. intros c r. cbn [t list_ascii_of_string starts]. rewrite andb_true_r. apply Ascii.eqb_sym. Qed.

Lemma number_len_cons : forall s, number_len s =
  match run_len is_digit s with
  | 0 => match s with
         | c :: r => if Ascii.eqb c dot then match run_len is_digit r with 0 => 0 | n => S n + exp_len (skipn n r) end else 0
         | [] => 0
         end
  | d => match skipn d s with
         | c :: r => if Ascii.eqb c dot then let f := run_len is_digit r in S d + f + exp_len (skipn f r)
                     else match exp_len (skipn d s) with
                          | 0 => if starts (t "0") s then run_len is_zero s else d
                          | e => d + e
                          end
         | [] => if starts (t "0") s then run_len is_zero s else d
         end
  end.
Proof. reflexivity. Qed.

(** The number of characters after [d] digits. *)
Lemma number_len_digits : forall s d, run_len is_digit s = S d -> S d <= number_len s \/ exists c r, s = c :: r /\ is_zero c = true /\ number_len s = run_len is_zero s.
Proof.
  intros s d D. rewrite number_len_cons, D. cbv zeta.
  destruct (starts (t "0") s) eqn:Z.
  - destruct s as [|c r]; [discriminate|]. rewrite starts_zero in Z.
    destruct (skipn (S d) (c :: r)) as [|a z]; [right; eauto 6|]. destruct (Ascii.eqb a dot); [left; cbv zeta; lia|]. destruct (exp_len (a :: z)); [right; eauto|left; lia].
  - left. destruct (skipn (S d) s) as [|a z]; [lia|]. destruct (Ascii.eqb a dot); [cbv zeta; lia|]. destruct (exp_len (a :: z)); lia.
Qed.

Lemma number_len_after : forall w y, run is_digit w -> run_len is_digit (w ++ y) = length w -> number_len (w ++ y) =
  let whole := if starts (t "0") (w ++ y) then run_len is_zero (w ++ y) else length w in
  match y with
  | c :: r => if Ascii.eqb c dot then S (length w) + run_len is_digit r + exp_len (skipn (run_len is_digit r) r)
              else match exp_len y with 0 => whole | e => length w + e end
  | [] => whole
  end.
Proof.
  intros w y R L. rewrite number_len_cons, L. destruct (run_head _ _ R) as (w0 & wr & Ew & _).
  destruct (length w) as [|n] eqn:Ln; [subst w; discriminate|]. cbv zeta. rewrite <- Ln, skipn_len. destruct y; reflexivity.
Qed.

Lemma absent_head : forall e y, exponent_part e -> match e ++ y with c :: _ => is_digit c = false /\ c <> us | [] => True end.
Proof. intros w y (e & sg & d & -> & E & _). cbn [app]. destruct (e_not_digit e E) as (A & B & _). auto. Qed.

Lemma fraction_max : forall f e y, absent_or (run is_digit) f -> absent_or exponent_part e ->
  length f + length e <= run_len is_digit (f ++ e ++ y) + exp_len (skipn (run_len is_digit (f ++ e ++ y)) (f ++ e ++ y)).
Proof.
  intros f e y F E. destruct E as [-> | E].
  - cbn [app length]. destruct F as [-> | F]; [cbn [app length]; lia|]. pose proof (run_len_max is_digit digit_us f F y). lia.
  - assert (L : run_len is_digit (f ++ e ++ y) = length f).
    { destruct F as [-> | F].
      - cbn [app length]. pose proof (absent_head e y E) as H. destruct (e ++ y) as [|c r]; auto. now apply run_len_none.
      - apply (run_len_exact is_digit digit_us f F). now apply absent_head. }
    rewrite L, skipn_len. pose proof (exp_len_max e E y). lia.
Qed.

Lemma number_len_max : forall w, numeral w -> forall y, length w <= number_len (w ++ y).
Proof.
  intros w N y. destruct N as [w R|w R H|w e R E|w f e R F E|f e R E].
  - pose proof (run_len_max is_zero zero_us w R y) as M. pose proof (run_len_max is_digit digit_us w (run_mono _ _ _ zero_digit R) y) as M'.
    destruct (run_head _ _ R) as (c & r & -> & C). cbn [app length] in *. destruct (run_len is_digit (c :: r ++ y)) as [|d] eqn:D; [lia|].
    destruct (number_len_digits _ _ D) as [X|(? & ? & _ & _ & X)]; lia.
  - pose proof (run_len_max is_digit digit_us w R y) as M. destruct (run_head _ _ R) as (c & r & -> & C). cbn [app length] in *.
    destruct (run_len is_digit (c :: r ++ y)) as [|d] eqn:D; [lia|].
    destruct (number_len_digits _ _ D) as [X|(c' & r' & [= <- _] & Z & X)]; [lia|]. exfalso. apply H. cbn. f_equal. now apply Ascii.eqb_eq in Z.
  - pose proof (absent_head e y E) as A. assert (L := run_len_exact is_digit digit_us w R (e ++ y) A). rewrite <- app_assoc, (number_len_after w _ R L), app_length.
    pose proof (exp_len_max e E y) as M. destruct E as (c & sg & d & -> & Ec & _). destruct (e_not_digit c Ec) as (_ & _ & _ & Nd).
    cbv zeta. cbn [app] in M |- *. rewrite Nd. cbn [length] in *. destruct (exp_len (c :: (sg ++ d) ++ y)); lia.
  - assert (L : run_len is_digit (w ++ dot :: f ++ e ++ y) = length w) by (apply (run_len_exact is_digit digit_us w R); split; [reflexivity|discriminate]).
    replace ((w ++ dot :: f ++ e) ++ y) with (w ++ dot :: f ++ e ++ y) by (rewrite <- app_assoc; cbn [app]; now rewrite <- app_assoc).
    rewrite (number_len_after w _ R L). pose proof (fraction_max f e y F E) as M.
    change (Ascii.eqb dot dot) with true. cbv zeta. cbn match. rewrite app_length. cbn [length]. rewrite app_length. lia.
  - replace ((dot :: f ++ e) ++ y) with (dot :: f ++ e ++ y) by (cbn [app]; now rewrite <- app_assoc).
    rewrite number_len_cons, run_len_none by reflexivity. change (Ascii.eqb dot dot) with true. cbn match.
    pose proof (fraction_max f e y (or_intror R) E) as M. pose proof (run_len_max is_digit digit_us f R (e ++ y)) as M'.
    destruct (run_head _ _ R) as (c & r & Ef & _). cbn [length]. rewrite app_length. destruct (run_len is_digit (f ++ e ++ y)) as [|n] eqn:Ln; [subst f; cbn [length] in M'; lia|]. cbv zeta. lia.
Qed.

Lemma number_len_numeral : forall s, 0 < number_len s -> exists w y, s = w ++ y /\ numeral w /\ number_len s = length w.
Proof.
  intros s H. destruct (run_len is_digit s) as [|d] eqn:D.
  - rewrite number_len_cons, D in H |- *. destruct s as [|c r]; [lia|]. destruct (Ascii.eqb c dot) eqn:C; [|lia]. apply Ascii.eqb_eq in C. subst c.
    destruct (run_len is_digit r) as [|n] eqn:N; [lia|]. destruct (run_len_run is_digit digit_us r) as (f & y & -> & R & Len); [lia|].
    rewrite N in Len. clear H. cbv zeta. rewrite Len, skipn_len.
    destruct (exp_len y) as [|k] eqn:K.
    + exists (dot :: f ++ []), y. cbn [app]. rewrite app_nil_r. split; [reflexivity|]. split; [|cbn [length]; lia]. rewrite <- (app_nil_r f). apply nm_fraction; auto. now left.
    + destruct (exp_len_part y) as (e & z & -> & E & Le); [lia|]. exists (dot :: f ++ e), z. split; [cbn [app]; now rewrite <- app_assoc|]. split; [apply nm_fraction; auto; now right|].
      cbn [length]. rewrite app_length. lia.
  - destruct (run_len_run is_digit digit_us s) as (w & y & -> & R & Len); [lia|]. rewrite (number_len_after w y R Len). cbv zeta.
    assert (P : exists w' y', w ++ y = w' ++ y' /\ numeral w' /\ (if starts (t "0") (w ++ y) then run_len is_zero (w ++ y) else length w) = length w').
    { destruct (run_head _ _ R) as (c & r & Ew & C). destruct (starts (t "0") (w ++ y)) eqn:Z.
      - destruct (run_len_run is_zero zero_us (w ++ y)) as (w' & y' & E & R' & Len').
        + rewrite Ew in *. cbn [app] in *. rewrite starts_zero in Z. now apply run_len_pos.
        + exists w', y'. split; auto. split; auto. now apply nm_zero.
      - exists w, y. split; auto. split; auto. apply nm_whole; auto. rewrite Ew in *. cbn [app] in Z. rewrite starts_zero in Z. cbn. intros [= ->]. discriminate. }
    destruct y as [|c r]; [exact P|]. destruct (Ascii.eqb c dot) eqn:Cd.
    + apply Ascii.eqb_eq in Cd. subst c.
      assert (F : exists f y, r = f ++ y /\ absent_or (run is_digit) f /\ run_len is_digit r = length f).
      { destruct (run_len is_digit r) as [|n] eqn:N; [exists [], r; repeat split; auto; now left|]. destruct (run_len_run is_digit digit_us r) as (f & z & -> & Rf & Lf); [lia|].
        exists f, z. repeat split; auto; [now right|lia]. }
      destruct F as (f & z & -> & F & Lf). rewrite Lf, skipn_len. destruct (exp_len z) as [|k] eqn:K.
      * exists (w ++ dot :: f ++ []), z. rewrite app_nil_r. split; [rewrite <- app_assoc; reflexivity|]. split; [rewrite <- (app_nil_r f); apply nm_point; auto; now left|].
        rewrite app_length. cbn [length]. lia.
      * destruct (exp_len_part z) as (e & q & -> & E & Le); [lia|]. exists (w ++ dot :: f ++ e), q.
        split; [rewrite <- app_assoc; cbn [app]; now rewrite <- app_assoc|]. split; [apply nm_point; auto; now right|]. rewrite app_length. cbn [length]. rewrite app_length. lia.
    + destruct (exp_len (c :: r)) as [|k] eqn:K; [exact P|]. destruct (exp_len_part (c :: r)) as (e & q & Ey & E & Le); [lia|].
      exists (w ++ e), q. split; [rewrite <- app_assoc; now rewrite Ey|]. split; [now apply nm_power|]. rewrite app_length. lia.
Qed.

Lemma number_longest : forall s, 0 < number_len s -> longest numeral (firstn (number_len s) s) s.
Proof.
  intros s H. destruct (number_len_numeral s H) as (w & y & E & N & L). rewrite L. split; [|split].
  - rewrite E, firstn_len. auto.
  - exists (skipn (length w) s). now rewrite firstn_skipn.
  - intros w' r E' N'. rewrite E' in L. pose proof (number_len_max w' N' r). rewrite firstn_length, E, app_length. lia.
Qed.
Lemma number_none : forall s, number_len s = 0 -> starts_none numeral s.
Proof.
  intros s H w r E N. subst s. pose proof (number_len_max w N r). assert (length w = 0) by lia. destruct w; [|discriminate].
  inversion N; subst; try (match goal with R : run _ [] |- _ => inversion R end); try (destruct w; discriminate).
  destruct w; [|discriminate]. match goal with R : run _ [] |- _ => inversion R end.
Qed.
