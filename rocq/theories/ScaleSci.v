(** Powers of ten. *)
From Coq Require Import String Ascii List Bool Arith ZArith QArith Lia.
From Verif Require Import Base PyStr ScaleModel ScaleSpec ScaleUnmangle ScaleShow ScaleMangle ScaleParse ScaleWhole.
Import ListNotations.
Open Scope nat_scope.
Open Scope list_scope.

Definition digits (s : text) : Prop := Forall (fun c => is_digit c = true) s.
Definition stop_digit (s : text) : Prop := match s with c :: _ => is_digit c = false | [] => True end.
Definition word_ends (s : text) : Prop := match s with c :: _ => is_word c = false | [] => True end.

Lemma span_exact : forall f a b, Forall (fun c => f c = true) a -> match b with c :: _ => f c = false | [] => True end -> span f (a ++ b) = (a, b).
Proof.
  intros f a b A B. induction A as [|c a C _ IH]; cbn [app].
  - destruct b as [|c b]; auto. cbn [span]. now rewrite B.
  - cbn [span]. now rewrite C, IH.
Qed.
Lemma digits_at_exact : forall a b, all_digits a -> stop_digit b -> digits_at (a ++ b) = Some (a, b).
Proof. intros a b (N & A) B. unfold digits_at. rewrite span_exact by auto. destruct a; congruence. Qed.
Lemma skip_exact : forall a b, blanks a -> match b with c :: _ => is_space c = false | [] => True end -> skip_space (a ++ b) = b.
Proof. intros a b A B. unfold skip_space. now rewrite span_exact. Qed.
Lemma space_digit : forall c, is_space c = true -> is_digit c = false.
Proof. intros c H. destruct (is_digit c) eqn:E; auto. apply digit_word, space_not_word in E. congruence. Qed.
Lemma digit_space : forall c, is_digit c = true -> is_space c = false.
Proof. intros c H. now apply space_not_word, digit_word. Qed.

Definition power_sign (w : text) : Prop := w = t "**" \/ w = t "^".
Definition opt (c : ascii) (b : bool) : text := if b then [c] else [].

Lemma power_exact : forall c pw d plus neg k post, blanks c -> power_sign pw -> blanks d -> all_digits k -> word_ends post ->
  sci_power (t "10" ++ c ++ pw ++ d ++ opt "+"%char plus ++ opt dash neg ++ k ++ post) = Some (opt dash neg ++ k, post).
Proof.
  intros c pw d plus neg k post C P D K E. unfold sci_power.
  assert (Sd : stop_digit post) by (destruct post as [|a post]; auto; now apply nonword_digit).
  change (starts (t "10") (t "10" ++ c ++ pw ++ d ++ opt "+"%char plus ++ opt dash neg ++ k ++ post)) with true.
  change (skipn 2 (t "10" ++ c ++ pw ++ d ++ opt "+"%char plus ++ opt dash neg ++ k ++ post)) with (c ++ pw ++ d ++ opt "+"%char plus ++ opt dash neg ++ k ++ post). cbn beta iota zeta.
  rewrite skip_exact by (auto; destruct P as [-> | ->]; reflexivity).
  set (tail := opt "+"%char plus ++ opt dash neg ++ k ++ post).
  assert (K0 : exists x r, k = x :: r /\ is_digit x = true) by (destruct K as (N & A); destruct A; [congruence|eauto]).
  destruct K0 as (x & r & Ek & X).
  assert (T : match tail with a :: _ => is_space a = false | [] => True end).
  { unfold tail. destruct plus; [reflexivity|]. destruct neg; [reflexivity|]. rewrite Ek. cbn. now apply digit_space. }
  assert (R : (if starts (t "**") (pw ++ d ++ tail) then Some (skipn 2 (pw ++ d ++ tail)) else if starts (t "^") (pw ++ d ++ tail) then Some (skipn 1 (pw ++ d ++ tail)) else None) = Some (d ++ tail)).
  { destruct P as [-> | ->]; reflexivity. }
  rewrite R. rewrite skip_exact by auto. unfold tail.
  assert (X1 : Ascii.eqb x "+"%char = false) by (apply Ascii.eqb_neq; intros ->; discriminate).
  assert (X2 : Ascii.eqb x dash = false) by (apply Ascii.eqb_neq; intros ->; discriminate).
  assert (Dg : digits_at (k ++ post) = Some (k, post)) by (now apply digits_at_exact).
  assert (Fin : forall sg, match post with c0 :: _ => if is_word c0 then None else Some (sg ++ k, post) | [] => Some (sg ++ k, post) end = Some (sg ++ k, post)).
  { intros sg. destruct post as [|a post]; auto. cbn in E. now rewrite E. }
  subst k. destruct plus, neg; cbn [opt app] in *; rewrite ?X1, ?X2; change ("+"%char =? "+"%char)%char with true; cbn iota beta;
    change (dash =? dash)%char with true; change (dash =? "+"%char)%char with false; cbn iota beta; rewrite ?X2; cbn iota beta;
    change (dash =? dash)%char with true; cbn iota beta; rewrite Dg; solve [apply (Fin [dash])|apply (Fin [])].
Qed.

(** A plain decimal number. *)
Definition decimal (w : text) (f : option text) : text := w ++ match f with None => [] | Some d => dot :: d end.
Definition good_decimal (w : text) (f : option text) : Prop := all_digits w /\ match f with None => True | Some d => digits d end.

Lemma mantissa_exact : forall w f y, good_decimal w f -> match y with c :: _ => is_digit c = false /\ c <> dot | [] => True end -> sci_mantissa (decimal w f ++ y) = Some (decimal w f, y).
Proof.
  intros w f y (W & F) Y. unfold sci_mantissa, decimal. rewrite <- app_assoc. destruct f as [d|]; cbn [app].
  - rewrite digits_at_exact by (auto; reflexivity). change (Ascii.eqb dot dot) with true. cbn iota. rewrite span_exact; auto. destruct y; auto. apply Y.
  - rewrite app_nil_r, digits_at_exact by (auto; destruct y; auto; apply Y). destruct y as [|c y]; auto. destruct Y as (_ & Y). apply Ascii.eqb_neq in Y. now rewrite Y.
Qed.

(** *** The scan *)
Definition passive (s : text) : Prop := Forall (fun c => is_digit c = false /\ c <> dot) s.
Lemma here_passive : forall c s, is_digit c = false -> c <> dot -> sci_here (c :: s) = None.
Proof.
  intros c s D N. unfold sci_here, sci_mantissa. assert (E : digits_at (c :: s) = None) by (unfold digits_at; cbn [span]; now rewrite D). rewrite E.
  apply Ascii.eqb_neq in N. rewrite N. unfold sci_power. assert (X : starts (t "10") (c :: s) = false); [|now rewrite X].
  cbn [t list_ascii_of_string starts]. assert (Y : Ascii.eqb "1"%char c = false) by (apply Ascii.eqb_neq; intros <-; discriminate). now rewrite Y.
Qed.
Lemma scan_passive : forall x y b, passive x -> sci_from b 0 (x ++ y) = x ++ sci_from (match rev x with c :: _ => is_word c | [] => b end) 0 y.
Proof.
  induction x as [|c x IH]; intros y b P; auto. inversion P; subst. cbn [app sci_from]. rewrite here_passive by apply H1.
  rewrite IH by auto. assert (E : (if xorb b (is_word c) then @None (text * text) else None) = None) by (destruct (xorb b (is_word c)); auto). rewrite E. f_equal. f_equal. f_equal. cbn [rev]. destruct (rev x) eqn:R; auto.
Qed.
Lemma scan_skip : forall x y b, sci_from b (length x) (x ++ y) = match x with [] => sci_from b 0 y | _ => sci_from (match rev x with c :: _ => is_word c | [] => b end) 0 y end.
Proof.
  induction x as [|c x IH]; intros y b; auto. cbn [length app sci_from]. rewrite IH. cbn [rev]. destruct x as [|a x]; auto.
  cbn [rev]. destruct (rev x ++ [a]) eqn:E; [destruct (rev x); discriminate|]. reflexivity.
Qed.
Lemma scan_id : forall s b, no_power s -> sci_from b 0 s = s.
Proof.
  induction s as [|c s IH]; intros b N; cbn [sci_from]; auto.
  rewrite sci_none by auto. destruct (xorb b (is_word c)); f_equal; apply IH; (eapply no_power_suffix; [|exact N]; apply suffix_cons, suffix_refl).
Qed.

Definition boundary (pre : text) : Prop := passive pre /\ match rev pre with c :: _ => is_word c = false | [] => True end.

(** One match, from a digit on. *)
Lemma scan_match : forall c r x post new b, c :: r = x ++ post -> x <> [] -> b = false -> is_word c = true ->
  sci_here (c :: r) = Some (new, post) -> no_power post -> sci_from b 0 (c :: r) = new ++ post.
Proof.
  intros c r x post new b E N -> W H P. cbn [sci_from]. rewrite W. cbn [xorb]. rewrite H. f_equal.
  destruct x as [|a x]; [congruence|]. injection E as <- ->.
  replace (length (c :: x ++ post) - length post - 1) with (length x) by (cbn [length]; rewrite app_length; lia).
  rewrite scan_skip. destruct x; apply scan_id; auto.
Qed.

Theorem scientific_exact : forall pre w f a b c pw d plus neg k post, boundary pre -> good_decimal w f -> blanks a -> blanks b ->
  blanks c -> power_sign pw -> blanks d -> all_digits k -> word_ends post -> no_power post ->
  scientific (pre ++ decimal w f ++ a ++ t "*" ++ b ++ t "10" ++ c ++ pw ++ d ++ opt "+"%char plus ++ opt dash neg ++ k ++ post)
  = pre ++ decimal w f ++ t "e" ++ opt dash neg ++ k ++ post.
Proof.
  intros pre w f a b c pw d plus neg k post (Pp & Pb) G A B C P D K E N. unfold scientific. rewrite scan_passive by auto. f_equal.
  set (tl10 := t "10" ++ c ++ pw ++ d ++ opt "+"%char plus ++ opt dash neg ++ k ++ post).
  assert (H : sci_here (decimal w f ++ a ++ t "*" ++ b ++ tl10) = Some (decimal w f ++ t "e" ++ opt dash neg ++ k, post)).
  { unfold sci_here. rewrite mantissa_exact; auto.
    - assert (T : sci_times (a ++ t "*" ++ b ++ tl10) = Some tl10).
      { unfold sci_times. rewrite skip_exact by (auto; reflexivity). cbn [t list_ascii_of_string app]. change (Ascii.eqb "*"%char "*"%char) with true. cbn iota.
        f_equal. apply skip_exact; auto. reflexivity. }
      rewrite T. unfold tl10. rewrite power_exact by auto. reflexivity.
    - destruct a as [|x a]; [split; [reflexivity|discriminate]|]. inversion A; subst. cbn. split; [now apply space_digit|]. intros ->. discriminate. }
  assert (W0 : exists x r, w = x :: r /\ is_digit x = true) by (destruct G as ((Nw & Aw) & _); destruct Aw; [congruence|eauto]).
  destruct W0 as (x & r & -> & X).
  assert (Hd : exists y, decimal (x :: r) f ++ a ++ t "*" ++ b ++ tl10 = x :: y) by (eexists; reflexivity). destruct Hd as (y & Hd). rewrite Hd in *.
  rewrite (scan_match x y (decimal (x :: r) f ++ a ++ t "*" ++ b ++ t "10" ++ c ++ pw ++ d ++ opt "+"%char plus ++ opt dash neg ++ k) post (decimal (x :: r) f ++ t "e" ++ opt dash neg ++ k)); auto.
  - rewrite <- !app_assoc. reflexivity.
  - rewrite <- Hd. unfold tl10. rewrite <- !app_assoc. reflexivity.
  - unfold decimal. discriminate.
  - destruct (rev pre); auto.
  - now apply digit_word.
Qed.
Theorem scientific_bare : forall pre c pw d plus neg k post, boundary pre ->
  blanks c -> power_sign pw -> blanks d -> all_digits k -> word_ends post -> no_power post ->
  scientific (pre ++ t "10" ++ c ++ pw ++ d ++ opt "+"%char plus ++ opt dash neg ++ k ++ post) = pre ++ t "1e" ++ opt dash neg ++ k ++ post.
Proof.
  intros pre c pw d plus neg k post (Pp & Pb) C P D K E N. unfold scientific. rewrite scan_passive by auto. f_equal.
  set (tl10 := t "10" ++ c ++ pw ++ d ++ opt "+"%char plus ++ opt dash neg ++ k ++ post).
  assert (H : sci_here tl10 = Some (t "1e" ++ opt dash neg ++ k, post)).
  { unfold sci_here. assert (M : match sci_mantissa tl10 with
                     | Some (m, r) => match sci_times r with
                     | Some r' => match sci_power r' with Some (e, r'') => Some (m ++ "e"%char :: e, r'') | None => None end
                     | None => None
                     end
    | None => None
    end = None).
    { unfold tl10. change (t "10") with (decimal (t "10") None). rewrite mantissa_exact.
      - unfold sci_times. rewrite skip_exact by (auto; destruct P as [-> | ->]; reflexivity). destruct P as [-> | ->]; auto.
      - split; [split; [discriminate|]|exact I]. repeat constructor.
      - destruct c as [|x c]; [destruct P as [-> | ->]; (split; [reflexivity|discriminate])|]. inversion C; subst. cbn. split; [now apply space_digit|]. intros ->. discriminate. }
    rewrite M. unfold tl10. rewrite power_exact by auto. reflexivity. }
  change tl10 with ("1"%char :: "0"%char :: c ++ pw ++ d ++ opt "+"%char plus ++ opt dash neg ++ k ++ post) in *.
  rewrite (scan_match _ _ (t "10" ++ c ++ pw ++ d ++ opt "+"%char plus ++ opt dash neg ++ k) post (t "1e" ++ opt dash neg ++ k)); auto.
  - rewrite <- !app_assoc. reflexivity.
  - rewrite <- !app_assoc. reflexivity.
  - discriminate.
  - destruct (rev pre); auto.
Qed.
