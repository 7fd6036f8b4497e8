(** From the text of a unit to internal names. *)
From Coq Require Import String Ascii List Bool Arith ZArith QArith Qpower Lia.
From Verif Require Import Base PyStr ScaleModel ScaleSpec ScaleUnmangle ScaleShow ScaleMangle.
Import ListNotations.
Open Scope nat_scope.
Open Scope list_scope.

(** *** Tokens *)
Lemma skipn_len : forall (a b : text), skipn (length a) (a ++ b) = b.
Proof. induction a; cbn; auto. Qed.
Lemma firstn_len : forall (a b : text), firstn (length a) (a ++ b) = a.
Proof. induction a; cbn; intros; f_equal; auto. Qed.

Lemma lex_skip : forall x y pos, lex_from pos (length x) (x ++ y) = lex_from (pos + length x) 0 y.
Proof.
  induction x as [|c x IH]; intros y pos; cbn [length app]; [now rewrite Nat.add_0_r|].
  cbn [lex_from]. rewrite IH. f_equal. lia.
Qed.
Lemma lex_blanks : forall x y pos, blanks x -> lex_from pos 0 (x ++ y) = lex_from (pos + length x) 0 y.
Proof.
  intros x y pos B. revert pos. induction B as [|c x C _ IH]; intros pos; cbn [length app]; [now rewrite Nat.add_0_r|].
  cbn [lex_from]. rewrite C. rewrite IH. f_equal. lia.
Qed.
Lemma alpha_start : forall c, is_alpha c = true -> is_start c = true.
Proof. intros c H. unfold is_start. now rewrite H. Qed.
Definition wstop (y : text) : Prop := match y with c :: _ => is_word c = false | [] => True end.

Lemma lex_name : forall u y pos, identifier u -> wstop y ->
  lex_from pos 0 (u ++ y) = mkT NAME u pos (pos + length u) :: lex_from (pos + length u) 0 y.
Proof.
  intros u y pos I Y. pose proof (identifier_words u I) as W. destruct I as (c & r & -> & A & R). cbn [app lex_from].
  rewrite (space_not_word c) by (now apply alpha_word). rewrite alpha_start by auto. change (c :: r ++ y) with ((c :: r) ++ y). rewrite span_app by auto. cbn [fst].
  rewrite firstn_len. f_equal. cbn [length]. replace (S (length r) - 1) with (length r) by lia. rewrite lex_skip. f_equal. lia.
Qed.

Definition op_char (c : ascii) : Prop := c = "+"%char \/ c = "-"%char \/ c = "*"%char \/ c = "/"%char.
Definition not_double (c : ascii) (y : text) : Prop := match y with d :: _ => (c = "*"%char \/ c = "/"%char) -> d <> c | [] => True end.
Lemma lex_op : forall c y pos, op_char c -> not_double c y -> lex_from pos 0 (c :: y) = mkT OP [c] pos (pos + 1) :: lex_from (pos + 1) 0 y.
Proof.
  intros c y pos O D. assert (S2 : starts (t "**") (c :: y) || starts (t "//") (c :: y) = false).
  { destruct O as [-> | [-> | [-> | ->]]]; cbn [t list_ascii_of_string starts]; auto; destruct y as [|d y]; auto; cbn [not_double] in D.
    - assert (E : Ascii.eqb "*"%char d = false) by (apply Ascii.eqb_neq; intros <-; apply D; auto). now rewrite E.
    - assert (E : Ascii.eqb "/"%char d = false) by (apply Ascii.eqb_neq; intros <-; apply D; auto). rewrite E. cbn. reflexivity. }
  cbn [lex_from]. rewrite Nat.add_1_r.
  assert (NL : number_len (c :: y) = 0) by (destruct O as [-> | [-> | [-> | ->]]]; reflexivity).
  assert (IS : is_space c = false) by (destruct O as [-> | [-> | [-> | ->]]]; reflexivity).
  assert (IT : is_start c = false) by (destruct O as [-> | [-> | [-> | ->]]]; reflexivity).
  assert (IO : existsb (Ascii.eqb c) operators = true) by (destruct O as [-> | [-> | [-> | ->]]]; reflexivity).
  assert (S3 : starts (t "...") (c :: y) = false) by (destruct O as [-> | [-> | [-> | ->]]]; reflexivity).
  rewrite NL, IS, IT, S2, S3, IO. reflexivity.
Qed.

(** The tokens of the signs. *)
Fixpoint sign_tokens (pos : nat) (s : text) : list token :=
  match s with
  | [] => []
  | c :: r => if is_space c then sign_tokens (S pos) r else mkT OP [c] pos (S pos) :: sign_tokens (S pos) r
  end.
Lemma lex_signs : forall s y pos, Forall sign_char s -> lex_from pos 0 (s ++ y) = sign_tokens pos s ++ lex_from (pos + length s) 0 y.
Proof.
  intros s y pos F. revert pos. induction F as [|c s C _ IH]; intros pos; cbn [app length sign_tokens]; [now rewrite Nat.add_0_r|].
  replace (pos + S (length s)) with (S pos + length s) by lia.
  assert (Nd : forall d, d = "+"%char \/ d = "-"%char -> not_double d (s ++ y)).
  { intros d D. unfold not_double. destruct (s ++ y); auto. intros [-> | ->]; destruct D; discriminate. }
  destruct C as [-> | [-> | ->]].
  - rewrite lex_op; [|left; auto|apply Nd; auto]. change (is_space "+"%char) with false. cbn match. cbn [app]. rewrite Nat.add_1_r, IH. reflexivity.
  - rewrite lex_op; [|right; left; auto|apply Nd; auto]. change (is_space "-"%char) with false. cbn match. cbn [app]. rewrite Nat.add_1_r, IH. reflexivity.
  - change (is_space " "%char) with true. cbn match. rewrite <- IH. reflexivity.
Qed.

(** *** Numbers *)
Definition dstop (y : text) : Prop := match y with c :: _ => is_digit c = false /\ Ascii.eqb c us = false | [] => True end.
Lemma digits_len_cons : forall c r, digits_len (c :: r) =
  if is_digit c then match r with
                     | c' :: ((c'' :: _) as r') => if Ascii.eqb c' us && is_digit c'' then S (S (digits_len r')) else S (digits_len r)
                     | _ => S (digits_len r)
                     end else 0.
Proof. reflexivity. Qed.
Lemma digits_len_stop : forall y, dstop y -> digits_len y = 0.
Proof. intros [|c y] H; auto. rewrite digits_len_cons. destruct H as (H & _). now rewrite H. Qed.

Lemma digits_len_run : forall d y, all_digits d -> dstop y -> digits_len (d ++ y) = length d.
Proof.
  induction d as [|c d IH]; intros y (N & D) Y; [congruence|]. inversion D; subst. cbn [app]. rewrite digits_len_cons, H1.
  destruct d as [|c' d].
  - cbn [app length]. destruct y as [|a [|b y]]; auto.
    + rewrite digits_len_stop by auto. reflexivity.
    + destruct Y as (Y1 & Y2). rewrite Y2. cbn [andb]. rewrite digits_len_stop by (now split). reflexivity.
  - inversion H2; subst. cbn [app]. assert (AD : all_digits (c' :: d)) by (split; [discriminate|assumption]). specialize (IH y AD Y). cbn [app] in IH.
    destruct (d ++ y) as [|b q] eqn:E.
    + rewrite IH. reflexivity.
    + rewrite digit_not_us by auto. cbn [andb]. rewrite IH. reflexivity.
Qed.
(** With a separator and more digits behind. *)
Lemma digits_len_sep : forall d q b, all_digits d -> is_digit b = true -> digits_len (d ++ us :: b :: q) = length d + 1 + digits_len (b :: q).
Proof.
  induction d as [|c d IH]; intros q b (N & D) B; [congruence|]. inversion D; subst. cbn [app]. rewrite digits_len_cons, H1.
  destruct d as [|c' d].
  - cbn [app length]. change (Ascii.eqb us us) with true. rewrite B. cbn [andb]. lia.
  - inversion H2; subst. cbn [app]. assert (AD : all_digits (c' :: d)) by (split; [discriminate|assumption]). specialize (IH q b AD B). cbn [app] in IH.
    destruct (d ++ us :: b :: q) as [|a z] eqn:E.
    + destruct d; discriminate.
    + rewrite digit_not_us by auto. cbn [andb]. rewrite IH. cbn [length]. lia.
Qed.
Lemma join_head : forall x g, all_digits x -> exists c q, join (t "_") (x :: g) = c :: q /\ is_digit c = true.
Proof. intros x g (N & D). destruct x as [|c x]; [congruence|]. inversion D; subst. cbn [join]. destruct g; cbn [app]; eauto. Qed.
Lemma digits_len_join : forall g y, grouped g -> dstop y -> digits_len (join (t "_") g ++ y) = length (join (t "_") g).
Proof.
  induction g as [|x g IH]; intros y (N & G) Y; [congruence|]. inversion G; subst. destruct g as [|x' g].
  - now apply digits_len_run.
  - inversion H2; subst. destruct (join_head x' g H3) as (c & q & J & C).
    change (join (t "_") (x :: x' :: g)) with (x ++ us :: join (t "_") (x' :: g)).
    assert (GD : grouped (x' :: g)) by (split; [discriminate|assumption]). specialize (IH y GD Y). rewrite J in *. rewrite <- app_assoc. cbn [app] in *. rewrite digits_len_sep by auto.
    rewrite IH. rewrite app_length. cbn [length]. lia.
Qed.

Definition exp_text (e : ascii) (s : option ascii) (g : list text) : text := [e] ++ match s with None => [] | Some c => [c] end ++ join (t "_") g.
Lemma exp_len_exact : forall e s g y, (e = "e"%char \/ e = "E"%char) -> (s = None \/ s = Some "+"%char \/ s = Some "-"%char) -> grouped g -> dstop y ->
  exp_len (exp_text e s g ++ y) = length (exp_text e s g).
Proof.
  intros e s g y E HS G Y. unfold exp_text. rewrite <- !app_assoc. cbn [app exp_len].
  assert (X : is_e e = true) by (destruct E as [-> | ->]; reflexivity). rewrite X.
  pose proof (digits_len_join g y G Y) as L. destruct G as (N & G). destruct g as [|x g]; [congruence|]. inversion G; subst. destruct (join_head x g H1) as (c & q & J & C).
  assert (Len : length (join (t "_") (x :: g)) = S (length q)) by (rewrite J; reflexivity).
  destruct HS as [-> | [-> | ->]].
  - cbn [app length]. rewrite J in L |- *. cbn [app] in *. assert (A : Ascii.eqb c dash = false) by (apply Ascii.eqb_neq; intros ->; discriminate).
    assert (B : Ascii.eqb c "+"%char = false) by (apply Ascii.eqb_neq; intros ->; discriminate). rewrite A, B. cbn [orb]. rewrite L. reflexivity.
  - cbn [app length]. change (Ascii.eqb "+"%char dash || Ascii.eqb "+"%char "+"%char) with true. cbn match. rewrite L, Len. reflexivity.
  - cbn [app length]. change (Ascii.eqb "-"%char dash || Ascii.eqb "-"%char "+"%char) with true. cbn match. rewrite L, Len. reflexivity.
Qed.

(** What follows the number: nothing that continues it. *)
Definition nstop (l : literal) (y : text) : Prop :=
  dstop y /\ (exponent l = None -> exp_len y = 0) /\ match y with c :: _ => Ascii.eqb c dot = false | [] => True end.

Lemma number_len_exact : forall l y, good_literal l -> python_number l -> nstop l y -> number_len (unsigned l ++ y) = length (unsigned l).
Proof.
  intros l y (Sg & W & F & X) PN (DY & EY & YD).
  set (E := match exponent l with None => [] | Some (e, s, g) => exp_text e s g end).
  set (Fr := match fraction l with None => [] | Some g => t "." ++ join (t "_") g end).
  assert (U : unsigned l = join (t "_") (whole l) ++ Fr ++ E) by (unfold unsigned, Fr, E, exp_text; destruct (exponent l) as [[[e s] g]|]; reflexivity).
  assert (EL : exp_len (E ++ y) = length E).
  { unfold E. destruct (exponent l) as [[[e s] g]|]; [destruct X as (A & B & C); now apply exp_len_exact|]. cbn [app length]. auto. }
  assert (ES : dstop (E ++ y)).
  { unfold E. destruct (exponent l) as [[[e s] g]|]; auto. destruct X as ([-> | ->] & _); split; reflexivity. }
  assert (FS : dstop (Fr ++ E ++ y)) by (unfold Fr; destruct (fraction l) as [g|]; auto; split; reflexivity).
  rewrite U, <- !app_assoc. pose proof (digits_len_join (whole l) _ W FS) as L. unfold number_len. rewrite L.
  destruct W as (NW & GW). assert (Hd : exists c q, join (t "_") (whole l) = c :: q /\ is_digit c = true) by (destruct (whole l) as [|x g]; [congruence|]; inversion GW; subst; now apply join_head).
  destruct Hd as (c & q & J & C). destruct (length (join (t "_") (whole l))) as [|n] eqn:LJ; [rewrite J in LJ; discriminate|]. rewrite <- LJ.
  rewrite skipn_len. rewrite !app_length. unfold Fr. destruct (fraction l) as [g|] eqn:Ef.
  - rewrite <- !app_assoc. change (t "." ++ ?a) with (dot :: a). cbn match. change (Ascii.eqb dot dot) with true. cbn match.
    rewrite digits_len_join by auto. rewrite skipn_len, EL. change (t "." ++ join (t "_") g) with (dot :: join (t "_") g). cbn [length]. lia.
  - cbn [app length Nat.add]. destruct (E ++ y) as [|a z] eqn:Ey.
    + assert (E = []) as E0 by (destruct E; [auto|discriminate]). rewrite E0 in *. cbn [length]. rewrite Nat.add_0_r.
      destruct (starts (t "0") _) eqn:S0; auto. exfalso.
      assert (Ex : exponent l = None) by (unfold E in E0; destruct (exponent l) as [[[e s] g]|]; [discriminate|auto]).
      apply (PN Ef Ex). rewrite J in S0. cbn [app t list_ascii_of_string starts] in S0. rewrite andb_true_r in S0. apply Ascii.eqb_eq in S0. subst c.
      destruct (whole l) as [|x g]; [congruence|]. inversion GW; subst. destruct H1 as (NX & _). destruct x as [|x0 x]; [congruence|].
      cbn [concat app hd_error]. cbn [join] in J. destruct g; injection J; intros; subst; reflexivity.
    + assert (Ad : Ascii.eqb a dot = false).
      { unfold E in Ey. destruct (exponent l) as [[[e s] g]|]; [destruct X as ([-> | ->] & _); injection Ey as <- _; reflexivity|]. cbn [app] in Ey. rewrite Ey in YD. exact YD. }
      rewrite Ad, EL. destruct (length E) as [|k] eqn:LE; [|lia]. rewrite Nat.add_0_r.
      assert (E = []) as E0 by (destruct E; [auto|discriminate]).
      destruct (starts (t "0") _) eqn:S0; auto. exfalso.
      assert (Ex : exponent l = None) by (unfold E in E0; destruct (exponent l) as [[[e s] g]|]; [discriminate|auto]).
      apply (PN Ef Ex). rewrite J in S0. cbn [app t list_ascii_of_string starts] in S0. rewrite andb_true_r in S0. apply Ascii.eqb_eq in S0. subst c.
      destruct (whole l) as [|x g]; [congruence|]. inversion GW; subst. destruct H1 as (NX & _). destruct x as [|x0 x]; [congruence|].
      cbn [concat app hd_error]. cbn [join] in J. destruct g; injection J; intros; subst; reflexivity.
Qed.

Lemma lex_number : forall l y pos, good_literal l -> python_number l -> nstop l y ->
  lex_from pos 0 (unsigned l ++ y) = mkT NUMBER (unsigned l) pos (pos + length (unsigned l)) :: lex_from (pos + length (unsigned l)) 0 y.
Proof.
  intros l y pos G P N. pose proof (number_len_exact l y G P N) as L.
  assert (Hd : exists c q, unsigned l = c :: q /\ is_digit c = true).
  { destruct G as (_ & (NW & GW) & _). unfold unsigned. destruct (whole l) as [|x g]; [congruence|]. inversion GW; subst. destruct (join_head x g H1) as (c & q & -> & C). cbn [app]. eauto. }
  destruct Hd as (c & q & U & C). rewrite U in *. cbn [app lex_from]. rewrite (space_not_word c) by (now apply digit_word).
  assert (HS : is_start c = false) by (unfold is_start; rewrite digit_not_alpha, digit_not_us; auto). rewrite HS.
  change (c :: q ++ y) with ((c :: q) ++ y). rewrite L. cbn [length]. change (S (length q)) with (length (c :: q)). rewrite firstn_len. f_equal.
  cbn [length]. replace (S (length q) - 1) with (length q) by lia. rewrite lex_skip. f_equal. lia.
Qed.

(** *** Blocks *)
Lemma find_signs : forall s pos b ks, Forall sign_char s -> stack b = [] ->
  find_loop (sign_tokens pos s ++ ks) b = find_loop ks (mkB (finished b) (current b ++ sign_tokens pos s) []).
Proof.
  intros s pos b ks F. revert pos b. induction F as [|c s C _ IH]; intros pos b B; cbn [sign_tokens].
  - cbn [app]. rewrite app_nil_r. destruct b; cbn in *; now subst.
  - destruct C as [-> | [-> | ->]].
    + change (is_space "+"%char) with false. cbn match. cbn [app find_loop]. unfold find_step. cbn [tkind]. rewrite B. cbn [existsb]. unfold handle_operator. cbn [tstring].
      change (negb (tmem ["+"%char] allowed)) with false. cbn match. change (false || keeps_block ["+"%char]) with true. cbn match.
      change (teqb ["+"%char] (t "(")) with false. change (teqb ["+"%char] (t ")")) with false. change (is_power ["+"%char]) with false. cbn match.
      unfold put, with_stack. cbn [finished current stack]. rewrite B. rewrite IH by reflexivity. cbn [finished current]. now rewrite <- app_assoc.
    + change (is_space "-"%char) with false. cbn match. cbn [app find_loop]. unfold find_step. cbn [tkind]. rewrite B. cbn [existsb]. unfold handle_operator. cbn [tstring].
      change (negb (tmem ["-"%char] allowed)) with false. cbn match. change (false || keeps_block ["-"%char]) with true. cbn match.
      change (teqb ["-"%char] (t "(")) with false. change (teqb ["-"%char] (t ")")) with false. change (is_power ["-"%char]) with false. cbn match.
      unfold put, with_stack. cbn [finished current stack]. rewrite B. rewrite IH by reflexivity. cbn [finished current]. now rewrite <- app_assoc.
    + change (is_space " "%char) with true. cbn match. now apply IH.
Qed.

Lemma last_not_name : forall x k, tkind k <> NAME -> last_is_name (x ++ [k]) = false.
Proof. intros x k H. unfold last_is_name. rewrite rev_app_distr. cbn. destruct (tkind k); congruence. Qed.

Lemma blocks_of : forall lead op sg num u, op = "*"%char \/ op = "/"%char -> Forall sign_char sg ->
  forall p0 p1 p2 p3 p4 q0 q1 q3 q4,
  find_blocks (mkT NAME lead p0 q0 :: mkT OP [op] p1 q1 :: sign_tokens p2 sg ++ [mkT NUMBER num p3 q3; mkT NAME u p4 q4])
  = Ok [[mkT NAME lead p0 q0]; sign_tokens p2 sg ++ [mkT NUMBER num p3 q3; mkT NAME u p4 q4]].
Proof.
  intros lead op sg num u O F p0 p1 p2 p3 p4 q0 q1 q3 q4. unfold find_blocks.
  change (find_loop (mkT NAME lead p0 q0 :: mkT OP [op] p1 q1 :: ?a) (mkB [] [] [])) with (find_loop (mkT OP [op] p1 q1 :: a) (mkB [] [mkT NAME lead p0 q0] [])).
  assert (St : forall ks, find_loop (mkT OP [op] p1 q1 :: ks) (mkB [] [mkT NAME lead p0 q0] []) = find_loop ks (mkB [[mkT NAME lead p0 q0]] [] [])) by (destruct O as [-> | ->]; reflexivity).
  rewrite St, find_signs by auto. cbn [finished current app find_loop]. unfold find_step at 1. cbn [tkind stack existsb put finished current]. unfold put. cbn [stack finished current].
  unfold find_step. cbn [tkind stack existsb]. unfold handle_name. cbn [current finished orb]. rewrite last_not_name by discriminate. cbn [negb]. unfold put. cbn [stack finished current app].
  now rewrite <- app_assoc.
Qed.

(** *** Scaling terms *)
Lemma index_none : forall A (f : A -> bool) x, (forall a, In a x -> f a = false) -> index_of f x = None.
Proof. induction x as [|a x IH]; intros H; cbn [index_of]; auto. rewrite H by (now left). rewrite IH; auto. intros b B. apply H. now right. Qed.
Lemma index_skip : forall A (f : A -> bool) x y, (forall a, In a x -> f a = false) -> index_of f (x ++ y) = option_map (fun i => length x + i) (index_of f y).
Proof.
  induction x as [|a x IH]; intros y H; cbn [app index_of length]; [destruct (index_of f y); auto|]. rewrite H by (now left).
  rewrite IH by (intros b B; apply H; now right). destruct (index_of f y); auto.
Qed.
Lemma enum_app : forall A (x y : list A) i, enumerate_from i (x ++ y) = enumerate_from i x ++ enumerate_from (i + length x) y.
Proof. induction x as [|a x IH]; intros y i; cbn [app enumerate_from length]; [now rewrite Nat.add_0_r|]. rewrite IH. cbn [app]. f_equal. f_equal. f_equal. lia. Qed.
Lemma enum_in : forall A (x : list A) i p, In p (enumerate_from i x) -> In (snd p) x.
Proof. induction x as [|a x IH]; intros i p H; cbn in H; [contradiction|]. destruct H as [<-|H]; [now left|right; eauto]. Qed.
Lemma filter_none : forall A (f : A -> bool) x, (forall a, In a x -> f a = false) -> filter f x = [].
Proof. induction x as [|a x IH]; intros H; cbn [filter]; auto. rewrite H by (now left). apply IH. intros b B. apply H. now right. Qed.

Lemma sign_token_in : forall s pos k, Forall sign_char s -> In k (sign_tokens pos s) -> tkind k = OP /\ (tstring k = t "+" \/ tstring k = t "-").
Proof.
  intros s pos k F. revert pos. induction F as [|c s C _ IH]; intros pos H; [destruct H|]. cbn [sign_tokens] in H.
  destruct C as [-> | [-> | ->]].
  - change (is_space "+"%char) with false in H. cbn match in H. destruct H as [<-|H]; [split; auto|eauto].
  - change (is_space "-"%char) with false in H. cbn match in H. destruct H as [<-|H]; [split; auto|eauto].
  - change (is_space " "%char) with true in H. cbn match in H. eauto.
Qed.

Lemma not_power : forall s c, hd_error s = Some c -> c <> "*"%char -> c <> "^"%char -> is_power s = false.
Proof.
  intros [|a s] c H A B; [discriminate|]. injection H as ->. unfold is_power. cbn [teqb t list_ascii_of_string].
  apply Ascii.eqb_neq in A, B. now rewrite A, B.
Qed.

Definition first_start (s : text) (pos : nat) (k : token) (d : nat) : nat := match sign_tokens pos s with x :: _ => tstart x | [] => d end.

Lemma factor_exact : forall input sg num u p2 p3 q3 p4 q4, Forall sign_char sg ->
  (exists c, hd_error num = Some c /\ is_digit c = true) -> identifier u ->
  float_is_one num = false -> float_is_zero num = false ->
  factor_of input (sign_tokens p2 sg ++ [mkT NUMBER num p3 q3; mkT NAME u p4 q4])
  = Ok [mkScaled (slice (match sign_tokens p2 sg with x :: _ => tstart x | [] => p3 end) q4 input) num (Some (slice p4 q4 input))].
Proof.
  intros input sg num u p2 p3 q3 p4 q4 F (c & Hc & Dc) I F1 F0. unfold factor_of. set (st := sign_tokens p2 sg).
  assert (Pw : forall k, In k st -> is_power (tstring k) = false).
  { intros k K. destruct (sign_token_in _ _ _ F K) as (_ & [-> | ->]); reflexivity. }
  assert (Pn : is_power num = false) by (eapply not_power; eauto; intros ->; discriminate).
  assert (Pu : is_power u = false) by (destruct I as (a & r & -> & A & _); eapply not_power; [reflexivity| |]; intros ->; discriminate).
  rewrite index_none by (intros k K; apply in_app_iff in K as [K|[<-|[<-|[]]]]; auto).
  rewrite index_skip by (intros k K; unfold is_name; now destruct (sign_token_in _ _ _ F K) as (-> & _)).
  cbn [index_of is_name tkind option_map]. rewrite enum_app, filter_app. cbn [enumerate_from filter snd fst is_number tkind].
  rewrite filter_none by (intros k K; apply enum_in in K; unfold is_number; now destruct (sign_token_in _ _ _ F K) as (-> & _)).
  assert (Lt : Nat.ltb (0 + length st) (length (st ++ [mkT NUMBER num p3 q3; mkT NAME u p4 q4])) = true) by (apply Nat.ltb_lt; rewrite app_length; cbn [length]; lia).
  cbn [andb app Nat.add] in *. rewrite Lt. cbn [tstring]. rewrite Nat.eqb_refl. cbn [negb].
  assert (Nlt : Nat.ltb (length st + 1) (length st) = false) by (apply Nat.ltb_ge; lia). rewrite Nlt. rewrite F1, F0. cbn [negb andb].
  assert (N1 : nth_error (st ++ [mkT NUMBER num p3 q3; mkT NAME u p4 q4]) (length (st ++ [mkT NUMBER num p3 q3; mkT NAME u p4 q4]) - 1) = Some (mkT NAME u p4 q4)).
  { rewrite app_length. cbn [length]. rewrite nth_error_app2 by lia. replace (length st + 2 - 1 - length st) with 1 by lia. reflexivity. }
  assert (N2 : nth_error (st ++ [mkT NUMBER num p3 q3; mkT NAME u p4 q4]) (length st + 1) = Some (mkT NAME u p4 q4)).
  { rewrite nth_error_app2 by lia. replace (length st + 1 - length st) with 1 by lia. reflexivity. }
  rewrite N1, N2. cbn [tend tstart]. destruct st as [|x st]; cbn [app nth_error]; reflexivity.
Qed.

(** *** Values *)
Lemma digits_value_dec : forall s a, Forall (fun c => is_digit c = true) s ->
  digits_value a s = fold_left (fun a c => (a * 10 + (Z.of_nat (nat_of_ascii c) - 48))%Z) s a.
Proof. intros s a H. revert a. induction H as [|c s C _ IH]; intros a; cbn [digits_value fold_left]; auto. rewrite C. apply IH. Qed.
Lemma digits_value_app : forall x y a, digits_value a (x ++ y) = digits_value (digits_value a x) y.
Proof. induction x as [|c x IH]; intros y a; cbn [app digits_value]; auto. Qed.
Lemma digits_value_join : forall g a, Forall all_digits g -> digits_value a (join (t "_") g) = digits_value a (concat g).
Proof.
  induction g as [|x g IH]; intros a G; auto. inversion G; subst. destruct g as [|y g]; [cbn [join concat]; now rewrite app_nil_r|].
  change (join (t "_") (x :: y :: g)) with (x ++ us :: join (t "_") (y :: g)). change (concat (x :: y :: g)) with (x ++ concat (y :: g)). rewrite !digits_value_app. cbn [digits_value].
  change (is_digit us) with false. cbn match. now apply IH.
Qed.
Lemma filter_digits_join : forall g, Forall all_digits g -> filter is_digit (join (t "_") g) = concat g.
Proof.
  assert (H : forall d, Forall (fun c => is_digit c = true) d -> filter is_digit d = d) by (induction 1 as [|c d C _ IH]; cbn [filter]; auto; rewrite C; now f_equal).
  induction g as [|x g IH]; intros G; auto. inversion G; subst. destruct H2 as (_ & X). destruct g as [|y g]; [cbn [join concat]; rewrite app_nil_r; auto|].
  change (join (t "_") (x :: y :: g)) with (x ++ us :: join (t "_") (y :: g)). change (concat (x :: y :: g)) with (x ++ concat (y :: g)).
  rewrite filter_app, H by auto. f_equal. cbn [filter]. change (is_digit us) with false. cbn match. now apply IH.
Qed.

Lemma word_no_e_dot : forall d, Forall all_digits d -> Forall (fun c => negb (is_e c) = true) (join (t "_") d) /\ Forall (fun c => negb (Ascii.eqb c dot) = true) (join (t "_") d).
Proof.
  induction 1 as [|x g (_ & X) _ (A & B)]; cbn [join]; [split; constructor|].
  assert (XA : Forall (fun c => negb (is_e c) = true) x) by (eapply Forall_impl; [|exact X]; intros c C; now rewrite digit_not_e).
  assert (XB : Forall (fun c => negb (Ascii.eqb c dot) = true) x) by (eapply Forall_impl; [|exact X]; intros c C; apply negb_true_iff, Ascii.eqb_neq; intros ->; discriminate).
  destruct g; auto. split; (apply Forall_app; split; [auto|]); constructor; auto.
Qed.

Lemma float_of_unsigned : forall l, good_literal l ->
  float_of (unsigned l) = (dec (concat (whole l) ++ match fraction l with None => [] | Some g => concat g end), tens l).
Proof.
  intros l (Sg & (NW & W) & F & X). unfold float_of.
  set (Fr := match fraction l with None => [] | Some g => t "." ++ join (t "_") g end).
  set (E := match exponent l with None => [] | Some (e, s, g) => exp_text e s g end).
  assert (U : unsigned l = (join (t "_") (whole l) ++ Fr) ++ E) by (unfold unsigned, Fr, E, exp_text; rewrite <- app_assoc; destruct (exponent l) as [[[e s] g]|]; reflexivity).
  rewrite U. rewrite span_app; cycle 1.
  - apply Forall_app. split; [apply word_no_e_dot, W|]. unfold Fr. destruct (fraction l) as [g|]; [|constructor]. constructor; [reflexivity|]. destruct F as (_ & F). now apply word_no_e_dot.
  - unfold E. destruct (exponent l) as [[[e s] g]|]; [|exact I]. destruct X as ([-> | ->] & _); reflexivity.
  - rewrite span_app; cycle 1.
    + apply word_no_e_dot, W.
    + unfold Fr. destruct (fraction l); [reflexivity|exact I].
    + assert (DW : forall g, Forall all_digits g -> Forall (fun c => is_digit c = true) (concat g)) by (induction 1 as [|x g (_ & D) _ IH]; cbn; auto; apply Forall_app; auto).
      assert (FD : filter is_digit Fr = match fraction l with None => [] | Some g => concat g end).
      { unfold Fr. destruct (fraction l) as [g|]; auto. change (t "." ++ ?a) with (dot :: a). cbn [filter]. change (is_digit dot) with false. cbn match. apply filter_digits_join, F. }
      rewrite FD. f_equal.
      * rewrite digits_value_app, digits_value_join, <- digits_value_app by auto. unfold dec. apply digits_value_dec. apply Forall_app. split; auto.
        destruct (fraction l) as [g|]; [|constructor]. apply DW, F.
      * unfold tens. f_equal.
        -- unfold E. destruct (exponent l) as [[[e s] g]|]; auto. destruct X as (_ & S & (NG & G)).
           assert (V : digits_value 0 (join (t "_") g) = dec (concat g)) by (rewrite digits_value_join by auto; unfold dec; now apply digits_value_dec, DW).
           destruct S as [-> | [-> | ->]].
           ++ unfold exp_text. cbn [app]. destruct g as [|x g]; [congruence|]. inversion G; subst. destruct (join_head x g H1) as (c & q & J & C). rewrite J in *.
              assert (A : Ascii.eqb c dash = false) by (apply Ascii.eqb_neq; intros ->; discriminate). rewrite A. exact V.
           ++ unfold exp_text. cbn [app]. change (Ascii.eqb "+"%char dash) with false. cbn match. cbn [digits_value]. change (is_digit "+"%char) with false. cbn match. exact V.
           ++ unfold exp_text. cbn [app]. change (Ascii.eqb "-"%char dash) with true. cbn match. now rewrite V.
        -- destruct (fraction l); auto.
Qed.

Lemma float_zero : forall l, good_literal l -> float_is_zero (unsigned l) = true -> (worth l == 0)%Q.
Proof.
  intros l G H. unfold float_is_zero in H. rewrite float_of_unsigned in H by auto. cbn [fst] in H. apply Z.eqb_eq in H. unfold worth. rewrite H. ring.
Qed.
Lemma float_one : forall l, good_literal l -> float_is_one (unsigned l) = true -> (worth l == 1)%Q.
Proof.
  intros l G H. unfold float_is_one in H. rewrite float_of_unsigned in H by auto. unfold worth. set (m := dec _) in *. generalize dependent (tens l). clearbody m. intros e H.
  destruct (0 <=? e)%Z eqn:E.
  - apply Z.leb_le in E. apply Z.eqb_eq in H. change 10%Q with (inject_Z 10). rewrite <- Zpower_Qpower by auto. rewrite <- inject_Z_mult. now rewrite H.
  - apply Z.leb_gt in E. apply Z.eqb_eq in H. subst m. change 10%Q with (inject_Z 10) at 1. rewrite Zpower_Qpower by lia.
    change (10 ^ e)%Q with (inject_Z 10 ^ e)%Q. rewrite <- Qpower_plus by discriminate. replace (- e + e)%Z with 0%Z by lia. reflexivity.
Qed.
