(** The internal name of a scaled unit. *)
From Coq Require Import String Ascii List Bool Arith Lia.
From Verif Require Import Base PyStr ScaleModel ScaleSpec ScaleUnmangle ScaleShow.
Import ListNotations.
Open Scope list_scope.

(** *** Dropping plus signs and blanks *)
Lemma nps_app : forall x y, no_plus_space (x ++ y) = no_plus_space x ++ no_plus_space y.
Proof. intros. apply filter_app. Qed.
Lemma space_not_word : forall c, is_word c = true -> is_space c = false.
Proof.
  intros c W. destruct (is_space c) eqn:S; auto. exfalso. revert W. unfold is_word, is_alpha, is_upper, is_lower, is_digit, in_range, is_space in *.
  assert (U : Ascii.eqb c us = false) by (apply Ascii.eqb_neq; intros ->; discriminate S). rewrite U.
  apply orb_true_iff in S as [S|S]; apply andb_true_iff in S as (A & B); apply Nat.leb_le in A, B;
    repeat match goal with |- context [Nat.leb (nat_of_ascii ?k) (nat_of_ascii c)] =>
      replace (Nat.leb (nat_of_ascii k) (nat_of_ascii c)) with false by (symmetry; apply Nat.leb_gt; change (nat_of_ascii k) with ltac:(let v := eval vm_compute in (nat_of_ascii k) in exact v); lia) end; cbn; discriminate.
Qed.
Lemma keep_word : forall c, is_word c = true -> negb (Ascii.eqb c "+"%char || is_space c) = true.
Proof.
  intros c W. rewrite (space_not_word c W). assert (P : Ascii.eqb c "+"%char = false) by (apply Ascii.eqb_neq; intros ->; discriminate). now rewrite P.
Qed.
Lemma nps_words : forall s, Forall (fun c => is_word c = true) s -> no_plus_space s = s.
Proof. unfold no_plus_space. induction 1 as [|c s C _ IH]; cbn [filter]; auto. rewrite keep_word by auto. now rewrite IH. Qed.
Lemma nps_blanks : forall s, blanks s -> no_plus_space s = [].
Proof. unfold no_plus_space. induction 1 as [|c s C _ IH]; cbn [filter]; auto. rewrite C. now rewrite orb_true_r. Qed.
Lemma nps_signs : forall s, Forall sign_char s -> no_plus_space s = repeat dash (minuses s).
Proof.
  unfold no_plus_space, minuses. induction 1 as [|c s C _ IH]; cbn [filter repeat length]; auto.
  destruct C as [-> | [-> | ->]]; cbn [Ascii.eqb Bool.eqb orb negb length repeat]; change (negb (Ascii.eqb "-"%char "+"%char || is_space "-"%char)) with true;
    change (negb (Ascii.eqb "+"%char "+"%char || is_space "+"%char)) with false; change (negb (Ascii.eqb " "%char "+"%char || is_space " "%char)) with false;
    cbn match; rewrite ?IH; reflexivity.
Qed.

Lemma digits_words : forall d, Forall (fun c => is_digit c = true) d -> Forall (fun c => is_word c = true) d.
Proof. intros d. apply Forall_impl, digit_word. Qed.
Lemma join_words : forall g, Forall all_digits g -> Forall (fun c => is_word c = true) (join (t "_") g).
Proof.
  induction 1 as [|x g (_ & X) _ IH]; cbn [join]; [constructor|]. destruct g; [now apply digits_words|].
  apply Forall_app. split; [now apply digits_words|]. constructor; [reflexivity|]. exact IH.
Qed.

(** What is left of the number. *)
Definition trimmed (l : literal) : text :=
  join (t "_") (whole l)
  ++ match fraction l with None => [] | Some g => t "." ++ join (t "_") g end
  ++ match exponent l with
     | None => []
     | Some (e, s, g) => [e] ++ match s with Some "-"%char => t "-" | _ => [] end ++ join (t "_") g
     end.
Lemma nps_unsigned : forall l, good_literal l -> no_plus_space (unsigned l) = trimmed l.
Proof.
  intros l (_ & (_ & W) & F & X). unfold unsigned, trimmed. rewrite !nps_app. rewrite (nps_words (join (t "_") (whole l))) by (now apply join_words). f_equal. f_equal.
  - destruct (fraction l) as [g|]; auto. rewrite nps_app. rewrite (nps_words (join (t "_") g)) by (apply join_words, F). reflexivity.
  - destruct (exponent l) as [[[e s] g]|]; auto. destruct X as (E & Sg & (_ & G)). rewrite !nps_app, (nps_words (join (t "_") g)) by (now apply join_words).
    destruct E as [-> | ->], Sg as [-> | [-> | ->]]; reflexivity.
Qed.

(** *** Pairs of minus signs *)
Definition no_dash (s : text) : Prop := Forall (fun c => Ascii.eqb dash c = false) s.
Lemma word_no_dash : forall s, Forall (fun c => is_word c = true) s -> no_dash s.
Proof. intros s. apply Forall_impl. intros c C. apply Ascii.eqb_neq. intros <-. discriminate. Qed.
Lemma contains_dash : forall x y, no_dash x -> contains (t "--") (x ++ y) = contains (t "--") y.
Proof.
  induction 1 as [|c x C _ IH]; cbn [app]; auto. cbn [contains]. rewrite IH.
  assert (S : starts (t "--") (c :: x ++ y) = false) by (cbn [t list_ascii_of_string starts]; fold dash; rewrite C; reflexivity). now rewrite S.
Qed.
Lemma ndm_signs : forall k r, (match r with c :: _ => Ascii.eqb dash c = false | [] => True end) -> 
  no_double_minus (repeat dash k ++ r) = (if Nat.odd k then t "-" else []) ++ no_double_minus r.
Proof.
  assert (H : forall n k, k <= n -> forall r, (match r with c :: _ => Ascii.eqb dash c = false | [] => True end) ->
     no_double_minus (repeat dash k ++ r) = (if Nat.odd k then t "-" else []) ++ no_double_minus r).
  { induction n as [|n IH]; intros k L r R.
    - assert (k = 0) as -> by lia. reflexivity.
    - destruct k as [|[|k]].
      + reflexivity.
      + cbn [repeat app]. unfold no_double_minus, replace_all. cbn [replace_from]. change (Nat.odd 1) with true.
        assert (S : starts (t "--") (dash :: r) = false).
        { cbn [t list_ascii_of_string starts]. change (Ascii.eqb "-"%char dash) with true. cbn [andb]. destruct r as [|c r]; auto. fold dash. now rewrite R. }
        rewrite S. reflexivity.
      + cbn [repeat app]. unfold no_double_minus, replace_all. cbn [replace_from]. change (starts (t "--") (dash :: dash :: repeat dash k ++ r)) with true. cbn match.
        cbn [t list_ascii_of_string length pred replace_from app]. change (Nat.odd (S (S k))) with (Nat.odd k). apply (IH k); [lia|auto]. }
  intros k r. apply (H k k (le_n k)).
Qed.
Lemma ndm_free : forall s, contains (t "--") s = false -> no_double_minus s = s.
Proof. intros s H. now apply replace_absent. Qed.

Lemma trimmed_free : forall l u, good_literal l -> Forall (fun c => is_word c = true) u -> contains (t "--") (trimmed l ++ u) = false.
Proof.
  intros l u (_ & (_ & W) & F & X) U. unfold trimmed. rewrite <- !app_assoc. rewrite contains_dash by (apply word_no_dash, join_words, W).
  assert (Nu : forall s, Forall (fun c => is_word c = true) s -> contains (t "--") s = false).
  { intros s S. rewrite <- (app_nil_r s), contains_dash by (now apply word_no_dash). reflexivity. }
  assert (Rest : contains (t "--") (match exponent l with None => [] | Some (e, s, g) => [e] ++ match s with Some "-"%char => t "-" | _ => [] end ++ join (t "_") g end ++ u) = false).
  { destruct (exponent l) as [[[e s] g]|]; [|now apply Nu]. destruct X as (E & Sg & (_ & G)).
    assert (Wg : Forall (fun c => is_word c = true) (join (t "_") g ++ u)) by (apply Forall_app; split; [now apply join_words|auto]).
    rewrite <- !app_assoc. rewrite contains_dash by (destruct E as [-> | ->]; repeat constructor).
    destruct Sg as [-> | [-> | ->]]; cbn [app]; try (now apply Nu). change (t "-") with [dash]. cbn [app contains].
    rewrite Nu by auto. generalize dependent (join (t "_") g ++ u). intros [|c r] Wg; [reflexivity|]. cbn [t list_ascii_of_string starts]. inversion Wg; subst.
    assert (N : Ascii.eqb "-"%char c = false) by (apply Ascii.eqb_neq; intros <-; discriminate). now rewrite N, andb_false_r. }
  destruct (fraction l) as [g|]; auto. rewrite <- app_assoc. rewrite contains_dash by (repeat constructor). rewrite contains_dash; auto. apply word_no_dash, join_words, F.
Qed.

(** *** Underscores between digits *)
Lemma ngs_digits : forall d b r, Forall (fun c => is_digit c = true) d -> d <> [] -> no_group_sep b (d ++ r) = d ++ no_group_sep true r.
Proof.
  induction d as [|c d IH]; intros b r D N; [congruence|]. inversion D; subst. cbn [app no_group_sep].
  assert (U : Ascii.eqb c us = false) by (now apply digit_not_us). rewrite U, andb_false_r. cbn [andb]. rewrite H1. f_equal.
  destruct d as [|c' d]; auto. apply IH; auto. discriminate.
Qed.
Lemma ngs_join : forall g b r, grouped g -> no_group_sep b (join (t "_") g ++ r) = concat g ++ no_group_sep true r.
Proof.
  induction g as [|x g IH]; intros b r (N & G); [congruence|]. inversion G; subst. destruct H1 as (NX & DX). cbn [join concat]. destruct g as [|y g].
  - cbn [concat]. rewrite app_nil_r. now apply ngs_digits.
  - rewrite <- !app_assoc. rewrite ngs_digits by auto. f_equal. change (t "_" ++ ?a) with (us :: a).
    assert (Y : exists c q, join (t "_") (y :: g) = c :: q /\ is_digit c = true).
    { inversion H2; subst. destruct H1 as (NY & DY). destruct y as [|c y]; [congruence|]. inversion DY; subst. cbn [join]. destruct g; eexists _, _; split; cbn [app]; eauto. }
    destruct Y as (c & q & Y & Dc). change (t "_" ++ join (t "_") (y :: g) ++ r) with (us :: (join (t "_") (y :: g) ++ r)).
    cbn [no_group_sep]. rewrite Y at 1. cbn [app]. change (Ascii.eqb us us) with true. rewrite Dc. cbn [andb].
    apply IH. split; [discriminate|auto].
Qed.
Lemma ngs_plain : forall s b, ungrouped s -> (b = true -> forall d r, s = us :: d :: r -> is_digit d = true -> False) -> no_group_sep b s = s.
Proof.
  induction s as [|c s IH]; intros b U B; cbn [no_group_sep]; auto.
  assert (C : b && Ascii.eqb c us && match s with c' :: _ => is_digit c' | [] => false end = false).
  { destruct b; auto. destruct (Ascii.eqb c us) eqn:E; auto. apply Ascii.eqb_eq in E. subst. destruct s as [|d s]; auto. cbn [andb].
    destruct (is_digit d) eqn:D; auto. exfalso. eapply B; eauto. }
  rewrite C. f_equal. apply IH.
  - intros x a b' y E. apply (U (c :: x) a b' y). now rewrite E.
  - intros D d r E F. apply (U [] c d r); auto. now rewrite E.
Qed.
Lemma ngs_unit : forall u b, identifier u -> ungrouped u -> no_group_sep b u = u.
Proof. intros u b (c & r & -> & A & _) U. apply ngs_plain; auto. intros _ d q E. injection E as -> _. discriminate. Qed.

Lemma ngs_other : forall c b r, Ascii.eqb c us = false -> no_group_sep b (c :: r) = c :: no_group_sep (is_digit c) r.
Proof. intros c b r H. cbn [no_group_sep]. rewrite H, andb_false_r. reflexivity. Qed.
Lemma ngs_trimmed : forall l u b, good_literal l -> identifier u \/ u = [] -> ungrouped u ->
  no_group_sep b (trimmed l ++ u) = lit_int l ++ lit_frac l ++ lit_exp l ++ u.
Proof.
  intros l u b (_ & W & F & X) I U. unfold trimmed, lit_int, lit_frac, lit_exp. rewrite <- !app_assoc. rewrite ngs_join by auto. f_equal.
  assert (Un : forall b', no_group_sep b' u = u) by (intros b'; destruct I as [I| ->]; [now apply ngs_unit|reflexivity]).
  assert (Rest : forall b', no_group_sep b' (match exponent l with None => [] | Some (e, s, g) => [e] ++ match s with Some "-"%char => t "-" | _ => [] end ++ join (t "_") g end ++ u)
    = match exponent l with None => [] | Some (e, s, g) => [e] ++ match s with Some "-"%char => t "-" | _ => [] end ++ concat g end ++ u).
  { intros b'. destruct (exponent l) as [[[e s] g]|]; [|apply Un]. destruct X as (E & Sg & G). rewrite <- !app_assoc. cbn [app].
    rewrite ngs_other by (destruct E as [-> | ->]; reflexivity). f_equal.
    destruct Sg as [-> | [-> | ->]]; cbn [app]; try (rewrite ngs_join by auto; now rewrite Un).
    change (t "-" ++ ?a) with (dash :: a). change (t "-" ++ join (t "_") g ++ u) with (dash :: join (t "_") g ++ u). rewrite ngs_other by reflexivity.
    rewrite ngs_join by auto. now rewrite Un. }
  destruct (fraction l) as [g|]; [|apply Rest]. rewrite <- !app_assoc. change (t "." ++ ?a) with (dot :: a).
  rewrite ngs_other by reflexivity.
  rewrite ngs_join by auto. rewrite Rest. reflexivity.
Qed.

(** *** The whole term *)
Lemma trimmed_head : forall l u, good_literal l -> match trimmed l ++ u with c :: _ => Ascii.eqb dash c = false | [] => True end.
Proof.
  intros l u (_ & (N & W) & _). unfold trimmed. destruct (whole l) as [|x g]; [congruence|]. inversion W; subst. destruct H1 as (NX & DX).
  destruct x as [|c x]; [congruence|]. inversion DX; subst. assert (D : Ascii.eqb dash c = false) by (apply Ascii.eqb_neq; intros <-; discriminate).
  cbn [join]. destruct g; cbn [app]; exact D.
Qed.
Lemma stripped_spelled : forall l gap u n v, good_literal l -> blanks gap -> identifier u \/ u = [] -> ungrouped u ->
  stripped_term (mkScaled (spelled l ++ gap ++ u) n v) = shown l ++ u.
Proof.
  intros l gap u n v G B I U. unfold stripped_term, spelled. cbn [term]. rewrite !nps_app, (nps_signs _ (proj1 G)), (nps_unsigned l G), (nps_blanks gap B). cbn [app].
  assert (W : Forall (fun c => is_word c = true) u) by (destruct I as [(c & r & -> & A & R)| ->]; [constructor; auto using alpha_word|constructor]).
  rewrite (nps_words u W), <- app_assoc, ndm_signs by (now apply trimmed_head). rewrite ndm_free by (now apply trimmed_free).
  rewrite shown_eq, <- !app_assoc. unfold lit_sign. destruct (Nat.odd (minuses (signs l))).
  - change (t "-" ++ trimmed l ++ u) with (dash :: trimmed l ++ u). rewrite ngs_other by reflexivity. now rewrite ngs_trimmed.
  - cbn [app]. now rewrite ngs_trimmed.
Qed.

Lemma stripped_unit_word : forall u, Forall (fun c => is_word c = true) u -> stripped_unit u = u.
Proof.
  intros u W. unfold stripped_unit. rewrite nps_words by auto.
  assert (Z : forall b, zero_before_dot b u = u).
  { induction W as [|c u C _ IH]; intros b; cbn [zero_before_dot]; auto. assert (D : Ascii.eqb c dot = false) by (apply Ascii.eqb_neq; intros ->; discriminate).
    rewrite D. cbn [andb app]. now rewrite IH. }
  rewrite Z. apply ndm_free. rewrite <- (app_nil_r u), contains_dash by (now apply word_no_dash). reflexivity.
Qed.

Lemma replace_pass : forall a old new x y, Forall (fun c => Ascii.eqb a c = false) x -> replace_all (a :: old) new (x ++ y) = x ++ replace_all (a :: old) new y.
Proof.
  unfold replace_all. induction 1 as [|c x C _ IH]; cbn [app]; auto. cbn [replace_from starts]. rewrite C. cbn [andb]. now rewrite IH.
Qed.

Lemma alpha_apart : forall l c r, good_literal l -> is_alpha c = true -> apart l (c :: r) -> Forall (fun x => Ascii.eqb c x = false) (shown l).
Proof.
  intros l c r G A P. assert (DD : forall d, Forall (fun x => is_digit x = true) d -> Forall (fun x => Ascii.eqb c x = false) d).
  { intros d. apply Forall_impl. intros x X. apply Ascii.eqb_neq. intros ->. apply digit_not_alpha in X. congruence. }
  destruct (good_parts l G) as ((_ & HI) & HF & _). rewrite shown_eq. repeat (apply Forall_app; split).
  - unfold lit_sign. destruct (Nat.odd _); constructor; auto. apply Ascii.eqb_neq. intros ->. discriminate.
  - auto.
  - destruct HF as [-> | (d & (_ & D) & ->)]; constructor; auto. apply Ascii.eqb_neq. intros ->. discriminate.
  - unfold lit_exp, apart in *. destruct G as (_ & _ & _ & X). destruct (exponent l) as [[[e s] g]|]; [|constructor]. destruct X as (E & Sg & Gg).
    apply concat_digits in Gg as (_ & Gg). cbn [app]. constructor; [apply Ascii.eqb_neq; intros ->; apply P; reflexivity|].
    destruct Sg as [-> | [-> | ->]]; cbn [app]; auto. change (t "-" ++ concat g) with (dash :: concat g). constructor; auto. apply Ascii.eqb_neq. intros ->. discriminate.
Qed.

Lemma identifier_words : forall u, identifier u -> Forall (fun c => is_word c = true) u.
Proof. intros u (c & r & -> & A & R). constructor; auto using alpha_word. Qed.

Theorem mangled_unit : forall long_name l gap u n full, good_literal l -> blanks gap -> identifier u -> ungrouped u -> apart l u ->
  long_name u = Ok full -> identifier full ->
  mangled long_name (mkScaled (spelled l ++ gap ++ u) n (Some u)) = Ok (inner (Scaled l (Some full))).
Proof.
  intros long_name l gap u n full G B I U A L F. unfold mangled. cbn [unit_of]. rewrite stripped_unit_word by (now apply identifier_words).
  rewrite L. rewrite stripped_spelled by auto. destruct I as (c & r & -> & Ac & R). rewrite replace_pass by (eapply alpha_apart; eauto).
  rewrite <- (app_nil_r (c :: r)) at 2. rewrite replace_head by discriminate. unfold replace_all at 1. cbn [replace_from]. rewrite app_nil_r.
  cbn [inner]. unfold marked. rewrite und_app. cbn [underscored map]. change (if Ascii.eqb us dash || Ascii.eqb us dot then us else us) with us.
  fold (underscored full). rewrite (und_words full) by (now apply identifier_words). reflexivity.
Qed.
Theorem mangled_bare : forall long_name l n, good_literal l -> mangled long_name (mkScaled (spelled l) n None) = Ok (inner (Scaled l None)).
Proof.
  intros long_name l n G. unfold mangled. cbn [unit_of inner]. unfold marked. f_equal. f_equal. f_equal.
  pose proof (stripped_spelled l [] [] n None G (Forall_nil _) (or_intror eq_refl)) as H. rewrite !app_nil_r in H. apply H.
  intros x a b y E. destruct x; discriminate.
Qed.
