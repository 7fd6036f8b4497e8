(** Both preprocessors on a unit with one scaling factor. *)
From Coq Require Import String Ascii List Bool Arith ZArith QArith Lia.
From Verif Require Import Base PyStr ScaleModel ScaleSpec ScaleUnmangle ScaleShow ScaleMangle ScaleParse.
Import ListNotations.
Open Scope nat_scope.
Open Scope list_scope.

(** *** Nothing to do for the first *)
Definition suffix (r s : text) : Prop := exists x, s = x ++ r.
Lemma suffix_refl : forall s, suffix s s. Proof. intros s. now exists []. Qed.
Lemma suffix_trans : forall a b c, suffix a b -> suffix b c -> suffix a c.
Proof. intros a b c (x & ->) (y & ->). exists (y ++ x). now rewrite app_assoc. Qed.
Lemma suffix_cons : forall a c s, suffix a s -> suffix a (c :: s).
Proof. intros a c s (x & ->). now exists (c :: x). Qed.
Lemma suffix_skip : forall s, suffix (skip_space s) s.
Proof. intros s. unfold skip_space. destruct (span is_space s) as [a b] eqn:E. apply span_spec in E as (-> & _). now exists a. Qed.
Lemma suffix_skipn : forall n s, suffix (skipn n s) s.
Proof. intros n s. exists (firstn n s). now rewrite firstn_skipn. Qed.
Lemma suffix_digits : forall s d r, digits_at s = Some (d, r) -> suffix r s.
Proof. intros s d r H. apply digits_at_spec in H as (-> & _). now exists d. Qed.

Definition no_power (s : text) : Prop := contains (t "**") s = false /\ Forall (fun c => Ascii.eqb "^"%char c = false) s.
Lemma no_power_suffix : forall r s, suffix r s -> no_power s -> no_power r.
Proof. intros r s (x & ->) (A & B). split; [now apply contains_suffix in A|]. now apply Forall_app in B. Qed.
Lemma no_power_starts : forall s, no_power s -> starts (t "**") s = false /\ starts (t "^") s = false.
Proof.
  intros s (A & B). split.
  - destruct s; cbn [contains] in A; apply orb_false_iff in A; apply A.
  - destruct s as [|c s]; auto. inversion B; subst. cbn [t list_ascii_of_string starts]. now rewrite H1.
Qed.
Lemma power_none : forall s, no_power s -> sci_power s = None.
Proof.
  intros s N. unfold sci_power. destruct (starts (t "10") s); auto.
  assert (N1 : no_power (skip_space (skipn 2 s))) by (eapply no_power_suffix; [|exact N]; eapply suffix_trans; [apply suffix_skip|apply suffix_skipn]).
  destruct (no_power_starts _ N1) as (A & B). now rewrite A, B.
Qed.
Lemma mantissa_suffix : forall s m r, sci_mantissa s = Some (m, r) -> suffix r s.
Proof.
  intros s m r H. unfold sci_mantissa in H. destruct (digits_at s) as [[d r1]|] eqn:D.
  - apply suffix_digits in D. eapply suffix_trans; [|exact D]. destruct r1 as [|c r1]; [injection H as <- <-; apply suffix_refl|].
    destruct (Ascii.eqb c dot); [|injection H as <- <-; apply suffix_refl]. destruct (span is_digit r1) as [f r2] eqn:E. injection H as <- <-.
    apply span_spec in E as (-> & _). apply suffix_cons. now exists f.
  - destruct s as [|c s]; [discriminate|]. destruct (Ascii.eqb c dot); [|discriminate]. destruct (digits_at s) as [[d r1]|] eqn:E; [|discriminate]. injection H as <- <-.
    apply suffix_cons. eapply suffix_digits; eauto.
Qed.
Lemma times_suffix : forall s r, sci_times s = Some r -> suffix r s.
Proof.
  intros s r H. unfold sci_times in H. pose proof (suffix_skip s) as K. destruct (skip_space s) as [|c q]; [discriminate|].
  destruct (Ascii.eqb c "*"%char); [|discriminate]. injection H as <-. eapply suffix_trans; [apply suffix_skip|]. eapply suffix_trans; [|exact K]. apply suffix_cons, suffix_refl.
Qed.
Lemma sci_none : forall s, no_power s -> sci_here s = None.
Proof.
  intros s N. unfold sci_here. rewrite (power_none s N). destruct (sci_mantissa s) as [[m r]|] eqn:M; auto.
  apply mantissa_suffix in M. destruct (sci_times r) as [r'|] eqn:T; auto. apply times_suffix in T.
  rewrite power_none; auto. eapply no_power_suffix; [|exact N]. eapply suffix_trans; eauto.
Qed.
Lemma scientific_id : forall s, no_power s -> scientific s = s.
Proof.
  unfold scientific. intros s. generalize false. induction s as [|c s IH]; intros b N; cbn [sci_from]; auto.
  rewrite sci_none by auto. destruct (xorb b (is_word c)); f_equal; apply IH; (eapply no_power_suffix; [|exact N]; apply suffix_cons, suffix_refl).
Qed.

(** *** Replacing the term *)
Lemma sub_pass : forall tm new x y b, (forall x1 x2, x = x1 ++ x2 -> x2 <> [] -> starts tm (x2 ++ y) = false) ->
  sub_term tm new b 0 (x ++ y) = x ++ sub_term tm new (match rev x with c :: _ => blocks_before c | [] => b end) 0 y.
Proof.
  induction x as [|c x IH]; intros y b H; auto. cbn [app sub_term].
  assert (S : starts tm (c :: x ++ y) = false) by (apply (H [] (c :: x)); auto; discriminate). rewrite S, andb_false_r. cbn [andb]. f_equal.
  rewrite IH by (intros x1 x2 E N; apply (H (c :: x1) x2); auto; now rewrite E). f_equal. cbn [rev]. destruct (rev x) eqn:R; auto.
Qed.
Lemma sub_skip : forall tm new x b, sub_term tm new b (length x) x = [].
Proof. induction x as [|c x IH]; intros b; cbn [length sub_term]; auto. Qed.
Lemma sub_hit : forall tm new, tm <> [] -> sub_term tm new false 0 tm = new.
Proof.
  intros tm new N. destruct tm as [|c r]; [congruence|]. cbn [sub_term negb andb].
  assert (S : starts (c :: r) (c :: r) = true) by (pose proof (starts_app (c :: r) []) as H; rewrite app_nil_r in H; exact H). rewrite S.
  assert (K : skipn (length (c :: r)) (c :: r) = []) by (pose proof (skipn_len (c :: r) []) as H; rewrite app_nil_r in H; exact H). rewrite K. cbn [blocks_after negb andb length pred].
  rewrite sub_skip. apply app_nil_r.
Qed.

Definition good_op (c : ascii) : Prop := c = "*"%char \/ c = "/"%char.
(** The characters of a term. *)
Definition term_char (c : ascii) : Prop := sign_char c \/ is_word c = true \/ c = dot \/ is_space c = true.
Lemma term_chars : forall l gap u, good_literal l -> blanks gap -> identifier u -> Forall term_char (spelled l ++ gap ++ u).
Proof.
  intros l gap u (S & (_ & W) & F & X) B I.
  assert (Jn : forall g, Forall all_digits g -> Forall term_char (join (t "_") g)) by (intros g G; eapply Forall_impl; [|apply (join_words g G)]; intros c C; right; left; exact C).
  unfold spelled, unsigned. repeat (apply Forall_app; split).
  - eapply Forall_impl; [|exact S]. intros c C. now left.
  - auto.
  - destruct (fraction l) as [g|]; [|constructor]. constructor; [right; right; left; reflexivity|]. apply Jn, F.
  - destruct (exponent l) as [[[e s] g]|]; [|constructor]. destruct X as (E & Sg & (_ & G)). cbn [app]. constructor.
    + right; left. destruct E as [-> | ->]; reflexivity.
    + apply Forall_app. split; [|auto]. destruct Sg as [-> | [-> | ->]]; [apply Forall_nil| |]; (apply Forall_cons; [left; unfold sign_char; auto|apply Forall_nil]).
  - eapply Forall_impl; [|exact B]. intros c C. right; right; right. exact C.
  - eapply Forall_impl; [|apply (identifier_words u I)]. intros c C. right; left. exact C.
Qed.
Lemma term_char_op : forall c, term_char c -> ~ good_op c /\ Ascii.eqb "^"%char c = false /\ Ascii.eqb "*"%char c = false.
Proof.
  intros c H. assert (N : c <> "*"%char /\ c <> "/"%char /\ c <> "^"%char).
  { repeat split; intros ->; destruct H as [[H|[H|H]]|[H|[H|H]]]; discriminate. }
  destruct N as (A & B & D). split; [intros [-> | ->]; congruence|]. split; apply Ascii.eqb_neq; congruence.
Qed.

Lemma contains_star : forall x y, Forall (fun c => Ascii.eqb "*"%char c = false) x -> contains (t "**") (x ++ y) = contains (t "**") y.
Proof.
  induction 1 as [|c x C _ IH]; cbn [app]; auto. cbn [contains]. rewrite IH.
  assert (S : starts (t "**") (c :: x ++ y) = false) by (cbn [t list_ascii_of_string starts]; rewrite C; reflexivity). now rewrite S.
Qed.

Section Whole.
  Context (lead sp1 sp2 gap u : text) (op : ascii) (l : literal).
  Context (Hlead : identifier lead) (Hsp1 : blanks sp1) (Hsp2 : blanks sp2) (Hgap : blanks gap) (Hop : good_op op)
          (G : good_literal l) (Hsg : hd_error (signs l) <> Some " "%char) (PN : python_number l)
          (Iu : identifier u) (Hs : split_off l gap u).
  Let tm := spelled l ++ gap ++ u.
  Let before := lead ++ sp1 ++ op :: sp2.

  Lemma tm_head : exists c r, tm = c :: r /\ (c = "+"%char \/ c = "-"%char \/ is_digit c = true).
  Proof.
    unfold tm, spelled. destruct G as (S & (NW & W) & _). destruct (signs l) as [|c s] eqn:E.
    - unfold unsigned. destruct (whole l) as [|x g]; [congruence|]. inversion W; subst. destruct (join_head x g H1) as (c & q & -> & C).
      cbn [app]. eexists _, _. split; [reflexivity|]. auto.
    - inversion S; subst. cbn [app]. eexists _, _. split; [reflexivity|]. destruct H1 as [-> | [-> | ->]]; auto. all: exfalso; now apply Hsg.
  Qed.

  Lemma whole_no_power : no_power (before ++ tm).
  Proof.
    pose proof (term_chars l gap u G Hgap Iu) as T. fold tm in T.
    assert (T2 : Forall (fun c => Ascii.eqb "*"%char c = false) tm) by (eapply Forall_impl; [|exact T]; intros c C; apply (term_char_op c C)).
    assert (T1 : Forall (fun c => Ascii.eqb "^"%char c = false) tm) by (eapply Forall_impl; [|exact T]; intros c C; apply (term_char_op c C)).
    assert (Wd : forall s, Forall (fun c => is_word c = true) s -> Forall (fun c => Ascii.eqb "*"%char c = false) s /\ Forall (fun c => Ascii.eqb "^"%char c = false) s).
    { intros s H. split; (eapply Forall_impl; [|exact H]); intros c C; apply Ascii.eqb_neq; intros <-; discriminate. }
    assert (Bl : forall s, blanks s -> Forall (fun c => Ascii.eqb "*"%char c = false) s /\ Forall (fun c => Ascii.eqb "^"%char c = false) s).
    { intros s H. split; (eapply Forall_impl; [|exact H]); intros c C; apply Ascii.eqb_neq; intros <-; discriminate. }
    destruct (Wd lead (identifier_words lead Hlead)) as (L1 & L2). destruct (Bl sp1 Hsp1) as (A1 & A2). destruct (Bl sp2 Hsp2) as (B1 & B2).
    unfold before. rewrite <- !app_assoc. cbn [app]. split.
    - rewrite contains_star by auto. rewrite contains_star by auto.
      assert (X : contains (t "**") (sp2 ++ tm) = false).
      { rewrite contains_star by auto. rewrite <- (app_nil_r tm), contains_star by auto. reflexivity. }
      cbn [contains]. rewrite X, orb_false_r. cbn [t list_ascii_of_string starts]. 
      assert (Y : Forall (fun c => Ascii.eqb "*"%char c = false) (sp2 ++ tm)) by (apply Forall_app; auto).
      destruct (sp2 ++ tm) as [|c r]; [now rewrite andb_false_r|]. inversion Y; subst. rewrite H1. cbn [andb]. now rewrite andb_false_r.
    - repeat (apply Forall_app; split; auto). constructor; [destruct Hop as [-> | ->]; reflexivity|]. apply Forall_app; auto.
  Qed.

  Lemma after_number : nstop l (gap ++ u).
  Proof.
    destruct Iu as (a & r & -> & A & R). destruct gap as [|c g] eqn:Eg; cbn [app].
    - repeat split.
      + now apply alpha_not_digit.
      + apply Ascii.eqb_neq. intros ->. discriminate.
      + intros E. destruct (Hs E eq_refl) as (P & Q). cbn [exp_len]. assert (N : is_e a = false); [|now rewrite N].
        unfold is_e. apply orb_false_iff. split; apply Ascii.eqb_neq; intros ->; cbn in *; congruence.
      + apply Ascii.eqb_neq. intros ->. discriminate.
    - inversion Hgap; subst. assert (W : is_word c = false) by (destruct (is_word c) eqn:E; auto; apply space_not_word in E; congruence).
      repeat split.
      + now apply nonword_digit.
      + apply word_not; auto.
      + intros _. cbn [exp_len]. now rewrite nonword_e.
      + apply Ascii.eqb_neq. intros ->. discriminate.
  Qed.

  Let p1 := length lead + length sp1.
  Let p2 := length before.
  Let p3 := p2 + length (signs l).
  Let p4 := p3 + length (unsigned l) + length gap.
  Let q4 := p4 + length u.

  Lemma tokens_whole : tokenizer (before ++ tm) =
    mkT NAME lead 0 (length lead) :: mkT OP [op] p1 (p1 + 1) :: sign_tokens p2 (signs l)
      ++ [mkT NUMBER (unsigned l) p3 (p3 + length (unsigned l)); mkT NAME u p4 q4].
  Proof.
    assert (P2 : p2 = p1 + 1 + length sp2) by (unfold p2, p1, before; rewrite !app_length; cbn [length]; lia).
    unfold tokenizer, before, tm, spelled. rewrite <- !app_assoc. cbn [app]. rewrite lex_name; auto; cycle 1.
    { destruct sp1 as [|c s]; cbn [app]; [destruct Hop as [-> | ->]; reflexivity|]. inversion Hsp1; subst. cbn. destruct (is_word c) eqn:E; auto. apply space_not_word in E; congruence. }
    cbn [Nat.add]. f_equal. rewrite lex_blanks by auto. fold p1. rewrite lex_op; cycle 1.
    { destruct Hop as [-> | ->]; [right; right; left|right; right; right]; auto. }
    { pose proof tm_head as (c & r & E & C). unfold tm, spelled in E. rewrite <- !app_assoc in E. unfold not_double. destruct sp2 as [|b s]; cbn [app].
      - rewrite E. intros [-> | ->] ->; destruct C as [C|[C|C]]; discriminate.
      - inversion Hsp2; subst. intros [-> | ->] ->; discriminate. }
    f_equal. rewrite lex_blanks by auto. rewrite <- P2. rewrite lex_signs by apply G. f_equal. fold p3.
    rewrite lex_number by (auto using after_number). f_equal. rewrite lex_blanks by auto. fold p4.
    rewrite <- (app_nil_r u) at 1. rewrite lex_name by (auto; exact I). reflexivity.
  Qed.

  Lemma start_term : match sign_tokens p2 (signs l) with x :: _ => tstart x | [] => p3 end = p2.
  Proof.
    destruct (signs l) as [|c s] eqn:E; cbn [sign_tokens].
    - unfold p3. rewrite ?E. cbn [length]. lia.
    - destruct G as (S & _). rewrite E in S. inversion S; subst. destruct H1 as [-> | [-> | ->]]; try reflexivity. rewrite ?E in Hsg. exfalso. now apply Hsg.
  Qed.

  Lemma scaling_todo (N0 : ~ (worth l == 0)%Q) (N1 : ~ (worth l == 1)%Q) :
    match find_blocks (tokenizer (before ++ tm)) with Err e => Err e | Ok bs => identify_factors (before ++ tm) (tl bs) end
    = Ok [mkScaled tm (unsigned l) (Some u)].
  Proof.
    rewrite tokens_whole. rewrite blocks_of by (auto; apply G). cbn [tl identify_factors].
    rewrite factor_exact; auto.
    - rewrite start_term. cbn [app]. do 3 f_equal.
      + assert (Q4 : q4 = length (before ++ tm)) by (unfold q4, p4, p3, p2, tm, spelled; rewrite !app_length; lia).
        unfold slice. rewrite Q4. unfold p2. rewrite skipn_len, app_length. replace (length before + length tm - length before) with (length tm) by lia. apply firstn_all.
      + assert (E : before ++ tm = (before ++ signs l ++ unsigned l ++ gap) ++ u) by (unfold tm, spelled; rewrite <- !app_assoc; reflexivity).
        rewrite E. assert (P4 : p4 = length (before ++ signs l ++ unsigned l ++ gap)) by (unfold p4, p3, p2; rewrite !app_length; lia).
        unfold slice, q4. rewrite P4, skipn_len. replace (_ + length u - _) with (length u) by lia. f_equal. apply firstn_all.
    - apply G.
    - destruct G as (_ & (NW & W) & _). unfold unsigned. destruct (whole l) as [|x g]; [congruence|]. inversion W; subst. destruct (join_head x g H1) as (c & q & -> & C). cbn [app hd_error]. eauto.
    - destruct (float_is_one (unsigned l)) eqn:F; auto. exfalso. now apply N1, float_one.
    - destruct (float_is_zero (unsigned l)) eqn:F; auto. exfalso. now apply N0, float_zero.
  Qed.

  Lemma sub_whole new : contains tm (lead ++ sp1) = false -> sub_term tm new false 0 (before ++ tm) = before ++ new.
  Proof.
    intros C. destruct tm_head as (h & r & Et & Hh). rewrite sub_pass.
    - f_equal. assert (B : match rev before with c :: _ => blocks_before c | [] => false end = false).
      { unfold before. rewrite app_assoc, rev_app_distr. cbn [rev]. destruct (exists_last (l := op :: sp2) ltac:(discriminate)) as (y & z & E).
        change (rev sp2 ++ [op]) with (rev (op :: sp2)). rewrite E, rev_app_distr. cbn [rev app].
        assert (Z : z = op \/ is_space z = true).
        { assert (In z (op :: sp2)) by (rewrite E; apply in_or_app; right; now left). destruct H as [->|H]; auto. right. unfold blanks in Hsp2. rewrite Forall_forall in Hsp2. auto. }
        destruct Z as [-> | Z]; [destruct Hop as [-> | ->]; reflexivity|].
        unfold blocks_before. assert (W : is_word z = false) by (destruct (is_word z) eqn:Q; auto; apply space_not_word in Q; congruence).
        rewrite (nonword_digit z W). repeat (apply orb_false_iff; split); auto; apply Ascii.eqb_neq; intros ->; discriminate. }
      rewrite B. apply sub_hit. rewrite Et. discriminate.
    - assert (NO : ~ In op tm).
      { pose proof (term_chars l gap u G Hgap Iu) as T. fold tm in T. intros I0. rewrite Forall_forall in T. apply T in I0. apply term_char_op in I0 as (X & _). contradiction. }
      intros x1 x2 E N. unfold before in E. change (lead ++ sp1 ++ op :: sp2) with (lead ++ sp1 ++ [op] ++ sp2) in E. rewrite app_assoc in E.
      assert (Head : forall a z, x2 = a :: z -> a = op \/ is_space a = true -> starts tm (x2 ++ tm) = false).
      { intros a z -> Ha. rewrite Et at 1. cbn [app starts]. assert (K : Ascii.eqb h a = false); [|now rewrite K].
        apply Ascii.eqb_neq. intros ->. destruct Ha as [-> | Ha]; destruct Hop as [Ho|Ho]; rewrite ?Ho in *; destruct Hh as [Hh|[Hh|Hh]]; subst; try discriminate;
          apply digit_word, space_not_word in Hh; congruence. }
      (* where the suffix starts *)
      destruct (le_lt_dec (length (lead ++ sp1)) (length x1)) as [L|L].
      + assert (S2 : exists y, [op] ++ sp2 = y ++ x2).
        { exists (skipn (length (lead ++ sp1)) x1). assert (H : skipn (length (lead ++ sp1)) ((lead ++ sp1) ++ [op] ++ sp2) = skipn (length (lead ++ sp1)) (x1 ++ x2)) by (now rewrite E).
          rewrite skipn_len in H. rewrite H, skipn_app. f_equal. replace (length (lead ++ sp1) - length x1) with 0 by lia. reflexivity. }
        destruct S2 as (y & S2). destruct x2 as [|a z]; [congruence|]. eapply Head; [reflexivity|].
        assert (I0 : In a ([op] ++ sp2)) by (rewrite S2; apply in_or_app; right; now left). destruct I0 as [->|I0]; auto. right. unfold blanks in Hsp2. rewrite Forall_forall in Hsp2. auto.
      + assert (S2 : exists y, x2 = y ++ op :: sp2 /\ lead ++ sp1 = x1 ++ y).
        { exists (skipn (length x1) (lead ++ sp1)). assert (H : skipn (length x1) ((lead ++ sp1) ++ [op] ++ sp2) = x2) by (rewrite E; apply skipn_len).
          rewrite skipn_app in H. replace (length x1 - length (lead ++ sp1)) with 0 in H by lia. cbn [skipn] in H. split; [symmetry; exact H|].
          assert (F : firstn (length x1) ((lead ++ sp1) ++ [op] ++ sp2) = x1) by (rewrite E; apply firstn_len).
          rewrite firstn_app in F. replace (length x1 - length (lead ++ sp1)) with 0 in F by lia. cbn [firstn] in F. rewrite app_nil_r in F.
          rewrite <- F at 1. rewrite firstn_skipn. reflexivity. }
        destruct S2 as (y & -> & E1). rewrite <- app_assoc. cbn [app]. rewrite starts_local by auto. rewrite E1 in C. apply contains_suffix in C.
        destruct y; cbn [contains] in C; apply orb_false_iff in C; apply C.
  Qed.

  Context (long_name : text -> res text) (value : Type) (evaluate : text -> res value).
  Theorem preprocess_whole (full : text) (d : scaling_names value) :
    ~ (worth l == 0)%Q -> ~ (worth l == 1)%Q -> ungrouped u -> apart l u ->
    long_name u = Ok full -> identifier full -> contains tm (lead ++ sp1) = false ->
    let name := inner (Scaled l (Some full)) in
    preprocess long_name value evaluate (before ++ tm) d =
      match lookup_name value name d with
      | Some _ => (d, Ok (before ++ name))
      | None => match evaluate tm with Err e => (d, Err e) | Ok v => (d ++ [(name, v)], Ok (before ++ name)) end
      end.
  Proof.
    intros N0 N1 U A L F C name. unfold preprocess. rewrite scientific_id by apply whole_no_power. unfold scaling.
    pose proof (scaling_todo N0 N1) as T. destruct (find_blocks (tokenizer (before ++ tm))) as [bs|e]; [|discriminate].
    rewrite T. cbn [store_and_mangle]. unfold tm at 1. rewrite (mangled_unit long_name l gap u (unsigned l) full) by auto. fold name. cbn [term]. fold tm.
    rewrite sub_whole by auto. reflexivity.
  Qed.
End Whole.
