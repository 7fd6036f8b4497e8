(** What a formatted unit shows. *)
From Coq Require Import String Ascii List Bool Arith Lia.
From Verif Require Import Base PyStr ScaleModel ScaleSpec ScaleUnmangle.
Import ListNotations.
Open Scope list_scope.

(** *** Replacing *)
Lemma starts_local : forall c y old, ~ In c old -> forall x, starts old (x ++ c :: y) = starts old x.
Proof.
  intros c y. induction old as [|a old IH]; intros N x; cbn [starts]; auto. destruct x as [|b x]; cbn [app].
  - assert (E : Ascii.eqb a c = false) by (apply Ascii.eqb_neq; intros ->; apply N; now left). now rewrite E.
  - rewrite IH; auto. intros H. apply N. now right.
Qed.
Lemma starts_length : forall p s, starts p s = true -> length p <= length s.
Proof. intros p s H. apply starts_split in H as (r & ->). rewrite app_length. lia. Qed.

Lemma replace_local : forall c y old new, ~ In c old -> forall x k, k <= length x ->
  replace_from old new k (x ++ c :: y) = replace_from old new k x ++ c :: replace_all old new y \/ old = [].
Proof.
  intros c y old new N. destruct old as [|a0 old']; [intros x k _; right; reflexivity|]. set (old := a0 :: old') in *. intros x k L. left.
  revert k L. induction x as [|b x IH]; intros k L.
  - cbn [length] in L. assert (k = 0) as -> by lia. cbn [app replace_from].
    assert (X : starts old (c :: y) = false). { unfold old. cbn [starts]. assert (E : Ascii.eqb a0 c = false) by (apply Ascii.eqb_neq; intros ->; apply N; now left). now rewrite E. }
    now rewrite X.
  - cbn [app replace_from]. destruct k as [|k].
    + change (b :: x ++ c :: y) with ((b :: x) ++ c :: y). rewrite starts_local by auto.
      destruct (starts old (b :: x)) eqn:S.
      * apply starts_length in S. cbn [length] in S. rewrite IH by (unfold old in *; cbn in *; lia). now rewrite app_assoc.
      * rewrite IH by lia. reflexivity.
    + cbn [length] in L. rewrite IH by lia. reflexivity.
Qed.
Lemma replace_sep : forall c y old new x, ~ In c old -> old <> [] ->
  replace_all old new (x ++ c :: y) = replace_all old new x ++ c :: replace_all old new y.
Proof. intros c y old new x N E. destruct (replace_local c y old new N x 0); auto; [lia|contradiction]. Qed.
Lemma replace_absent : forall old new s, contains old s = false -> replace_all old new s = s.
Proof.
  unfold replace_all. induction s as [|c s IH]; intros H; cbn [replace_from]; auto. cbn [contains] in H. apply orb_false_iff in H as (A & B).
  rewrite A. now rewrite IH.
Qed.
Lemma replace_skip : forall old new x y, replace_from old new (length x) (x ++ y) = replace_from old new 0 y.
Proof. induction x as [|c x IH]; intros y; cbn [length app replace_from]; auto. Qed.
Lemma replace_head : forall old new y, old <> [] -> replace_all old new (old ++ y) = new ++ replace_all old new y.
Proof.
  intros old new y N. destruct old as [|a old]; [congruence|]. unfold replace_all. cbn [app replace_from].
  change (a :: old ++ y) with ((a :: old) ++ y). rewrite starts_app. cbn [length pred]. now rewrite replace_skip.
Qed.

(** *** Numbers *)
Lemma und_app : forall x y, underscored (x ++ y) = underscored x ++ underscored y.
Proof. intros. apply map_app. Qed.
Lemma und_digits : forall d, Forall (fun c => is_digit c = true) d -> underscored d = d.
Proof.
  induction 1 as [|c d D _ IH]; cbn [underscored map]; auto. fold (underscored d). rewrite IH.
  assert (A : Ascii.eqb c dash = false) by (apply Ascii.eqb_neq; intros ->; discriminate).
  assert (B : Ascii.eqb c dot = false) by (apply Ascii.eqb_neq; intros ->; discriminate). now rewrite A, B.
Qed.
Lemma und_words : forall d, Forall (fun c => is_word c = true) d -> underscored d = d.
Proof.
  induction 1 as [|c d D _ IH]; cbn [underscored map]; auto. fold (underscored d). rewrite IH.
  assert (A : Ascii.eqb c dash = false) by (apply Ascii.eqb_neq; intros ->; discriminate).
  assert (B : Ascii.eqb c dot = false) by (apply Ascii.eqb_neq; intros ->; discriminate). now rewrite A, B.
Qed.

Definition fstop (T : text) : Prop := match T with c :: _ => is_digit c = false | [] => True end.
Lemma digits_at_app : forall d T, all_digits d -> fstop T -> digits_at (d ++ T) = Some (d, T).
Proof. intros d T (N & D) H. unfold digits_at. rewrite span_app; auto. destruct d; congruence. Qed.

Definition num_frac (F : text) : Prop := F = [] \/ exists d, all_digits d /\ F = dot :: d.
Definition num_exp (X : text) : Prop := X = [] \/ exists e d, is_e e = true /\ all_digits d /\ (X = e :: d \/ X = e :: dash :: d).
(** What may follow the number inside a name. *)
Definition num_tail (T : text) : Prop := T = [] \/ exists a r, is_alpha a = true /\ T = us :: a :: r.

Lemma e_not : forall e, is_e e = true -> is_digit e = false /\ Ascii.eqb e us = false /\ Ascii.eqb e dash = false /\ Ascii.eqb e dot = false.
Proof. intros e H. unfold is_e in H. apply orb_true_iff in H as [H|H]; apply Ascii.eqb_eq in H; subst; repeat split. Qed.
Lemma alpha_not_digit : forall a, is_alpha a = true -> is_digit a = false.
Proof. intros a A. destruct (is_digit a) eqn:E; auto. apply digit_not_alpha in E. congruence. Qed.

Lemma tail_stop : forall T, num_tail T -> fstop T.
Proof. intros T [-> | (a & r & A & ->)]; cbn; auto. Qed.
Lemma exp_stop : forall X T, num_exp X -> num_tail T -> fstop (underscored X ++ T).
Proof.
  intros X T [-> | (e & d & E & D & [-> | ->])] HT; cbn [underscored map app]; [now apply tail_stop| |];
    destruct (e_not e E) as (N & _ & A & B); rewrite A, B; cbn; auto.
Qed.
Lemma frac_stop : forall F X T, num_frac F -> num_exp X -> num_tail T -> fstop (underscored F ++ underscored X ++ T).
Proof. intros F X T [-> | (d & D & ->)] HX HT; cbn [underscored map app]; [now apply exp_stop|]. reflexivity. Qed.

Definition tail_match (T : text) : text := match T with [] => [] | _ => [us] end.
Definition tail_shown (T : text) : text := match T with [] => [] | _ => [blank] end.

Lemma match_number_body : forall I F X T, all_digits I -> num_frac F -> num_exp X -> num_tail T ->
  match_number (I ++ underscored F ++ underscored X ++ T) =
    Some (I ++ underscored F ++ underscored X ++ tail_match T, I ++ F ++ X ++ tail_shown T).
Proof.
  intros I F X T HI HF HX HT. unfold match_number. rewrite digits_at_app by (auto; now apply frac_stop).
  assert (MF : match_frac (underscored F ++ underscored X ++ T) = (underscored F, F, underscored X ++ T)).
  { destruct HF as [-> | (d & D & ->)].
    - cbn [underscored map app]. destruct HX as [-> | (e & d & E & D & HX)].
      + cbn [underscored map app]. destruct HT as [-> | (a & r & A & ->)]; cbn [match_frac]; auto.
        change (Ascii.eqb us us) with true. cbn match. unfold digits_at. cbn [span]. now rewrite alpha_not_digit.
      + destruct (e_not e E) as (N & U & P & Q). destruct HX as [-> | ->]; cbn [underscored map app]; rewrite P, Q; cbn [orb match_frac]; now rewrite U.
    - cbn [underscored map]. change (if Ascii.eqb dot dash || Ascii.eqb dot dot then us else dot) with us. fold (underscored d).
      destruct D as (DN & DD). rewrite und_digits by auto. cbn [app match_frac]. change (Ascii.eqb us us) with true. cbn match.
      rewrite digits_at_app; [reflexivity|split; auto|now apply exp_stop]. }
  rewrite MF. clear MF.
  assert (MX : match_exp (underscored X ++ T) = (underscored X, X, T)).
  { destruct HX as [-> | (e & d & E & (DN & D) & [-> | ->])].
    - cbn [underscored map app]. destruct HT as [-> | (a & r & A & ->)]; cbn [match_exp]; auto.
    - destruct (e_not e E) as (N & U & P & Q). cbn [underscored map]. rewrite P, Q. cbn [orb]. fold (underscored d). rewrite und_digits by auto.
      cbn [app match_exp]. rewrite E. destruct d as [|d0 d]; [congruence|]. inversion D; subst. cbn [app]. rewrite digit_not_us by auto.
      change (d0 :: d ++ T) with ((d0 :: d) ++ T). rewrite digits_at_app; [reflexivity|split; auto|now apply tail_stop].
    - destruct (e_not e E) as (N & U & P & Q). cbn [underscored map]. rewrite P, Q. cbn [orb]. fold (underscored d). rewrite und_digits by auto.
      change (if Ascii.eqb dash dash || Ascii.eqb dash dot then us else dash) with us. cbn [app match_exp]. rewrite E.
      change (Ascii.eqb us us) with true. cbn match. rewrite digits_at_app; [reflexivity|split; auto|now apply tail_stop]. }
  rewrite MX. clear MX.
  assert (MT : exists r, match_tail T = (tail_match T, tail_shown T, r)).
  { destruct HT as [-> | (a & r & A & ->)]; cbn [match_tail tail_match tail_shown]; eauto. change (Ascii.eqb us us) with true. rewrite A. cbn [andb]. eauto. }
  destruct MT as (r & ->). reflexivity.
Qed.

(** *** Literals *)
Definition lit_int (l : literal) : text := concat (whole l).
Definition lit_frac (l : literal) : text := match fraction l with None => [] | Some g => t "." ++ concat g end.
Definition lit_exp (l : literal) : text :=
  match exponent l with None => [] | Some (e, s, g) => [e] ++ match s with Some "-"%char => t "-" | _ => [] end ++ concat g end.
Definition lit_sign (l : literal) : text := if Nat.odd (minuses (signs l)) then t "-" else [].
Lemma shown_eq : forall l, shown l = lit_sign l ++ lit_int l ++ lit_frac l ++ lit_exp l.
Proof. reflexivity. Qed.

Lemma concat_digits : forall g, grouped g -> all_digits (concat g).
Proof.
  intros g (N & D). split.
  - destruct g as [|x g]; [congruence|]. inversion D; subst. destruct H1 as (NE & _). destruct x; [congruence|discriminate].
  - clear N. induction D as [|x g (_ & X) _ IH]; cbn; auto. apply Forall_app; auto.
Qed.
Lemma good_parts : forall l, good_literal l -> all_digits (lit_int l) /\ num_frac (lit_frac l) /\ num_exp (lit_exp l).
Proof.
  intros l (_ & W & F & X). split; [now apply concat_digits|]. split.
  - unfold lit_frac. destruct (fraction l) as [g|]; [|now left]. right. exists (concat g). split; [now apply concat_digits|reflexivity].
  - unfold lit_exp. destruct (exponent l) as [[[e s] g]|]; [|now left]. right. destruct X as (E & S & G). exists e, (concat g).
    split; [destruct E as [-> | ->]; reflexivity|]. split; [now apply concat_digits|].
    destruct S as [-> | [-> | ->]]; cbn; auto.
Qed.

Lemma und_int : forall l, good_literal l -> underscored (shown l) = underscored (lit_sign l) ++ lit_int l ++ underscored (lit_frac l) ++ underscored (lit_exp l).
Proof. intros l G. destruct (good_parts l G) as ((_ & D) & _ & _). rewrite shown_eq, !und_app. now rewrite (und_digits (lit_int l)). Qed.

Lemma match_marked : forall l T, good_literal l -> num_tail T ->
  match_here (marked l ++ T) = Some (marked l ++ tail_match T, shown l ++ tail_shown T).
Proof.
  intros l T G HT. destruct (good_parts l G) as (HI & HF & HX). unfold marked. rewrite (und_int l G), shown_eq.
  pose proof (match_number_body (lit_int l) (lit_frac l) (lit_exp l) T HI HF HX HT) as M.
  unfold lit_sign. destruct (Nat.odd (minuses (signs l))).
  - change (underscored (t "-")) with [us]. cbn [app]. rewrite <- !app_assoc. cbn [match_here]. change (Ascii.eqb us us) with true. cbn match. rewrite M.
    reflexivity.
  - cbn [underscored map app]. rewrite <- !app_assoc. destruct HI as (NI & DI). destruct (lit_int l) as [|i0 I] eqn:EI; [congruence|]. inversion DI; subst.
    cbn [app match_here]. change (Ascii.eqb us us) with true. cbn match. rewrite digit_not_us by auto.
    change (i0 :: I ++ underscored (lit_frac l) ++ underscored (lit_exp l) ++ T) with ((i0 :: I) ++ underscored (lit_frac l) ++ underscored (lit_exp l) ++ T).
    rewrite M. cbn [app]. now rewrite <- ?app_assoc.
Qed.

(** A marked number ends with a digit. *)
Lemma digits_end : forall d, all_digits d -> exists x c, d = x ++ [c] /\ is_digit c = true.
Proof.
  intros d (N & D). destruct (exists_last N) as (x & c & ->). exists x, c. split; auto. apply Forall_app in D as (_ & D). now inversion D.
Qed.
Lemma marked_not_us : forall l x, good_literal l -> marked l = x ++ t "_" -> False.
Proof.
  intros l x G H. destruct (good_parts l G) as (HI & HF & HX).
  assert (K : exists y c, marked l = y ++ [c] /\ is_digit c = true).
  { unfold marked. rewrite (und_int l G). destruct HX as [EX | (e & d & E & D & EX)].
    - rewrite EX. cbn [underscored map]. rewrite app_nil_r. destruct HF as [EF | (d & D & EF)].
      + rewrite EF. cbn [underscored map]. rewrite app_nil_r. destruct (digits_end _ HI) as (y & c & Ei & Dc). rewrite Ei.
        exists (us :: underscored (lit_sign l) ++ y), c. split; auto. cbn [app]. now rewrite <- app_assoc.
      + rewrite EF. cbn [underscored map]. fold (underscored d). rewrite (und_digits d) by apply D. destruct (digits_end _ D) as (y & c & -> & Dc).
        exists (us :: underscored (lit_sign l) ++ lit_int l ++ us :: y), c. split; auto. cbn [app]. rewrite <- !app_assoc. reflexivity.
    - destruct (e_not e E) as (_ & _ & P & Q). destruct (digits_end _ D) as (y & c & Ed & Dc).
      destruct EX as [EX|EX]; rewrite EX; cbn [underscored map]; rewrite P, Q; cbn [orb]; fold (underscored d); rewrite (und_digits d) by apply D; rewrite Ed.
      + exists (us :: underscored (lit_sign l) ++ lit_int l ++ underscored (lit_frac l) ++ e :: y), c. split; auto. cbn [app]. rewrite <- !app_assoc. reflexivity.
      + change (if Ascii.eqb dash dash || Ascii.eqb dash dot then us else dash) with us.
        exists (us :: underscored (lit_sign l) ++ lit_int l ++ underscored (lit_frac l) ++ e :: us :: y), c. split; auto. cbn [app]. rewrite <- !app_assoc. reflexivity. }
  destruct K as (y & c & K & Dc). rewrite K in H. change (t "_") with [us] in H. apply app_inj_tail in H as (_ & ->). discriminate.
Qed.

(** *** Searching in words *)
Lemma search_words : forall s, Forall (fun c => is_word c = true) s -> search true s = None.
Proof. induction 1 as [|c s C _ IH]; cbn [search]; auto. now rewrite C. Qed.
Lemma search_identifier : forall u, identifier u -> search false u = None.
Proof.
  intros u (c & r & -> & A & R). cbn [search match_here].
  assert (N : Ascii.eqb c us = false) by (apply Ascii.eqb_neq; intros ->; discriminate).
  rewrite N. rewrite (alpha_word c A). now apply search_words.
Qed.
Lemma search_no_us : forall s b, no_us s -> search b s = None.
Proof.
  intros s b H. revert b. induction H as [|c s C _ IH]; intros b; cbn [search]; auto.
  assert (X : match_here (c :: s) = None) by (cbn [match_here]; rewrite Ascii.eqb_sym, C; reflexivity).
  rewrite X. destruct b; auto.
Qed.
Lemma shown_no_us : forall l, good_literal l -> no_us (shown l).
Proof.
  intros l G. destruct (good_parts l G) as ((_ & HI) & HF & HX). rewrite shown_eq. repeat (apply Forall_app; split).
  - unfold lit_sign. destruct (Nat.odd _); repeat constructor.
  - now apply digits_no_us.
  - destruct HF as [-> | (d & (_ & D) & ->)]; constructor; [reflexivity|now apply digits_no_us].
  - destruct HX as [-> | (e & d & E & (_ & D) & HX)]; [constructor|]. destruct (e_not e E) as (_ & U & _). rewrite Ascii.eqb_sym in U.
    destruct HX as [-> | ->]; constructor; auto; [now apply digits_no_us|]. constructor; [reflexivity|now apply digits_no_us].
Qed.

Lemma tail_of_unit : forall u, identifier u -> num_tail (us :: u).
Proof. intros u (c & r & -> & A & _). right. eauto. Qed.

Lemma search_inner : forall l u, good_word (Scaled l u) -> forall m, mark (Scaled l u) = Some m ->
  search false (inner (Scaled l u)) = Some (m, shown l ++ match u with None => [] | Some _ => t " " end).
Proof.
  intros l u (G & U) m M. destruct u as [u|]; cbn [mark inner] in *.
  - injection M as <-. pose proof (match_marked l (us :: u) G (tail_of_unit u U)) as H. cbn [tail_match tail_shown] in H.
    unfold marked in *. cbn [app search] in *. rewrite H. reflexivity.
  - injection M as <-. pose proof (match_marked l [] G (or_introl eq_refl)) as H. cbn [tail_match tail_shown] in H. rewrite !app_nil_r in H.
    unfold marked in *. cbn [app search] in *. rewrite H. now rewrite app_nil_r.
Qed.
Lemma search_outer : forall w, good_word w -> search false (outer w) = None.
Proof.
  intros [w|l [u|]] G; cbn [outer].
  - apply internal_search, G.
  - destruct G as (G & U). change (shown l ++ t " " ++ u) with (shown l ++ blank :: u). rewrite search_local by reflexivity.
    rewrite (search_no_us _ false (shown_no_us l G)). now apply search_identifier.
  - destruct G as (G & _). now apply search_no_us, shown_no_us.
Qed.

(** *** Cells: words, some of which have been turned back *)
Definition cell := (word * bool)%type.
Definition show (c : cell) : text := if snd c then outer (fst c) else inner (fst c).
Definition cells (c : cell) (cs : list (ascii * cell)) : text := show c ++ concat (map (fun p => fst p :: show (snd p)) cs).
Definition all_cells (c : cell) (cs : list (ascii * cell)) : list cell := c :: map snd cs.

Definition tmark_eqb (m : option text) (x : text) : bool := match m with Some y => teqb y x | None => false end.
Definition turn (m : text) (c : cell) : cell := (fst c, snd c || tmark_eqb (mark (fst c)) m).
Definition pending (c : cell) : bool := negb (snd c) && match mark (fst c) with Some _ => true | None => false end.

Lemma mark_words : forall w m, good_word w -> mark w = Some m -> Forall (fun c => is_word c = true) m /\ exists r, m = us :: r.
Proof.
  assert (Mk : forall l, good_literal l -> Forall (fun c => is_word c = true) (marked l)).
  { intros l G. unfold marked. constructor; [reflexivity|]. rewrite (und_int l G). destruct (good_parts l G) as ((_ & HI) & HF & HX).
    assert (DW : forall d, Forall (fun c => is_digit c = true) d -> Forall (fun c => is_word c = true) d) by (intros d; apply Forall_impl, digit_word).
    repeat (apply Forall_app; split).
    - unfold lit_sign. destruct (Nat.odd _); repeat constructor.
    - auto.
    - destruct HF as [-> | (d & (_ & D) & ->)]; cbn [underscored map]; constructor; [reflexivity|]. fold (underscored d). rewrite und_digits; auto.
    - destruct HX as [-> | (e & d & E & (_ & D) & HX)]; [constructor|]. destruct (e_not e E) as (_ & _ & A & B).
      destruct HX as [-> | ->]; cbn [underscored map]; rewrite A, B; cbn [orb]; constructor; try (now apply alpha_word, is_e_alpha); fold (underscored d);
        rewrite ?und_digits; auto. }
  intros [w|l [u|]] m G H; cbn [mark] in H; [discriminate| |]; destruct G as (G & _); [assert (m = marked l ++ t "_") as -> by congruence|assert (m = marked l) as -> by congruence].
  - split; [apply Forall_app; split; [auto|repeat constructor]|]. unfold marked. cbn [app]. eauto.
  - split; auto. unfold marked. eauto.
Qed.
Lemma contains_no_us : forall m s, (exists r, m = us :: r) -> no_us s -> contains m s = false.
Proof.
  intros m s (r & ->) H. induction H as [|c s C _ IH]; auto. cbn [contains starts]. rewrite C. auto.
Qed.
Lemma contains_sep : forall c m x y, ~ In c m -> m <> [] -> contains m x = false -> contains m y = false -> contains m (x ++ c :: y) = false.
Proof.
  intros c m x y N E. induction x as [|b x IH]; intros X Y.
  - cbn [app contains]. destruct m as [|a m]; [congruence|]. cbn [starts]. assert (F : Ascii.eqb a c = false) by (apply Ascii.eqb_neq; intros ->; apply N; now left).
    rewrite F. auto.
  - cbn [app contains] in *. change (b :: x ++ c :: y) with ((b :: x) ++ c :: y). rewrite starts_local by auto. apply orb_false_iff in X as (A & B). rewrite A. auto.
Qed.
Lemma contains_suffix : forall m x y, contains m (x ++ y) = false -> contains m y = false.
Proof. induction x as [|c x IH]; intros y H; auto. cbn [app contains] in H. apply orb_false_iff in H as (_ & H). auto. Qed.

Lemma nonword_not_in : forall c m, Forall (fun x => is_word x = true) m -> is_word c = false -> ~ In c m.
Proof. intros c m W C I. rewrite Forall_forall in W. apply W in I. congruence. Qed.

Lemma replace_cell : forall m p c, good_word (fst c) -> clear_of m (fst c) -> Forall (fun x => is_word x = true) m -> (exists r, m = us :: r) ->
  (forall l u, fst c = Scaled l u -> mark (fst c) = Some m -> p = shown l ++ match u with None => [] | Some _ => t " " end) ->
  replace_all m p (show c) = show (turn m c).
Proof.
  intros m p [w d] G C W M P. cbn [fst] in *. assert (NE : m <> []) by (destruct M as (r & ->); discriminate).
  unfold turn, show. cbn [fst snd]. destruct w as [w|l u].
  - cbn [mark tmark_eqb clear_of] in *. rewrite orb_false_r. destruct d; cbn [inner outer]; now apply replace_absent.
  - destruct d; cbn [orb].
    + apply replace_absent. cbn [outer]. destruct G as (G & U). destruct u as [u|].
      * change (shown l ++ t " " ++ u) with (shown l ++ blank :: u). apply contains_sep; auto.
        -- now apply nonword_not_in.
        -- apply contains_no_us; auto using shown_no_us.
        -- cbn [clear_of] in C. destruct C as [(_ & C)|C]; auto. cbn [inner] in C.
           replace (marked l ++ us :: u) with ((marked l ++ [us]) ++ u) in C by (now rewrite <- app_assoc). now apply contains_suffix in C.
      * apply contains_no_us; auto using shown_no_us.
    + destruct (tmark_eqb (mark (Scaled l u)) m) eqn:T.
      * assert (Mm : mark (Scaled l u) = Some m). { destruct (mark (Scaled l u)) as [y|]; [|discriminate]. cbn [tmark_eqb] in T. apply teqb_eq in T. now subst. }
        specialize (P l u eq_refl Mm). subst p. cbn [clear_of] in C. destruct u as [u|].
        -- cbn [mark] in Mm. assert (Mm' : marked l ++ t "_" = m) by congruence. clear Mm. rename Mm' into Mm. cbn [inner outer].
           replace (marked l ++ us :: u) with (m ++ u) by (rewrite <- Mm; now rewrite <- app_assoc). rewrite replace_head by auto.
           rewrite <- app_assoc. f_equal. f_equal. destruct C as [(_ & C)|C]; [now apply replace_absent|].
           exfalso. cbn [inner] in C. replace (marked l ++ us :: u) with ([] ++ m ++ u) in C by (rewrite <- Mm; now rewrite <- app_assoc). rewrite contains_app in C. discriminate.
        -- cbn [mark] in Mm. assert (Mm' : marked l = m) by congruence. clear Mm. rename Mm' into Mm. cbn [inner outer]. rewrite Mm. rewrite <- (app_nil_r m) at 2. rewrite replace_head by auto. now rewrite !app_nil_r.
      * apply replace_absent. cbn [clear_of] in C. destruct C as [(C & _)|C]; auto. rewrite C in T. cbn [tmark_eqb] in T. rewrite teqb_refl in T. discriminate.
Qed.

Lemma replace_cells : forall m p cs c,
  (forall x, In x (all_cells c cs) -> replace_all m p (show x) = show (turn m x)) ->
  Forall (fun q => is_word (fst q) = false) cs -> Forall (fun x => is_word x = true) m -> m <> [] ->
  replace_all m p (cells c cs) = cells (turn m c) (map (fun q => (fst q, turn m (snd q))) cs).
Proof.
  intros m p. induction cs as [|[s d] cs IH]; intros c H S W N; unfold cells; cbn [map concat fst snd].
  - rewrite !app_nil_r. apply H. now left.
  - inversion S; subst. cbn [fst] in *. cbn [app]. rewrite replace_sep by (auto; now apply nonword_not_in).
    rewrite (H c) by (now left). f_equal. f_equal. apply (IH d); auto. intros x X. apply H. right. exact X.
Qed.

(** The first pending word is found, or there is none. *)
Lemma search_cells : forall cs c,
  (forall x, In x (all_cells c cs) -> good_word (fst x)) -> Forall (fun q => is_word (fst q) = false) cs ->
  match search false (cells c cs) with
  | None => forall x, In x (all_cells c cs) -> pending x = false
  | Some (m, p) => exists l u, In (Scaled l u, false) (all_cells c cs) /\ mark (Scaled l u) = Some m /\ p = shown l ++ match u with None => [] | Some _ => t " " end
  end.
Proof.
  assert (One : forall c, good_word (fst c) -> match search false (show c) with
     | None => pending c = false
     | Some (m, p) => exists l u, c = (Scaled l u, false) /\ mark (Scaled l u) = Some m /\ p = shown l ++ match u with None => [] | Some _ => t " " end
     end).
  { intros [w d] G. unfold show, pending. cbn [fst snd] in *. destruct d; [rewrite search_outer; auto|]. destruct w as [w|l u].
    - cbn [inner]. destruct G as (_ & G). rewrite internal_search; auto.
    - destruct (mark (Scaled l u)) as [m|] eqn:M; [|destruct u; discriminate].
      rewrite (search_inner l u G m M). exists l, u. auto. }
  induction cs as [|[s d] cs IH]; intros c G S; unfold cells; cbn [map concat fst snd].
  - rewrite app_nil_r. specialize (One c (G c (or_introl eq_refl))). destruct (search false (show c)) as [[m p]|].
    + destruct One as (l & u & -> & M & P). exists l, u. split; [now left|]. auto.
    + intros x [<-|[]]. exact One.
  - inversion S; subst. cbn [fst] in *. cbn [app]. rewrite search_local by auto. specialize (One c (G c (or_introl eq_refl))).
    destruct (search false (show c)) as [[m p]|].
    + destruct One as (l & u & -> & M & P). exists l, u. split; [now left|]. auto.
    + specialize (IH d (fun x X => G x (or_intror X)) H2). unfold cells in IH. destruct (search false _) as [[m p]|].
      * destruct IH as (l & u & I & M). exists l, u. split; [right; exact I|]. exact M.
      * intros x [<-|X]; auto.
Qed.

Definition count (c : cell) (cs : list (ascii * cell)) : nat := length (filter pending (all_cells c cs)).

Lemma count_turn : forall m l, length (filter pending (map (turn m) l)) <= length (filter pending l).
Proof.
  induction l as [|x l IH]; cbn [map filter]; auto. assert (H : pending (turn m x) = true -> pending x = true).
  { unfold pending, turn. cbn [fst snd]. destruct (snd x); cbn; auto. destruct (mark (fst x)); auto. }
  destruct (pending (turn m x)); [rewrite H by auto; cbn [length]; lia|]. destruct (pending x); cbn [length]; lia.
Qed.
Lemma count_turn_lt : forall m w l, In (w, false) l -> mark w = Some m -> length (filter pending (map (turn m) l)) < length (filter pending l).
Proof.
  induction l as [|x l IH]; intros I M; [destruct I|]. cbn [map filter]. destruct I as [-> | I].
  - assert (A : pending (turn m (w, false)) = false) by (unfold pending, turn; cbn [fst snd]; rewrite M; cbn [tmark_eqb]; rewrite teqb_refl; reflexivity).
    assert (B : pending (w, false) = true) by (unfold pending; cbn [fst snd]; rewrite M; reflexivity). rewrite A, B.
    pose proof (count_turn m l). cbn [length]. lia.
  - specialize (IH I M). assert (H : pending (turn m x) = true -> pending x = true).
    { unfold pending, turn. cbn [fst snd]. destruct (snd x); cbn; auto. destruct (mark (fst x)); auto. }
    destruct (pending (turn m x)); [rewrite H by auto; cbn [length]; lia|]. destruct (pending x); cbn [length]; lia.
Qed.

Lemma show_done : forall c, pending c = false -> show c = outer (fst c).
Proof. intros [[w|l u] d] H; unfold show, pending in *; cbn [fst snd] in *; destruct d; auto. destruct u; discriminate. Qed.

Lemma loop_cells : forall n c cs, count c cs <= n ->
  (forall x, In x (all_cells c cs) -> good_word (fst x)) -> Forall (fun q => is_word (fst q) = false) cs ->
  (forall x y m, In x (all_cells c cs) -> In y (all_cells c cs) -> mark (fst x) = Some m -> clear_of m (fst y)) ->
  unmangle_loop n (cells c cs) = Some (line outer (fst c) (map (fun q => (fst q, fst (snd q))) cs)).
Proof.
  induction n as [|n IH]; intros c cs L G S C.
  - pose proof (search_cells cs c G S) as H. cbn [unmangle_loop]. destruct (search false (cells c cs)) as [[m p]|].
    + exfalso. destruct H as (l & u & I & M & _). unfold count in L. pose proof (count_turn_lt m _ _ I M). lia.
    + f_equal. unfold cells, line. rewrite map_map. cbn [fst snd]. rewrite (show_done c) by (apply H; now left). f_equal. f_equal.
      apply map_ext_in. intros q Q. f_equal. apply show_done, H. right. now apply in_map.
  - pose proof (search_cells cs c G S) as H. cbn [unmangle_loop]. destruct (search false (cells c cs)) as [[m p]|].
    + destruct H as (l & u & I & M & P). destruct (mark_words _ m (G _ I) M) as (W & R).
      assert (NE : m <> []) by (destruct R as (r & ->); discriminate).
      rewrite (replace_cells m p cs c); auto.
      * assert (AC : all_cells (turn m c) (map (fun q => (fst q, turn m (snd q))) cs) = map (turn m) (all_cells c cs)) by (unfold all_cells; cbn [map]; now rewrite !map_map).
        rewrite IH.
        -- f_equal. unfold line. rewrite !map_map. reflexivity.
        -- unfold count in *. rewrite AC. pose proof (count_turn_lt m _ _ I M). lia.
        -- rewrite AC. intros x X. apply in_map_iff in X as (x0 & <- & X). apply (G x0 X).
        -- apply Forall_map. eapply Forall_impl; [|exact S]. auto.
        -- rewrite AC. intros x y m' X Y Mk. apply in_map_iff in X as (x0 & <- & X). apply in_map_iff in Y as (y0 & <- & Y). cbn [turn fst] in *. exact (C x0 y0 m' X Y Mk).
      * intros x X. apply replace_cell; auto.
        -- eapply C; [exact I|exact X|exact M].
        -- intros l' u' E Mx. subst p. rewrite E in Mx.
           destruct u as [u|], u' as [u'|]; cbn [mark] in M, Mx.
           ++ assert (Mx' : marked l' ++ t "_" = marked l ++ t "_") by congruence. clear Mx. rename Mx' into Mx. apply app_inv_tail in Mx. (* the same mark *)
              destruct (G _ I) as (Gl & _). pose proof (G _ X) as Gx. rewrite E in Gx. destruct Gx as (Gl' & _).
              pose proof (match_marked l' [] Gl' (or_introl eq_refl)) as A. pose proof (match_marked l [] Gl (or_introl eq_refl)) as B.
              cbn [tail_match tail_shown] in A, B. rewrite !app_nil_r in A, B. rewrite Mx, B in A. assert (EQ : shown l = shown l') by congruence. now rewrite EQ.
           ++ exfalso. pose proof (G _ X) as Gx. rewrite E in Gx. destruct Gx as (Gl' & _). apply (marked_not_us l' (marked l) Gl'). congruence.
           ++ exfalso. destruct (G _ I) as (Gl & _). apply (marked_not_us l (marked l') Gl). congruence.
           ++ assert (Mx' : marked l' = marked l) by congruence. clear Mx. rename Mx' into Mx.
              destruct (G _ I) as (Gl & _). pose proof (G _ X) as Gx. rewrite E in Gx. destruct Gx as (Gl' & _).
              pose proof (match_marked l' [] Gl' (or_introl eq_refl)) as A. pose proof (match_marked l [] Gl (or_introl eq_refl)) as B.
              cbn [tail_match tail_shown] in A, B. rewrite !app_nil_r in A, B. rewrite Mx, B in A. assert (EQ : shown l = shown l') by congruence. now rewrite EQ.
    + f_equal. unfold cells, line. rewrite map_map. cbn [fst snd]. rewrite (show_done c) by (apply H; now left). f_equal. f_equal.
      apply map_ext_in. intros q Q. f_equal. apply show_done, H. right. now apply in_map.
Qed.

Lemma unmangle_loop_rounds : forall n s r, unmangle_loop n s = Some r -> unmangle s = Some r.
Proof.
  intros n s r H. destruct (loop_some (unders s) s (le_n _)) as (q & A & _). unfold unmangle. rewrite A. f_equal. eapply loop_det; eauto.
Qed.

Theorem line_shown : forall w ws, good_line w ws -> no_clash w ws -> unmangle (line inner w ws) = Some (line outer w ws).
Proof.
  intros w ws (Gw & Gs) C. set (cs := map (fun p : ascii * word => (fst p, (snd p, false))) ws).
  assert (E : line inner w ws = cells (w, false) cs) by (unfold line, cells, cs, show; rewrite map_map; reflexivity).
  assert (AC : all_cells (w, false) cs = map (fun x => (x, false)) (w :: map snd ws)) by (unfold all_cells, cs; cbn [map]; now rewrite !map_map).
  apply (unmangle_loop_rounds (count (w, false) cs)). rewrite E. rewrite loop_cells; auto.
  - f_equal. unfold cs, line. now rewrite !map_map.
  - rewrite AC. intros x X. apply in_map_iff in X as (x0 & <- & X). cbn [fst]. destruct X as [<-|X]; auto.
    apply in_map_iff in X as (q & <- & X). rewrite Forall_forall in Gs. apply (Gs q X).
  - unfold cs. apply Forall_map. eapply Forall_impl; [|exact Gs]. cbn. tauto.
  - rewrite AC. intros x y m X Y M. apply in_map_iff in X as (x0 & <- & X). apply in_map_iff in Y as (y0 & <- & Y). cbn [fst] in *. exact (C x0 y0 m X Y M).
Qed.
