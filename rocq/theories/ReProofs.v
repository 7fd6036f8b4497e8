(** Proofs for C54. *)
From Coq Require Import String Ascii List Bool Arith Lia.
From Verif Require Import Base BaseFacts PyStr ScaleModel ReModel ReSpec.
Import ListNotations.
Open Scope list_scope.

Notation cont := (option ascii -> text -> groups -> option found).
Definition final : cont := fun pv s g => Some (pv, s, g).

(** ** Repetitions *)
Lemma span_split : forall p s, s = fst (span p s) ++ snd (span p s).
Proof. intros p. induction s as [|c s IH]; auto. cbn. destruct (p c); auto. destruct (span p s). cbn in *. now f_equal. Qed.
Lemma span_all : forall p s, Forall (fun c => p c = true) (fst (span p s)).
Proof. intros p. induction s as [|c s IH]; cbn; auto. destruct (p c) eqn:E; cbn; auto. destruct (span p s); cbn in *; auto. Qed.
Lemma span_stop : forall p s, sat p (head (snd (span p s))) = false.
Proof. intros p. induction s as [|c s IH]; cbn; auto. destruct (p c) eqn:E; cbn; auto. destruct (span p s); auto. Qed.
Lemma last_cons : forall pv c w, last_of pv (c :: w) = last_of (Some c) w.
Proof.
  intros. unfold last_of. cbn [rev]. destruct (rev w) eqn:E; reflexivity.
Qed.
(** If nothing can follow a shorter repetition, only the longest counts. *)
Lemma many_longest : forall B p (k : option ascii -> text -> option B) s pv,
  (forall pv c r, p c = true -> k pv (c :: r) = None) ->
  many p k pv s = k (last_of pv (fst (span p s))) (snd (span p s)).
Proof.
  intros B p k. induction s as [|c s IH]; intros pv N; cbn [many span]; auto.
  destruct (p c) eqn:E; cbn; auto. rewrite IH by auto. destruct (span p s) as [a b]. cbn [fst snd]. rewrite last_cons, N by auto.
  now destruct (k _ b).
Qed.
(** If the longest succeeds, it is the one. *)
Lemma many_some : forall B p (k : option ascii -> text -> option B) s pv x,
  k (last_of pv (fst (span p s))) (snd (span p s)) = Some x -> many p k pv s = Some x.
Proof.
  intros B p k. induction s as [|c s IH]; intros pv x H; cbn [many span] in *; auto.
  destruct (p c) eqn:E; cbn in *; auto. destruct (span p s) as [a b] eqn:Q. cbn [fst snd] in *. rewrite last_cons in H.
  now rewrite (IH _ _ H).
Qed.
Lemma many_ext : forall B p (k k' : option ascii -> text -> option B), (forall pv s, k pv s = k' pv s) ->
  forall s pv, many p k pv s = many p k' pv s.
Proof. intros B p k k' E. induction s as [|c s IH]; intros pv; cbn [many]; auto. destruct (p c); auto. rewrite IH, E. reflexivity. Qed.
Lemma exec_ext : forall r pv s g (k k' : cont), (forall pv s g, k pv s g = k' pv s g) -> exec r pv s g k = exec r pv s g k'.
Proof.
  induction r as [ |p|w|a IHa b IHb|a IHa b IHb|p|n a IHa|n| |y p|y a IHa| | | ]; intros pv s g k k' E; cbn [exec].
  - auto.
  - destruct s as [|c s]; auto. destruct (p c); auto.
  - destruct (starts w s); auto.
  - apply IHa. intros. now apply IHb.
  - rewrite (IHa _ _ _ _ k' E). destruct (exec a pv s g k'); auto.
  - apply many_ext. auto.
  - apply IHa. auto.
  - destruct (group g n) as [w|]; auto. destruct (starts w s); auto.
  - destruct (xorb _ _); auto.
  - destruct (Bool.eqb _ _); auto.
  - destruct (Bool.eqb _ _); auto.
  - destruct pv as [c|]; auto. destruct (Ascii.eqb c newline); auto.
  - destruct s as [|c s]; auto. destruct (Ascii.eqb c newline); auto.
  - destruct s as [|c [|]]; auto. destruct (Ascii.eqb c newline); auto.
Qed.
(** Like [many_longest], when the repetition is known to come after a character of the class. *)
Lemma many_longest_in : forall B p (k : option ascii -> text -> option B) s pv,
  sat p pv = true -> (forall pv c r, sat p pv = true -> p c = true -> k pv (c :: r) = None) ->
  many p k pv s = k (last_of pv (fst (span p s))) (snd (span p s)).
Proof.
  intros B p k. induction s as [|c s IH]; intros pv P N; cbn [many span]; auto.
  destruct (p c) eqn:E; cbn; auto. rewrite IH by auto. destruct (span p s) as [a b]. cbn [fst snd]. rewrite last_cons, N by auto.
  now destruct (k _ b).
Qed.
Lemma plus_longest : forall p pv s g (k : cont),
  (forall pv c r, sat p pv = true -> p c = true -> k pv (c :: r) g = None) ->
  exec (plus p) pv s g k = match fst (span p s) with [] => None | d => k (last_of pv d) (snd (span p s)) g end.
Proof.
  intros p pv s g k N. unfold plus. cbn [exec]. destruct s as [|c s]; auto. cbn [span]. destruct (p c) eqn:E; auto.
  rewrite many_longest_in by auto. destruct (span p s) as [a b]. cbn [fst snd]. now rewrite last_cons.
Qed.
Lemma plus_some : forall p pv s g (k : cont), (forall pv s, k pv s g <> None) ->
  exec (plus p) pv s g k = match fst (span p s) with [] => None | d => k (last_of pv d) (snd (span p s)) g end.
Proof.
  intros p pv s g k N. unfold plus. cbn [exec]. destruct s as [|c s]; auto. cbn [span]. destruct (p c) eqn:E; auto.
  destruct (span p s) as [a b] eqn:Q. cbn [fst snd]. rewrite last_cons.
  destruct (k (last_of (Some c) a) b g) as [x|] eqn:Kx. 2: now apply N in Kx.
  apply many_some. rewrite Q. exact Kx.
Qed.
Lemma digits_at_span : forall s,
  digits_at s = match fst (span is_digit s) with [] => None | d => Some (d, snd (span is_digit s)) end.
Proof. intros s. unfold digits_at. destruct (span is_digit s) as [[|c a] b]; reflexivity. Qed.
Lemma space_many : forall pv s g (k : cont), (forall pv c r, is_space c = true -> k pv (c :: r) g = None) ->
  exists pv', exec (Many is_space) pv s g k = k pv' (skip_space s) g.
Proof. intros. cbn [exec]. rewrite many_longest; eauto. Qed.

Lemma digit_not : forall c, is_digit c = true -> is_space c = false /\ c <> dot /\ c <> dash /\ c <> "+"%char /\ c <> "*"%char /\ c <> us /\ is_word c = true /\ is_alpha c = false.
Proof.
  intros [[] [] [] [] [] [] [] []]; intros H; try discriminate H; repeat split; try discriminate; reflexivity.
Qed.
Lemma space_not : forall c, is_space c = true -> is_digit c = false /\ c <> dot /\ c <> dash /\ c <> "+"%char /\ c <> "*"%char /\ c <> us /\ c <> "^"%char /\ is_word c = false /\ c <> "="%char.
Proof.
  intros [[] [] [] [] [] [] [] []]; intros H; try discriminate H; repeat split; try discriminate; reflexivity.
Qed.
Lemma eqb_ne : forall a b : ascii, b <> a -> Ascii.eqb a b = false.
Proof. intros a b N. apply Ascii.eqb_neq. congruence. Qed.

Lemma opt_chr : forall a b pv s g (k : cont),
  exec (Seq (opt (chr a)) b) pv s g k
  = match s with
    | c :: r => if Ascii.eqb c a then match exec b (Some c) r g k with Some x => Some x | None => exec b pv s g k end else exec b pv s g k
    | [] => exec b pv s g k
    end.
Proof. intros. unfold opt, chr. cbn [exec]. destruct s as [|c r]; auto. rewrite (Ascii.eqb_sym a c). now destruct (Ascii.eqb c a). Qed.

(** ** Scientific notation *)
Definition exponent_re : re := Grp 2 (seq [opt (chr "-"); plus is_digit; Wb]).
Definition power_re : re :=
  seq [Lit (t "10"); Many is_space; Alt (Lit (t "**")) (chr "^"); Many is_space; opt (chr "+"); exponent_re].

Definition sci_digits (s : text) : option (text * text) :=
  match digits_at s with
  | None => None
  | Some (d, r) => match r with c :: _ => if is_word c then None else Some (d, r) | [] => Some (d, r) end
  end.
Definition sci_exp (s : text) : option (text * text) :=
  match s with
  | c :: r => if Ascii.eqb c dash then match sci_digits r with Some (d, r') => Some (dash :: d, r') | None => None end else sci_digits s
  | [] => sci_digits s
  end.
Definition sci_signed (s : text) : option (text * text) :=
  sci_exp (match s with c :: r => if Ascii.eqb c "+"%char then r else s | [] => s end).
Definition sci_raise (s : text) : option (text * text) :=
  match (if starts (t "**") s then Some (skipn 2 s) else if starts (t "^") s then Some (skipn 1 s) else None) with
  | Some r => sci_signed (skip_space r)
  | None => None
  end.
Lemma sci_power_eq : forall s, sci_power s = if starts (t "10") s then sci_raise (skip_space (skipn 2 s)) else None.
Proof.
  intros s. unfold sci_power, sci_raise. destruct (starts (t "10") s); auto. cbv zeta.
  destruct (if starts (t "**") _ then _ else _) as [s3|]; auto. unfold sci_signed.
  set (s5 := match skip_space s3 with [] => _ | _ => _ end). clearbody s5.
  unfold sci_exp, sci_digits. destruct s5 as [|c r]; [reflexivity|]. destruct (Ascii.eqb c dash).
  - destruct (digits_at r) as [[d r']|]; auto. destruct r' as [|c' r']; auto. now destruct (is_word c').
  - destruct (digits_at (c :: r)) as [[d r']|]; auto. 
Qed.
Lemma firstn_app_len : forall (a b : text), firstn (length (a ++ b) - length b) (a ++ b) = a.
Proof. intros. rewrite app_length, Nat.add_sub, firstn_app, Nat.sub_diag, firstn_all, firstn_O, app_nil_r. reflexivity. Qed.

Lemma last_in : forall p w pv, w <> [] -> Forall (fun c => p c = true) w -> exists c, last_of pv w = Some c /\ p c = true.
Proof.
  intros p w pv N F. unfold last_of. destruct (rev w) as [|c l] eqn:E.
  - apply (f_equal (@rev ascii)) in E. rewrite rev_involutive in E. now subst.
  - exists c. split; auto. rewrite Forall_forall in F. apply F. apply in_rev. rewrite E. now left.
Qed.
Lemma digits_re : forall pv s g (k : cont),
  exists pv', exec (Seq (plus is_digit) Wb) pv s g k = match sci_digits s with Some (d, r) => k pv' r g | None => None end.
Proof.
  intros pv s g k. change (exec (Seq (plus is_digit) Wb) pv s g k) with (exec (plus is_digit) pv s g (fun pv s g => exec Wb pv s g k)).
  rewrite plus_longest.
  - unfold sci_digits. rewrite digits_at_span. destruct (fst (span is_digit s)) as [|c d] eqn:E; [exists None; reflexivity|].
    destruct (last_in is_digit (c :: d) pv) as (x & L & D). { discriminate. } { rewrite <- E. apply span_all. }
    rewrite L. cbn [exec]. exists (Some x). cbn [wordy]. destruct (digit_not _ D) as (_ & _ & _ & _ & _ & _ & -> & _).
    destruct (snd (span is_digit s)) as [|y r]; cbn [head wordy xorb]; auto. now destruct (is_word y).
  - intros pv' c r P D. destruct pv' as [x|]; [|discriminate]. cbn [exec sat head wordy] in *.
    destruct (digit_not _ D) as (_ & _ & _ & _ & _ & _ & -> & _). destruct (digit_not _ P) as (_ & _ & _ & _ & _ & _ & -> & _). reflexivity.
Qed.
Lemma sci_digits_app : forall s d r, sci_digits s = Some (d, r) -> s = d ++ r.
Proof.
  intros s d r H. unfold sci_digits in H. rewrite digits_at_span in H. rewrite (span_split is_digit s).
  destruct (fst (span is_digit s)); [discriminate|]. destruct (snd (span is_digit s)) as [|x y]; [now inversion H|].
  destruct (is_word x); now inversion H.
Qed.
Lemma sci_digits_head : forall c r, is_digit c = false -> sci_digits (c :: r) = None.
Proof. intros c r H. unfold sci_digits. rewrite digits_at_span. cbn [span]. now rewrite H. Qed.
Lemma exp_re : forall pv s g,
  exists pv', exec exponent_re pv s g final = match sci_exp s with Some (e, r) => Some (pv', r, (2, e) :: g) | None => None end.
Proof.
  intros pv s g. 
  set (K := fun (pv' : option ascii) (s' : text) (g' : groups) => final pv' s' ((2, firstn (length s - length s') s) :: g')).
  change (exec exponent_re pv s g final) with (exec (Seq (opt (chr dash)) (Seq (plus is_digit) Wb)) pv s g K).
  rewrite opt_chr. unfold sci_exp. destruct s as [|c r].
  - exists None. reflexivity.
  - destruct (Ascii.eqb c dash) eqn:E.
    + apply Ascii.eqb_eq in E. subst c. destruct (digits_re (Some dash) r g K) as [p1 E1]. destruct (digits_re pv (dash :: r) g K) as [p2 E2].
      rewrite E1, E2, sci_digits_head by reflexivity. exists p1. destruct (sci_digits r) as [[d r']|] eqn:D; auto.
      apply sci_digits_app in D. subst r. unfold K, final.
      rewrite (firstn_app_len (dash :: d) r' : firstn (length (dash :: d ++ r') - length r') (dash :: d ++ r') = dash :: d). reflexivity.
    + destruct (digits_re pv (c :: r) g K) as [p1 E1]. exists p1. rewrite E1. destruct (sci_digits (c :: r)) as [[d r']|] eqn:D; auto.
      apply sci_digits_app in D. unfold K, final. rewrite D. now rewrite firstn_app_len.
Qed.
Lemma sci_exp_head : forall c r, is_digit c = false -> c <> dash -> sci_exp (c :: r) = None.
Proof. intros c r H N. unfold sci_exp. destruct (Ascii.eqb c dash) eqn:E. { now apply Ascii.eqb_eq in E. } now apply sci_digits_head. Qed.
Lemma signed_re : forall pv s g,
  exists pv', exec (Seq (opt (chr "+")) exponent_re) pv s g final
    = match sci_signed s with Some (e, r) => Some (pv', r, (2, e) :: g) | None => None end.
Proof.
  intros pv s g. rewrite opt_chr. unfold sci_signed. destruct s as [|c r]. { exists None. reflexivity. }
  destruct (Ascii.eqb c "+") eqn:E.
  - apply Ascii.eqb_eq in E. subst c. destruct (exp_re (Some "+"%char) r g) as [p1 E1]. destruct (exp_re pv ("+"%char :: r) g) as [p2 E2].
    rewrite E1, E2. rewrite sci_exp_head by (try reflexivity; discriminate). exists p1. now destruct (sci_exp r) as [[e r']|].
  - apply exp_re.
Qed.
Lemma sci_signed_head : forall c r, is_space c = true -> sci_signed (c :: r) = None.
Proof.
  intros c r H. destruct (space_not _ H) as (D & _ & M & P & _). unfold sci_signed.
  destruct (Ascii.eqb c "+") eqn:E. { now apply Ascii.eqb_eq in E. } now apply sci_exp_head.
Qed.
Lemma raise_re : forall pv s g,
  exists pv', exec (seq [Alt (Lit (t "**")) (chr "^"); Many is_space; opt (chr "+"); exponent_re]) pv s g final
    = match sci_raise s with Some (e, r) => Some (pv', r, (2, e) :: g) | None => None end.
Proof.
  intros pv s g. cbn [seq].
  set (K := fun (pv : option ascii) (s : text) (g : groups) => exec (Seq (Many is_space) (Seq (opt (chr "+")) exponent_re)) pv s g final).
  assert (HK : forall pv s, exists pv', K pv s g = match sci_signed (skip_space s) with Some (e, r) => Some (pv', r, (2, e) :: g) | None => None end).
  { intros pv0 s0. unfold K.
    destruct (space_many pv0 s0 g (fun pv s g => exec (Seq (opt (chr "+")) exponent_re) pv s g final)) as [p1 E1].
    - intros pv1 c r Sp. destruct (signed_re pv1 (c :: r) g) as [p2 E2]. rewrite E2. now rewrite sci_signed_head.
    - destruct (signed_re p1 (skip_space s0) g) as [p2 E2]. exists p2. rewrite <- E2, <- E1. reflexivity. }
  change (exists pv', match exec (Lit (t "**")) pv s g K with Some x => Some x | None => exec (chr "^") pv s g K end
    = match sci_raise s with Some (e, r) => Some (pv', r, (2, e) :: g) | None => None end).
  unfold sci_raise. change (exec (Lit (t "**")) pv s g K) with (if starts (t "**") s then K (last_of pv (t "**")) (skipn 2 s) g else None).
  destruct (starts (t "**") s) eqn:E.
  - destruct (HK (last_of pv (t "**")) (skipn 2 s)) as [p1 ->]. exists p1. destruct (sci_signed _) as [[e r]|]; auto.
    destruct s as [|c s]; [discriminate|]. cbn [starts t list_ascii_of_string] in E. apply andb_true_iff in E. destruct E as [E _]. apply Ascii.eqb_eq in E. subst c. reflexivity.
  - unfold chr. cbn [exec]. destruct s as [|c r]; [exists None; reflexivity|]. cbn [starts t list_ascii_of_string skipn]. rewrite andb_true_r.
    destruct (Ascii.eqb "^" c); [|exists None; reflexivity]. apply HK.
Qed.
Lemma sci_raise_head : forall c r, is_space c = true -> sci_raise (c :: r) = None.
Proof.
  intros c r H. destruct (space_not _ H) as (_ & _ & _ & _ & A & _ & C & _). unfold sci_raise. cbn [starts t list_ascii_of_string].
  rewrite (eqb_ne "*" c), (eqb_ne "^" c) by auto. reflexivity.
Qed.
Lemma power_match : forall pv s g,
  exists pv', exec power_re pv s g final = match sci_power s with Some (e, r) => Some (pv', r, (2, e) :: g) | None => None end.
Proof.
  intros pv s g. rewrite sci_power_eq.
  change (exec power_re pv s g final) with
    (if starts (t "10") s then exec (Many is_space) (last_of pv (t "10")) (skipn 2 s) g
        (fun pv s g => exec (seq [Alt (Lit (t "**")) (chr "^"); Many is_space; opt (chr "+"); exponent_re]) pv s g final) else None).
  destruct (starts (t "10") s). 2: exists None; reflexivity.
  destruct (space_many (last_of pv (t "10")) (skipn 2 s) g
       (fun pv s g => exec (seq [Alt (Lit (t "**")) (chr "^"); Many is_space; opt (chr "+"); exponent_re]) pv s g final)) as [p1 ->].
  - intros pv1 c r Sp. destruct (raise_re pv1 (c :: r) g) as [p2 ->]. now rewrite sci_raise_head.
  - apply raise_re.
Qed.

(** The mantissa: if what follows accepts neither a digit nor a dot, only the longest choice counts. *)
Lemma many_none : forall B p (k : option ascii -> text -> option B) s pv,
  (forall a c b, s = a ++ c :: b -> Forall (fun x => p x = true) a -> p c = true -> k (last_of pv a) (c :: b) = None) ->
  k (last_of pv (fst (span p s))) (snd (span p s)) = None -> many p k pv s = None.
Proof.
  intros B p k. induction s as [|c s IH]; intros pv N L; cbn [many span] in *; auto.
  destruct (p c) eqn:E; auto. destruct (span p s) as [a b] eqn:Q. cbn [fst snd] in *. rewrite last_cons in L.
  rewrite IH; auto.
  - apply (N [] c s); auto.
  - intros a' c' b' H F P. subst s. rewrite <- (last_cons pv). apply (N (c :: a') c' b'); auto.
Qed.
Definition whole_re : re := seq [plus is_digit; opt (chr "."); Many is_digit].
Definition mantissa_digits (s : text) : option (text * text) :=
  match digits_at s with
  | Some (d, r) =>
      match r with
      | c :: r' => if Ascii.eqb c dot then let (f, r'') := span is_digit r' in Some (d ++ dot :: f, r'') else Some (d, r)
      | [] => Some (d, r)
      end
  | None => None
  end.
Lemma last_app : forall pv a b, last_of pv (a ++ b) = last_of (last_of pv a) b.
Proof. intros. unfold last_of. rewrite rev_app_distr. destruct (rev b); reflexivity. Qed.
Lemma span_app : forall p a b, Forall (fun c => p c = true) a -> span p (a ++ b) = (a ++ fst (span p b), snd (span p b)).
Proof.
  intros p a b F. induction F as [|c a P F IH]; cbn [app span]. { now destruct (span p b). } rewrite P, IH. reflexivity.
Qed.
Lemma span_nil : forall p s, sat p (head s) = false -> span p s = ([], s).
Proof. intros p [|c s] H; auto. cbn in *. now rewrite H. Qed.
Lemma whole_match : forall pv s g (k : cont),
  (forall pv c r, is_digit c = true -> k pv (c :: r) g = None) -> (forall pv r, k pv (dot :: r) g = None) ->
  exec whole_re pv s g k = match mantissa_digits s with Some (m, r) => k (last_of pv m) r g | None => None end.
Proof.
  intros pv s g k ND NP.
  set (K2 := fun (pv : option ascii) (s : text) (g : groups) => exec (Seq (opt (chr ".")) (Many is_digit)) pv s g k).
  assert (M : forall pv s, exec (Many is_digit) pv s g k = k (last_of pv (fst (span is_digit s))) (snd (span is_digit s)) g).
  { intros. cbn [exec]. rewrite many_longest; auto. }
  assert (HK : forall pv s, K2 pv s g = match s with
      | c :: r => if Ascii.eqb c dot then k (last_of (Some c) (fst (span is_digit r))) (snd (span is_digit r)) g
                  else k (last_of pv (fst (span is_digit s))) (snd (span is_digit s)) g
      | [] => k pv [] g end).
  { intros pv0 s0. unfold K2. rewrite opt_chr. destruct s0 as [|c r]; auto. rewrite !M. fold dot. destruct (Ascii.eqb c dot) eqn:E; auto.
    apply Ascii.eqb_eq in E. subst c. cbn [span is_digit fst snd]. change (is_digit dot) with false. cbn [fst snd]. rewrite NP. now destruct (k _ _ g). }
  change (exec whole_re pv s g k) with (exec (plus is_digit) pv s g K2).
  unfold mantissa_digits. rewrite digits_at_span. unfold plus. cbn [exec]. destruct s as [|c s]; auto. cbn [span].
  destruct (is_digit c) eqn:E; auto. destruct (span is_digit s) as [a b] eqn:Q. cbn [fst snd].
  pose proof (span_split is_digit s) as Sp. pose proof (span_all is_digit s) as Sa. pose proof (span_stop is_digit s) as St. rewrite Q in *. cbn [fst snd] in *.
  assert (Long : K2 (last_of (Some c) a) b g
     = match (match b with c0 :: r' => if Ascii.eqb c0 dot then let (f, r'') := span is_digit r' in Some ((c :: a) ++ dot :: f, r'') else Some (c :: a, b)
              | [] => Some (c :: a, b) end) with Some (m, r) => k (last_of pv m) r g | None => None end).
  { rewrite HK. destruct b as [|c0 b]. { now rewrite last_cons. }
    destruct (Ascii.eqb c0 dot) eqn:E0.
    - apply Ascii.eqb_eq in E0. subst c0. destruct (span is_digit b) as [f r'']. cbn [fst snd]. rewrite last_app, !last_cons. reflexivity.
    - rewrite span_nil by auto. cbn [fst snd]. now rewrite last_cons. }
  transitivity (K2 (last_of (Some c) a) b g); [clear Long|exact Long]. destruct (K2 (last_of (Some c) a) b g) as [x|] eqn:KL.
  - apply many_some. rewrite Q. exact KL.
  - apply many_none. 2: { rewrite Q. exact KL. }
    intros a' c' b' H F P. rewrite HK. destruct (digit_not _ P) as (_ & Nd & _). destruct (Ascii.eqb c' dot) eqn:E1. { now apply Ascii.eqb_eq in E1. }
    assert (Q2 : a = a' ++ c' :: fst (span is_digit b') /\ b = snd (span is_digit b')).
    { rewrite H in Q. change (a' ++ c' :: b') with (a' ++ [c'] ++ b') in Q. rewrite app_assoc in Q. rewrite span_app in Q.
      - inversion Q; subst. now rewrite <- app_assoc.
      - apply Forall_app. auto. }
    destruct Q2 as [Qa Qb]. cbn [span]. rewrite P. destruct (span is_digit b') as [u v]. cbn [fst snd] in *. subst v.
    rewrite <- last_app, <- Qa. 
    rewrite HK in KL. destruct b as [|c0 b]; auto. destruct (Ascii.eqb c0 dot) eqn:E0.
    + apply Ascii.eqb_eq in E0. subst c0. apply NP.
    + rewrite span_nil in KL by auto. exact KL.
Qed.
Lemma mantissa_app : forall s m r, sci_mantissa s = Some (m, r) -> s = m ++ r.
Proof.
  intros s m r H. unfold sci_mantissa in H. rewrite !digits_at_span in H. pose proof (span_split is_digit s) as Sp.
  destruct (fst (span is_digit s)) as [|c d].
  - destruct s as [|c s]; [discriminate|]. destruct (Ascii.eqb c dot) eqn:E; [|discriminate]. apply Ascii.eqb_eq in E. subst c.
    rewrite digits_at_span in H. pose proof (span_split is_digit s) as Sq. destruct (fst (span is_digit s)) as [|c2 d2]; [discriminate|].
    inversion H; subst. cbn. now f_equal.
  - destruct (snd (span is_digit s)) as [|c2 r2]. { now inversion H; subst. } destruct (Ascii.eqb c2 dot) eqn:E.
    + apply Ascii.eqb_eq in E. subst c2. pose proof (span_split is_digit r2) as Sq. destruct (span is_digit r2) as [f r'']. cbn in Sq. subst r2.
      inversion H; subst. cbn. now rewrite <- app_assoc.
    + inversion H; subst. auto.
Qed.
Definition mantissa_re : re := Grp 1 (Alt whole_re (Seq (chr ".") (plus is_digit))).
Lemma mantissa_match : forall pv s g (k : cont),
  (forall pv c r g, is_digit c = true -> k pv (c :: r) g = None) -> (forall pv r g, k pv (dot :: r) g = None) ->
  exec mantissa_re pv s g k = match sci_mantissa s with Some (m, r) => k (last_of pv m) r ((1, m) :: g) | None => None end.
Proof.
  intros pv s g k ND NP.
  set (K := fun (pv' : option ascii) (s' : text) (g' : groups) => k pv' s' ((1, firstn (length s - length s') s) :: g')).
  change (exec mantissa_re pv s g k) with (match exec whole_re pv s g K with Some x => Some x | None => exec (Seq (chr ".") (plus is_digit)) pv s g K end).
  rewrite whole_match by (intros; unfold K; auto). 
  assert (D : exec (Seq (chr ".") (plus is_digit)) pv s g K
     = match s with c :: r => if Ascii.eqb c dot then match digits_at r with Some (d, r') => K (last_of pv (dot :: d)) r' g | None => None end else None | [] => None end).
  { change (exec (Seq (chr ".") (plus is_digit)) pv s g K) with
      (match s with c :: r => if Ascii.eqb "." c then exec (plus is_digit) (Some c) r g K else None | [] => None end).
    destruct s as [|c r]; auto. rewrite (Ascii.eqb_sym "." c). fold dot. destruct (Ascii.eqb c dot) eqn:E; auto.
    apply Ascii.eqb_eq in E. subst c. rewrite plus_longest by (intros; unfold K; auto). rewrite digits_at_span. destruct (fst (span is_digit r)); auto. now rewrite (last_cons pv dot). }
  rewrite D. pose proof (mantissa_app s) as App. unfold sci_mantissa in *. unfold mantissa_digits. clear D.
  destruct (digits_at s) as [[d r]|] eqn:E.
  - assert (Z : match s with c :: r => if Ascii.eqb c dot then match digits_at r with Some (d, r') => K (last_of pv (dot :: d)) r' g | None => None end else None | [] => None end = None).
    { destruct s as [|c s]; auto. rewrite digits_at_span in E. cbn [span] in E. destruct (is_digit c) eqn:C; [|discriminate].
      destruct (digit_not _ C) as (_ & N & _). rewrite (eqb_ne c dot) by auto. reflexivity. }
    rewrite Z. destruct r as [|c r].
    + unfold K. rewrite (App d []) at 1 2 by auto. rewrite firstn_app_len. now destruct (k _ _ _).
    + destruct (Ascii.eqb c dot).
      * destruct (span is_digit r) as [f r'']. unfold K. rewrite (App _ _ eq_refl) at 1 2. rewrite firstn_app_len. now destruct (k _ _ _).
      * unfold K. rewrite (App _ _ eq_refl) at 1 2. rewrite firstn_app_len. now destruct (k _ _ _).
  - destruct s as [|c s]; auto. destruct (Ascii.eqb c dot); auto. destruct (digits_at s) as [[d r']|]; auto.
    unfold K. rewrite (App _ _ eq_refl) at 1 2. now rewrite firstn_app_len.
Qed.
Definition scaled_re : re := seq [mantissa_re; Many is_space; chr "*"; Many is_space].
Definition times_re : re := seq [Many is_space; chr "*"; Many is_space].
Lemma power_head : forall c r, is_space c = true -> sci_power (c :: r) = None.
Proof.
  intros c r H. rewrite sci_power_eq. cbn [starts t list_ascii_of_string]. destruct (space_not _ H) as (D & _).
  destruct (Ascii.eqb "1" c) eqn:E; auto. apply Ascii.eqb_eq in E. now subst c.
Qed.
Lemma times_match : forall pv s g,
  exists pv', exec times_re pv s g (fun pv s g => exec power_re pv s g final)
    = match sci_times s with
      | Some r => match sci_power r with Some (e, r') => Some (pv', r', (2, e) :: g) | None => None end
      | None => None
      end.
Proof.
  intros pv s g. unfold times_re, sci_times. cbn [seq].
  set (K := fun pv s g => exec (Seq (chr "*") (Many is_space)) pv s g (fun pv s g => exec power_re pv s g final)).
  change (exec (Seq (Many is_space) (Seq (chr "*") (Many is_space))) pv s g (fun pv s g => exec power_re pv s g final))
    with (exec (Many is_space) pv s g K).
  destruct (space_many pv s g K) as [p1 ->].
  { intros pv1 c r Sp. destruct (space_not _ Sp) as (_ & _ & _ & _ & A & _).
    change (K pv1 (c :: r) g) with (if Ascii.eqb "*" c then exec (Many is_space) (Some c) r g (fun pv s g => exec power_re pv s g final) else None).
    now rewrite (eqb_ne "*" c). }
  destruct (skip_space s) as [|c r]; [exists None; reflexivity|].
  change (K p1 (c :: r) g) with (if Ascii.eqb "*" c then exec (Many is_space) (Some c) r g (fun pv s g => exec power_re pv s g final) else None).
  rewrite (Ascii.eqb_sym "*" c). destruct (Ascii.eqb c "*"); [|exists None; reflexivity].
  destruct (space_many (Some c) r g (fun pv s g => exec power_re pv s g final)) as [p2 ->].
  { intros pv1 c1 r1 Sp. destruct (power_match pv1 (c1 :: r1) g) as [p3 ->]. now rewrite power_head. }
  apply power_match.
Qed.
Lemma sci_match : forall pv s,
  match (if xorb (wordy pv) (wordy (head s)) then sci_here s else None) with
  | Some (new, rest) => exists pv' g, match_at sci_re pv s = Some (pv', rest, g) /\ as_scientific g = new
  | None => match_at sci_re pv s = None
  end.
Proof.
  intros pv s. change (match_at sci_re pv s) with
    (if xorb (wordy pv) (wordy (head s)) then
       match exec mantissa_re pv s [] (fun pv s g => exec times_re pv s g (fun pv s g => exec power_re pv s g final)) with
       | Some x => Some x | None => exec power_re pv s [] final end
     else None).
  destruct (xorb (wordy pv) (wordy (head s))); auto.
  rewrite mantissa_match.
  - unfold sci_here. destruct (power_match pv s []) as [pp EP]. rewrite EP. cbv zeta.
    destruct (sci_mantissa s) as [[m r]|].
    + destruct (times_match (last_of pv m) r [(1, m)]) as [p1 ->]. destruct (sci_times r) as [r'|].
      * destruct (sci_power r') as [[e r'']|].
        -- exists p1, [(2, e); (1, m)]. split; reflexivity.
        -- destruct (sci_power s) as [[e r2]|]; auto. exists pp, [(2, e)]. split; reflexivity.
      * destruct (sci_power s) as [[e r2]|]; auto. exists pp, [(2, e)]. split; reflexivity.
    + destruct (sci_power s) as [[e r2]|]; auto. exists pp, [(2, e)]. split; reflexivity.
  - intros pv1 c r g D. destruct (times_match pv1 (c :: r) g) as [p1 ->]. unfold sci_times, skip_space. cbn [span].
    destruct (digit_not _ D) as (-> & _ & _ & _ & A & _). cbn [snd]. now rewrite (eqb_ne c "*") by congruence.
  - intros pv1 r g. destruct (times_match pv1 (dot :: r) g) as [p1 ->]. reflexivity.
Qed.
Lemma power_rest : forall s e r, sci_power s = Some (e, r) -> exists a, s = a ++ r /\ a <> [].
Proof.
  intros s e r H. rewrite sci_power_eq in H. destruct (starts (t "10") s) eqn:E; [|discriminate].
  assert (Sk : forall s, exists a, s = a ++ skip_space s). { intros x. exists (fst (span is_space x)). apply span_split. }
  assert (Sg : forall s e r, sci_digits s = Some (e, r) -> exists a, s = a ++ r). { intros x e0 r0 Hx. apply sci_digits_app in Hx. eauto. }
  assert (Ex : forall s e r, sci_exp s = Some (e, r) -> exists a, s = a ++ r).
  { intros x e0 r0 Hx. unfold sci_exp in Hx. destruct x as [|c x]; [eauto|]. destruct (Ascii.eqb c dash); [|eauto].
    destruct (sci_digits x) as [[d r']|] eqn:D; [|discriminate]. inversion Hx; subst. apply Sg in D. destruct D as [a ->]. exists (c :: a). reflexivity. }
  assert (Si : forall s e r, sci_signed s = Some (e, r) -> exists a, s = a ++ r).
  { intros x e0 r0 Hx. unfold sci_signed in Hx. destruct x as [|c x]; [eauto|]. destruct (Ascii.eqb c "+"); [|eauto].
    apply Ex in Hx. destruct Hx as [a ->]. exists (c :: a). reflexivity. }
  destruct s as [|c1 [|c2 s]]; try discriminate.
  cbn [skipn] in H. destruct (Sk s) as [a1 E1]. set (s1 := skip_space s) in *. clearbody s1. subst s.
  assert (exists a, s1 = a ++ r) as [a2 ->].
  { unfold sci_raise in H.
    assert (exists a s2, s1 = a ++ s2 /\ sci_signed (skip_space s2) = Some (e, r)) as (a & s2 & -> & H2).
    { destruct (starts (t "**") s1). { exists (firstn 2 s1), (skipn 2 s1). now rewrite firstn_skipn. }
      destruct (starts (t "^") s1); [|discriminate]. exists (firstn 1 s1), (skipn 1 s1). now rewrite firstn_skipn. }
    apply Si in H2. destruct H2 as [b Hb]. destruct (Sk s2) as [d Hd]. exists (a ++ d ++ b). rewrite <- !app_assoc, <- Hb, <- Hd. reflexivity. }
  exists (c1 :: c2 :: a1 ++ a2). split; [|discriminate]. cbn. now rewrite <- app_assoc.
Qed.
Lemma sci_here_rest : forall s new r, sci_here s = Some (new, r) -> exists a, s = a ++ r /\ a <> [].
Proof.
  intros s new r H. unfold sci_here in H. cbv zeta in H.
  assert (P : match sci_power s with Some (e, r) => Some (t "1e" ++ e, r) | None => None end = Some (new, r) -> exists a, s = a ++ r /\ a <> []).
  { destruct (sci_power s) as [[e r']|] eqn:E; [|discriminate]. intros H'. inversion H'; subst. eapply power_rest; eauto. }
  destruct (sci_mantissa s) as [[m r1]|] eqn:M; auto. destruct (sci_times r1) as [r2|] eqn:T; auto. destruct (sci_power r2) as [[e r3]|] eqn:Pw; auto.
  inversion H; subst. apply mantissa_app in M. apply power_rest in Pw. destruct Pw as (a & -> & Na). unfold sci_times in T.
  pose proof (span_split is_space r1) as S1. unfold skip_space in T. destruct (snd (span is_space r1)) as [|c q]; [discriminate|].
  destruct (Ascii.eqb c "*"); [|discriminate]. inversion T as [T']. pose proof (span_split is_space q) as S2. rewrite T' in S2.
  exists (m ++ fst (span is_space r1) ++ c :: fst (span is_space q) ++ a). split.
  - rewrite M. rewrite <- !app_assoc. f_equal. rewrite S1 at 1. f_equal. cbn. f_equal. rewrite S2 at 1. now rewrite <- app_assoc.
  - intros Z. apply app_eq_nil in Z. destruct Z as [_ Z]. apply app_eq_nil in Z. now destruct Z.
Qed.
Lemma suffix_len : forall (a r : text), length (a ++ r) - length r = length a.
Proof. intros. rewrite app_length. lia. Qed.
Lemma sci_sub : forall s pv n, sci_from (wordy pv) n s = re_sub sci_re as_scientific pv n s.
Proof.
  induction s as [|c s IH]; intros pv n.
  - destruct n; auto. cbn [sci_from re_sub]. pose proof (sci_match pv []) as M. cbn [head wordy] in M.
    destruct (xorb (wordy pv) false); [|now rewrite M]. change (sci_here []) with (@None (text * text)) in M. now rewrite M.
  - destruct n as [|n]; cbn [sci_from re_sub]. 2: apply (IH (Some c)).
    pose proof (sci_match pv (c :: s)) as M. cbn [head wordy] in M. destruct (if xorb _ _ then _ else _) as [[new rest]|] eqn:E.
    + destruct M as (pv' & g & -> & <-).
      destruct (xorb (wordy pv) (is_word c)); [|discriminate]. apply sci_here_rest in E. destruct E as (a & -> & Na).
      rewrite suffix_len. destruct a as [|x a]; [easy|]. cbn [length]. rewrite Nat.sub_succ, Nat.sub_0_r. f_equal. apply (IH (Some c)).
    + rewrite M. f_equal. apply (IH (Some c)).
Qed.

(** ** The names of scaling factors *)
Lemma change_none : forall a b w, Forall (fun c => c <> a) w -> ReSpec.change a b w = w.
Proof. intros a b w F. induction F as [|c w N F IH]; auto. cbn. rewrite (eqb_ne c a) by auto. now f_equal. Qed.
Lemma digits_no : forall a s, is_digit a = false -> Forall (fun c => c <> a) (fst (span is_digit s)).
Proof. intros a s H. eapply Forall_impl; [|apply span_all]. cbn. intros c D ->. congruence. Qed.

Definition tail_re : re := opt (Grp 5 (Seq (chr "_") (Ahead true (Cls is_alpha)))).
Definition exp_part_re : re := opt (Grp 4 (seq [Cls (one_of "eE"); opt (chr "_"); plus is_digit])).
Definition frac_re : re := opt (Grp 3 (Seq (chr "_") (plus is_digit))).
Lemma tail_match : forall pv s g, exists pv' g', exec tail_re pv s g final = Some (pv', snd (match_tail s), g' ++ g)
  /\ (forall n, n <> 5 -> group g' n = None)
  /\ match group g' 5 with None => [] | Some w => ReSpec.change us blank w end = snd (fst (match_tail s))
  /\ s = fst (fst (match_tail s)) ++ snd (match_tail s).
Proof.
  intros pv s g. unfold match_tail. destruct s as [|c s].
  { exists pv, []. cbn. auto. }
  destruct s as [|c' s].
  { exists pv, []. cbn [app fst snd group]. split; [|auto]. unfold tail_re, opt, chr. cbn [exec]. destruct (Ascii.eqb "_" c); reflexivity. }
  rewrite (Ascii.eqb_sym c us). destruct (Ascii.eqb us c) eqn:E; cbn [andb].
  - apply Ascii.eqb_eq in E. subst c. destruct (is_alpha c') eqn:A.
    + exists (Some us), [(5, [us])]. cbn [fst snd app]. split; [|split; [|split]]; auto.
      * unfold tail_re, opt, chr. cbn [exec]. change (Ascii.eqb "_" us) with true. cbv iota. rewrite A. cbn [Bool.eqb].
        change (us :: c' :: s) with ([us] ++ c' :: s). rewrite firstn_app_len. reflexivity.
      * intros n N. cbn [group]. destruct n as [|[|[|[|[|[|n]]]]]]; auto. easy.
    + exists pv, []. cbn [fst snd app group]. split; [|auto]. unfold tail_re, opt, chr. cbn [exec]. change (Ascii.eqb "_" us) with true. cbv iota. rewrite A. reflexivity.
  - exists pv, []. cbn [fst snd app group]. split; [|auto]. unfold tail_re, opt, chr. cbn [exec]. fold us. rewrite E. reflexivity.
Qed.
Lemma group_app : forall a b n, group (a ++ b) n = match group a n with Some w => Some w | None => group b n end.
Proof. induction a as [|[m w] a IH]; intros b n; auto. cbn. destruct (Nat.eqb m n); auto. Qed.
Lemma one_of_e : forall c, one_of "eE" c = is_e c.
Proof. intros c. unfold one_of, is_e. cbn [t list_ascii_of_string existsb]. now rewrite orb_false_r. Qed.
Definition part3 (g : groups) := match group g 3 with None => [] | Some w => ReSpec.change us dot w end.
Definition part4 (g : groups) := match group g 4 with None => [] | Some w => ReSpec.change us dash w end.
Definition part5 (g : groups) := match group g 5 with None => [] | Some w => ReSpec.change us blank w end.
Definition exp_tail (s : text) : text * text * text :=
  let '(e, e', r3) := match_exp s in let '(u, u', r4) := match_tail r3 in (e ++ u, e' ++ u', r4).
Definition frac_exp_tail (s : text) : text * text * text :=
  let '(f, f', r2) := match_frac s in let '(e, e', r3) := exp_tail r2 in (f ++ e, f' ++ e', r3).
Lemma tail_total : forall pv s g, exec tail_re pv s g final <> None.
Proof. intros. destruct (tail_match pv s g) as (p & g' & -> & _). discriminate. Qed.
Lemma plus_digits : forall pv s g (k : cont), (forall pv s g, k pv s g <> None) ->
  exec (plus is_digit) pv s g k = match digits_at s with Some (d, r) => k (last_of pv d) r g | None => None end.
Proof. intros. rewrite plus_some by auto. rewrite digits_at_span. now destruct (fst (span is_digit s)). Qed.
Lemma digits_at_app : forall s d r, digits_at s = Some (d, r) -> s = d ++ r /\ d = fst (span is_digit s).
Proof.
  intros s d r H. rewrite digits_at_span in H. pose proof (span_split is_digit s). destruct (fst (span is_digit s)); inversion H; subst. auto.
Qed.
Lemma digits_at_us : forall r, digits_at (us :: r) = None.
Proof. reflexivity. Qed.
Lemma exp_tail_match : forall pv s g, exists pv' g',
  exec (Seq exp_part_re tail_re) pv s g final = Some (pv', snd (exp_tail s), g' ++ g)
  /\ (forall n, n <> 4 -> n <> 5 -> group g' n = None)
  /\ part4 g' ++ part5 g' = snd (fst (exp_tail s))
  /\ s = fst (fst (exp_tail s)) ++ snd (exp_tail s).
Proof.
  intros pv s g.
  set (K := fun (pv' : option ascii) (s' : text) (g' : groups) => exec tail_re pv' s' ((4, firstn (length s - length s') s) :: g') final).
  set (body := match s with
        | c :: r => if is_e c then exec (Seq (opt (chr us)) (plus is_digit)) (Some c) r g K else None | [] => None end).
  assert (HE : exec (Seq exp_part_re tail_re) pv s g final = match body with Some x => Some x | None => exec tail_re pv s g final end).
  { unfold body. change (exec (Seq exp_part_re tail_re) pv s g final) with
      (match (match s with c :: r => if one_of "eE" c then exec (Seq (opt (chr us)) (plus is_digit)) (Some c) r g K else None | [] => None end)
       with Some x => Some x | None => exec tail_re pv s g final end). destruct s as [|c r]; auto. now rewrite one_of_e. }
  rewrite HE. clear HE.
  assert (Plain : match_exp s = ([], [], s) -> body = None -> exists pv' g',
     match body with Some x => Some x | None => exec tail_re pv s g final end = Some (pv', snd (exp_tail s), g' ++ g)
     /\ (forall n, n <> 4 -> n <> 5 -> group g' n = None)
     /\ part4 g' ++ part5 g' = snd (fst (exp_tail s)) /\ s = fst (fst (exp_tail s)) ++ snd (exp_tail s)).
  { intros M ->. unfold exp_tail. rewrite M. destruct (tail_match pv s g) as (p & g' & -> & G & P & A). destruct (match_tail s) as [[u u'] r4].
    cbn [fst snd app] in *. exists p, g'. repeat split; auto. unfold part4. rewrite G by discriminate. exact P. }
  assert (Hit : forall e e' d r c x, match_exp s = (e, e', r) -> s = e ++ r -> e = c :: x ++ d -> (x = [] /\ e' = c :: d \/ x = [us] /\ e' = c :: dash :: d) ->
     is_e c = true -> Forall (fun c => c <> us) d -> (exists pv', body = K pv' r g) -> exists pv' g',
     match body with Some x => Some x | None => exec tail_re pv s g final end = Some (pv', snd (exp_tail s), g' ++ g)
     /\ (forall n, n <> 4 -> n <> 5 -> group g' n = None)
     /\ part4 g' ++ part5 g' = snd (fst (exp_tail s)) /\ s = fst (fst (exp_tail s)) ++ snd (exp_tail s)).
  { intros e e' d r c x M A He Hx Hc Hd [pv' ->]. unfold K, exp_tail. rewrite M.
    replace (firstn (length s - length r) s) with e by (rewrite A; now rewrite firstn_app_len).
    destruct (tail_match pv' r ((4, e) :: g)) as (p & g' & TM & G & P & B).
    match goal with |- context [exec tail_re pv' r ?G0 final] => change (exec tail_re pv' r G0 final) with (exec tail_re pv' r ((4, e) :: g) final) end.
    rewrite TM. clear TM. destruct (match_tail r) as [[u u'] r4]. cbn [fst snd] in *.
    exists p, (g' ++ [(4, e)]). rewrite <- app_assoc. repeat split.
    - intros n N4 N5. rewrite group_app, G by auto. cbn [group]. destruct n as [|[|[|[|[|n]]]]]; auto. easy.
    - unfold part4, part5 in *. rewrite !group_app, (G 4) by discriminate. cbn [group Nat.eqb]. rewrite <- P.
      replace (match group g' 5 with Some w => Some w | None => None end) with (group g' 5) by (now destruct (group g' 5)).
      f_equal. subst e. assert (c <> us) by (intros ->; discriminate Hc).
      cbn [app ReSpec.change map]. rewrite (eqb_ne c us) by auto. destruct Hx as [[-> ->]|[-> ->]]; cbn [app map]; change (Ascii.eqb us us) with true; cbv iota; repeat f_equal; now apply change_none.
    - rewrite A, B at 1. now rewrite app_assoc. }
  unfold match_exp in *. destruct s as [|c r]; [apply Plain; reflexivity|]. destruct (is_e c) eqn:E. 2: apply Plain; auto; unfold body; now rewrite E.
  assert (KT : forall pv s g, K pv s g <> None) by (intros; apply tail_total).
  unfold body in *. rewrite opt_chr in *. clear body. destruct r as [|c' r']. { apply Plain; auto. }
  destruct (Ascii.eqb c' us) eqn:U.
  - apply Ascii.eqb_eq in U. subst c'. rewrite !plus_digits in * by auto. rewrite digits_at_us in *. destruct (digits_at r') as [[d r'']|] eqn:D.
    + apply digits_at_app in D. destruct D as [-> D]. eapply (Hit _ _ d r'' c [us]); try reflexivity; auto.
      { rewrite D. now apply digits_no. }
      eexists. destruct (K _ _ g) eqn:Q; [symmetry; exact Q|]. now apply KT in Q.
    + apply Plain; auto.
  - rewrite !plus_digits in * by auto. destruct (digits_at (c' :: r')) as [[d r'']|] eqn:D.
    + apply digits_at_app in D. destruct D as [D1 D]. eapply (Hit _ _ d r'' c []); try reflexivity; auto.
      { cbn. now rewrite D1. }
      { rewrite D. now apply digits_no. }
      eauto.
    + apply Plain; auto.
Qed.
Lemma exp_tail_total : forall pv s g, exec (Seq exp_part_re tail_re) pv s g final <> None.
Proof. intros. destruct (exp_tail_match pv s g) as (p & g' & -> & _). discriminate. Qed.
Definition rest_re : re := Seq frac_re (Seq exp_part_re tail_re).
Lemma rest_match : forall pv s g, exists pv' g',
  exec rest_re pv s g final = Some (pv', snd (frac_exp_tail s), g' ++ g)
  /\ (forall n, n <> 3 -> n <> 4 -> n <> 5 -> group g' n = None)
  /\ part3 g' ++ part4 g' ++ part5 g' = snd (fst (frac_exp_tail s))
  /\ s = fst (fst (frac_exp_tail s)) ++ snd (frac_exp_tail s).
Proof.
  intros pv s g.
  set (K := fun (pv' : option ascii) (s' : text) (g' : groups) => exec (Seq exp_part_re tail_re) pv' s' ((3, firstn (length s - length s') s) :: g') final).
  assert (HE : exec rest_re pv s g final = match (match s with
        | c :: r => if Ascii.eqb c us then match digits_at r with Some (d, r') => K (last_of (Some c) d) r' g | None => None end else None | [] => None end)
       with Some x => Some x | None => exec (Seq exp_part_re tail_re) pv s g final end).
  { change (exec rest_re pv s g final) with
      (match (match s with c :: r => if Ascii.eqb us c then exec (plus is_digit) (Some c) r g K else None | [] => None end)
       with Some x => Some x | None => exec (Seq exp_part_re tail_re) pv s g final end).
    destruct s as [|c r]; auto. rewrite (Ascii.eqb_sym us c). destruct (Ascii.eqb c us); auto.
    rewrite plus_digits by (intros; apply exp_tail_total). reflexivity. }
  rewrite HE. clear HE.
  assert (Plain : match_frac s = ([], [], s) -> exists pv' g',
     exec (Seq exp_part_re tail_re) pv s g final = Some (pv', snd (frac_exp_tail s), g' ++ g)
     /\ (forall n, n <> 3 -> n <> 4 -> n <> 5 -> group g' n = None)
     /\ part3 g' ++ part4 g' ++ part5 g' = snd (fst (frac_exp_tail s)) /\ s = fst (fst (frac_exp_tail s)) ++ snd (frac_exp_tail s)).
  { intros M. unfold frac_exp_tail. rewrite M. destruct (exp_tail_match pv s g) as (p & g' & -> & G & P & A). destruct (exp_tail s) as [[u u'] r4].
    cbn [fst snd app] in *. exists p, g'. repeat split; auto. unfold part3. rewrite G by discriminate. exact P. }
  unfold match_frac in Plain. destruct s as [|c r]; [now apply Plain|]. destruct (Ascii.eqb c us) eqn:E; [|now apply Plain].
  destruct (digits_at r) as [[d r']|] eqn:D; [|now apply Plain]. clear Plain. apply Ascii.eqb_eq in E. subst c.
  unfold frac_exp_tail, match_frac. change (Ascii.eqb us us) with true. cbv iota. rewrite D. apply digits_at_app in D. destruct D as [-> D].
  unfold K.
  assert (Q : firstn (length (us :: d ++ r') - length r') (us :: d ++ r') = us :: d) by (apply (firstn_app_len (us :: d) r')). rewrite Q.
  destruct (exp_tail_match (last_of (Some us) d) r' ((3, us :: d) :: g)) as (p & g' & TM & G & P & B).
  match goal with |- context [exec (Seq exp_part_re tail_re) ?p0 r' ?G0 final] =>
    change (exec (Seq exp_part_re tail_re) p0 r' G0 final) with (exec (Seq exp_part_re tail_re) p0 r' ((3, us :: d) :: g) final) end.
  rewrite TM. destruct (exp_tail r') as [[u u'] r4]. cbn [fst snd] in *.
  exists p, (g' ++ [(3, us :: d)]). rewrite <- app_assoc. repeat split.
  - intros n N3 N4 N5. rewrite group_app, G by auto. cbn [group]. destruct n as [|[|[|[|n]]]]; auto. easy.
  - unfold part3, part4, part5 in *. rewrite !group_app, (G 3) by discriminate. cbn [group Nat.eqb]. rewrite <- P.
    replace (match group g' 4 with Some w => Some w | None => None end) with (group g' 4) by (now destruct (group g' 4)).
    replace (match group g' 5 with Some w => Some w | None => None end) with (group g' 5) by (now destruct (group g' 5)).
    cbn [ReSpec.change map]. change (Ascii.eqb us us) with true. cbv iota. cbn [app]. repeat f_equal. apply change_none. rewrite D. now apply digits_no.
  - cbn. f_equal. rewrite <- app_assoc. now f_equal.
Qed.
Lemma rest_total : forall pv s g, exec rest_re pv s g final <> None.
Proof. intros. destruct (rest_match pv s g) as (p & g' & -> & _). discriminate. Qed.
Definition digits_rest_re : re := Seq (Grp 2 (plus is_digit)) rest_re.
Lemma number_eq : forall s, match_number s = match digits_at s with
  | None => None | Some (d, r1) => let '(f, f', r) := frac_exp_tail r1 in Some (d ++ f, d ++ f') end.
Proof.
  intros s. unfold match_number, frac_exp_tail, exp_tail. destruct (digits_at s) as [[d r1]|]; auto.
  destruct (match_frac r1) as [[f f'] r2]. destruct (match_exp r2) as [[e e'] r3]. now destruct (match_tail r3) as [[u u'] r4].
Qed.
Definition part1 (g : groups) : text := match group g 1 with None => [] | Some _ => t "-" end.
Lemma digits_rest_match : forall pv s g,
  match match_number s with
  | None => exec digits_rest_re pv s g final = None
  | Some (m, new) => exists pv' g' r, exec digits_rest_re pv s g final = Some (pv', r, g' ++ g) /\ s = m ++ r
      /\ group g' 1 = None /\ text_of (group g' 2) ++ part3 g' ++ part4 g' ++ part5 g' = new /\ group g' 2 <> None
  end.
Proof.
  intros pv s g. rewrite number_eq.
  set (K := fun (pv' : option ascii) (s' : text) (g' : groups) => exec rest_re pv' s' ((2, firstn (length s - length s') s) :: g') final).
  change (exec digits_rest_re pv s g final) with (exec (plus is_digit) pv s g K).
  rewrite plus_digits by (intros; apply rest_total). destruct (digits_at s) as [[d r1]|] eqn:D; auto.
  apply digits_at_app in D. destruct D as [-> _]. unfold K. rewrite firstn_app_len.
  destruct (rest_match (last_of pv d) r1 ((2, d) :: g)) as (p & g' & TM & G & P & A).
  match goal with |- context [exec rest_re ?p0 r1 ?G0 final] => change (exec rest_re p0 r1 G0 final) with (exec rest_re p0 r1 ((2, d) :: g) final) end.
  rewrite TM. destruct (frac_exp_tail r1) as [[f f'] r]. cbn [fst snd] in *. exists p, (g' ++ [(2, d)]), r. rewrite <- app_assoc. repeat split.
  - rewrite <- app_assoc. now f_equal.
  - now rewrite group_app, G by discriminate.
  - unfold part3, part4, part5 in *. rewrite !group_app, (G 2) by discriminate. cbn [group Nat.eqb text_of]. rewrite <- P.
    replace (match group g' 3 with Some w => Some w | None => None end) with (group g' 3) by (now destruct (group g' 3)).
    replace (match group g' 4 with Some w => Some w | None => None end) with (group g' 4) by (now destruct (group g' 4)).
    replace (match group g' 5 with Some w => Some w | None => None end) with (group g' 5) by (now destruct (group g' 5)). reflexivity.
  - rewrite group_app, G by discriminate. discriminate.
Qed.
Lemma match_number_us : forall r, match_number (us :: r) = None.
Proof. reflexivity. Qed.
Lemma unmangled_parts : forall g, unmangled g = part1 g ++ text_of (group g 2) ++ part3 g ++ part4 g ++ part5 g.
Proof. reflexivity. Qed.
Lemma number_match : forall pv s,
  match (if wordy pv then None else match_here s) with
  | None => match_at number_re pv s = None
  | Some (m, new) => exists pv' g r, match_at number_re pv s = Some (pv', r, g) /\ s = m ++ r /\ unmangled g = new
  end.
Proof.
  intros pv s.
  assert (HE : match_at number_re pv s = if xorb (wordy pv) (wordy (head s)) then
      match s with c :: r => if Ascii.eqb us c then exec (Seq (opt (Grp 1 (chr us))) digits_rest_re) (Some c) r [] final else None | [] => None end else None) by reflexivity.
  rewrite HE. clear HE. unfold match_here. destruct s as [|c r].
  { destruct (wordy pv); cbn; auto. }
  rewrite (Ascii.eqb_sym us c). destruct (Ascii.eqb c us) eqn:E. 2: { destruct (wordy pv); destruct (xorb _ _); auto. }
  apply Ascii.eqb_eq in E. subst c. cbn [head wordy]. change (is_word us) with true. rewrite xorb_true_r. destruct (wordy pv); cbn [negb]; auto.
  set (K := fun (pv' : option ascii) (s' : text) (g' : groups) => exec digits_rest_re pv' s' ((1, firstn (length r - length s') r) :: g') final).
  assert (HE : exec (Seq (opt (Grp 1 (chr us))) digits_rest_re) (Some us) r [] final
     = match (match r with c :: r' => if Ascii.eqb us c then K (Some c) r' [] else None | [] => None end) with
       | Some x => Some x | None => exec digits_rest_re (Some us) r [] final end) by reflexivity.
  rewrite HE. clear HE. destruct r as [|c' r']. { reflexivity. }
  rewrite (Ascii.eqb_sym us c'). destruct (Ascii.eqb c' us) eqn:E.
  - apply Ascii.eqb_eq in E. subst c'. unfold K.
    assert (Q : firstn (length (us :: r') - length r') (us :: r') = [us]) by (apply (firstn_app_len [us] r')). rewrite Q.
    pose proof (digits_rest_match (Some us) r' [(1, [us])]) as H. pose proof (digits_rest_match (Some us) (us :: r') []) as H2. rewrite match_number_us in H2. rewrite H2.
    destruct (match_number r') as [[m new]|].
    + destruct H as (p & g' & r & TM & -> & G1 & P & _). 
      match goal with |- context [exec digits_rest_re ?p0 ?r0 ?G0 final] => change (exec digits_rest_re p0 r0 G0 final) with (exec digits_rest_re p0 r0 [(1, [us])] final) end.
      rewrite TM. exists p, (g' ++ [(1, [us])]), r. repeat split.
      rewrite unmangled_parts. unfold part1, part3, part4, part5 in *. rewrite !group_app, G1. cbn [group Nat.eqb]. rewrite <- P.
      replace (match group g' 2 with Some w => Some w | None => None end) with (group g' 2) by (now destruct (group g' 2)).
      replace (match group g' 3 with Some w => Some w | None => None end) with (group g' 3) by (now destruct (group g' 3)).
      replace (match group g' 4 with Some w => Some w | None => None end) with (group g' 4) by (now destruct (group g' 4)).
      replace (match group g' 5 with Some w => Some w | None => None end) with (group g' 5) by (now destruct (group g' 5)). reflexivity.
    + match goal with |- context [exec digits_rest_re ?p0 r' ?G0 final] => change (exec digits_rest_re p0 r' G0 final) with (exec digits_rest_re p0 r' [(1, [us])] final) end.
      now rewrite H.
  - pose proof (digits_rest_match (Some us) (c' :: r') []) as H. destruct (match_number (c' :: r')) as [[m new]|]; auto.
    destruct H as (p & g' & r & -> & A & G1 & P & _). exists p, (g' ++ []), r. repeat split.
    + cbn. now rewrite A.
    + rewrite app_nil_r. rewrite unmangled_parts. unfold part1. rewrite G1. exact P.
Qed.
Lemma search_re : forall s pv,
  search (wordy pv) s = option_map (fun g => (text_of (group g 0), unmangled g)) (re_search number_re pv s).
Proof.
  induction s as [|c s IH]; intros pv.
  - cbn [search re_search]. pose proof (number_match pv []) as H. replace (if wordy pv then None else match_here []) with (@None (text * text)) in H by (now destruct (wordy pv)).
    now rewrite H.
  - cbn [search re_search]. pose proof (number_match pv (c :: s)) as H. destruct (if wordy pv then None else match_here (c :: s)) as [[m new]|] eqn:E.
    + destruct H as (p & g & r & -> & A & <-). rewrite A, firstn_app_len. reflexivity.
    + rewrite H. apply (IH (Some c)).
Qed.

(** ** The other patterns of the preprocessor *)
Lemma one_of_before : forall c, one_of "-+0123456789." c = blocks_before c.
Proof. intros [[] [] [] [] [] [] [] []]; reflexivity. Qed.
Lemma one_of_after : forall c, one_of "0123456789." c = is_digit c || Ascii.eqb c dot.
Proof. intros [[] [] [] [] [] [] [] []]; reflexivity. Qed.
Lemma starts_length : forall tm s, starts tm s = true -> s = tm ++ skipn (length tm) s.
Proof.
  induction tm as [|a tm IH]; intros s H; auto. destruct s as [|b s]; [discriminate|]. cbn [starts] in H.
  apply andb_true_iff in H. destruct H as [E H]. apply Ascii.eqb_eq in E. subst b. cbn. f_equal. auto.
Qed.
Lemma term_match : forall tm pv s,
  match_at (term_re tm) pv s = if negb (sat blocks_before pv) && starts tm s && negb (blocks_after (skipn (length tm) s))
    then Some (last_of pv tm, skipn (length tm) s, []) else None.
Proof.
  intros tm pv s. unfold match_at, term_re. cbn [seq exec].
  replace (sat (one_of "-+0123456789.") pv) with (sat blocks_before pv) by (destruct pv; cbn [sat]; auto; now rewrite one_of_before).
  destruct (sat blocks_before pv); auto. cbn [Bool.eqb negb andb]. destruct (starts tm s); auto. cbn [andb].
  unfold blocks_after. destruct (skipn (length tm) s) as [|c r]; auto. rewrite one_of_after. now destruct (is_digit c || Ascii.eqb c dot).
Qed.
Lemma term_sub : forall tm new, tm <> [] -> forall s pv n,
  sub_term tm new (sat blocks_before pv) n s = re_sub (term_re tm) (fun _ => new) pv n s.
Proof.
  intros tm new N. induction s as [|c s IH]; intros pv n.
  - destruct n; cbn [sub_term re_sub]; auto. rewrite term_match. destruct tm as [|a tm]; [easy|]. cbn [starts]. now rewrite andb_false_r.
  - destruct n as [|n]; cbn [sub_term re_sub]. 2: apply (IH (Some c)). rewrite term_match.
    destruct (negb _ && starts tm (c :: s) && negb _) eqn:E.
    + apply andb_true_iff in E. destruct E as [E _]. apply andb_true_iff in E. destruct E as [_ E]. apply starts_length in E.
      set (z := skipn (length tm) (c :: s)) in *. clearbody z. rewrite E, suffix_len. destruct tm as [|a tm]; [easy|]. cbn [length pred]. f_equal. apply (IH (Some c)).
    + f_equal. apply (IH (Some c)).
Qed.
Lemma plus_space_sub : forall s pv,
  re_sub plus_space_re (fun _ => []) pv 0 s = no_plus_space s
  /\ re_sub plus_space_re (fun _ => []) pv (length (fst (span (fun c => Ascii.eqb c "+" || is_space c) s))) s = no_plus_space s.
Proof.
  set (p := fun c => Ascii.eqb c "+" || is_space c).
  assert (M : forall pv s, match_at plus_space_re pv s = match fst (span p s) with [] => None | d => Some (last_of pv d, snd (span p s), []) end).
  { intros pv s. unfold match_at, plus_space_re. fold p. rewrite plus_some by discriminate. reflexivity. }
  assert (Z : forall s pv, re_sub plus_space_re (fun _ => []) pv 0 s = no_plus_space s ->
     True) by auto. clear Z.
  induction s as [|c s IH]; intros pv.
  - split; cbn [re_sub span fst length]; now rewrite M.
  - assert (R : re_sub plus_space_re (fun _ => []) pv 0 (c :: s) = no_plus_space (c :: s)).
    { cbn [re_sub]. rewrite M. unfold no_plus_space. cbn [filter span]. fold p. change (Ascii.eqb c "+" || is_space c) with (p c).
      destruct (p c) eqn:E; cbn [negb].
      - pose proof (span_split p s) as Sp. destruct (IH (Some c)) as [_ H]. fold p in H. destruct (span p s) as [a b]. cbn [fst snd] in *.
        assert (L : length (c :: s) - length b = S (length a)). { rewrite Sp. cbn [length]. rewrite app_length. lia. } rewrite L. exact H.
      - cbn [fst]. f_equal. apply (IH (Some c)). }
    split; [exact R|]. cbn [span]. fold (p c). unfold p at 1. change (Ascii.eqb c "+" || is_space c) with (p c). destruct (p c) eqn:E; [|exact R].
    destruct (IH (Some c)) as [_ H]. destruct (span p s) as [a b]. cbn [fst snd length re_sub] in *. rewrite H. unfold no_plus_space. cbn [filter].
    change (Ascii.eqb c "+" || is_space c) with (p c). now rewrite E.
Qed.
Lemma group_sep_sub : forall s pv, re_sub group_sep_re (fun _ => []) pv 0 s = no_group_sep (sat is_digit pv) s.
Proof.
  assert (M : forall pv s, match_at group_sep_re pv s = match s with
     | c :: r => if sat is_digit pv && Ascii.eqb c us && match r with c' :: _ => is_digit c' | [] => false end then Some (Some c, r, []) else None
     | [] => None end).
  { intros pv s. unfold match_at, group_sep_re, chr. cbn [seq exec]. destruct (sat is_digit pv); destruct s as [|c r]; auto. cbn [Bool.eqb andb].
    rewrite (Ascii.eqb_sym c us). fold us. destruct (Ascii.eqb us c); auto. destruct r as [|c' r]; auto. now destruct (is_digit c'). }
  induction s as [|c s IH]; intros pv; cbn [re_sub no_group_sep]; rewrite M; auto.
  destruct (sat is_digit pv && Ascii.eqb c us && _) eqn:E.
  - rewrite (suffix_len [c] s : length (c :: s) - length s = 1). cbn [app]. rewrite IH. cbn [sat].
    apply andb_true_iff in E. destruct E as [E _]. apply andb_true_iff in E. destruct E as [_ E]. apply Ascii.eqb_eq in E. now subst c.
  - now rewrite IH.
Qed.
Lemma before_dot_sub : forall s pv, re_sub before_dot_re (fun _ => t "0") pv 0 s = zero_before_dot (sat (fun c => Ascii.eqb c "0") pv) s.
Proof.
  assert (M : forall pv s, match_at before_dot_re pv s = match s with
     | c :: r => if Ascii.eqb c dot && negb (sat (fun c => Ascii.eqb c "0") pv) then Some (pv, s, []) else None
     | [] => None end).
  { intros pv s. unfold match_at, before_dot_re, chr. cbn [seq exec].
    replace (sat (Ascii.eqb "0") pv) with (sat (fun c => Ascii.eqb c "0") pv) by (destruct pv; cbn [sat]; auto; apply Ascii.eqb_sym).
    destruct (sat _ pv); destruct s as [|c r]; auto; cbn [Bool.eqb negb]. { now rewrite andb_false_r. }
    rewrite andb_true_r, (Ascii.eqb_sym c dot). fold dot. now destruct (Ascii.eqb dot c). }
  induction s as [|c s IH]; intros pv; cbn [re_sub zero_before_dot]; rewrite M; auto.
  destruct (Ascii.eqb c dot && _).
  - rewrite Nat.sub_diag. cbn [app t list_ascii_of_string]. do 2 f_equal. apply (IH (Some c)).
  - cbn [app]. f_equal. apply (IH (Some c)).
Qed.
Lemma dash_dot_sub : forall s pv, re_sub dash_dot_re (fun _ => t "_") pv 0 s = underscored s.
Proof.
  assert (O : forall c, one_of "-." c = Ascii.eqb c dash || Ascii.eqb c dot) by (intros; unfold one_of; cbn [t list_ascii_of_string existsb]; now rewrite orb_false_r).
  induction s as [|c s IH]; intros pv; auto. cbn [re_sub underscored map]. unfold match_at, dash_dot_re. cbn [exec]. rewrite O.
  destruct (Ascii.eqb c dash || Ascii.eqb c dot).
  - rewrite (suffix_len [c] s : length (c :: s) - length s = 1). cbn [app t list_ascii_of_string length]. fold us. f_equal. apply IH.
  - f_equal. apply IH.
Qed.

(** ** Formulas *)
Definition follows (s : text) : bool :=
  match s with [] => true | c :: r => is_alpha c || (Ascii.eqb c newline && match r with [] => true | _ => false end) end.
Definition one_here (pv : option ascii) (s : text) : bool :=
  match s with c :: r => sat is_alpha pv && Ascii.eqb c "1" && follows r | [] => false end.
Fixpoint cleaned (pv : option ascii) (s : text) : text :=
  match s with
  | [] => []
  | c :: r => if one_here pv s then cleaned (Some c) r else c :: cleaned (Some c) r
  end.
Lemma ahead_follows : forall pv s g (k : cont),
  exec (Ahead true (Alt (Cls is_letter) End)) pv s g k = if follows s then k pv s g else None.
Proof.
  intros pv s g k. cbn [exec]. destruct s as [|c r]; auto. cbn [follows]. unfold is_letter. destruct (is_alpha c); auto. cbn [orb].
  destruct r; destruct (Ascii.eqb c newline); auto.
Qed.
Lemma clean_match : forall pv s, match_at (seq [Behind true is_letter; chr "1"; Ahead true (Alt (Cls is_letter) End)]) pv s
  = if one_here pv s then match s with c :: r => Some (Some c, r, []) | [] => None end else None.
Proof.
  intros pv s. unfold match_at. 
  match goal with |- ?L = _ => change L with (if Bool.eqb true (sat is_letter pv) then match s with c :: r => if Ascii.eqb "1" c then exec (Ahead true (Alt (Cls is_letter) End)) (Some c) r [] final else None | [] => None end else None) end.
  change (sat is_letter pv) with (sat is_alpha pv). unfold one_here. destruct s as [|c r]. { now destruct (sat is_alpha pv). }
  rewrite (Ascii.eqb_sym "1" c), ahead_follows. destruct (sat is_alpha pv); auto. cbn [Bool.eqb andb]. destruct (Ascii.eqb c "1"); auto.
Qed.
Lemma clean_go : forall s pv,
  re_sub (seq [Behind true is_letter; chr "1"; Ahead true (Alt (Cls is_letter) End)]) (fun _ => []) pv 0 s = cleaned pv s.
Proof.
  induction s as [|c s IH]; intros pv; cbn [re_sub cleaned]; rewrite clean_match. { now destruct (one_here pv []). }
  destruct (one_here pv (c :: s)).
  - rewrite (suffix_len [c] s : length (c :: s) - length s = 1). cbn [app length]. apply IH.
  - now rewrite IH.
Qed.
Lemma clean_eq : forall s, formula_clean s = cleaned None s.
Proof. intros. apply clean_go. Qed.

Lemma nth_mid : forall (a : text) c b, nth_error (a ++ c :: b) (length a) = Some c.
Proof. intros. rewrite nth_error_app2 by lia. now rewrite Nat.sub_diag. Qed.
Lemma letter_head : forall a b, letter_at (a ++ b) (length a) <-> sat is_alpha (head b) = true.
Proof.
  intros a b. unfold letter_at. rewrite nth_error_app2 by lia. rewrite Nat.sub_diag. destruct b as [|c b]; cbn; split.
  - intros (c & H & _). discriminate.
  - discriminate.
  - intros (x & H & A). now inversion H; subst.
  - eauto.
Qed.
Lemma ends_head : forall a b, ends_at (a ++ b) (length a) <-> (b = [] \/ b = [newline]).
Proof.
  intros a b. unfold ends_at. rewrite nth_error_app2, app_length, Nat.sub_diag by lia. destruct b as [|c b]; cbn [nth_error length]; split.
  - auto.
  - intros _. left. cbn. lia.
  - intros [H|[H L]]; [lia|]. right. inversion H; subst. destruct b; auto. cbn in L. lia.
  - intros [H|H]; [discriminate|]. inversion H; subst. right. split; auto. cbn. lia.
Qed.
Lemma follows_iff : forall a b, follows b = true <-> (letter_at (a ++ b) (length a) \/ ends_at (a ++ b) (length a)).
Proof.
  intros a b. rewrite letter_head, ends_head. unfold follows. destruct b as [|c b]; cbn [head sat]. { tauto. }
  rewrite orb_true_iff, andb_true_iff. split; intros [H|H]; auto.
  - right. right. destruct H as [H1 H2]. apply Ascii.eqb_eq in H1. subst. now destruct b.
  - right. destruct H as [H|H]; [discriminate|]. inversion H; subst. split; reflexivity.
Qed.
Lemma before_iff : forall a b, (exists j, length a = S j /\ letter_at (a ++ b) j) <-> sat is_alpha (last_of None a) = true.
Proof.
  intros a b. destruct a as [|x a] using rev_ind.
  - split; [intros (j & H & _); discriminate|discriminate].
  - clear IHa. unfold last_of. rewrite rev_app_distr. cbn [rev app sat]. rewrite app_length. cbn [length]. rewrite <- app_assoc. cbn [app].
    split.
    + intros (j & E & H). replace j with (length a) in H by lia. now apply letter_head in H.
    + intros H. exists (length a). split; [lia|]. now apply letter_head.
Qed.
Lemma one_iff : forall a b, one_here (last_of None a) b = true <-> redundant_one (a ++ b) (length a).
Proof.
  intros a b. unfold redundant_one. rewrite before_iff. destruct b as [|c b].
  - cbn. rewrite nth_error_app2 by lia. rewrite Nat.sub_diag. split; [discriminate|intros [H _]; discriminate].
  - rewrite nth_mid. cbn [one_here]. rewrite !andb_true_iff, Ascii.eqb_eq.
    assert (F := follows_iff (a ++ [c]) b). rewrite app_length, <- app_assoc in F. cbn [length app] in F. rewrite Nat.add_1_r in F. rewrite F.
    split; [intros [[H1 H2] H3]; subst; auto|]. intros (H1 & H2 & H3). inversion H1; subst; auto.
Qed.
Lemma cleaned_without : forall b a, without_ones (a ++ b) (length a) b (cleaned (last_of None a) b).
Proof.
  induction b as [|c b IH]; intros a; [constructor|]. cbn [cleaned]. specialize (IH (a ++ [c])). rewrite app_length, <- app_assoc in IH.
  cbn [length app] in IH. rewrite Nat.add_1_r in IH. replace (last_of None (a ++ [c])) with (Some c) in IH by (unfold last_of; now rewrite rev_app_distr).
  destruct (one_here (last_of None a) (c :: b)) eqn:E.
  - apply one_iff in E. now apply wo_drop.
  - apply wo_keep; auto. rewrite <- one_iff. congruence.
Qed.
Lemma without_det : forall s i a r, without_ones s i a r -> forall r', without_ones s i a r' -> r = r'.
Proof.
  induction 1 as [i|i c a r N H IH|i c a r D H IH]; intros r' H'; inversion H'; subst; auto; try contradiction. f_equal. auto.
Qed.
Lemma cleaned_head : forall b c r, is_alpha c = false -> cleaned (Some c) (b :: r) = b :: cleaned (Some b) r.
Proof. intros b c r H. cbn [cleaned one_here sat]. now rewrite H. Qed.
Lemma follows_cleaned : forall r c, is_alpha c = false -> follows (cleaned (Some c) r) = follows r.
Proof.
  intros [|b r] c H; auto. rewrite cleaned_head by auto. cbn [follows]. f_equal. destruct (Ascii.eqb b newline) eqn:E; auto. cbn [andb].
  apply Ascii.eqb_eq in E. subst b. destruct r; auto.
Qed.
Lemma cleaned_pv : forall pv pv' s, follows s = true -> cleaned pv s = cleaned pv' s.
Proof.
  intros pv pv' [|c s] F; auto. cbn [cleaned one_here]. assert (N : Ascii.eqb c "1" = false).
  { destruct (Ascii.eqb c "1") eqn:E; auto. apply Ascii.eqb_eq in E. subst c. discriminate F. }
  rewrite N, !andb_false_r. reflexivity.
Qed.
Lemma cleaned_idem : forall s pv, cleaned pv (cleaned pv s) = cleaned pv s.
Proof.
  induction s as [|c s IH]; intros pv; auto. cbn [cleaned]. destruct (one_here pv (c :: s)) eqn:E.
  - cbn [one_here] in E. apply andb_true_iff in E. destruct E as [E F]. apply andb_true_iff in E. destruct E as [_ E]. apply Ascii.eqb_eq in E. subst c.
    rewrite (cleaned_pv pv (Some "1"%char)) by (now rewrite follows_cleaned). apply IH.
  - cbn [cleaned one_here] in *. destruct (sat is_alpha pv && Ascii.eqb c "1") eqn:E1; cbn [andb] in *.
    + apply andb_true_iff in E1. destruct E1 as [_ E1]. apply Ascii.eqb_eq in E1. subst c. rewrite follows_cleaned, E by auto. now rewrite IH.
    + now rewrite IH.
Qed.

Definition numeric (c : ascii) : bool := is_digit c || Ascii.eqb c dot.
Lemma numeric_follows : forall c s, numeric c = true -> follows (c :: s) = false.
Proof.
  intros c s H. cbn [follows]. replace (is_alpha c) with false; [replace (Ascii.eqb c newline) with false; auto|];
  destruct c as [[] [] [] [] [] [] [] []]; try discriminate H; reflexivity.
Qed.
Definition number_at (pv : option ascii) (s : text) : option (text * text) :=
  if sat is_alpha pv && negb (match fst (span numeric s) with [] => true | _ => false end) && follows (snd (span numeric s)) then Some (span numeric s) else None.
Definition latex_re : re := seq [Behind true is_letter; Grp 1 (plus numeric); Ahead true (Alt (Cls is_letter) End)].
Lemma latex_match : forall pv s, match_at latex_re pv s =
  match number_at pv s with Some (n, r) => Some (last_of pv n, r, [(1, n)]) | None => None end.
Proof.
  intros pv s. unfold match_at.
  set (K := fun (pv' : option ascii) (s' : text) (g' : groups) => exec (Ahead true (Alt (Cls is_letter) End)) pv' s' ((1, firstn (length s - length s') s) :: g') final).
  match goal with |- ?L = _ => change L with (if Bool.eqb true (sat is_alpha pv) then exec (plus numeric) pv s [] K else None) end.
  unfold number_at. destruct (sat is_alpha pv); auto. cbn [Bool.eqb andb]. rewrite plus_longest.
  - pose proof (span_split numeric s) as Sp. destruct (span numeric s) as [n r]. cbn [fst snd] in *. destruct n as [|c n]; auto. cbn [negb andb].
    unfold K. rewrite ahead_follows. rewrite Sp, firstn_app_len. now destruct (follows r).
  - intros pv1 c r _ P. unfold K. rewrite ahead_follows. now rewrite numeric_follows.
Qed.
Lemma number_iff : forall a b n,
  numbered (a ++ b) (length a) n <-> exists r, number_at (last_of None a) b = Some (n, r).
Proof.
  intros a b n. unfold numbered, number_at. rewrite before_iff.
  assert (Sk : skipn (length a) (a ++ b) = b) by (now rewrite skipn_app, skipn_all, Nat.sub_diag). rewrite Sk. split.
  - intros (N & F & E & B & Fo). rewrite B. cbn [andb].
    assert (F' : Forall (fun c => numeric c = true) n).
    { eapply Forall_impl; [|exact F]. cbn. intros c [D| ->]; unfold numeric; [now rewrite D|reflexivity]. }
    assert (Eb : b = n ++ skipn (length n) b) by (rewrite <- E at 1; symmetry; apply firstn_skipn).
    set (r := skipn (length n) b) in *. clearbody r. subst b. clear Sk E.
    assert (FR : follows r = true). { apply (follows_iff (a ++ n) r). rewrite app_length, <- app_assoc. auto. }
    assert (St : span numeric r = ([], r)). { apply span_nil. destruct r as [|c r]; auto. cbn [head sat]. destruct (numeric c) eqn:C; auto. now rewrite numeric_follows in FR. }
    rewrite span_app, St by auto. cbn [fst snd]. rewrite app_nil_r, FR. destruct n; [easy|]. cbn. eauto.
  - intros [r H]. destruct (sat is_alpha (last_of None a)); [|discriminate]. cbn [andb] in H.
    pose proof (span_split numeric b) as Sp. pose proof (span_all numeric b) as Sa. destruct (span numeric b) as [n' r']. cbn [fst snd] in *.
    destruct n' as [|c n']; [discriminate|]. cbn [negb andb] in H. destruct (follows r') eqn:Fo; [|discriminate]. inversion H; subst n r. rewrite Sp. repeat split.
    + discriminate.
    + eapply Forall_impl; [|exact Sa]. unfold numeric. cbn. intros x Hx. apply orb_true_iff in Hx. destruct Hx as [Hx|Hx]; auto. apply Ascii.eqb_eq in Hx. auto.
    + rewrite firstn_app, Nat.sub_diag, firstn_all. cbn [firstn]. now rewrite app_nil_r.
    + apply (follows_iff (a ++ c :: n') r') in Fo. rewrite app_length, <- app_assoc in Fo. exact Fo.
Qed.
Lemma re_sub_skip : forall r f w pv s, re_sub r f pv (length w) (w ++ s) = re_sub r f (last_of pv w) 0 s.
Proof.
  intros r f. induction w as [|c w IH]; intros pv s; auto. cbn [length app re_sub]. rewrite IH. now rewrite last_cons.
Qed.
Definition wrap (g : groups) : text := t "$_{" ++ text_of (group g 1) ++ t "}$".
Lemma latex_marked : forall k b a, length b <= k -> marked_up (a ++ b) (length a) b (re_sub latex_re wrap (last_of None a) 0 b).
Proof.
  induction k as [|k IH]; intros b a L.
  { destruct b; [|cbn in L; lia]. cbn [re_sub]. rewrite latex_match. unfold number_at. cbn [span fst negb]. rewrite andb_false_r. constructor. }
  destruct b as [|c b]. { cbn [re_sub]. rewrite latex_match. unfold number_at. cbn [span fst negb]. rewrite andb_false_r. constructor. }
  cbn [re_sub]. rewrite latex_match. destruct (number_at (last_of None a) (c :: b)) as [[n r]|] eqn:E.
  - assert (N : numbered (a ++ c :: b) (length a) n) by (apply number_iff; eauto).
    unfold number_at in E. destruct (_ && _ && _) eqn:Q; [|discriminate]. pose proof (span_split numeric (c :: b)) as Sp. assert (E' : span numeric (c :: b) = (n, r)) by congruence. rewrite E' in Sp. cbn [fst snd] in Sp.
    rewrite Sp, suffix_len. destruct n as [|x n]. { destruct N as [N _]. easy. }
    cbn [length]. inversion Sp; subst x b. rewrite re_sub_skip. unfold wrap at 1. cbn [group Nat.eqb text_of]. rewrite <- !app_assoc.
    change (marked_up (a ++ (c :: n) ++ r) (length a) ((c :: n) ++ r) (t "$_{" ++ (c :: n) ++ t "}$" ++ re_sub latex_re wrap (last_of (Some c) n) 0 r)).
    apply mu_number; auto. rewrite <- (last_cons (last_of None a)), <- last_app, app_assoc, <- app_length. apply IH. cbn [length] in L. rewrite ?app_length in L. lia.
  - apply mu_char.
    + intros n N. apply number_iff in N. destruct N as [r N]. congruence.
    + specialize (IH b (a ++ [c])). rewrite app_length, <- app_assoc in IH. cbn [length app] in IH. rewrite Nat.add_1_r in IH.
      replace (last_of None (a ++ [c])) with (Some c) in IH by (unfold last_of; now rewrite rev_app_distr). apply IH. cbn in L. lia.
Qed.
Lemma numbered_det : forall s i n n', numbered s i n -> numbered s i n' -> n = n'.
Proof.
  intros s i n n' H H'. assert (A : forall x, numbered s i x -> i <= length s).
  { intros x (N & _ & E & _). destruct (Nat.le_gt_cases i (length s)); auto. rewrite skipn_all2 in E by lia. destruct x; [easy|]. now rewrite firstn_nil in E. }
  assert (I : i <= length s) by eauto. clear A.
  assert (X : exists a b, s = a ++ b /\ length a = i) by (exists (firstn i s), (skipn i s); rewrite firstn_skipn, firstn_length; split; auto; lia).
  destruct X as (a & b & -> & <-). apply number_iff in H. apply number_iff in H'. destruct H as [r H], H' as [r' H']. congruence.
Qed.
Lemma marked_det : forall s i a r, marked_up s i a r -> forall a' r', marked_up s i a' r' -> a = a' -> r = r'.
Proof.
  induction 1 as [i|i c a r N H IH|i n a r N H IH]; intros a' r' H' E;
    inversion H' as [i0 X1 X2 X3|i0 c0 a0 r0 N0 H0 X1 X2 X3|i0 n0 a0 r0 N0 H0 X1 X2 X3]; subst i0 r'; rewrite <- X2 in E; auto.
  - discriminate.
  - destruct n0; [|discriminate]. destruct N0 as [N0 _]. easy.
  - discriminate.
  - inversion E; subst. f_equal. eauto.
  - exfalso. eapply N; eauto.
  - destruct n; [|discriminate]. destruct N as [N _]. easy.
  - exfalso. eapply N0; eauto.
  - assert (n = n0) by (eapply numbered_det; eauto). subst n0. apply app_inv_head in E. subst. do 3 f_equal. eauto.
Qed.

(** ** Elements *)
From Verif Require Import BoundsModel.
Lemma la_app : forall a b, list_ascii_of_string (a ++ b) = list_ascii_of_string a ++ list_ascii_of_string b.
Proof. induction a as [|c a IH]; intros b; auto. cbn. now rewrite IH. Qed.
Lemma element_match : forall pv s, match_at element_re pv s = match s with
  | c :: r => if is_upper c then Some (last_of (Some c) (fst (span is_lower r)), snd (span is_lower r), []) else None
  | [] => None end.
Proof.
  intros pv s. unfold match_at, element_re. cbn [exec]. destruct s as [|c r]; auto. destruct (is_upper c); auto.
  apply many_some. reflexivity.
Qed.
Lemma upper_not_lower : forall c, is_upper c = true -> is_lower c = false.
Proof. intros [[] [] [] [] [] [] [] []]; intros H; try discriminate H; reflexivity. Qed.
Lemma element_all : forall s pv,
  re_findall element_re pv 0 (list_ascii_of_string s) = map list_ascii_of_string (elements_go None s)
  /\ forall cur, (list_ascii_of_string cur ++ fst (span is_lower (list_ascii_of_string s)))
       :: re_findall element_re pv (length (fst (span is_lower (list_ascii_of_string s)))) (list_ascii_of_string s)
     = map list_ascii_of_string (elements_go (Some cur) s).
Proof.
  induction s as [|c s IH]; intros pv.
  - split; auto. intros cur. cbn. now rewrite app_nil_r.
  - cbn [list_ascii_of_string elements_go re_findall]. rewrite element_match. destruct (is_upper c) eqn:U.
    + assert (R : firstn (length (c :: list_ascii_of_string s) - length (snd (span is_lower (list_ascii_of_string s)))) (c :: list_ascii_of_string s)
        :: re_findall element_re (Some c) (length (c :: list_ascii_of_string s) - length (snd (span is_lower (list_ascii_of_string s))) - 1) (list_ascii_of_string s)
        = map list_ascii_of_string (elements_go (Some (String c EmptyString)) s)).
      { destruct (IH (Some c)) as [_ H]. rewrite <- H. clear H. pose proof (span_split is_lower (list_ascii_of_string s)) as Sp.
        destruct (span is_lower (list_ascii_of_string s)) as [a b]. cbn [fst snd] in *. rewrite Sp.
        rewrite (firstn_app_len (c :: a) b : firstn (length (c :: a ++ b) - length b) (c :: a ++ b) = c :: a).
        rewrite (suffix_len (c :: a) b : length (c :: a ++ b) - length b = S (length a)). cbn [Nat.sub]. rewrite Nat.sub_0_r. reflexivity. }
      split; [exact R|]. intros cur. cbn [span]. rewrite (upper_not_lower c U). cbn [fst length]. rewrite app_nil_r. cbn [map]. f_equal.
      exact R.
    + split; [apply IH|]. intros cur. cbn [span]. destruct (is_lower c) eqn:L.
      * destruct (IH (Some c)) as [_ H]. specialize (H (cur ++ String c EmptyString)%string). rewrite <- H. rewrite la_app.
        destruct (span is_lower (list_ascii_of_string s)) as [a b]. cbn [fst snd length list_ascii_of_string app]. rewrite <- app_assoc. reflexivity.
      * cbn [fst length map]. rewrite app_nil_r. f_equal. apply IH.
Qed.

(** ** Versions *)
Definition wordot (c : ascii) : bool := is_word c || Ascii.eqb c dot.
Definition line_end (s : text) : bool := match s with [] => true | c :: _ => Ascii.eqb c newline end.
Definition quoted (s : text) : option text :=
  match s with
  | q :: r => if one_of "'""" q then
                match span wordot r with
                | ([], _) => None
                | (v, q' :: r') => if Ascii.eqb q q' && line_end r' then Some v else None
                | (_, []) => None
                end
              else None
  | [] => None
  end.
Definition versioned (s : text) : option text :=
  if starts (t "__version__") (skip_space s) then
    match skip_space (skipn 11 (skip_space s)) with
    | c :: r => if Ascii.eqb c "=" then quoted (skip_space r) else None
    | [] => None
    end
  else None.
Definition quote_re : re := seq [Grp 1 (Cls (one_of "'""")); Grp 2 (plus wordot); Back 1; Eol].
Definition found_version (o : option found) : option text := match o with Some (_, _, g) => group g 2 | None => None end.
Lemma quote_not : forall c, one_of "'""" c = true -> wordot c = false /\ is_space c = false.
Proof. intros [[] [] [] [] [] [] [] []]; intros H; try discriminate H; split; reflexivity. Qed.
Lemma quote_match : forall pv s, found_version (exec quote_re pv s [] final) = quoted s /\ (exec quote_re pv s [] final = None <-> quoted s = None).
Proof.
  intros pv s. destruct s as [|q r]. { cbn. split; [|split]; auto. }
  set (K := fun (pv' : option ascii) (s' : text) (g' : groups) =>
     exec (Seq (Back 1) Eol) pv' s' ((2, firstn (length r - length s') r) :: g') final).
  assert (HE : exec quote_re pv (q :: r) [] final = if one_of "'""" q then exec (plus wordot) (Some q) r [(1, [q])] K else None).
  { unfold quote_re. cbn [seq]. change (exec (Seq (Grp 1 (Cls (one_of "'"""))) (Seq (Grp 2 (plus wordot)) (Seq (Back 1) Eol))) pv (q :: r) [] final)
      with (if one_of "'""" q then exec (plus wordot) (Some q) r [(1, firstn (length (q :: r) - length r) (q :: r))] K else None).
    rewrite (firstn_app_len [q] r : firstn (length (q :: r) - length r) (q :: r) = [q]). reflexivity. }
  rewrite HE. clear HE. cbn [quoted]. destruct (one_of "'""" q) eqn:Q; [|cbn; tauto]. destruct (quote_not _ Q) as [W _].
  assert (KE : forall pv s, K pv s [(1, [q])] = match s with c :: r' => if Ascii.eqb q c && line_end r' then Some (Some q, r', [(2, firstn (length r - length s) r); (1, [q])]) else None | [] => None end).
  { intros pv0 s0. unfold K. cbn [exec group Nat.eqb]. destruct s0 as [|c r']; auto. cbn [starts]. rewrite andb_true_r. destruct (Ascii.eqb q c); auto.
    cbn [andb length skipn]. unfold final. cbn [last_of rev app]. destruct r' as [|x r']; auto. }
  rewrite plus_longest.
  - pose proof (span_split wordot r) as Sp. destruct (span wordot r) as [v r1]. cbn [fst snd] in *. destruct v as [|x v]; [cbn; tauto|].
    rewrite KE. rewrite Sp, firstn_app_len. destruct r1 as [|q' r']; [cbn; tauto|]. destruct (Ascii.eqb q q' && line_end r'); cbn [found_version group Nat.eqb]; split; auto; split; discriminate || auto.
  - intros pv0 c r0 _ P. rewrite KE. destruct (Ascii.eqb q c) eqn:E; auto. apply Ascii.eqb_eq in E. subst c. congruence.
Qed.
Lemma quoted_head : forall c r, is_space c = true -> quoted (c :: r) = None.
Proof. intros c r H. cbn [quoted]. destruct (one_of "'""" c) eqn:E; auto. apply quote_not in E. destruct E. congruence. Qed.
Lemma version_match : forall pv s,
  (match pv with Some c => Ascii.eqb c newline | None => true end = false -> match_at version_re pv s = None)
  /\ (match pv with Some c => Ascii.eqb c newline | None => true end = true ->
        found_version (match_at version_re pv s) = versioned s /\ (match_at version_re pv s = None <-> versioned s = None)).
Proof.
  intros pv s.
  set (K3 := fun pv s g => exec (Seq (Many is_space) quote_re) pv s g final).
  set (K2 := fun pv s g => exec (Seq (chr "=") (Seq (Many is_space) quote_re)) pv s g final).
  set (K1 := fun pv s g => exec (Seq (Lit (t "__version__")) (Seq (Many is_space) (Seq (chr "=") (Seq (Many is_space) quote_re)))) pv s g final).
  assert (HE : match_at version_re pv s = match pv with None => exec (Many is_space) pv s [] K1 | Some c => if Ascii.eqb c newline then exec (Many is_space) pv s [] K1 else None end) by reflexivity.
  rewrite HE. clear HE. split. { destruct pv as [c|]; [|discriminate]. now intros ->. }
  intros B. replace (match pv with None => exec (Many is_space) pv s [] K1 | Some c => if Ascii.eqb c newline then exec (Many is_space) pv s [] K1 else None end)
    with (exec (Many is_space) pv s [] K1) by (destruct pv as [c|]; auto; now rewrite B). clear B.
  destruct (space_many pv s [] K1) as [p1 ->].
  { intros pv0 c r H. unfold K1. change (exec (Seq (Lit (t "__version__")) (Seq (Many is_space) (Seq (chr "=") (Seq (Many is_space) quote_re)))) pv0 (c :: r) [] final)
      with (if Ascii.eqb us c && starts (t "_version__") r then exec (Seq (Many is_space) (Seq (chr "=") (Seq (Many is_space) quote_re))) (last_of pv0 (t "__version__")) (skipn 11 (c :: r)) [] final else None).
    destruct (space_not _ H) as (_ & _ & _ & _ & _ & U & _). now rewrite (eqb_ne us c). }
  unfold versioned.
  change (K1 p1 (skip_space s) []) with (if starts (t "__version__") (skip_space s) then exec (Many is_space) (last_of p1 (t "__version__")) (skipn 11 (skip_space s)) [] K2 else None).
  destruct (starts (t "__version__") (skip_space s)); [|cbn; tauto].
  destruct (space_many (last_of p1 (t "__version__")) (skipn 11 (skip_space s)) [] K2) as [p2 ->].
  { intros pv0 c r H. change (K2 pv0 (c :: r) []) with (if Ascii.eqb "=" c then K3 (Some c) r [] else None).
    destruct (space_not _ H) as (_ & _ & _ & _ & _ & _ & _ & _ & U). now rewrite (eqb_ne "=" c). }
  destruct (skip_space (skipn 11 (skip_space s))) as [|c r]; [cbn; tauto|].
  change (K2 p2 (c :: r) []) with (if Ascii.eqb "=" c then K3 (Some c) r [] else None). rewrite (Ascii.eqb_sym "=" c). destruct (Ascii.eqb c "="); [|cbn; tauto].
  change (K3 (Some c) r []) with (exec (Many is_space) (Some c) r [] (fun pv s g => exec quote_re pv s g final)).
  destruct (space_many (Some c) r [] (fun pv s g => exec quote_re pv s g final)) as [p3 ->].
  { intros pv0 c0 r0 H. apply quote_match. now apply quoted_head. }
  apply quote_match.
Qed.
Lemma skip_white : forall w s, white w -> sat is_space (head s) = false -> skip_space (w ++ s) = s.
Proof. intros w s W H. unfold skip_space. rewrite span_app, (span_nil is_space s) by auto. reflexivity. Qed.
Lemma starts_app : forall w s, starts w (w ++ s) = true.
Proof. induction w as [|c w IH]; intros s; auto. cbn [starts app]. now rewrite Ascii.eqb_refl, IH. Qed.
Definition version_text (s v : text) : Prop :=
  exists w1 w2 w3 q post,
    s = w1 ++ t "__version__" ++ w2 ++ t "=" ++ w3 ++ [q] ++ v ++ [q] ++ post
    /\ white w1 /\ white w2 /\ white w3 /\ (q = "'"%char \/ q = """"%char)
    /\ v <> [] /\ Forall (fun c => is_word c = true \/ c = dot) v /\ (post = [] \/ exists p, post = newline :: p).
Lemma versioned_iff : forall s v, versioned s = Some v <-> version_text s v.
Proof.
  intros s v. split.
  - unfold versioned. intros H. destruct (starts (t "__version__") (skip_space s)) eqn:E; [|discriminate]. apply starts_length in E. change (length (t "__version__")) with 11 in E.
    pose proof (span_split is_space s) as S1. fold (skip_space s) in S1. pose proof (span_all is_space s) as W1.
    set (s1 := skipn 11 (skip_space s)) in *. pose proof (span_split is_space s1) as S2. fold (skip_space s1) in S2. pose proof (span_all is_space s1) as W2.
    destruct (skip_space s1) as [|c r]; [discriminate|]. destruct (Ascii.eqb c "=") eqn:C; [|discriminate]. apply Ascii.eqb_eq in C. subst c.
    pose proof (span_split is_space r) as S3. fold (skip_space r) in S3. pose proof (span_all is_space r) as W3.
    destruct (skip_space r) as [|q r1]; [discriminate|]. cbn [quoted] in H. destruct (one_of "'""" q) eqn:Q; [|discriminate].
    pose proof (span_split wordot r1) as S4. pose proof (span_all wordot r1) as W4. destruct (span wordot r1) as [v' r2]. cbn [fst snd] in S4, W4.
    destruct v' as [|x v']; [discriminate|]. destruct r2 as [|q' post]; [discriminate|]. destruct (Ascii.eqb q q' && line_end post) eqn:L; [|discriminate].
    inversion H; subst v. apply andb_true_iff in L. destruct L as [Lq Le]. apply Ascii.eqb_eq in Lq. subst q'.
    exists (fst (span is_space s)), (fst (span is_space s1)), (fst (span is_space r)), q, post. repeat split; auto.
    + rewrite S1 at 1. f_equal. rewrite E at 1. f_equal. fold s1. rewrite S2 at 1. f_equal. cbn [app t list_ascii_of_string]. f_equal. rewrite S3 at 1. f_equal. f_equal. exact S4.
    + unfold one_of in Q. cbn [t list_ascii_of_string existsb] in Q. rewrite !orb_true_iff in Q. destruct Q as [Q|[Q|Q]]; try discriminate; apply Ascii.eqb_eq in Q; auto.
    + discriminate.
    + eapply Forall_impl; [|exact W4]. unfold wordot. cbn. intros a Ha. apply orb_true_iff in Ha. destruct Ha as [Ha|Ha]; auto. apply Ascii.eqb_eq in Ha. auto.
    + destruct post as [|y post]; auto. right. cbn in Le. apply Ascii.eqb_eq in Le. subst. eauto.
  - intros (w1 & w2 & w3 & q & post & -> & W1 & W2 & W3 & Q & N & V & P). unfold versioned. rewrite skip_white by auto. rewrite starts_app.
    change 11 with (length (t "__version__")). rewrite skipn_app, skipn_all, Nat.sub_diag. cbn [skipn app]. rewrite skip_white by auto.
    change (t "=" ++ w3 ++ q :: v ++ q :: post) with ("="%char :: w3 ++ q :: v ++ q :: post). cbv iota. rewrite Ascii.eqb_refl.
    assert (Q1 : one_of "'""" q = true) by (destruct Q as [-> | ->]; reflexivity). destruct (quote_not _ Q1) as [Q2 Q3].
    rewrite skip_white by auto. cbn [quoted]. rewrite Q1.
    rewrite span_app. 2: { eapply Forall_impl; [|exact V]. unfold wordot. cbn. intros a [Ha| ->]; [now rewrite Ha|reflexivity]. }
    rewrite (span_nil wordot (q :: post)) by auto. cbn [fst snd]. rewrite app_nil_r. destruct v as [|x v]; [easy|]. rewrite Ascii.eqb_refl.
    destruct P as [-> |[p ->]]; reflexivity.
Qed.
Definition line_start (pv : option ascii) : bool := match pv with Some c => Ascii.eqb c newline | None => true end.
Lemma line_start_iff : forall a, line_start (last_of None a) = true <-> (a = [] \/ exists p, a = p ++ [newline]).
Proof.
  intros a. destruct a as [|x a _] using rev_ind.
  - cbn. tauto.
  - unfold last_of. rewrite rev_app_distr. cbn [rev app line_start]. rewrite Ascii.eqb_eq. split.
    + intros ->. right. eauto.
    + intros [H|[p H]]. { now apply app_eq_nil in H. } apply app_inj_tail in H. tauto.
Qed.
Lemma assigns_iff : forall a b v, assigns_version (a ++ b) a v <-> (line_start (last_of None a) = true /\ version_text b v).
Proof.
  intros a b v. rewrite line_start_iff. unfold assigns_version, version_text. split.
  - intros (w1 & w2 & w3 & q & post & E & H). apply app_inv_head in E. split; [tauto|]. exists w1, w2, w3, q, post. tauto.
  - intros (L & w1 & w2 & w3 & q & post & -> & H). exists w1, w2, w3, q, post. tauto.
Qed.
Lemma assigns_prefix : forall s pre v, assigns_version s pre v -> exists b, s = pre ++ b.
Proof. intros s pre v (w1 & w2 & w3 & q & post & -> & _). eauto. Qed.
Lemma prefix_same : forall (a b a' b' : text), a ++ b = a' ++ b' -> length a = length a' -> a = a' /\ b = b'.
Proof.
  induction a as [|x a IH]; intros b [|y a'] b' E L; try discriminate; auto. inversion E; subst. inversion L. destruct (IH b a' b') as [-> ->]; auto.
Qed.
Lemma version_search : forall b a,
  match re_search version_re (last_of None a) b with
  | Some g => exists pre v, group g 2 = Some v /\ assigns_version (a ++ b) pre v
      /\ forall pre' v', assigns_version (a ++ b) pre' v' -> length a <= length pre' -> length pre < length pre' \/ (pre = pre' /\ v = v')
  | None => forall pre v, assigns_version (a ++ b) pre v -> length a <= length pre -> False
  end.
Proof.
  induction b as [|c b IH]; intros a.
  - assert (M : match_at version_re (last_of None a) [] = None).
    { destruct (version_match (last_of None a) []) as [H1 H2]. destruct (match last_of None a with Some c => _ | None => _ end); auto. apply H2; auto. }
    cbn [re_search]. rewrite M. intros pre v H L. destruct (assigns_prefix _ _ _ H) as [x E]. rewrite app_nil_r in E. subst a.
    rewrite app_length in L. destruct x; [|cbn in L; lia]. rewrite app_nil_r in H. apply assigns_iff in H. destruct H as [_ H].
    apply versioned_iff in H. discriminate.
  - cbn [re_search]. destruct (version_match (last_of None a) (c :: b)) as [H1 H2]. fold (line_start (last_of None a)) in H1, H2.
    assert (Next : match_at version_re (last_of None a) (c :: b) = None ->
       match re_search version_re (Some c) b with
       | Some g => exists pre v, group g 2 = Some v /\ assigns_version (a ++ c :: b) pre v
           /\ forall pre' v', assigns_version (a ++ c :: b) pre' v' -> length a <= length pre' -> length pre < length pre' \/ (pre = pre' /\ v = v')
       | None => forall pre v, assigns_version (a ++ c :: b) pre v -> length a <= length pre -> False
       end).
    { intros M. specialize (IH (a ++ [c])). rewrite <- app_assoc in IH. cbn [app] in IH.
      replace (last_of None (a ++ [c])) with (Some c) in IH by (unfold last_of; now rewrite rev_app_distr).
      assert (Far : forall pre v, assigns_version (a ++ c :: b) pre v -> length a <= length pre -> length (a ++ [c]) <= length pre).
      { intros pre v H L. destruct (Nat.eq_dec (length pre) (length a)) as [El|]. 2: rewrite app_length; cbn; lia. exfalso.
        destruct (assigns_prefix _ _ _ H) as [x E]. destruct (prefix_same _ _ _ _ E) as [<- <-]; auto. apply assigns_iff in H. destruct H as [Hl Hv].
        specialize (H2 Hl). destruct H2 as [_ H2]. apply H2 in M. apply versioned_iff in Hv. congruence. }
      destruct (re_search version_re (Some c) b) as [g|].
      - destruct IH as (pre & v & G & A & Min). exists pre, v. repeat split; auto. intros pre' v' A' L'. apply Min; eauto.
      - intros pre v H L. eapply IH; eauto. }
    destruct (match_at version_re (last_of None a) (c :: b)) as [[[p r] g]|] eqn:M; [|now apply Next]. clear Next.
    destruct (line_start (last_of None a)) eqn:L. 2: { specialize (H1 eq_refl). discriminate. }
    destruct (H2 eq_refl) as [F N]. cbn [found_version] in F. destruct (versioned (c :: b)) as [v|] eqn:V. 2: { destruct N as [_ N]. now specialize (N eq_refl). }
    exists a, v. cbn [group Nat.eqb]. split; [exact F|]. split. { apply assigns_iff. split; auto. now apply versioned_iff. }
    intros pre' v' A' L'. destruct (Nat.eq_dec (length pre') (length a)) as [El|]; [right|left; lia].
    destruct (assigns_prefix _ _ _ A') as [x E]. destruct (prefix_same _ _ _ _ E) as [<- <-]; auto. split; auto.
    apply assigns_iff in A'. destruct A' as [_ Hv]. apply versioned_iff in Hv. congruence.
Qed.
