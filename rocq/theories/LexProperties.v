(** C60: which unit texts are refused before pint sees them, and what is taken for a scaling factor. *)
From Coq Require Import String Ascii List Bool Arith ZArith QArith Lia.
From Verif Require Import Base PyStr ScaleModel ScaleUnmangle ScaleParse LexSpec LexProofs LexTokens LexBlocks LexFactors.
Import ListNotations.
Open Scope list_scope.
Open Scope nat_scope.

(** ** Tokens: every text has exactly one reading, and it is the one the code works on. *)
Theorem unit_text_tokens : forall s l, lexes 0 s l <-> tokenizer s = l.
Proof. exact tokenizer_lexes. Qed.
Lemma tokens_numerals : forall n s l, lexes n s l -> forall k, In k l -> tkind k = NUMBER -> numeral (tstring k).
Proof.
  intros n s l H. induction H as [n|n c s l Sp H IH|n k w s l K H IH]; intros x X Kx; [destruct X|eauto|].
  destruct X as [<-|X]; [|eauto]. cbn [tkind tstring] in *. subst k. apply K.
Qed.

Section WithRegistry.
  Context (long_name : text -> res text) (value : Type) (evaluate : text -> res value).
  Notation scale := (scaling long_name value evaluate).

  (** ** Refusal: an operator that is not one of . + - * / // ^ ** ( ) is an undefined unit, whatever else the text holds;
      no other operator is refused here. *)
  Theorem unit_text_refused : forall s l d k, lexes 0 s l -> In k l -> tkind k = OP -> ~ allowed_op k -> scale s d = (d, Err UndefinedUnitError).
  Proof.
    intros s l d k L I K A. apply tokenizer_lexes in L. unfold scaling, find_blocks. rewrite L. now rewrite (blocks_refused l _ k I K A).
  Qed.
  Theorem unit_text_read : forall s l, lexes 0 s l -> (forall k, In k l -> tkind k = OP -> allowed_op k) -> exists blocks, find_blocks (tokenizer s) = Ok blocks.
  Proof. intros s l L A. apply tokenizer_lexes in L. rewrite L. unfold find_blocks. destruct (blocks_ok l (mkB [] [] []) A) as (b & ->). eauto. Qed.

  (** ** Factors: the blocks are the factors of the expression. *)
  Theorem unit_text_factors : forall s ps fs, lexes 0 s (tokens_of ps) -> Forall good_piece ps -> product ps fs -> find_blocks (tokenizer s) = Ok (map tokens_of fs).
  Proof. intros s ps fs L G P. apply tokenizer_lexes in L. rewrite L. now apply blocks_of_product. Qed.
  Theorem unit_text_has_factors : forall ps, exists fs, product ps fs.
  Proof. exact product_exists. Qed.

  (** ** Scaling factors: each factor gets exactly the verdict of the specification. *)
  Theorem factor_judged : forall input l r, (forall k, In k l -> tkind k = NUMBER -> numeral (tstring k)) -> (judged input l r <-> factor_of input l = r).
  Proof.
    intros input l r N. split; [apply judged_sound|]. intros H. destruct (judged_total input l N) as (r' & J). now rewrite <- (judged_sound _ _ _ J), H in J || (pose proof (judged_sound _ _ _ J); congruence).
  Qed.

  (** ** From the text to the outcome. *)
  Theorem scaling_outcome : forall s ps f fs r d, lexes 0 s (tokens_of ps) -> Forall good_piece ps -> product ps (f :: fs) -> all_judged s (map tokens_of fs) r ->
    scale s d = match r with Err e => (d, Err e) | Ok todo => store_and_mangle long_name value evaluate s todo d end.
  Proof.
    intros s ps f fs r d L G P J. unfold scaling. rewrite (unit_text_factors s ps (f :: fs) L G P). cbn [map tl]. rewrite (all_judged_sound _ _ _ J). now destruct r.
  Qed.
  (** There is always such a verdict. *)
  Lemma in_product : forall ps fs, product ps fs -> forall f k, In f fs -> In k (tokens_of f) -> In k (tokens_of ps).
  Proof.
    intros ps fs P. induction P as [f F|f k r fs F H IH|f k r fs F E K H IH]; intros g x Hg Hx.
    - destruct Hg as [<-|[]]. auto.
    - rewrite tokens_app. apply in_or_app. destruct Hg as [<-|Hg]; auto. right. right. now apply (IH g).
    - rewrite tokens_app. apply in_or_app. destruct Hg as [<-|Hg]; auto. right. now apply (IH g).
  Qed.
  Theorem scaling_decided : forall s ps f fs, lexes 0 s (tokens_of ps) -> product ps (f :: fs) -> exists r, all_judged s (map tokens_of fs) r.
  Proof.
    intros s ps f fs L P. apply all_judged_total. intros g k Hg Hk K. apply in_map_iff in Hg as (h & <- & Hh). eapply tokens_numerals; [exact L| |exact K].
    eapply in_product; [exact P| |exact Hk]. now right.
  Qed.
  (** A text with no number outside exponents, except in its first factor, is handed on as it is, and nothing is defined. *)
  Theorem scaling_leaves : forall s ps f fs d, lexes 0 s (tokens_of ps) -> Forall good_piece ps -> product ps (f :: fs) ->
    (forall g, In g fs -> exists before after, tokens_of g = before ++ after /\ no_power_in before /\ no_number before /\ (after = [] \/ exists p r, after = p :: r /\ power p)) ->
    scale s d = (d, Ok s).
  Proof.
    intros s ps f fs d L G P H. assert (J : all_judged s (map tokens_of fs) (Ok [])).
    { clear L G P. induction fs as [|g fs IH]; cbn [map]; [constructor|]. change (@nil scaled) with (@nil scaled ++ []). apply aj_more; [|apply IH; intros x X; apply H; now right].
      destruct (H g (or_introl eq_refl)) as (b & a & -> & NP & NN & A). apply jd_none; auto. destruct A as [-> |(p & r & -> & Pp)]; [now left|]. right. exists p, r. split; auto.
      intros N. apply (N p); [now left|]. apply Pp. }
    now rewrite (scaling_outcome s ps f fs (Ok []) d L G P J).
  Qed.
  (** A text with a number twice in a factor, a number behind a unit, or a number raised to a power, other than in its first
      factor, is refused unless an earlier factor is. *)
  Theorem scaling_refuses : forall s ps f fs g gs d e, lexes 0 s (tokens_of ps) -> Forall good_piece ps -> product ps (f :: fs ++ g :: gs) ->
    (exists x, all_judged s (map tokens_of fs) (Ok x)) -> judged s (tokens_of g) (Err e) -> scale s d = (d, Err e).
  Proof.
    intros s ps f fs g gs d e L G P (x & X) J. rewrite (scaling_outcome s ps f (fs ++ g :: gs) (Err e) d L G P); auto. rewrite map_app. cbn [map].
    clear L G P. remember (map tokens_of fs) as l eqn:El. remember (Ok x) as r eqn:Er. revert fs El x Er. induction X as [|h hs y z Jh Hh IH|h hs e' Jh|h hs y e' Jh Hh IH]; intros fs El x Er; try discriminate.
    - cbn [app]. now apply aj_first.
    - cbn [app]. eapply aj_later; [exact Jh|]. destruct fs as [|a fs]; [discriminate|]. injection El as _ El. now apply (IH fs El z).
  Qed.
End WithRegistry.
Print Assumptions unit_text_tokens.
Print Assumptions unit_text_refused.
Print Assumptions unit_text_read.
Print Assumptions unit_text_factors.
Print Assumptions unit_text_has_factors.
Print Assumptions factor_judged.
Print Assumptions scaling_outcome.
Print Assumptions scaling_decided.
Print Assumptions scaling_leaves.
Print Assumptions scaling_refuses.

(** ** Cases that meet the hypotheses *)
Definition tok k s a := mkT k (t s) a (a + String.length s).
Definition ex_text : text := t "g / 2.5 mL * m**(2 / 3)".
Definition ex_pieces : list piece :=
  [Plain (tok NAME "g" 0); Sep (tok OP "/" 2); Plain (tok NUMBER "2.5" 4); Plain (tok NAME "mL" 8); Sep (tok OP "*" 11); Plain (tok NAME "m" 13);
   Power (tok OP "**" 14) [tok OP "(" 16; tok NUMBER "2" 17; tok OP "/" 19; tok NUMBER "3" 21; tok OP ")" 22]].
Example ex_lexes : lexes 0 ex_text (tokens_of ex_pieces).
Proof. apply unit_text_tokens. reflexivity. Qed.
Ltac word := left; split; [discriminate|intros [E|[E|[]]]; discriminate].
Ltac op := split; [reflexivity|cbn; tauto].
Example ex_good : Forall good_piece ex_pieces.
Proof.
  unfold ex_pieces. repeat (apply Forall_cons; [first [op|word|split; [op|]]|]); [|constructor].
  apply (ex_group _ [_; _; _]); try op. apply bal_token; [word|intros [E _]; discriminate E|intros [E _]; discriminate E|].
  apply bal_token; [right; op|intros [_ [E|[]]]; discriminate E|intros [_ [E|[]]]; discriminate E|]. apply bal_token; [word|intros [E _]; discriminate E|intros [E _]; discriminate E|constructor].
Qed.
Definition ex_factors : list (list piece) :=
  [[Plain (tok NAME "g" 0)]; [Plain (tok NUMBER "2.5" 4); Plain (tok NAME "mL" 8)];
   [Plain (tok NAME "m" 13); Power (tok OP "**" 14) [tok OP "(" 16; tok NUMBER "2" 17; tok OP "/" 19; tok NUMBER "3" 21; tok OP ")" 22]]].
Lemma short_factor : forall f, (forall k, ~ In (Sep k) f) -> (forall x k y, f = x ++ Plain k :: y -> tkind k = NAME -> last_is_name (tokens_of x) = false) -> factor f.
Proof. intros f A B. split; auto. intros x k y E K H. apply last_name_iff in H. rewrite (B x k y E K) in H. discriminate. Qed.
Example ex_product : product ex_pieces ex_factors.
Proof.
  apply (pr_sep [_] _ [_; _; _; _; _]); [apply short_factor|apply (pr_sep [_; _] _ [_; _]); [apply short_factor|apply pr_last; apply short_factor]].
  all: try (intros k H; cbn in H; intuition discriminate).
  all: intros x k y E K; destruct x as [|i [|j x]]; cbn [app] in E; try reflexivity; try discriminate E; inversion E as [E1]; try (subst i; reflexivity).
  all: try match goal with H : [] = ?l ++ _ :: _ |- _ => destruct l; discriminate H end.
Qed.
Example ex_judged : all_judged ex_text (map tokens_of (tl ex_factors)) (Ok [mkScaled (t "2.5 mL") (t "2.5") (Some (t "mL"))]).
Proof.
  destruct (scaling_decided ex_text ex_pieces _ _ ex_lexes ex_product) as (r & J). cbn [tl ex_factors]. pose proof (all_judged_sound _ _ _ J) as E. vm_compute in E. subst r. exact J.
Qed.
Example ex_refused : lexes 0 (t "g % m") [tok NAME "g" 0; tok OP "%" 2; tok NAME "m" 4] /\ ~ allowed_op (tok OP "%" 2).
Proof. split; [apply unit_text_tokens; reflexivity|]. intros [_ H]. cbn in H. intuition discriminate. Qed.
(** A number behind a unit, a number raised to a power, two numbers. *)
Example ex_follows : judged (t "m 2") [tok NAME "m" 0; tok NUMBER "2" 2] (Err ValueError).
Proof. apply (jd_follows _ [] _ [] _ []); try reflexivity. intros k [<-|[<-|[]]] [E|[E|[]]]; discriminate. Qed.
Example ex_power : judged (t "2**3") [tok NUMBER "2" 0; tok OP "**" 1; tok NUMBER "3" 3] (Err ValueError).
Proof. apply (jd_power _ [] (tok NUMBER "2" 0) [] (tok OP "**" 1) [tok NUMBER "3" 3]); try reflexivity; [intros k [<-|[]] [E|[E|[]]]; discriminate|]. intros N. apply (N _ (or_introl eq_refl)). now left. Qed.
Example ex_two : judged (t "2 3 m") [tok NUMBER "2" 0; tok NUMBER "3" 2; tok NAME "m" 4] (Err ValueError).
Proof. apply (jd_two _ [] (tok NUMBER "2" 0) [] (tok NUMBER "3" 2) [tok NAME "m" 4] []); try reflexivity; [|now left]. intros k [<-|[<-|[<-|[]]]] [E|[E|[]]]; discriminate. Qed.
(** A factor of one or nought is no scaling factor. *)
Example ex_trivial : judged (t "1.0e0 m") [tok NUMBER "1.0e0" 0; tok NAME "m" 6] (Ok []).
Proof. apply factor_judged; [|reflexivity]. intros k [<-|[<-|[]]] K; [|discriminate K]. apply (tokens_numerals 0 (t "1.0e0 m") _ (proj2 (unit_text_tokens _ _) eq_refl)); [now left|reflexivity]. Qed.

(** ** A finding: an exponent in parentheses behind a sign is taken for a scaling factor, and rewritten. *)
Theorem signed_exponent_kept_refuted :
  ~ (forall (s : text) d, (exists a b, s = t "g / m**" ++ a ++ t "(" ++ b ++ t ")" /\ (a = [] \/ a = t "-") /\ Forall (fun c => is_digit c = true) b /\ b <> []) ->
     scaling (fun x => Ok x) text (fun x => Ok x) s d = (d, Ok s)).
Proof.
  intros H. specialize (H (t "g / m**-(2)") [] ltac:(exists (t "-"), (t "2"); repeat split; auto; [repeat constructor|discriminate])). vm_compute in H. discriminate.
Qed.
Print Assumptions signed_exponent_kept_refuted.
(** Without the sign it is kept. *)
Example unsigned_exponent : scaling (fun x => Ok x) text (fun x => Ok x) (t "g / m**(2)") [] = ([], Ok (t "g / m**(2)")).
Proof. reflexivity. Qed.
Example signed_exponent : scaling (fun x => Ok x) text (fun x => Ok x) (t "g / m**-(2)") [] = ([(t "_2", t "2")], Ok (t "g / m**-(_2)")).
Proof. reflexivity. Qed.
