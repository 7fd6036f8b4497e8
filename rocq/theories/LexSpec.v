(** How a unit text is read: its words and numbers, the factors it is a product of, and what makes a factor a scaling
    factor. *)
From Coq Require Import String Ascii List Bool Arith ZArith QArith.
From Verif Require Import Base PyStr ScaleModel.
Import ListNotations.
Open Scope list_scope.
Open Scope nat_scope.

(** ** Words, numbers and operators (Python's lexical analysis) *)

(** Characters of a class, in groups separated by single underscores. *)
Inductive run (p : ascii -> bool) : text -> Prop :=
| run_one : forall c, p c = true -> run p [c]
| run_more : forall c w, p c = true -> run p w -> run p (c :: w)
| run_group : forall c w, p c = true -> run p w -> run p (c :: us :: w).
Definition is_zero (c : ascii) : bool := Ascii.eqb c "0"%char.
Definition absent_or (P : text -> Prop) (w : text) : Prop := w = [] \/ P w.
(** e5, E-10, e+1_000 *)
Definition exponent_part (w : text) : Prop :=
  exists e sg d, w = e :: sg ++ d /\ (e = "e"%char \/ e = "E"%char) /\ (sg = [] \/ sg = t "+" \/ sg = t "-") /\ run is_digit d.
Inductive numeral : text -> Prop :=
| nm_zero : forall w, run is_zero w -> numeral w                                                         (* 0, 00 *)
| nm_whole : forall w, run is_digit w -> hd_error w <> Some "0"%char -> numeral w                        (* 12, 1_000 *)
| nm_power : forall w e, run is_digit w -> exponent_part e -> numeral (w ++ e)                           (* 1e5 *)
| nm_point : forall w f e, run is_digit w -> absent_or (run is_digit) f -> absent_or exponent_part e ->
    numeral (w ++ dot :: f ++ e)                                                                         (* 1., 1.5, 1.5e3 *)
| nm_fraction : forall f e, run is_digit f -> absent_or exponent_part e -> numeral (dot :: f ++ e).      (* .5, .5e3 *)

Definition name (w : text) : Prop :=
  exists c r, w = c :: r /\ (is_alpha c = true \/ c = us) /\ Forall (fun x => is_word x = true) r.
Definition operator (w : text) : Prop :=
  In w (map t ["**"; "//"; "..."; "+"; "-"; "*"; "/"; "%"; "&"; "|"; "^"; "~"; "<"; ">"; "="; "("; ")"; "["; "]"; "{"; "}"; ","; ":"; ";"; "."; "@"]%string).

(** [w] starts [s], is a [P], and no longer start of [s] is. *)
Definition longest (P : text -> Prop) (w s : text) : Prop :=
  P w /\ (exists r, s = w ++ r) /\ forall w' r, s = w' ++ r -> P w' -> length w' <= length w.
Definition starts_none (P : text -> Prop) (s : text) : Prop := forall w r, s = w ++ r -> ~ P w.

(** The tokens of a text that starts at column [n]. *)
Inductive lexes : nat -> text -> list token -> Prop :=
| lx_end : forall n, lexes n [] []
| lx_space : forall n c s l, is_space c = true -> lexes (S n) s l -> lexes n (c :: s) l
| lx_token : forall n k w s l,
    match k with
    | NAME => longest name w (w ++ s)
    | NUMBER => longest numeral w (w ++ s)
    | OP => longest operator w (w ++ s) /\ starts_none numeral (w ++ s)
    | ERRORTOKEN => exists c, w = [c] /\ is_space c = false /\ starts_none name (w ++ s) /\ starts_none numeral (w ++ s) /\ starts_none operator (w ++ s)
    end ->
    lexes (n + length w) s l -> lexes n (w ++ s) (mkT k w n (n + length w) :: l).

(** ** Factors *)

Definition an_op (l : list string) (k : token) : Prop := tkind k = OP /\ In (tstring k) (map t l).
Definition separator : token -> Prop := an_op ["*"; "/"; "//"; "("; ")"]%string.
Definition power : token -> Prop := an_op ["**"; "^"]%string.
Definition opening : token -> Prop := an_op ["("]%string.
Definition closing : token -> Prop := an_op [")"]%string.
(** Names, numbers, unknown characters; points and signs. *)
Definition word_like (k : token) : Prop := tkind k <> OP /\ ~ In (tstring k) (map t ["**"; "^"]%string).
Definition plain (k : token) : Prop := word_like k \/ an_op ["."; "-"; "+"]%string k.
Definition allowed_op : token -> Prop := an_op ["."; "+"; "-"; "*"; "/"; "//"; "^"; "**"; "("; ")"]%string.

(** What stands in parentheses. *)
Inductive balanced : list token -> Prop :=
| bal_none : balanced []
| bal_token : forall k l, word_like k \/ allowed_op k -> ~ opening k -> ~ closing k -> balanced l -> balanced (k :: l)
| bal_group : forall o a c b, opening o -> closing c -> balanced a -> balanced b -> balanced (o :: a ++ c :: b).
(** What follows a power: one token, or a group in parentheses. *)
Inductive exponent_of : list token -> Prop :=
| ex_one : forall k, plain k \/ an_op ["*"; "/"; "//"]%string k -> exponent_of [k]
| ex_group : forall o a c, opening o -> closing c -> balanced a -> exponent_of (o :: a ++ [c]).

(** An expression, piece by piece. *)
Inductive piece := Sep (k : token) | Plain (k : token) | Power (p : token) (e : list token).
Definition flat (i : piece) : list token := match i with Sep k | Plain k => [k] | Power p e => p :: e end.
Definition good_piece (i : piece) : Prop :=
  match i with Sep k => separator k | Plain k => plain k | Power p e => power p /\ exponent_of e end.
Definition tokens_of (l : list piece) : list token := concat (map flat l).

Definition ends_with_name (l : list token) : Prop := exists x k, l = x ++ [k] /\ tkind k = NAME.
(** One factor: no separator in it, and no name directly after a name. *)
Definition factor (f : list piece) : Prop :=
  (forall k, ~ In (Sep k) f) /\
  (forall x k y, f = x ++ Plain k :: y -> tkind k = NAME -> ~ ends_with_name (tokens_of x)).
(** The factors of an expression: it is cut at the separators, which are dropped, and between a name and a name. *)
Inductive product : list piece -> list (list piece) -> Prop :=
| pr_last : forall f, factor f -> product f [f]
| pr_sep : forall f k r fs, factor f -> product r fs -> product (f ++ Sep k :: r) (f :: fs)
| pr_names : forall f k r fs, factor f -> ends_with_name (tokens_of f) -> tkind k = NAME -> product (Plain k :: r) fs -> product (f ++ Plain k :: r) (f :: fs).

(** ** Scaling factors *)

Definition no_power_in (l : list token) : Prop := forall k, In k l -> ~ In (tstring k) (map t ["**"; "^"]%string).
Definition no_number (l : list token) : Prop := forall k, In k l -> tkind k <> NUMBER.
Definition no_name (l : list token) : Prop := forall k, In k l -> tkind k <> NAME.

(** The digits of a text as a number, and what a numeral is worth. *)
Definition digits_of (w : text) : Z :=
  fold_left (fun a c => (a * 10 + (Z.of_nat (nat_of_ascii c) - 48))%Z) (filter is_digit w) 0%Z.
Definition exponent_value (e : text) : Z :=
  match e with _ :: c :: r => if Ascii.eqb c dash then (- digits_of r)%Z else digits_of (c :: r) | _ => 0%Z end.
Definition decimal_value (w f e : text) : Q :=
  inject_Z (digits_of (w ++ f)) * (10 ^ (exponent_value e - Z.of_nat (length (filter is_digit f))))%Q.
Inductive numeral_value : text -> Q -> Prop :=
| nv_zero : forall w, run is_zero w -> numeral_value w 0
| nv_whole : forall w, run is_digit w -> hd_error w <> Some "0"%char -> numeral_value w (inject_Z (digits_of w))
| nv_power : forall w e, run is_digit w -> exponent_part e -> numeral_value (w ++ e) (decimal_value w [] e)
| nv_point : forall w f e, run is_digit w -> absent_or (run is_digit) f -> absent_or exponent_part e ->
    numeral_value (w ++ dot :: f ++ e) (decimal_value w f e)
| nv_fraction : forall f e, run is_digit f -> absent_or exponent_part e -> numeral_value (dot :: f ++ e) (decimal_value [] f e).

Definition between (input : text) (a b : token) : text := firstn (tend b - tstart a) (skipn (tstart a) input).

(** What is made of the tokens of a factor: nothing, a scaling factor (its text, its number, and the text of the unit
    behind the number), or an exception. [before] is what stands before the first power. *)
Inductive judged (input : text) : list token -> res (list scaled) -> Prop :=
| jd_none : forall before after, no_power_in before -> (after = [] \/ exists p r, after = p :: r /\ ~ no_power_in [p]) ->
    no_number before -> judged input (before ++ after) (Ok [])
| jd_two : forall x a y b z after, no_power_in (x ++ a :: y ++ b :: z) -> (after = [] \/ exists p r, after = p :: r /\ ~ no_power_in [p]) ->
    tkind a = NUMBER -> tkind b = NUMBER -> judged input ((x ++ a :: y ++ b :: z) ++ after) (Err ValueError)
| jd_power : forall x a y p r, no_power_in (x ++ a :: y) -> ~ no_power_in [p] -> tkind a = NUMBER ->
    judged input ((x ++ a :: y) ++ p :: r) (Err ValueError)
| jd_follows : forall x u y a z, no_power_in (x ++ u :: y ++ a :: z) -> tkind u = NAME -> tkind a = NUMBER ->
    judged input (x ++ u :: y ++ a :: z) (Err ValueError)
| jd_trivial : forall x a y q, no_power_in (x ++ a :: y) -> tkind a = NUMBER -> no_number x -> no_number y -> no_name x ->
    numeral_value (tstring a) q -> (q == 0 \/ q == 1)%Q -> judged input (x ++ a :: y) (Ok [])
| jd_alone : forall x a y q first last, no_power_in (x ++ a :: y) -> tkind a = NUMBER -> no_number x -> no_number y -> no_name x -> no_name y ->
    numeral_value (tstring a) q -> ~ (q == 0)%Q -> ~ (q == 1)%Q ->
    hd_error (x ++ [a]) = Some first -> hd_error (rev (a :: y)) = Some last ->
    judged input (x ++ a :: y) (Ok [mkScaled (between input first last) (tstring a) None])
| jd_scaled : forall x a y u z q first next last, no_power_in (x ++ a :: y ++ u :: z) -> tkind a = NUMBER -> no_number x -> no_number (y ++ u :: z) ->
    no_name x -> no_name y -> tkind u = NAME ->
    numeral_value (tstring a) q -> ~ (q == 0)%Q -> ~ (q == 1)%Q ->
    hd_error (x ++ [a]) = Some first -> hd_error (y ++ [u]) = Some next -> hd_error (rev (u :: z)) = Some last ->
    judged input (x ++ a :: y ++ u :: z) (Ok [mkScaled (between input first last) (tstring a) (Some (between input next u))]).
(** All of them, in order; the first exception is raised. *)
Inductive all_judged (input : text) : list (list token) -> res (list scaled) -> Prop :=
| aj_none : all_judged input [] (Ok [])
| aj_more : forall f fs x y, judged input f (Ok x) -> all_judged input fs (Ok y) -> all_judged input (f :: fs) (Ok (x ++ y))
| aj_first : forall f fs e, judged input f (Err e) -> all_judged input (f :: fs) (Err e)
| aj_later : forall f fs x e, judged input f (Ok x) -> all_judged input fs (Err e) -> all_judged input (f :: fs) (Err e).
