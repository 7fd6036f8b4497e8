(** Specification for C54: the regular expressions of the source, symbol by symbol, and what
    versions and formulas should become. *)
From Coq Require Import String Ascii List Bool Arith.
From Verif Require Import Base PyStr ScaleModel ReModel.
Import ListNotations.
Open Scope list_scope.

(** gemd/units/impl.py:52: \b(?:(\d+\.?\d*|\.\d+)\s*\*\s* )?10\s*(?:\*{2}|\^)\s*\+?(-?\d+\b) *)
Definition sci_re : re :=
  seq [Wb;
       opt (seq [Grp 1 (Alt (seq [plus is_digit; opt (chr "."); Many is_digit]) (Seq (chr ".") (plus is_digit)));
                 Many is_space; chr "*"; Many is_space]);
       Lit (t "10"); Many is_space; Alt (Lit (t "**")) (chr "^"); Many is_space; opt (chr "+");
       Grp 2 (seq [opt (chr "-"); plus is_digit; Wb])].
(** impl.py:49-50 *)
Definition as_scientific (g : groups) : text :=
  (match group g 1 with Some m => m | None => t "1" end) ++ t "e" ++ text_of (group g 2).

(** impl.py:208: \b_(_)?(\d+)(_\d+)?([eE]_?\d+)?(_(?=[a-zA-Z]))? *)
Definition number_re : re :=
  seq [Wb; chr "_"; opt (Grp 1 (chr "_")); Grp 2 (plus is_digit); opt (Grp 3 (Seq (chr "_") (plus is_digit)));
       opt (Grp 4 (seq [Cls (one_of "eE"); opt (chr "_"); plus is_digit]));
       opt (Grp 5 (Seq (chr "_") (Ahead true (Cls is_alpha))))].
(** impl.py:210-214 *)
Definition change (a b : ascii) (w : text) : text := map (fun c => if Ascii.eqb c a then b else c) w.
Definition unmangled (g : groups) : text :=
  (match group g 1 with None => [] | Some _ => t "-" end) ++ text_of (group g 2)
  ++ (match group g 3 with None => [] | Some w => change us dot w end)
  ++ (match group g 4 with None => [] | Some w => change us dash w end)
  ++ (match group g 5 with None => [] | Some w => change us blank w end).

(** impl.py:168: (?<![-+0-9.])...(?![0-9.]), around the escaped term *)
Definition term_re (term : text) : re :=
  seq [Behind false (one_of "-+0123456789."); Lit term; Ahead false (Cls (one_of "0123456789."))].
(** impl.py:170 and 175: [+\s]+; 170: (?<=\d)_(?=\d); 175: (?<!0)(?=\.); 185: [-.] *)
Definition plus_space_re : re := plus (fun c => Ascii.eqb c "+" || is_space c).
Definition group_sep_re : re := seq [Behind true is_digit; chr "_"; Ahead true (Cls is_digit)].
Definition before_dot_re : re := seq [Behind false (Ascii.eqb "0"); Ahead true (chr ".")].
Definition dash_dot_re : re := Cls (one_of "-.").
(** gemd/entity/value/empirical_formula.py:49: [A-Z][a-z]*, through findall *)
Definition element_re : re := Seq (Cls is_upper) (Many is_lower).

(** ** Versions *)
Definition white (w : text) : Prop := Forall (fun c => is_space c = true) w.
(** [s] has a version assignment after [pre]: at the start of a line, quoted on both sides alike,
    with nothing behind it on its line. *)
Definition assigns_version (s pre v : text) : Prop :=
  exists w1 w2 w3 q post,
    s = pre ++ w1 ++ t "__version__" ++ w2 ++ t "=" ++ w3 ++ [q] ++ v ++ [q] ++ post
    /\ white w1 /\ white w2 /\ white w3
    /\ (q = "'"%char \/ q = """"%char)
    /\ v <> [] /\ Forall (fun c => is_word c = true \/ c = dot) v
    /\ (pre = [] \/ exists p, pre = p ++ [newline]) /\ (post = [] \/ exists p, post = newline :: p).

(** ** Formulas: the number one behind a letter, and before a letter or the end *)
Definition letter_at (s : text) (i : nat) : Prop := exists c, nth_error s i = Some c /\ is_alpha c = true.
Definition ends_at (s : text) (i : nat) : Prop := length s <= i \/ (nth_error s i = Some newline /\ length s = S i).
Definition redundant_one (s : text) (i : nat) : Prop :=
  nth_error s i = Some "1"%char /\ (exists j, i = S j /\ letter_at s j) /\ (letter_at s (S i) \/ ends_at s (S i)).
(** [r] is [s], from its [i]-th character on ([s = pre ++ rest]), without those. *)
Inductive without_ones (s : text) : nat -> text -> text -> Prop :=
| wo_end : forall i, without_ones s i [] []
| wo_keep : forall i c rest r, ~ redundant_one s i -> without_ones s (S i) rest r -> without_ones s i (c :: rest) (c :: r)
| wo_drop : forall i c rest r, redundant_one s i -> without_ones s (S i) rest r -> without_ones s i (c :: rest) r.
(** The number [n], at the [i]-th character: behind a letter, and before a letter or the end. *)
Definition numbered (s : text) (i : nat) (n : text) : Prop :=
  n <> [] /\ Forall (fun c => is_digit c = true \/ c = dot) n /\ firstn (length n) (skipn i s) = n
  /\ (exists j, i = S j /\ letter_at s j) /\ (letter_at s (i + length n) \/ ends_at s (i + length n)).
(** [r] is [s], from its [i]-th character on, with those marked up. *)
Inductive marked_up (s : text) : nat -> text -> text -> Prop :=
| mu_end : forall i, marked_up s i [] []
| mu_char : forall i c rest r, (forall n, ~ numbered s i n) -> marked_up s (S i) rest r -> marked_up s i (c :: rest) (c :: r)
| mu_number : forall i n rest r, numbered s i n -> marked_up s (i + length n) rest r ->
    marked_up s i (n ++ rest) (t "$_{" ++ n ++ t "}$" ++ r).
