(** Model of the scaling-factor handling of gemd/units/impl.py: the two preprocessors, lines 47-203, and
    [_unmangle_scaling], lines 206-216.

    Simplifications. Characters are 8-bit; [\w], [\d] and [\s] are their ASCII meanings. The tokenizer (Python's
    tokenize, used through pint) is modelled for names, decimal numbers and operators; comments, strings, brackets
    other than parentheses, hexadecimal and imaginary literals are left out, and the operators of more than one
    character but [**], [//] and [...] are read as several, which makes no difference, as they are not allowed in units.
    A text is one line. A float is its exact decimal value. What pint does with the text is a parameter. *)
From Coq Require Import String Ascii List Bool Arith ZArith.
From Verif Require Import Base PyStr.
Import ListNotations.
Open Scope list_scope.

Definition text := list ascii.
Definition t (s : string) : text := list_ascii_of_string s.
Definition us : ascii := "_"%char.
Definition dot : ascii := "."%char.
Definition dash : ascii := "-"%char.
Definition blank : ascii := " "%char.

Fixpoint teqb (x y : text) : bool :=
  match x, y with [], [] => true | a :: x', b :: y' => Ascii.eqb a b && teqb x' y' | _, _ => false end.
Definition tmem (x : text) (l : list text) : bool := existsb (teqb x) l.

Definition is_word (c : ascii) : bool := is_alpha c || is_digit c || Ascii.eqb c us.
Definition is_e (c : ascii) : bool := Ascii.eqb c "e"%char || Ascii.eqb c "E"%char.

(** [s.startswith(p)], and the longest prefix of characters that satisfy [f]. *)
Fixpoint starts (p s : text) : bool :=
  match p, s with [], _ => true | a :: p', b :: s' => Ascii.eqb a b && starts p' s' | _, [] => false end.
Fixpoint span (f : ascii -> bool) (s : text) : text * text :=
  match s with
  | c :: r => if f c then let (a, b) := span f r in (c :: a, b) else ([], s)
  | [] => ([], [])
  end.

(** [str.replace(old, new)], [old] not empty *)
Fixpoint replace_from (old new : text) (skip : nat) (s : text) : text :=
  match s with
  | [] => []
  | c :: r =>
      match skip with
      | S k => replace_from old new k r
      | O => if starts old s then new ++ replace_from old new (pred (length old)) r
             else c :: replace_from old new 0 r
      end
  end.
Definition replace_all (old new s : text) : text := replace_from old new 0 s.

(** ** _unmangle_scaling, lines 206-216 *)

(** What the pattern [_(_)?(\d+)(_\d+)?([eE]_?\d+)?(_(?=[a-zA-Z]))?] matches at the start of [s]: the text matched
    (group 0) and its replacement. All groups after [\d+] are optional and cannot take back what they matched, so the
    match is found without backtracking. *)
Definition digits_at (s : text) : option (text * text) :=
  match span is_digit s with ([], _) => None | p => Some p end.

Definition match_frac (s : text) : text * text * text :=     (* matched, replacement, rest *)
  match s with
  | c :: r => if Ascii.eqb c us then match digits_at r with Some (d, r') => (us :: d, dot :: d, r') | None => ([], [], s) end
              else ([], [], s)
  | [] => ([], [], s)
  end.
Definition match_exp (s : text) : text * text * text :=
  match s with
  | c :: r =>
      if is_e c then
        match r with
        | c' :: r' =>
            if Ascii.eqb c' us then match digits_at r' with Some (d, r'') => (c :: us :: d, c :: dash :: d, r'') | None => ([], [], s) end
            else match digits_at r with Some (d, r'') => (c :: d, c :: d, r'') | None => ([], [], s) end
        | [] => ([], [], s)
        end
      else ([], [], s)
  | [] => ([], [], s)
  end.
Definition match_tail (s : text) : text * text * text :=
  match s with
  | c :: ((c' :: _) as r) => if Ascii.eqb c us && is_alpha c' then ([us], [blank], r) else ([], [], s)
  | _ => ([], [], s)
  end.
Definition match_number (s : text) : option (text * text) :=
  match digits_at s with
  | None => None
  | Some (d, r1) =>
      let '(f, f', r2) := match_frac r1 in
      let '(e, e', r3) := match_exp r2 in
      let '(u, u', _) := match_tail r3 in
      Some (d ++ f ++ e ++ u, d ++ f' ++ e' ++ u')
  end.
Definition match_here (s : text) : option (text * text) :=
  match s with
  | c :: r =>
      if Ascii.eqb c us then
        match r with
        | c' :: r' => if Ascii.eqb c' us then
                        match match_number r' with Some (m, p) => Some (us :: us :: m, dash :: p) | None => None end
                      else match match_number r with Some (m, p) => Some (us :: m, p) | None => None end
        | [] => None
        end
      else None
  | [] => None
  end.

(** [re.search]: the first position, not inside a word ([\b]), where the pattern matches. *)
Fixpoint search (prev_word : bool) (s : text) : option (text * text) :=
  match s with
  | [] => None
  | c :: r => match (if prev_word then None else match_here s) with
              | Some m => Some m
              | None => search (is_word c) r
              end
  end.

(** The loop; [None] when [n] rounds were not enough. *)
Fixpoint unmangle_loop (n : nat) (s : text) : option text :=
  match search false s with
  | None => Some s
  | Some (old, new) => match n with O => None | S n' => unmangle_loop n' (replace_all old new s) end
  end.
Definition unders (s : text) : nat := length (filter (Ascii.eqb us) s).
Definition unmangle (s : text) : option text := unmangle_loop (unders s) s.

(** ** _scientific_notation_preprocessor, lines 47-53 *)
Definition skip_space (s : text) : text := snd (span is_space s).

(** [\s*\*\s*] *)
Definition sci_times (s : text) : option text :=
  match skip_space s with c :: r => if Ascii.eqb c "*"%char then Some (skip_space r) else None | [] => None end.
(** [10\s*(?:\*{2}|\^)\s*\+?(-?\d+\b)]: the exponent and the rest *)
Definition sci_power (s : text) : option (text * text) :=
  if starts (t "10") s then
    let s1 := skip_space (skipn 2 s) in
    let s2 := if starts (t "**") s1 then Some (skipn 2 s1) else if starts (t "^") s1 then Some (skipn 1 s1) else None in
    match s2 with
    | None => None
    | Some s3 =>
        let s4 := skip_space s3 in
        let s5 := match s4 with c :: r => if Ascii.eqb c "+"%char then r else s4 | [] => s4 end in
        let (sg, s6) := match s5 with c :: r => if Ascii.eqb c dash then ([dash], r) else ([], s5) | [] => ([], s5) end in
        match digits_at s6 with
        | None => None
        | Some (d, r) => match r with c :: _ => if is_word c then None else Some (sg ++ d, r) | [] => Some (sg ++ d, r) end
        end
    end
  else None.
(** [(\d+\.?\d*|\.\d+)] *)
Definition sci_mantissa (s : text) : option (text * text) :=
  match digits_at s with
  | Some (d, r) =>
      match r with
      | c :: r' => if Ascii.eqb c dot then let (f, r'') := span is_digit r' in Some (d ++ dot :: f, r'') else Some (d, r)
      | [] => Some (d, r)
      end
  | None => match s with
            | c :: r => if Ascii.eqb c dot then match digits_at r with Some (d, r') => Some (dot :: d, r') | None => None end else None
            | [] => None
            end
  end.
Definition sci_here (s : text) : option (text * text) :=   (* replacement, rest *)
  let with_mantissa :=
    match sci_mantissa s with
    | Some (m, r) => match sci_times r with
                     | Some r' => match sci_power r' with Some (e, r'') => Some (m ++ "e"%char :: e, r'') | None => None end
                     | None => None
                     end
    | None => None
    end in
  match with_mantissa with
  | Some x => Some x
  | None => match sci_power s with Some (e, r) => Some (t "1e" ++ e, r) | None => None end
  end.
(** [re.sub], scanning left to right; [\b] asks for a word character on exactly one side. [skip] counts characters of
    the last match still to be passed over. *)
Fixpoint sci_from (prev_word : bool) (skip : nat) (s : text) : text :=
  match s with
  | [] => []
  | c :: r =>
      match skip with
      | S k => sci_from (is_word c) k r
      | O => match (if xorb prev_word (is_word c) then sci_here s else None) with
             | Some (new, rest) => new ++ sci_from (is_word c) (length s - length rest - 1) r
             | None => c :: sci_from (is_word c) 0 r
             end
      end
  end.
Definition scientific (s : text) : text := sci_from false 0 s.

(** ** Tokens *)
Inductive kind := NAME | NUMBER | OP | ERRORTOKEN.
Record token := mkT { tkind : kind; tstring : text; tstart : nat; tend : nat }.

(** [[0-9](?:_?[0-9])*] *)
Fixpoint digits_len (s : text) : nat :=
  match s with
  | c :: r =>
      if is_digit c then
        match r with
        | c' :: ((c'' :: _) as r') => if Ascii.eqb c' us && is_digit c'' then S (S (digits_len r')) else S (digits_len r)
        | _ => S (digits_len r)
        end
      else 0
  | [] => 0
  end.
(** [0(?:_?0)*] *)
Fixpoint zeros_len (s : text) : nat :=
  match s with
  | c :: r =>
      if Ascii.eqb c "0"%char then
        match r with
        | c' :: ((c'' :: _) as r') => if Ascii.eqb c' us && Ascii.eqb c'' "0"%char then S (S (zeros_len r')) else S (zeros_len r)
        | _ => S (zeros_len r)
        end
      else 0
  | [] => 0
  end.
(** [[eE][-+]?[0-9](?:_?[0-9])*] *)
Definition exp_len (s : text) : nat :=
  match s with
  | c :: r =>
      if is_e c then
        match r with
        | c' :: r' => if Ascii.eqb c' dash || Ascii.eqb c' "+"%char
                      then match digits_len r' with 0 => 0 | n => S (S n) end
                      else match digits_len r with 0 => 0 | n => S n end
        | [] => 0
        end
      else 0
  | [] => 0
  end.
Definition number_len (s : text) : nat :=
  match digits_len s with
  | 0 => match s with
         | c :: r => if Ascii.eqb c dot then match digits_len r with 0 => 0 | n => S n + exp_len (skipn n r) end else 0
         | [] => 0
         end
  | d => match skipn d s with
         | c :: r => if Ascii.eqb c dot then let f := digits_len r in S d + f + exp_len (skipn f r)
                     else match exp_len (skipn d s) with
                          | 0 => if starts (t "0") s then zeros_len s else d
                          | e => d + e
                          end
         | [] => if starts (t "0") s then zeros_len s else d
         end
  end.
Definition is_start (c : ascii) : bool := is_alpha c || Ascii.eqb c us.
Definition operators : text := t "+-*/%&|^~<>=()[]{},:;.@".

Fixpoint lex_from (pos skip : nat) (s : text) : list token :=
  match s with
  | [] => []
  | c :: r =>
      match skip with
      | S k => lex_from (S pos) k r
      | O =>
          let tok k n := mkT k (firstn n s) pos (pos + n) :: lex_from (S pos) (n - 1) r in
          if is_space c then lex_from (S pos) 0 r
          else if is_start c then tok NAME (length (fst (span is_word s)))
          else match number_len s with
               | 0 => if starts (t "**") s || starts (t "//") s then tok OP 2
                      else if starts (t "...") s then tok OP 3
                      else if existsb (Ascii.eqb c) operators then tok OP 1 else tok ERRORTOKEN 1
               | n => tok NUMBER n
               end
      end
  end.
Definition tokenizer (s : text) : list token := lex_from 0 0 s.

(** ** _scaling_find_blocks, lines 56-114 *)
Definition allowed : list text := map t ["."; "+"; "-"; "*"; "/"; "//"; "^"; "**"; "("; ")"]%string.
Definition is_power (s : text) : bool := teqb s (t "**") || teqb s (t "^").
Definition keeps_block (s : text) : bool := is_power s || teqb s (t ".") || teqb s (t "-") || teqb s (t "+").

(** Pop up to and including the opening parenthesis, lines 79-81; the top of the stack is the head. *)
Fixpoint pop_to_open (st : list text) : list text :=
  match st with [] => [] | x :: r => if teqb x (t "(") then r else pop_to_open r end.

(** The blocks are those finished and the current one. *)
Record bstate := mkB { finished : list (list token); current : list token; stack : list text }.
Definition put (b : bstate) (k : token) : bstate := mkB (finished b) (current b ++ [k]) (stack b).
Definition cut (b : bstate) (k : list token) : bstate := mkB (finished b ++ [current b]) k (stack b).
Definition with_stack (b : bstate) (st : list text) : bstate := mkB (finished b) (current b) st.
Definition last_is_name (l : list token) : bool :=
  match rev l with k :: _ => match tkind k with NAME => true | _ => false end | [] => false end.

(** lines 64-84 *)
Definition handle_operator (k : token) (ctx : bool) (b : bstate) : res bstate :=
  if negb (tmem (tstring k) allowed) then Err UndefinedUnitError
  else
    let b1 := if ctx || keeps_block (tstring k) then put b k else cut b [] in
    Ok (with_stack b1
          (if teqb (tstring k) (t "(") then t "(" :: stack b1
           else if teqb (tstring k) (t ")") then pop_to_open (stack b1)
           else if is_power (tstring k) then tstring k :: tstring k :: stack b1
           else stack b1)).
(** lines 86-90 *)
Definition handle_name (k : token) (ctx : bool) (b : bstate) : bstate :=
  if ctx || negb (last_is_name (current b)) then put b k else cut b [k].

(** lines 105-112 *)
Definition find_step (b : bstate) (k : token) : res bstate :=
  let ctx := existsb is_power (stack b) in
  match (match tkind k with
         | OP => handle_operator k ctx b
         | NAME => Ok (handle_name k ctx b)
         | NUMBER | ERRORTOKEN => Ok (put b k)
         end) with
  | Err e => Err e
  | Ok b' => Ok (match stack b' with x :: r => if is_power x then with_stack b' r else b' | [] => b' end)
  end.
Fixpoint find_loop (ks : list token) (b : bstate) : res bstate :=
  match ks with [] => Ok b | k :: r => match find_step b k with Err e => Err e | Ok b' => find_loop r b' end end.
Definition find_blocks (ks : list token) : res (list (list token)) :=
  match find_loop ks (mkB [] [] []) with Err e => Err e | Ok b => Ok (finished b ++ [current b]) end.

(** ** _scaling_identify_factors, lines 117-156 *)
(** float(value) of a decimal literal: digits, a power of ten. *)
Definition digit_value (c : ascii) : Z := (Z.of_nat (nat_of_ascii c) - 48)%Z.
Fixpoint digits_value (acc : Z) (s : text) : Z :=
  match s with [] => acc | c :: r => digits_value (if is_digit c then acc * 10 + digit_value c else acc)%Z r end.
Definition float_of (s : text) : Z * Z :=   (* mantissa, exponent of ten *)
  let (m, r) := span (fun c => negb (is_e c)) s in
  let (i, f) := span (fun c => negb (Ascii.eqb c dot)) m in
  let frac := filter is_digit f in
  let e := match r with
           | _ :: c :: r' => if Ascii.eqb c dash then (- digits_value 0 r')%Z else digits_value 0 (c :: r')
           | _ => 0%Z
           end in
  (digits_value 0 (i ++ frac), (e - Z.of_nat (length frac))%Z).
Definition float_is_zero (s : text) : bool := Z.eqb (fst (float_of s)) 0.
Definition float_is_one (s : text) : bool :=
  let (m, e) := float_of s in
  if (0 <=? e)%Z then Z.eqb (m * 10 ^ e) 1 else Z.eqb m (10 ^ (- e)).

Fixpoint index_of {A} (f : A -> bool) (l : list A) : option nat :=
  match l with [] => None | x :: r => if f x then Some 0 else option_map S (index_of f r) end.
Fixpoint enumerate_from {A} (i : nat) (l : list A) : list (nat * A) :=
  match l with [] => [] | x :: r => (i, x) :: enumerate_from (S i) r end.
Definition slice (a b : nat) (s : text) : text := firstn (b - a) (skipn a s).

Record scaled := mkScaled { term : text; number : text; unit_of : option text }.

Definition is_name (k : token) : bool := match tkind k with NAME => true | _ => false end.
Definition is_number (k : token) : bool := match tkind k with NUMBER => true | _ => false end.

(** One round of the loop, lines 131-154. *)
Definition factor_of (input : text) (block : list token) : res (list scaled) :=
  let i_exp := match index_of (fun k => is_power (tstring k)) block with Some i => i | None => length block end in
  let i_name := index_of is_name block in
  let numbers := filter (fun p => is_number (snd p) && Nat.ltb (fst p) i_exp) (enumerate_from 0 block) in
  match numbers with
  | [] => Ok []
  | [(position, k)] =>
      let value := tstring k in
      if negb (Nat.eqb i_exp (length block)) then Err ValueError
      else if match i_name with Some i => Nat.ltb i position | None => false end then Err ValueError
      else if negb (float_is_one value) && negb (float_is_zero value) then
        match nth_error block 0, nth_error block (length block - 1) with
        | Some b0, Some bl =>
            Ok [mkScaled (slice (tstart b0) (tend bl) input) value
                  (match i_name with
                   | None => None
                   | Some i => match nth_error block (position + 1), nth_error block i with
                               | Some b1, Some bn => Some (slice (tstart b1) (tend bn) input)
                               | _, _ => None
                               end
                   end)]
        | _, _ => Ok []
        end
      else Ok []
  | _ => Err ValueError
  end.
Fixpoint identify_factors (input : text) (blocks : list (list token)) : res (list scaled) :=
  match blocks with
  | [] => Ok []
  | b :: r => match factor_of input b with
              | Err e => Err e
              | Ok x => match identify_factors input r with Err e => Err e | Ok y => Ok (x ++ y) end
              end
  end.

(** ** _scaling_store_and_mangle, lines 159-193 *)
(** [re.sub(r"[+\s]+", "", s)] *)
Definition no_plus_space (s : text) : text := filter (fun c => negb (Ascii.eqb c "+"%char || is_space c)) s.
(** [re.sub(r"(?<=\d)_(?=\d)", "", s)] *)
Fixpoint no_group_sep (prev_digit : bool) (s : text) : text :=
  match s with
  | [] => []
  | c :: r => if prev_digit && Ascii.eqb c us && match r with c' :: _ => is_digit c' | [] => false end
              then no_group_sep false r else c :: no_group_sep (is_digit c) r
  end.
(** [re.sub(r"(?<!0)(?=\.)", "0", s)] *)
Fixpoint zero_before_dot (prev_zero : bool) (s : text) : text :=
  match s with
  | [] => []
  | c :: r => (if Ascii.eqb c dot && negb prev_zero then [("0"%char)] else []) ++ c :: zero_before_dot (Ascii.eqb c "0"%char) r
  end.
Definition no_double_minus (s : text) : text := replace_all (t "--") [] s.
(** [re.sub(r"[-.]", "_", s)] *)
Definition underscored (s : text) : text := map (fun c => if Ascii.eqb c dash || Ascii.eqb c dot then us else c) s.

Definition stripped_term (x : scaled) : text := no_group_sep false (no_double_minus (no_plus_space (term x))).
Definition stripped_unit (u : text) : text := no_double_minus (zero_before_dot false (no_plus_space u)).

(** [re.sub(rf"(?<![-+0-9.]){re.escape(term)}(?![0-9.])", new, s)] *)
Definition blocks_before (c : ascii) : bool := Ascii.eqb c dash || Ascii.eqb c "+"%char || is_digit c || Ascii.eqb c dot.
Definition blocks_after (s : text) : bool := match s with c :: _ => is_digit c || Ascii.eqb c dot | [] => false end.
Fixpoint sub_term (tm new : text) (barred : bool) (skip : nat) (s : text) : text :=
  match s with
  | [] => []
  | c :: r =>
      match skip with
      | S k => sub_term tm new (blocks_before c) k r
      | O => if negb barred && starts tm s && negb (blocks_after (skipn (length tm) s))
             then new ++ sub_term tm new (blocks_before c) (pred (length tm)) r
             else c :: sub_term tm new (blocks_before c) 0 r
      end
  end.

Section Registry.
  (** What pint says: the full name of a unit, and the value of an expression. *)
  Context (long_name : text -> res text) (value : Type) (evaluate : text -> res value).

  (** The names the preprocessor has defined (a definitions file defines no name that starts with an underscore and a
      digit). *)
  Definition scaling_names := list (text * value).
  Fixpoint lookup_name (n : text) (d : scaling_names) : option value :=
    match d with [] => None | (m, v) :: r => if teqb m n then Some v else lookup_name n r end.

  (** The internal name of a term, lines 169-186. *)
  Definition mangled (x : scaled) : res text :=
    match unit_of x with
    | None => Ok (us :: underscored (stripped_term x))
    | Some u => match long_name (stripped_unit u) with
                | Err e => Err e
                | Ok l => Ok (us :: underscored (replace_all (stripped_unit u) (us :: l) (stripped_term x)))
                end
    end.

  (** lines 187-193 *)
  Fixpoint store_and_mangle (input : text) (todo : list scaled) (d : scaling_names) : scaling_names * res text :=
    match todo with
    | [] => (d, Ok input)
    | x :: r =>
        match mangled x with
        | Err e => (d, Err e)
        | Ok valid =>
            match lookup_name valid d with
            | Some _ => store_and_mangle (sub_term (term x) valid false 0 input) r d
            | None => match evaluate (term x) with
                      | Err e => (d, Err e)
                      | Ok v => store_and_mangle (sub_term (term x) valid false 0 input) r (d ++ [(valid, v)])
                      end
            end
        end
    end.

  (** _scaling_preprocessor, lines 196-203: the leading block is dropped. *)
  Definition scaling (input : text) (d : scaling_names) : scaling_names * res text :=
    match find_blocks (tokenizer input) with
    | Err e => (d, Err e)
    | Ok blocks => match identify_factors input (tl blocks) with
                   | Err e => (d, Err e)
                   | Ok todo => store_and_mangle input todo d
                   end
    end.
  (** Both preprocessors, in the order of lines 416-417. *)
  Definition preprocess (input : text) (d : scaling_names) : scaling_names * res text := scaling (scientific input) d.
End Registry.
