(** Model of the JSON text between gemd_json.py:55, 164, 185 ([json.dumps(..., sort_keys=True, **kwargs)]) and
    gemd_json.py:80, 209 ([json.loads]): the writer and the reader of Python's json library (json/encoder.py,
    json/decoder.py, json/scanner.py of CPython 3.11), which /repo calls and does not contain.
    Simplifications: a text is the list of its code points; keys are strings and already sorted ([SerialModel.sort_keys]);
    Python's limit of 4300 digits for integers and its recursion limit are left out. How a finite float is written
    ([float.__repr__]) and read ([float]) is a parameter. Every JSONDecodeError is a ValueError, without its message. *)
From Coq Require Import String Ascii List Bool ZArith QArith.
From Verif Require Import Base.
Import ListNotations.
Open Scope list_scope.
Open Scope Z_scope.

Definition text := list Z.
Fixpoint lit (s : string) : text :=
  match s with EmptyString => [] | String a r => Z.of_N (N_of_ascii a) :: lit r end.

Inductive special : Type := NaN | Infinity | NegInfinity.
Inductive jt : Type :=
| TNull | TBool (b : bool) | TInt (z : Z) | TFloat (q : Q) | TSpecial (x : special) | TStr (s : text)
| TArr (l : list jt) | TObj (l : list (text * jt)).

(** The keyword arguments ensure_ascii, indent (as the text of one level) and separators. *)
Record options : Type := mkO { o_ascii : bool; o_indent : option text; o_item : text; o_key : text }.

Section Json.
  Variable show_float : Q -> text.
  Variable read_float : text -> Q.

  (** ** Writing *)
  Definition hex_digit (d : Z) : Z := if d <? 10 then 48 + d else 87 + d.
  Definition hex4 (n : Z) : text := [hex_digit (n / 4096 mod 16); hex_digit (n / 256 mod 16); hex_digit (n / 16 mod 16); hex_digit (n mod 16)].
  Definition u_escape (n : Z) : text := 92 :: 117 :: hex4 n.
  (** ESCAPE_DCT, encoder.py:22-30 *)
  Definition short_escape (c : Z) : option Z :=
    if c =? 92 then Some 92 else if c =? 34 then Some 34 else if c =? 8 then Some 98 else if c =? 12 then Some 102
    else if c =? 10 then Some 110 else if c =? 13 then Some 114 else if c =? 9 then Some 116 else None.
  (** encoder.py:38-70 *)
  Definition write_char (ascii : bool) (c : Z) : text :=
    match short_escape c with
    | Some e => [92; e]
    | None => if c <? 32 then u_escape c
              else if ascii && (126 <? c) then
                if c <? 65536 then u_escape c
                else let n := c - 65536 in u_escape (55296 + n / 1024 mod 1024) ++ u_escape (56320 + n mod 1024)
              else [c]
    end.
  Definition write_string (o : options) (s : text) : text := 34 :: flat_map (write_char (o_ascii o)) s ++ [34].
  (** [int.__repr__] *)
  Fixpoint digits (n : nat) (z : Z) (acc : text) : text :=
    let acc' := (48 + z mod 10) :: acc in
    if z / 10 =? 0 then acc' else match n with O => acc' | S m => digits m (z / 10) acc' end.
  Definition write_int (z : Z) : text :=
    if z <? 0 then 45 :: digits (Z.to_nat (- z)) (- z) [] else digits (Z.to_nat z) z [].
  (** encoder.py:223-243 *)
  Definition write_special (x : special) : text :=
    match x with NaN => lit "NaN" | Infinity => lit "Infinity" | NegInfinity => lit "-Infinity" end.
  Fixpoint join (sep : text) (l : list text) : text :=
    match l with [] => [] | [x] => x | x :: r => x ++ sep ++ join sep r end.
  Definition newline (o : options) (level : nat) : text :=
    match o_indent o with None => [] | Some i => 10 :: concat (repeat i level) end.
  (** encoder.py:277-324, 326-401, 403-429 (the branch for None, where the C encoder runs, writes the same) *)
  Fixpoint write (o : options) (level : nat) (t : jt) : text :=
    match t with
    | TNull => lit "null"
    | TBool true => lit "true"
    | TBool false => lit "false"
    | TInt z => write_int z
    | TFloat q => show_float q
    | TSpecial x => write_special x
    | TStr s => write_string o s
    | TArr [] => lit "[]"
    | TArr l => lit "[" ++ newline o (S level) ++ join (o_item o ++ newline o (S level)) (map (write o (S level)) l) ++ newline o level ++ lit "]"
    | TObj [] => lit "{}"
    | TObj l => lit "{" ++ newline o (S level) ++
        join (o_item o ++ newline o (S level)) (map (fun p => write_string o (fst p) ++ o_key o ++ write o (S level) (snd p)) l) ++ newline o level ++ lit "}"
    end.
  Definition print (o : options) (t : jt) : text := write o 0 t.

  (** ** Reading *)
  Definition is_ws (c : Z) : bool := (c =? 32) || (c =? 9) || (c =? 10) || (c =? 13).
  Fixpoint skip_ws (t : text) : text := match t with c :: r => if is_ws c then skip_ws r else t | [] => [] end.
  Definition hex_value (c : Z) : option Z :=
    if (48 <=? c) && (c <=? 57) then Some (c - 48)
    else if (65 <=? c) && (c <=? 70) then Some (c - 55)
    else if (97 <=? c) && (c <=? 102) then Some (c - 87) else None.
  Definition hex4_value (a b c d : Z) : option Z :=
    match hex_value a, hex_value b, hex_value c, hex_value d with
    | Some a, Some b, Some c, Some d => Some (4096 * a + 256 * b + 16 * c + d)
    | _, _, _, _ => None
    end.
  (** BACKSLASH, decoder.py:56-59 *)
  Definition unescape (e : Z) : option Z :=
    if e =? 34 then Some 34 else if e =? 92 then Some 92 else if e =? 47 then Some 47 else if e =? 98 then Some 8
    else if e =? 102 then Some 12 else if e =? 110 then Some 10 else if e =? 114 then Some 13 else if e =? 116 then Some 9 else None.
  Definition is_high (u : Z) : bool := (55296 <=? u) && (u <=? 56319).
  Definition is_low (u : Z) : bool := (56320 <=? u) && (u <=? 57343).
  Definition combine (u v : Z) : Z := 65536 + (u - 55296) * 1024 + (v - 56320).
  Definition push (c : Z) (x : option (text * text)) : option (text * text) :=
    match x with Some (s, r) => Some (c :: s, r) | None => None end.
  (** decoder.py:61-125 from behind the opening quote. A bad second escape behind a high surrogate is found when it is
      read as the next one. *)
  Fixpoint scan_string (t : text) : option (text * text) :=
    match t with
    | [] => None
    | c :: r =>
        if c =? 34 then Some ([], r)
        else if c =? 92 then
          match r with
          | [] => None
          | e :: r1 =>
              if e =? 117 then
                match r1 with
                | a :: b :: c :: d :: r2 =>
                    match hex4_value a b c d with
                    | None => None
                    | Some u =>
                        match r2 with
                        | x :: y :: a' :: b' :: c' :: d' :: r3 =>
                            if is_high u && (x =? 92) && (y =? 117) then
                              match hex4_value a' b' c' d' with
                              | None => None
                              | Some v => if is_low v then push (combine u v) (scan_string r3) else push u (scan_string r2)
                              end
                            else push u (scan_string r2)
                        | _ => push u (scan_string r2)
                        end
                    end
                | _ => None
                end
              else match unescape e with Some c => push c (scan_string r1) | None => None end
          end
        else if c <? 32 then None
        else push c (scan_string r)
    end.
  Definition is_digit (c : Z) : bool := (48 <=? c) && (c <=? 57).
  Fixpoint span_digits (t : text) : text * text :=
    match t with c :: r => if is_digit c then let (d, x) := span_digits r in (c :: d, x) else ([], t) | [] => ([], []) end.
  Definition decimal (t : text) : Z := fold_left (fun a c => 10 * a + (c - 48)) t 0.
  (** NUMBER_RE, scanner.py:11-13, part by part: digits without a leading zero; fraction; exponent. *)
  Definition scan_whole (t : text) : option (text * text) :=
    match t with
    | c :: r => if c =? 48 then Some ([48], r)
                else if is_digit c then let (d, x) := span_digits r in Some (c :: d, x) else None
    | [] => None
    end.
  Definition scan_fraction (t : text) : text * text :=
    match t with
    | c :: r => if c =? 46 then match span_digits r with ([], _) => ([], t) | (d, x) => (46 :: d, x) end else ([], t)
    | [] => ([], [])
    end.
  Definition scan_exponent (t : text) : text * text :=
    match t with
    | c :: r =>
        if (c =? 101) || (c =? 69) then
          match r with
          | s :: r1 => if (s =? 43) || (s =? 45) then match span_digits r1 with ([], _) => ([], t) | (d, x) => (c :: s :: d, x) end
                       else match span_digits r with ([], _) => ([], t) | (d, x) => (c :: d, x) end
          | [] => ([], t)
          end
        else ([], t)
    | [] => ([], [])
    end.
  Definition sign_of (t : text) : text * text := match t with c :: r => if c =? 45 then ([45], r) else ([], t) | [] => ([], []) end.
  (** scanner.py:47-54 *)
  Definition scan_number (t : text) : option (jt * text) :=
    let (s, t1) := sign_of t in
    match scan_whole t1 with
    | None => None
    | Some (w, t2) =>
        let (f, t3) := scan_fraction t2 in
        let (e, t4) := scan_exponent t3 in
        match f ++ e with
        | [] => Some (TInt (match s with [] => decimal w | _ => - decimal w end), t2)
        | _ => Some (TFloat (read_float (s ++ w ++ f ++ e)), t4)
        end
    end.
  Fixpoint strip (p t : text) : option text :=
    match p, t with
    | [], _ => Some t
    | a :: p, b :: t => if a =? b then strip p t else None
    | _, _ => None
    end.
  (** scanner.py:38-46, 55-63 *)
  Definition scan_rest (t : text) : option (jt * text) :=
    match strip (lit "null") t with Some r => Some (TNull, r) | None =>
    match strip (lit "true") t with Some r => Some (TBool true, r) | None =>
    match strip (lit "false") t with Some r => Some (TBool false, r) | None =>
    match scan_number t with Some x => Some x | None =>
    match strip (lit "NaN") t with Some r => Some (TSpecial NaN, r) | None =>
    match strip (lit "Infinity") t with Some r => Some (TSpecial Infinity, r) | None =>
    match strip (lit "-Infinity") t with Some r => Some (TSpecial NegInfinity, r) | None => None
    end end end end end end end.
  (** scanner.py:28-63, decoder.py:136-205 (objects), 207-243 (arrays). [n] bounds the number of calls. *)
  Fixpoint scan (n : nat) (t : text) : option (jt * text) :=
    match n with
    | O => None
    | S m =>
        match t with
        | [] => None
        | c :: r =>
            if c =? 34 then match scan_string r with Some (s, r') => Some (TStr s, r') | None => None end
            else if c =? 123 then
              match skip_ws r with
              | q :: r1 => if q =? 125 then Some (TObj [], r1)
                           else match scan_members m (q :: r1) with Some (l, r') => Some (TObj l, r') | None => None end
              | [] => None
              end
            else if c =? 91 then
              match skip_ws r with
              | q :: r1 => if q =? 93 then Some (TArr [], r1)
                           else match scan_elements m (q :: r1) with Some (l, r') => Some (TArr l, r') | None => None end
              | [] => None
              end
            else scan_rest t
        end
    end
  with scan_elements (n : nat) (t : text) : option (list jt * text) :=
    match n with
    | O => None
    | S m =>
        match scan m t with
        | None => None
        | Some (v, r) =>
            match skip_ws r with
            | q :: r1 => if q =? 93 then Some ([v], r1)
                         else if q =? 44 then match scan_elements m (skip_ws r1) with Some (l, r') => Some (v :: l, r') | None => None end
                         else None
            | [] => None
            end
        end
    end
  with scan_members (n : nat) (t : text) : option (list (text * jt) * text) :=
    match n with
    | O => None
    | S m =>
        match t with
        | [] => None
        | c :: r =>
            if c =? 34 then
              match scan_string r with
              | None => None
              | Some (key, r1) =>
                  match skip_ws r1 with
                  | [] => None
                  | d :: r2 =>
                      if d =? 58 then
                        match scan m (skip_ws r2) with
                        | None => None
                        | Some (v, r3) =>
                            match skip_ws r3 with
                            | q :: r4 => if q =? 125 then Some ([(key, v)], r4)
                                         else if q =? 44 then match scan_members m (skip_ws r4) with Some (l, r') => Some ((key, v) :: l, r') | None => None end
                                         else None
                            | [] => None
                            end
                        end
                      else None
                  end
              end
            else None
        end
    end.
  (** decoder.py:332-343 *)
  Definition parse (t : text) : res jt :=
    match scan (2 * length t) (skip_ws t) with
    | Some (v, r) => match skip_ws r with [] => Ok v | _ => Err ValueError end
    | None => Err ValueError
    end.
End Json.
