(** Model of the part of Python's [re] the code uses, and of the functions of gemd that are one
    regular expression: extract_version (scripts/validate_version_bump.py:49-55, also setup.py:9-13),
    formula_clean and formula_latex (gemd/demo/strehlow_and_cook.py:72-81).

    A pattern is matched as CPython does: alternatives from left to right, repetitions as long as
    possible first, and on a failure further on the next choice is tried ([k] is what is further on).
    Simplifications. Characters are 8-bit, [\w], [\d] and [\s] have their ASCII meanings, and only
    classes of characters are repeated without bound, as in all these patterns. *)
From Coq Require Import String Ascii List Bool Arith.
From Verif Require Import Base PyStr ScaleModel.
Import ListNotations.
Open Scope list_scope.

Inductive re : Type :=
| Eps
| Cls (p : ascii -> bool)            (* one character of a class *)
| Lit (w : text)                     (* these characters *)
| Seq (a b : re)
| Alt (a b : re)                     (* a|b *)
| Many (p : ascii -> bool)           (* [p]* *)
| Grp (n : nat) (a : re)             (* (a), the n-th group *)
| Back (n : nat)                     (* \n *)
| Wb                                 (* \b *)
| Behind (yes : bool) (p : ascii -> bool)   (* (?<=[p]) and (?<![p]) *)
| Ahead (yes : bool) (a : re)        (* (?=a) and (?!a) *)
| Bol | Eol                          (* ^ and $ with re.MULTILINE *)
| End.                               (* $ without it: at the end, or before a newline that ends the text *)

Definition groups := list (nat * text).
Fixpoint group (g : groups) (n : nat) : option text :=
  match g with [] => None | (m, w) :: r => if Nat.eqb m n then Some w else group r n end.
(** What is left of the text after a match, with the character before it, and the groups. *)
Definition found := (option ascii * text * groups)%type.
Definition newline : ascii := "010"%char.
Definition wordy (c : option ascii) : bool := match c with Some c => is_word c | None => false end.
Definition head (s : text) : option ascii := match s with c :: _ => Some c | [] => None end.
Definition sat (p : ascii -> bool) (c : option ascii) : bool := match c with Some c => p c | None => false end.
Definition last_of (pv : option ascii) (w : text) : option ascii := match rev w with c :: _ => Some c | [] => pv end.

Section Many.
  Context {B : Type} (p : ascii -> bool) (k : option ascii -> text -> option B).
  Fixpoint many (pv : option ascii) (s : text) : option B :=
    match s with
    | c :: s' => if p c then match many (Some c) s' with Some x => Some x | None => k pv s end else k pv s
    | [] => k pv s
    end.
End Many.

Fixpoint exec (r : re) (pv : option ascii) (s : text) (g : groups) (k : option ascii -> text -> groups -> option found) : option found :=
  match r with
  | Eps => k pv s g
  | Cls p => match s with c :: s' => if p c then k (Some c) s' g else None | [] => None end
  | Lit w => if starts w s then k (last_of pv w) (skipn (length w) s) g else None
  | Seq a b => exec a pv s g (fun pv s g => exec b pv s g k)
  | Alt a b => match exec a pv s g k with Some x => Some x | None => exec b pv s g k end
  | Many p => many p (fun pv s => k pv s g) pv s
  | Grp n a => exec a pv s g (fun pv' s' g' => k pv' s' ((n, firstn (length s - length s') s) :: g'))
  | Back n => match group g n with Some w => if starts w s then k (last_of pv w) (skipn (length w) s) g else None | None => None end
  | Wb => if xorb (wordy pv) (wordy (head s)) then k pv s g else None
  | Behind yes p => if Bool.eqb yes (sat p pv) then k pv s g else None
  | Ahead yes a => if Bool.eqb yes (match exec a pv s g (fun pv s g => Some (pv, s, g)) with Some _ => true | None => false end) then k pv s g else None
  | Bol => match pv with None => k pv s g | Some c => if Ascii.eqb c newline then k pv s g else None end
  | Eol => match s with [] => k pv s g | c :: _ => if Ascii.eqb c newline then k pv s g else None end
  | End => match s with [] => k pv s g | [c] => if Ascii.eqb c newline then k pv s g else None | _ => None end
  end.
(** A match that starts here. *)
Definition match_at (r : re) (pv : option ascii) (s : text) : option found := exec r pv s [] (fun pv s g => Some (pv, s, g)).

(** re.search: the first position with a match; the match is group 0. *)
Fixpoint re_search (r : re) (pv : option ascii) (s : text) : option groups :=
  match match_at r pv s with
  | Some (_, s', g) => Some ((0, firstn (length s - length s') s) :: g)
  | None => match s with c :: s' => re_search r (Some c) s' | [] => None end
  end.
(** re.sub: matches from left to right that do not overlap; after an empty one, the next character
    is kept. *)
Fixpoint re_sub (r : re) (f : groups -> text) (pv : option ascii) (skip : nat) (s : text) : text :=
  match skip, s with
  | S n, c :: s' => re_sub r f (Some c) n s'
  | S _, [] => []
  | O, [] => match match_at r pv [] with Some (_, _, g) => f g | None => [] end
  | O, c :: s' => match match_at r pv s with
                  | Some (_, s2, g) => match length s - length s2 with
                                       | O => f g ++ c :: re_sub r f (Some c) 0 s'
                                       | S n => f g ++ re_sub r f (Some c) n s'
                                       end
                  | None => c :: re_sub r f (Some c) 0 s'
                  end
  end.
Definition sub (r : re) (f : groups -> text) (s : text) : text := re_sub r f None 0 s.
(** re.findall of a pattern without groups that matches no empty text. *)
Fixpoint re_findall (r : re) (pv : option ascii) (skip : nat) (s : text) : list text :=
  match s with
  | [] => []
  | c :: s' => match skip with
               | S n => re_findall r (Some c) n s'
               | O => match match_at r pv s with
                      | Some (_, s2, _) => firstn (length s - length s2) s :: re_findall r (Some c) (length s - length s2 - 1) s'
                      | None => re_findall r (Some c) 0 s'
                      end
               end
  end.

(** Abbreviations of the pattern language. *)
Definition chr (c : ascii) : re := Cls (Ascii.eqb c).
Definition opt (a : re) : re := Alt a Eps.
Definition plus (p : ascii -> bool) : re := Seq (Cls p) (Many p).
Definition one_of (s : string) : ascii -> bool := fun c => existsb (Ascii.eqb c) (t s).
Fixpoint seq (l : list re) : re := match l with [] => Eps | [a] => a | a :: r => Seq a (seq r) end.
Definition text_of (o : option text) : text := match o with Some w => w | None => [] end.

(** scripts/validate_version_bump.py:50-53 *)
Definition version_re : re :=
  seq [Bol; Many is_space; Lit (t "__version__"); Many is_space; chr "="; Many is_space;
       Grp 1 (Cls (one_of "'""")); Grp 2 (plus (fun c => is_word c || Ascii.eqb c dot)); Back 1; Eol].
(** Lines 49-55; [Version(...)] is packaging's. *)
Section Version.
  Context {V : Type} (version : text -> res V).
  Definition extract_version (s : text) : res V :=
    match re_search version_re None s with
    | Some g => version (text_of (group g 2))
    | None => Err ValueError
    end.
End Version.

(** strehlow_and_cook.py:78-81 *)
Definition is_letter (c : ascii) : bool := is_alpha c.
Definition formula_clean (s : text) : text :=
  sub (seq [Behind true is_letter; chr "1"; Ahead true (Alt (Cls is_letter) End)]) (fun _ => []) s.
(** strehlow_and_cook.py:72-75 *)
Definition formula_latex (s : text) : text :=
  sub (seq [Behind true is_letter; Grp 1 (plus (fun c => is_digit c || Ascii.eqb c dot)); Ahead true (Alt (Cls is_letter) End)])
      (fun g => t "$_{" ++ text_of (group g 1) ++ t "}$") (formula_clean s).
