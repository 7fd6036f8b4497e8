(** Scaling factors as a user writes and reads them. *)
From Coq Require Import String Ascii List Bool Arith ZArith QArith.
From Verif Require Import Base PyStr ScaleModel.
Import ListNotations.
Open Scope list_scope.

Definition all_digits (s : text) : Prop := s <> [] /\ Forall (fun c => is_digit c = true) s.
(** A word that starts with a letter. *)
Definition identifier (s : text) : Prop :=
  exists c r, s = c :: r /\ is_alpha c = true /\ Forall (fun x => is_word x = true) r.

(** *** A number as it may be spelled *)
(** Signs, plus signs and blanks before it, digits in groups separated by underscores, a fraction, an exponent. *)
Record literal := mkLit {
  signs : text;
  whole : list text;
  fraction : option (list text);
  exponent : option (ascii * option ascii * list text)
}.
Definition grouped (g : list text) : Prop := g <> [] /\ Forall all_digits g.
Definition sign_char (c : ascii) : Prop := c = "+"%char \/ c = "-"%char \/ c = " "%char.
Definition good_literal (l : literal) : Prop :=
  Forall sign_char (signs l) /\ grouped (whole l)
  /\ match fraction l with None => True | Some g => grouped g end
  /\ match exponent l with
     | None => True
     | Some (e, s, g) => (e = "e"%char \/ e = "E"%char) /\ (s = None \/ s = Some "+"%char \/ s = Some "-"%char) /\ grouped g
     end.

Fixpoint join (sep : text) (l : list text) : text :=
  match l with [] => [] | [x] => x | x :: r => x ++ sep ++ join sep r end.

(** The digits as typed. *)
Definition unsigned (l : literal) : text :=
  join (t "_") (whole l)
  ++ match fraction l with None => [] | Some g => t "." ++ join (t "_") g end
  ++ match exponent l with
     | None => []
     | Some (e, s, g) => [e] ++ match s with None => [] | Some c => [c] end ++ join (t "_") g
     end.
Definition spelled (l : literal) : text := signs l ++ unsigned l.

(** The same number, with its digits in one piece and at most one sign. *)
Definition minuses (s : text) : nat := length (filter (Ascii.eqb "-"%char) s).
Definition shown (l : literal) : text :=
  (if Nat.odd (minuses (signs l)) then t "-" else [])
  ++ concat (whole l)
  ++ match fraction l with None => [] | Some g => t "." ++ concat g end
  ++ match exponent l with
     | None => []
     | Some (e, s, g) => [e] ++ match s with Some "-"%char => t "-" | _ => [] end ++ concat g
     end.

(** *** Internal names *)
(** An underscore that starts a word and is followed, perhaps after another, by a digit. *)
Definition internal (s : text) : Prop :=
  exists before after, s = before ++ us :: after
    /\ match rev before with c :: _ => is_word c = false | [] => True end
    /\ (exists d r, is_digit d = true /\ (after = d :: r \/ after = us :: d :: r)).

Fixpoint contains (x s : text) : bool :=
  starts x s || match s with [] => false | _ :: r => contains x r end.

(** *** A formatted unit *)
(** Words and what separates them; a word is the name of a unit or of a scaled unit (a number, and a unit unless the
    number stands alone). *)
Inductive word := Plain (w : text) | Scaled (l : literal) (u : option text).
(** What the formatter of the units library writes, ... *)
Definition marked (l : literal) : text := us :: underscored (shown l).
Definition inner (w : word) : text :=
  match w with
  | Plain w => w
  | Scaled l None => marked l
  | Scaled l (Some u) => marked l ++ us :: u
  end.
(** ... and what the user should read. *)
Definition outer (w : word) : text :=
  match w with
  | Plain w => w
  | Scaled l None => shown l
  | Scaled l (Some u) => shown l ++ t " " ++ u
  end.
Definition line (f : word -> text) (w : word) (ws : list (ascii * word)) : text :=
  f w ++ concat (map (fun p => fst p :: f (snd p)) ws).

Definition good_word (w : word) : Prop :=
  match w with
  | Plain w => Forall (fun c => is_word c = true) w /\ ~ internal w
  | Scaled l u => good_literal l /\ match u with None => True | Some u => identifier u end
  end.
Definition good_line (w : word) (ws : list (ascii * word)) : Prop :=
  good_word w /\ Forall (fun p => is_word (fst p) = false /\ good_word (snd p)) ws.

(** The marked number of one word is not part of another word. *)
Definition mark (w : word) : option text :=
  match w with
  | Plain _ => None
  | Scaled l None => Some (marked l)
  | Scaled l (Some _) => Some (marked l ++ t "_")
  end.
Definition clear_of (m : text) (w : word) : Prop :=
  match w with
  | Plain w => contains m w = false
  | Scaled l u => (mark w = Some m /\ match u with None => True | Some u => contains m u = false end) \/ contains m (inner w) = false
  end.
Definition no_clash (w : word) (ws : list (ascii * word)) : Prop :=
  forall x y m, In x (w :: map snd ws) -> In y (w :: map snd ws) -> mark x = Some m -> clear_of m y.

(** *** A unit with one scaling factor *)
(** No digit, underscore, digit in the unit's name, which does not start with the letter of the exponent. *)
Definition ungrouped (u : text) : Prop :=
  forall x a b y, u = x ++ a :: us :: b :: y -> is_digit a = true -> is_digit b = true -> False.
Definition apart (l : literal) (u : text) : Prop :=
  match exponent l with Some (e, _, _) => hd_error u <> Some e | None => True end.
Definition blanks (s : text) : Prop := Forall (fun c => is_space c = true) s.

(** What a literal is worth, its sign aside. *)
Definition dec (s : text) : Z := fold_left (fun a c => (a * 10 + (Z.of_nat (nat_of_ascii c) - 48))%Z) s 0%Z.
Definition tens (l : literal) : Z :=
  (match exponent l with
   | None => 0
   | Some (_, Some "-"%char, g) => - dec (concat g)
   | Some (_, _, g) => dec (concat g)
   end - match fraction l with None => 0 | Some g => Z.of_nat (length (concat g)) end)%Z.
Definition worth (l : literal) : Q :=
  inject_Z (dec (concat (whole l) ++ match fraction l with None => [] | Some g => concat g end)) * (10 ^ tens l)%Q.

(** A whole number without exponent does not start with 0 (Python's grammar). *)
Definition python_number (l : literal) : Prop :=
  fraction l = None -> exponent l = None -> hd_error (concat (whole l)) <> Some "0"%char.
(** The unit is not read as the exponent of the number. *)
Definition split_off (l : literal) (gap u : text) : Prop :=
  exponent l = None -> gap = [] -> hd_error u <> Some "e"%char /\ hd_error u <> Some "E"%char.
