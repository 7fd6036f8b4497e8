(** Specification for C62: the JSON grammar as Python reads it, and what a text stands for. *)
From Coq Require Import String List Bool ZArith QArith.
From Verif Require Import Base JtextModel.
Import ListNotations.
Open Scope list_scope.
Open Scope Z_scope.

(** ** Characters *)
Definition blank (c : Z) : Prop := c = 32 \/ c = 9 \/ c = 10 \/ c = 13.
Definition blanks (t : text) : Prop := Forall blank t.
Definition digit (c : Z) : Prop := 48 <= c <= 57.
Inductive hexadecimal : Z -> Z -> Prop :=
| hex_digit : forall d, 0 <= d <= 9 -> hexadecimal (48 + d) d
| hex_upper : forall d, 10 <= d <= 15 -> hexadecimal (65 + (d - 10)) d
| hex_lower : forall d, 10 <= d <= 15 -> hexadecimal (97 + (d - 10)) d.
(** [\uXXXX] *)
Inductive escape : text -> Z -> Prop :=
| escape_u : forall a b c d a' b' c' d', hexadecimal a a' -> hexadecimal b b' -> hexadecimal c c' -> hexadecimal d d' ->
    escape [92; 117; a; b; c; d] (4096 * a' + 256 * b' + 16 * c' + d').
Definition short : list (Z * Z) := [(34, 34); (92, 92); (47, 47); (98, 8); (102, 12); (110, 10); (114, 13); (116, 9)].
Definition high (u : Z) : Prop := 55296 <= u <= 56319.
Definition low (u : Z) : Prop := 56320 <= u <= 57343.
(** The character two surrogates stand for. *)
Definition pair (u v : Z) : Z := 65536 + (u - 55296) * 1024 + (v - 56320).

(** ** What is between the quotes *)
Inductive chars : text -> text -> Prop :=
| ch_end : chars [] []
| ch_plain : forall c t s, 32 <= c -> c <> 34 -> c <> 92 -> chars t s -> chars (c :: t) (c :: s)
| ch_short : forall e c t s, In (e, c) short -> chars t s -> chars (92 :: e :: t) (c :: s)
| ch_pair : forall x y u v t s, escape x u -> escape y v -> high u -> low v -> chars t s -> chars (x ++ y ++ t) (pair u v :: s)
| ch_unit : forall x u t s, escape x u -> ~ (high u /\ exists y v t', escape y v /\ low v /\ t = y ++ t') -> chars t s -> chars (x ++ t) (u :: s).

(** ** Numbers *)
Definition decimal_value (t : text) : Z := fold_left (fun a c => 10 * a + (c - 48)) t 0.
Definition whole (t : text) : Prop := t = [48] \/ exists c r, t = c :: r /\ 49 <= c <= 57 /\ Forall digit r.
Inductive integer : text -> Z -> Prop :=
| int_plus : forall t, whole t -> integer t (decimal_value t)
| int_minus : forall t, whole t -> integer (45 :: t) (- decimal_value t).
Definition fraction (t : text) : Prop := t = [] \/ exists d, t = 46 :: d /\ d <> [] /\ Forall digit d.
Definition exponent (t : text) : Prop :=
  t = [] \/ exists e s d, t = e :: s ++ d /\ (e = 101 \/ e = 69) /\ (s = [] \/ s = [43] \/ s = [45]) /\ d <> [] /\ Forall digit d.
Definition floating (t : text) : Prop :=
  exists w z f e, t = w ++ f ++ e /\ integer w z /\ fraction f /\ exponent e /\ f ++ e <> [].

(** ** Values *)
Section Values.
  Variable read_float : text -> Q.
  Inductive value : text -> jt -> Prop :=
  | v_null : value (lit "null") TNull
  | v_true : value (lit "true") (TBool true)
  | v_false : value (lit "false") (TBool false)
  | v_nan : value (lit "NaN") (TSpecial NaN)
  | v_infinity : value (lit "Infinity") (TSpecial Infinity)
  | v_neg_infinity : value (lit "-Infinity") (TSpecial NegInfinity)
  | v_int : forall t z, integer t z -> value t (TInt z)
  | v_float : forall t, floating t -> value t (TFloat (read_float t))
  | v_string : forall t s, chars t s -> value (34 :: t ++ [34]) (TStr s)
  | v_array0 : forall w, blanks w -> value (91 :: w ++ [93]) (TArr [])
  | v_array : forall w t l, blanks w -> elements t l -> value (91 :: w ++ t ++ [93]) (TArr l)
  | v_object0 : forall w, blanks w -> value (123 :: w ++ [125]) (TObj [])
  | v_object : forall w t l, blanks w -> members t l -> value (123 :: w ++ t ++ [125]) (TObj l)
  with elements : text -> list jt -> Prop :=
  | e_last : forall t v w, value t v -> blanks w -> elements (t ++ w) [v]
  | e_more : forall t v w w' t' l, value t v -> blanks w -> blanks w' -> elements t' l -> elements (t ++ w ++ 44 :: w' ++ t') (v :: l)
  with members : text -> list (text * jt) -> Prop :=
  | m_last : forall k key w w' t v w2, chars k key -> blanks w -> blanks w' -> value t v -> blanks w2 ->
      members (34 :: k ++ 34 :: w ++ 58 :: w' ++ t ++ w2) [(key, v)]
  | m_more : forall k key w w' t v w2 w3 t' l, chars k key -> blanks w -> blanks w' -> value t v -> blanks w2 -> blanks w3 -> members t' l ->
      members (34 :: k ++ 34 :: w ++ 58 :: w' ++ t ++ w2 ++ 44 :: w3 ++ t') ((key, v) :: l).
  (** A whole text. *)
  Definition document (t : text) (v : jt) : Prop := exists w x w', t = w ++ x ++ w' /\ blanks w /\ blanks w' /\ value x v.
End Values.

(** ** What is written *)
Definition code_points (s : text) : Prop := Forall (fun c => 0 <= c < 1114112) s.
(** Every high surrogate that is directly followed by a low one forms a character with it. *)
Fixpoint merge (s : text) : text :=
  match s with
  | [] => []
  | u :: tl =>
      match tl with
      | v :: r => if ((55296 <=? u) && (u <=? 56319) && (56320 <=? v) && (v <=? 57343))%bool then pair u v :: merge r else u :: merge tl
      | [] => [u]
      end
  end.
(** No high surrogate is directly followed by a low one. *)
Definition unsplit (s : text) : Prop := forall a u v b, s = a ++ u :: v :: b -> ~ (high u /\ low v).
Fixpoint merge_tree (t : jt) : jt :=
  match t with
  | TStr s => TStr (merge s)
  | TArr l => TArr (map merge_tree l)
  | TObj l => TObj (map (fun p => (merge (fst p), merge_tree (snd p))) l)
  | x => x
  end.
Section Trees.
  Variable P : text -> Prop.   (* every string and key *)
  Variable F : Q -> Prop.      (* every float *)
  Inductive tree_of : jt -> Prop :=
  | to_null : tree_of TNull | to_bool : forall b, tree_of (TBool b) | to_int : forall z, tree_of (TInt z)
  | to_float : forall q, F q -> tree_of (TFloat q) | to_special : forall x, tree_of (TSpecial x) | to_str : forall s, P s -> tree_of (TStr s)
  | to_arr : forall l, (forall x, In x l -> tree_of x) -> tree_of (TArr l)
  | to_obj : forall l, (forall k x, In (k, x) l -> P k) -> (forall k x, In (k, x) l -> tree_of x) -> tree_of (TObj l).
End Trees.
(** Separators with a comma and a colon between blanks; an indent of blanks. *)
Definition proper (o : options) : Prop :=
  (exists a b, o_item o = a ++ 44 :: b /\ blanks a /\ blanks b) /\ (exists a b, o_key o = a ++ 58 :: b /\ blanks a /\ blanks b) /\
  (forall i, o_indent o = Some i -> blanks i).
(** json.dumps without keyword arguments. *)
Definition default_options : options := mkO true None (lit ", ") (lit ": ").
(** What comes back. *)
Definition read_back (o : options) (t : jt) : jt := if o_ascii o then merge_tree t else t.
(** A float is written as a number with a fraction or an exponent, which is read as the same float. *)
Definition shown (show_float : Q -> text) (read_float : text -> Q) (q : Q) : Prop := floating (show_float q) /\ read_float (show_float q) = q.
