(** What the ingesters of the demo should make of their input, independent of IngestModel.v's functions. *)
From Coq Require Import String Ascii List Bool Arith Permutation.
From Verif Require Import Base IngestModel.
Import ListNotations.
Open Scope string_scope.
Open Scope list_scope.

(** The white space of Python among 8-bit characters. *)
Definition white (c : ascii) : Prop := In (nat_of_ascii c) [9; 10; 11; 12; 13; 28; 29; 30; 31; 32; 133; 160].
Fixpoint all_chars (P : ascii -> Prop) (s : string) : Prop := match s with "" => True | String c r => P c /\ all_chars P r end.
Definition space (s : string) : Prop := all_chars white s.
Definition word (s : string) : Prop := s <> "" /\ all_chars (fun c => ~ white c) s.
(** The words of a text, between white space. *)
Inductive words : string -> list string -> Prop :=
| words_none s : space s -> words s []
| words_last a w : space a -> word w -> words (a ++ w) [w]
| words_more a w b s l : space a -> word w -> white b -> words s l -> words (a ++ w ++ String b s) (w :: l).

Section Reads.
  Variable F : Type.
  Variable to_float : string -> option F.
  Variable nonneg : F -> bool.
  Variable of_bool : bool -> F.
  Variable parse_units : string -> res string.
  (** The unit of a text of several words: that of the last word, none if that is no unit. *)
  Inductive unit_read : string -> string -> Prop :=
  | unit_known w u : parse_units w = Ok u -> unit_read w u
  | unit_unknown w e : parse_units w = Err e -> e = ValueError \/ e = UndefinedUnitError -> unit_read w "".
  (** What a field is read as. *)
  Inductive reads : dv F -> val F -> Prop :=
  | reads_number x u : parse_units "" = Ok u -> reads (DNum x) (VNominal x u)
  | reads_bool b u : parse_units "" = Ok u -> reads (DBool b) (VNominal (of_bool b) u)
  | reads_text_number s l x u : words s l -> length l <= 1 -> to_float s = Some x -> parse_units "" = Ok u -> reads (DStr s) (VNominal x u)
  | reads_category s l : words s l -> length l <= 1 -> to_float s = None -> reads (DStr s) (VCategory s)
  | reads_plain s t0 t1 l w x u u' : words s (t0 :: t1 :: l) -> t1 <> "+-" -> t1 <> "+/-" -> to_float t0 = Some x ->
      (exists k, t1 :: l = k ++ [w]) -> unit_read w u -> parse_units u = Ok u' -> reads (DStr s) (VNominal x u')
  | reads_deviation s t0 t1 t2 l w x y u u' : words s (t0 :: t1 :: t2 :: l) -> t1 = "+-" \/ t1 = "+/-" -> to_float t0 = Some x -> to_float t2 = Some y ->
      nonneg y = true -> (exists k, t2 :: l = k ++ [w]) -> unit_read w u -> parse_units u = Ok u' -> reads (DStr s) (VNormal x y u')
  | reads_negative s t0 t1 t2 l w x y u u' : words s (t0 :: t1 :: t2 :: l) -> t1 = "+-" \/ t1 = "+/-" -> to_float t0 = Some x -> to_float t2 = Some y ->
      nonneg y = false -> (exists k, t2 :: l = k ++ [w]) -> unit_read w u -> parse_units u = Ok u' -> reads (DStr s) (VNominal x u').

  Definition entry (k : string) (d : list (string * dv F)) (v : dv F) : Prop := exists a b, d = a ++ (k, v) :: b /\ ~ In k (map fst a).
  (** What counts as false in Python. *)
  Variable nonzero : F -> bool.
  Inductive falsy : dv F -> Prop :=
  | falsy_none : falsy DNone
  | falsy_bool : falsy (DBool false)
  | falsy_num x : nonzero x = false -> falsy (DNum x)
  | falsy_text : falsy (DStr "")
  | falsy_list : falsy (DList [])
  | falsy_dict : falsy (DDict []).
  (** The uid read from the field [key] of a dictionary. *)
  Inductive uid_read (scope key : string) (d : list (string * dv F)) : list (string * dv F) -> Prop :=
  | uid_absent : ~ In key (map fst d) -> uid_read scope key d []
  | uid_falsy v : entry key d v -> falsy v -> uid_read scope key d []
  | uid_given v : entry key d v -> ~ falsy v -> uid_read scope key d [(scope, v)].
  (** The tags read from a dictionary: a text is one tag, of a dictionary the keys are. *)
  Inductive tags_read (d : list (string * dv F)) : list string -> Prop :=
  | tags_absent : ~ In "tags" (map fst d) -> tags_read d []
  | tags_falsy v : entry "tags" d v -> falsy v -> tags_read d []
  | tags_text s : entry "tags" d (DStr s) -> s <> "" -> tags_read d [s]
  | tags_list l : entry "tags" d (DList (map DStr l)) -> l <> [] -> tags_read d l
  | tags_keys l : entry "tags" d (DDict l) -> l <> [] -> tags_read d (map fst l).
  (** The experiments of a dictionary: what iterating over the field gives. *)
  Inductive experiments_read (d : list (string * dv F)) : list (dv F) -> Prop :=
  | exp_absent : ~ In "experiments" (map fst d) -> experiments_read d []
  | exp_list l : entry "experiments" d (DList l) -> experiments_read d l
  | exp_text s : entry "experiments" d (DStr s) -> experiments_read d (map (fun c => DStr (String c "")) (list_ascii_of_string s))
  | exp_keys l : entry "experiments" d (DDict l) -> experiments_read d (map (fun p => DStr (fst p)) l).
  (** The attributes read from a dictionary: one for each of these names that it has, in some order. *)
  Definition attributes (names : list string) (d : list (string * dv F)) (l : list (iattr F)) : Prop :=
    exists found, Permutation (map ia_name l) found /\ (forall n, In n found <-> In n names /\ In n (map fst d)) /\ NoDup found
      /\ forall a, In a l -> exists v, entry (ia_name a) d v /\ reads v (ia_value a).
End Reads.
