(** C36: displayed units carry the scaling factor that was parsed. *)
From Coq Require Import String Ascii List Bool Arith ZArith QArith Lia.
From Verif Require Import Base PyStr ScaleModel ScaleSpec ScaleUnmangle ScaleShow ScaleMangle ScaleParse ScaleWhole ScaleSci.
Import ListNotations.
Open Scope nat_scope.
Open Scope list_scope.

(** Turning internal names back into text ends for every text (the loop needs no more rounds than there are
    underscores), leaves no internal name behind, and leaves a text without internal names alone. *)
Theorem unmangling_ends : forall s, exists r, unmangle s = Some r /\ ~ internal r.
Proof. exact unmangle_ends. Qed.
Print Assumptions unmangling_ends.
Theorem unmangling_leaves_others : forall s, ~ internal s -> unmangle s = Some s.
Proof. exact unmangle_id. Qed.
Print Assumptions unmangling_leaves_others.

(** The number shown is a spelling of the number written. *)
Definition canonical (l : literal) : literal :=
  mkLit (if Nat.odd (minuses (signs l)) then t "-" else []) [concat (whole l)] (option_map (fun g => [concat g]) (fraction l))
        (option_map (fun x => let '(e, s, g) := x in (e, match s with Some "-"%char => Some "-"%char | _ => None end, [concat g])) (exponent l)).
Lemma concat_digits : forall g, grouped g -> all_digits (concat g).
Proof.
  intros g (N & G). split.
  - destruct G as [|x g X _]; [congruence|]. destruct X as (X & _). destruct x; [congruence|discriminate].
  - clear N. induction G as [|x g X _ IH]; cbn [concat]; [constructor|]. apply Forall_app. split; auto. apply X.
Qed.
Theorem shown_is_number : forall l, good_literal l ->
  exists l', good_literal l' /\ spelled l' = shown l /\ (worth l' == worth l)%Q /\ Nat.odd (minuses (signs l')) = Nat.odd (minuses (signs l)).
Proof.
  intros l (S0 & W & F & X). exists (canonical l). split; [|split; [|split]].
  - unfold good_literal, canonical. cbn [signs whole fraction exponent]. split; [|split; [|split]].
    + destruct (Nat.odd _); [apply Forall_cons; [unfold sign_char; auto|constructor]|constructor].
    + split; [discriminate|]. constructor; [now apply concat_digits|constructor].
    + destruct (fraction l); cbn; auto. split; [discriminate|]. constructor; [now apply concat_digits|constructor].
    + destruct (exponent l) as [[[e s] g]|]; cbn; auto. destruct X as (E & Sg & Gd). split; [auto|]. split.
      * destruct Sg as [-> | [-> | ->]]; auto.
      * split; [discriminate|]. constructor; [now apply concat_digits|constructor].
  - unfold spelled, unsigned, shown, canonical. cbn [signs whole fraction exponent join]. f_equal. f_equal.
    destruct (fraction l); destruct (exponent l) as [[[e s] g]|]; cbn [option_map join]; auto; destruct X as (_ & [-> | [-> | ->]] & _); reflexivity.
  - unfold worth, tens, canonical. cbn [signs whole fraction exponent]. cbn [concat]. rewrite app_nil_r.
    destruct (fraction l); destruct (exponent l) as [[[e s] g]|]; cbn [option_map concat]; rewrite ?app_nil_r; try reflexivity; destruct X as (_ & [-> | [-> | ->]] & _); reflexivity.
  - unfold canonical. cbn [signs]. destruct (Nat.odd (minuses (signs l))); reflexivity.
Qed.
Print Assumptions shown_is_number.

(** From the unit as written to the unit as displayed, for a unit [lead], an operator and one scaled unit in every
    spelling of the number (signs, plus signs and blanks, digit groups, fraction, exponent): the text handed on has one
    internal name in place of the scaled unit, that name is defined by the scaled unit as written unless it was
    defined before, and every displayed line that contains the name (and no other one that contains it) shows the
    number and the unit instead.

    Missing: several scaled units in one string, numbers without a digit on both sides of the point, factors of
    exactly 0 or 1 (left as they are). The first two are false in general, see below. *)
Theorem factor_displayed_partial :
  forall (long_name : text -> res text) (value : Type) (evaluate : text -> res value)
         (lead sp1 sp2 gap u full : text) (op : ascii) (l : literal) (d : scaling_names value),
  identifier lead -> blanks sp1 -> blanks sp2 -> blanks gap -> good_op op ->
  good_literal l -> hd_error (signs l) <> Some " "%char -> python_number l ->
  identifier u -> split_off l gap u -> ungrouped u -> apart l u ->
  long_name u = Ok full -> identifier full ->
  ~ (worth l == 0)%Q -> ~ (worth l == 1)%Q ->
  let scaled := spelled l ++ gap ++ u in
  contains scaled (lead ++ sp1) = false ->
  let before := lead ++ sp1 ++ op :: sp2 in
  exists name,
    preprocess long_name value evaluate (before ++ scaled) d =
      match lookup_name value name d with
      | Some _ => (d, Ok (before ++ name))
      | None => match evaluate scaled with Err e => (d, Err e) | Ok v => (d ++ [(name, v)], Ok (before ++ name)) end
      end
    /\ name = inner (Scaled l (Some full))
    /\ (forall w ws, In (Scaled l (Some full)) (w :: map snd ws) -> good_line w ws -> no_clash w ws -> unmangle (line inner w ws) = Some (line outer w ws)).
Proof.
  intros long_name value evaluate lead sp1 sp2 gap u full op l d H1 H2 H3 H4 H5 H6 H7 H8 H9 H10 H11 H12 H13 H14 H15 H16 scaled H17 before.
  exists (inner (Scaled l (Some full))). split; [|split; [reflexivity|intros w ws _; apply line_shown]].
  now apply preprocess_whole.
Qed.
Print Assumptions factor_displayed_partial.

(** A product with a power of ten is read as one number, for every spelling of it. *)
Theorem power_of_ten_partial : forall pre w f a b c pw d plus neg k post,
  boundary pre -> good_decimal w f -> blanks a -> blanks b -> blanks c -> power_sign pw -> blanks d -> all_digits k ->
  word_ends post -> no_power post ->
  scientific (pre ++ decimal w f ++ a ++ t "*" ++ b ++ t "10" ++ c ++ pw ++ d ++ opt "+"%char plus ++ opt dash neg ++ k ++ post)
  = pre ++ decimal w f ++ t "e" ++ opt dash neg ++ k ++ post.
Proof. exact scientific_exact. Qed.
Print Assumptions power_of_ten_partial.
Theorem bare_power_of_ten_partial : forall pre c pw d plus neg k post, boundary pre ->
  blanks c -> power_sign pw -> blanks d -> all_digits k -> word_ends post -> no_power post ->
  scientific (pre ++ t "10" ++ c ++ pw ++ d ++ opt "+"%char plus ++ opt dash neg ++ k ++ post) = pre ++ t "1e" ++ opt dash neg ++ k ++ post.
Proof. exact scientific_bare. Qed.
Print Assumptions bare_power_of_ten_partial.
Theorem no_power_of_ten : forall s, contains (t "**") s = false -> Forall (fun c => Ascii.eqb "^"%char c = false) s -> scientific s = s.
Proof. intros s A B. apply scientific_id. now split. Qed.

(** ** Where it fails *)
(** The full names of some units. *)
Definition names (u : text) : res text :=
  if teqb u (t "m") then Ok (t "meter") else if teqb u (t "s") then Ok (t "second") else
  if teqb u (t "ms") then Ok (t "millisecond") else if teqb u (t "e") then Ok (t "elementary_charge") else Ok u.
(** What the unit is read as, and how that is displayed; and the names defined with their definitions. *)
Definition read (s : string) : option (string * option string) :=
  match snd (preprocess names text (fun x => Ok x) (t s) []) with
  | Ok x => Some (string_of_list_ascii x, option_map string_of_list_ascii (unmangle x))
  | Err _ => None
  end.
Definition defined (ss : list string) : list (string * string) :=
  map (fun p => (string_of_list_ascii (fst p), string_of_list_ascii (snd p)))
      (fold_left (fun d s => fst (preprocess names text (fun x => Ok x) (t s) d)) ss []).

(** A number that starts with its point is displayed as a negative whole number, ... *)
Theorem leading_point_refuted : read "g / .5 m" = Some ("g / __5_meter", Some "g / -5 meter")%string.
Proof. vm_compute. reflexivity. Qed.
(** ... and shares its name with that number, so whichever is parsed first decides what the other is worth. *)
Theorem point_and_sign_refuted :
  defined ["g / .5 m"; "g / -5 m"]%string = [("__5_meter", ".5 m")]%string
  /\ defined ["g / -5 m"; "g / .5 m"]%string = [("__5_meter", "-5 m")]%string.
Proof. vm_compute. split; reflexivity. Qed.
(** A number that ends with its point stays internal; with an exponent it falls apart. *)
Theorem trailing_point_refuted :
  read "g / 5. m" = Some ("g / _5__meter", Some "g / 5__meter")%string
  /\ read "g / 1.e5 m" = Some ("g / _1_e5_meter", Some "g / 1 e5_meter")%string.
Proof. vm_compute. split; reflexivity. Qed.
(** A scaled unit whose text starts another one takes its place: 2 ms become the plural of 2 m. *)
Theorem prefix_refuted : read "g / 2 m / 2 ms" = Some ("g / _2_meter / _2_meters", Some "g / 2 meter / 2 meters")%string.
Proof. vm_compute. reflexivity. Qed.
(** An internal name that starts another one spoils its display. *)
Theorem prefix_displayed_refuted : read "F * 2 m / 2.5 s" = Some ("F * _2_meter / _2_5_second", Some "F * 2 meter / 2 5_second")%string.
Proof. vm_compute. reflexivity. Qed.
(** The exponent's letter is taken for the unit of that name. *)
Theorem exponent_unit_refuted :
  read "g / 1e5 e" = Some ("g / _1_elementary_charge5_elementary_charge", Some "g / 1 elementary_charge5_elementary_charge")%string.
Proof. vm_compute. reflexivity. Qed.
(** A digit group that ends like another number is replaced inside the number. *)
Theorem group_refuted : option_map fst (read "g / 2 m / 1_2 m") = Some "g / _2_meter / 1__2_meter"%string.
Proof. vm_compute. reflexivity. Qed.
(** The exponent of a unit is taken for the number before a power of ten: square metres times a thousand are read as
    metres to the power of 2000. *)
Theorem exponent_power_refuted :
  option_map fst (read "F / m ** 2 * 10 ** 3") = Some "F / m ** 2e3"%string.
Proof. vm_compute. reflexivity. Qed.
Print Assumptions exponent_power_refuted.

(** *** The hypotheses are met *)
Definition lit_ex : literal := mkLit (t "-+ -") [t "1"; t "250"] (Some [t "5"]) (Some ("E"%char, Some "-"%char, [t "03"])).
Example literal_ex :
  good_literal lit_ex /\ string_of_list_ascii (spelled lit_ex) = "-+ -1_250.5E-03"%string /\ string_of_list_ascii (shown lit_ex) = "1250.5E-03"%string
  /\ hd_error (signs lit_ex) <> Some " "%char /\ python_number lit_ex /\ ~ (worth lit_ex == 0)%Q /\ ~ (worth lit_ex == 1)%Q.
Proof.
  split; [|split; [reflexivity|split; [reflexivity|split; [discriminate|split; [discriminate|split; vm_compute; discriminate]]]]].
  unfold good_literal, lit_ex, grouped, all_digits, sign_char. cbn [signs whole fraction exponent].
  repeat match goal with |- _ /\ _ => split | |- Forall _ (_ :: _) => constructor | |- Forall _ [] => constructor | |- Forall _ (t _) => cbn [t list_ascii_of_string] end; cbn; auto; try discriminate.
Qed.
Example displayed_ex :
  read "g / -+ -1_250.5E-03 m" = Some ("g / _1250_5E_03_meter", Some "g / 1250.5E-03 meter")%string
  /\ (let w := Plain (t "gram") in let ws := [(" "%char, Plain []); ("/"%char, Plain []); (" "%char, Scaled lit_ex (Some (t "meter")))] in
      good_line w ws /\ no_clash w ws
      /\ string_of_list_ascii (line inner w ws) = "gram / _1250_5E_03_meter"%string /\ string_of_list_ascii (line outer w ws) = "gram / 1250.5E-03 meter"%string).
Proof.
  split; [vm_compute; reflexivity|]. cbv zeta. split; [|split; [|split; reflexivity]].
  - assert (E : good_word (Plain [])) by (split; [constructor|intros (b & a & E & _); destruct b; discriminate]).
    split.
    + split; [cbn; repeat constructor|]. intros (b & a & E0 & _). cbn in E0. assert (I : In us (b ++ us :: a)) by (apply in_or_app; right; now left).
      change ["g"%char; "r"%char; "a"%char; "m"%char] with (t "gram") in E0. change (list_ascii_of_string "gram") with (t "gram") in E0. rewrite <- E0 in I. cbn in I. intuition discriminate.
    + do 2 (apply Forall_cons; [split; [reflexivity|exact E]|]). apply Forall_cons; [|apply Forall_nil]. split; [reflexivity|]. split; [apply literal_ex|].
      exists "m"%char, (t "eter"). split; [reflexivity|]. split; [reflexivity|]. repeat constructor.
  - intros x y m X Y M. cbn in X. destruct X as [<-|[<-|[<-|[<-|[]]]]]; try discriminate M. cbn [mark] in M. assert (m = marked lit_ex ++ t "_") by congruence. subst m.
    cbn in Y. destruct Y as [<-|[<-|[<-|[<-|[]]]]]; try (vm_compute; reflexivity). left. split; [reflexivity|vm_compute; reflexivity].
Qed.
Example power_ex : string_of_list_ascii (scientific (t "F * 3.07 * 10 ** +2 / m")) = "F * 3.07e2 / m"%string /\ boundary (t "F * ").
Proof. split; [vm_compute; reflexivity|]. split; [|reflexivity]. repeat constructor; discriminate. Qed.

Print Assumptions no_power_of_ten.
Print Assumptions leading_point_refuted.
Print Assumptions point_and_sign_refuted.
Print Assumptions trailing_point_refuted.
Print Assumptions prefix_refuted.
Print Assumptions prefix_displayed_refuted.
Print Assumptions exponent_unit_refuted.
Print Assumptions group_refuted.
