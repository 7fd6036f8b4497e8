(** C54: the regular expressions of the code. The functions of the unit model compute what the
    patterns in the source say, under the matching rules of Python's [re]; and the functions that
    are one pattern do what their documentation says. *)
From Coq Require Import String Ascii List Bool Arith.
From Verif Require Import Base PyStr ScaleModel BoundsModel ReModel ReSpec ReProofs.
Import ListNotations.
Open Scope list_scope.

(** x * 10 ** y becomes xey: the loop of the model is re.sub with the pattern of line 52. *)
Theorem scientific_is_pattern : forall s, scientific s = sub sci_re as_scientific s.
Proof. intros s. apply (sci_sub s None 0). Qed.
Print Assumptions scientific_is_pattern.
(** A mangled number is found where the pattern of line 208 finds it, and is replaced alike. *)
Theorem mangled_is_pattern : forall s,
  search false s = option_map (fun g => (text_of (group g 0), unmangled g)) (re_search number_re None s).
Proof. intros s. apply (search_re s None). Qed.
Print Assumptions mangled_is_pattern.
(** The term is replaced where the pattern of line 168 matches. *)
Theorem term_is_pattern : forall term new s, term <> [] -> sub_term term new false 0 s = sub (term_re term) (fun _ => new) s.
Proof. intros term new s N. now apply (term_sub term new N s None 0). Qed.
Print Assumptions term_is_pattern.
(** Lines 169-186: the two cleaned texts and the name. *)
Theorem stripped_is_pattern : forall x,
  stripped_term x = sub group_sep_re (fun _ => []) (replace_all (t "--") [] (sub plus_space_re (fun _ => []) (term x))).
Proof. intros x. unfold sub. rewrite (group_sep_sub _ None). now rewrite (proj1 (plus_space_sub (term x) None)). Qed.
Print Assumptions stripped_is_pattern.
Theorem stripped_unit_is_pattern : forall u,
  stripped_unit u = replace_all (t "--") [] (sub before_dot_re (fun _ => t "0") (sub plus_space_re (fun _ => []) u)).
Proof. intros u. unfold sub. rewrite (before_dot_sub _ None). now rewrite (proj1 (plus_space_sub u None)). Qed.
Print Assumptions stripped_unit_is_pattern.
Theorem underscored_is_pattern : forall s, underscored s = sub dash_dot_re (fun _ => t "_") s.
Proof. intros s. unfold sub. now rewrite dash_dot_sub. Qed.
Print Assumptions underscored_is_pattern.
(** The elements of a formula are what findall gives. *)
Theorem elements_are_found : forall s, map list_ascii_of_string (elements s) = re_findall element_re None 0 (list_ascii_of_string s).
Proof. intros s. symmetry. apply element_all. Qed.
Print Assumptions elements_are_found.

(** A version is the first that is assigned at the start of a line, quoted alike on both sides and
    alone on its line; a text without one is refused. *)
Theorem version_found : forall V (version : text -> res V) s pre v,
  assigns_version s pre v -> (forall pre' v', assigns_version s pre' v' -> length pre <= length pre') ->
  extract_version version s = version v.
Proof.
  intros V version s pre v A Min. unfold extract_version. pose proof (version_search s []) as H. cbn [app length] in H.
  change (last_of None []) with (@None ascii) in H. destruct (re_search version_re None s) as [g|].
  - destruct H as (p & w & -> & A' & U). cbn [text_of]. specialize (Min _ _ A').
    destruct (U pre v A (Nat.le_0_l _)) as [L|[_ ->]]; auto. exfalso. now apply Nat.lt_nge in L.
  - exfalso. eapply H; eauto. apply Nat.le_0_l.
Qed.
Print Assumptions version_found.
Theorem version_missing : forall V (version : text -> res V) s,
  (forall pre v, ~ assigns_version s pre v) -> extract_version version s = Err ValueError.
Proof.
  intros V version s N. unfold extract_version. pose proof (version_search s []) as H. cbn [app length] in H.
  change (last_of None []) with (@None ascii) in H. destruct (re_search version_re None s) as [g|]; auto.
  destruct H as (p & w & _ & A & _). now apply N in A.
Qed.
Print Assumptions version_missing.
Theorem version_unique : forall s pre v v', assigns_version s pre v -> assigns_version s pre v' -> v = v'.
Proof.
  intros s pre v v' A A'. destruct (assigns_prefix _ _ _ A) as [b ->]. apply assigns_iff in A. apply assigns_iff in A'.
  destruct A as [_ A], A' as [_ A']. apply versioned_iff in A. apply versioned_iff in A'. congruence.
Qed.
Print Assumptions version_unique.

(** A cleaned formula is the formula without its redundant ones, and only without those; it is
    clean. *)
Theorem clean_outcome : forall s r, formula_clean s = r <-> without_ones s 0 s r.
Proof.
  intros s r. rewrite clean_eq. pose proof (cleaned_without s []) as W. cbn [app length] in W. change (last_of None []) with (@None ascii) in W. split.
  - now intros <-.
  - intros H. eapply without_det; eauto.
Qed.
Print Assumptions clean_outcome.
Theorem clean_twice : forall s, formula_clean (formula_clean s) = formula_clean s.
Proof. intros s. rewrite !clean_eq. apply cleaned_idem. Qed.
Print Assumptions clean_twice.
(** In LaTeX, the numbers of the cleaned formula are subscripts, and nothing else is changed. *)
Theorem latex_outcome : forall s r, formula_latex s = r <-> marked_up (formula_clean s) 0 (formula_clean s) r.
Proof.
  intros s r. unfold formula_latex, sub. set (c := formula_clean s). clearbody c.
  pose proof (latex_marked (length c) c [] (Nat.le_refl _)) as W. cbn [app length] in W. change (last_of None []) with (@None ascii) in W. split.
  - now intros <-.
  - intros H. eapply marked_det; eauto.
Qed.
Print Assumptions latex_outcome.

(** Concrete cases. *)
Example re_ex :
  sub sci_re as_scientific (t "3.5 * 10^-2 m / 10 ** +6 s") = t "3.5e-2 m / 1e6 s"
  /\ option_map (fun g => (text_of (group g 0), unmangled g)) (re_search number_re None (t "g / __2_5e_3_kelvin")) = Some (t "__2_5e_3_", t "-2.5e-3 ")
  /\ sub (term_re (t "10 kg")) (fun _ => t "_10_kilogram") (t "g / 10 kg + 210 kg") = t "g / _10_kilogram + 210 kg"
  /\ sub group_sep_re (fun _ => []) (t "1_000_m") = t "1000_m"
  /\ sub before_dot_re (fun _ => t "0") (t "m**.5 s**0.5") = t "m**0.5 s**0.5"
  /\ re_findall element_re None 0 (t "Al2O3Fe") = [t "Al"; t "O"; t "Fe"]
  /\ formula_clean (t "Al1Ni2C1") = t "AlNi2C" /\ formula_latex (t "H2O1.5C1") = t "H$_{2}$O$_{1.5}$C".
Proof. vm_compute. repeat split; reflexivity. Qed.
Definition version_file : text := t "import os" ++ [newline] ++ t "__version__ = '1.2.3'" ++ [newline] ++ t "__version__ = '4'".
Example version_ex : extract_version (fun v => Ok v) version_file = Ok (t "1.2.3")
  /\ assigns_version version_file (t "import os" ++ [newline]) (t "1.2.3")
  /\ extract_version (fun v => Ok v) (t "__version__ = '1.2""") = Err ValueError
  /\ extract_version (fun v => Ok v) (t "x = '1.2'; __version__ = '1.2'") = Err ValueError.
Proof.
  split; [vm_compute; reflexivity|]. split; [|split; vm_compute; reflexivity].
  exists [], (t " "), (t " "), "'"%char, (newline :: t "__version__ = '4'").
  split; [reflexivity|]. split; [constructor|]. split; [repeat constructor|]. split; [repeat constructor|]. split; [now left|].
  split; [discriminate|]. split; [|split].
  - repeat (constructor; [first [right; reflexivity|left; reflexivity]|]). constructor.
  - right. now exists (t "import os").
  - right. eauto.
Qed.
