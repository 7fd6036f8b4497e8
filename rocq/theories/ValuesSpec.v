(** Specification for C30-C33: text matching, chemical symbols, probabilities. *)
From Coq Require Import String Ascii List Bool ZArith QArith Qabs.
From Verif Require Import Base PyStr BoundsModel BoundsSpec ValuesModel.
Import ListNotations.
Open Scope list_scope.

Definition blank (s : string) : Prop := forall i c, String.get i s = Some c -> is_space c = true.

(** No white space at either end. *)
Definition trimmed (s : string) : Prop :=
  (forall c r, s = String c r -> is_space c = false) /\
  (forall c r, s = (r ++ String c "")%string -> is_space c = false).

(** [s] reads as the spelling [t], up to case and surrounding white space. *)
Definition reads (s t : string) : Prop :=
  exists a core b, s = (a ++ core ++ b)%string /\ blank a /\ blank b /\ lower core = lower t.

Definition spelling (m : member) (t : string) : Prop := t = mvalue m \/ In t (msynonyms m).
Definition all_trimmed (cls : list member) : Prop := forall m t, In m cls -> spelling m t -> trimmed t.

(** [m] is the first member, in order of definition, that [s] reads as. *)
Definition first_read (cls : list member) (s : string) (m : member) : Prop :=
  exists l1 l2, cls = l1 ++ m :: l2 /\ (exists t, spelling m t /\ reads s t) /\
    forall m' t, In m' l1 -> spelling m' t -> ~ reads s t.

(** The 118 elements in order of atomic number, with deuterium and tritium. *)
Definition symbols : list string :=
 ["H"; "He"; "Li"; "Be"; "B"; "C"; "N"; "O"; "F"; "Ne"; "Na"; "Mg"; "Al"; "Si"; "P"; "S"; "Cl"; "Ar"; "K"; "Ca";
  "Sc"; "Ti"; "V"; "Cr"; "Mn"; "Fe"; "Co"; "Ni"; "Cu"; "Zn"; "Ga"; "Ge"; "As"; "Se"; "Br"; "Kr"; "Rb"; "Sr"; "Y";
  "Zr"; "Nb"; "Mo"; "Tc"; "Ru"; "Rh"; "Pd"; "Ag"; "Cd"; "In"; "Sn"; "Sb"; "Te"; "I"; "Xe"; "Cs"; "Ba"; "La"; "Ce";
  "Pr"; "Nd"; "Pm"; "Sm"; "Eu"; "Gd"; "Tb"; "Dy"; "Ho"; "Er"; "Tm"; "Yb"; "Lu"; "Hf"; "Ta"; "W"; "Re"; "Os"; "Ir";
  "Pt"; "Au"; "Hg"; "Tl"; "Pb"; "Bi"; "Po"; "At"; "Rn"; "Fr"; "Ra"; "Ac"; "Th"; "Pa"; "U"; "Np"; "Pu"; "Am"; "Cm";
  "Bk"; "Cf"; "Es"; "Fm"; "Md"; "No"; "Lr"; "Rf"; "Db"; "Sg"; "Bh"; "Hs"; "Mt"; "Ds"; "Rg"; "Cn"; "Nh"; "Fl"; "Mc";
  "Lv"; "Ts"; "Og"; "D"; "T"]%string.

(** [s] occurs inside [t]. *)
Definition occurs (s t : string) : Prop := exists a b, t = (a ++ s ++ b)%string.

(** Probabilities. *)
Fixpoint total (l : list (string * pynum)) : option Q :=
  match l with
  | [] => Some 0
  | (_, x) :: r => match num_value x, total r with Some a, Some b => Some (a + b) | _, _ => None end
  end.
Definition normalised (p : probs) : Prop :=
  match p with
  | None => True
  | Some l => exists q, total l = Some q /\ Qabs (q - 1) <= 1 # 1000000000
  end.
(** No NaN, and not both infinities, among the numbers of an argument. *)
Definition no_nan (a : probarg) : Prop :=
  match a with
  | PrDict d => ~ In PyNaN (map snd d) /\ ~ (In PyInf (map snd d) /\ In PyNegInf (map snd d))
  | _ => True
  end.
