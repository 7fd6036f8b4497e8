(** What real bounds mean as sets of real numbers, and how far doubles may be off. *)
From Coq Require Import String List ZArith Reals.
From Flocq Require Import Core IEEE754.BinarySingleNaN.
From Verif Require Import Base FloatModel.
Import ListNotations.
Open Scope R_scope.

(** The real number a double stands for. *)
Definition value (x : double) : R := B2R x.
Definition finite (x : double) : Prop := is_finite x = true.

(** The real number nearest to [r] that a double can hold, ties to even; no limit on large numbers. *)
Definition rnd (r : R) : R := round radix2 (FLT_exp (-1074) 53) ZnearestE r.

(** Half a unit in the last place: 2^-53 relative, 2^-1075 near zero. *)
Definition slack (r : R) : R := Rabs r * bpow radix2 (-53) + bpow radix2 (-1075).

(** The first power of two a double cannot reach. *)
Definition limit : R := bpow radix2 1024.

(** [b] are the bounds from [lo] to [hi], in units [u]. *)
Definition spans (b : rbounds) (lo hi : R) (u : string) : Prop :=
  exists l h, b = mkRB (Some l) (Some h) u /\ finite l /\ finite h /\ value l = lo /\ value h = hi.

(** The number a user gave: an integer of any size or a finite double. *)
Inductive stands_for : num -> R -> Prop :=
| sf_int : forall z, stands_for (NInt z) (IZR z)
| sf_float : forall x, finite x -> stands_for (NFlo x) (value x).

(** The number a value given as [n] is stored with. *)
Definition stored (n : num) (r : R) : Prop := exists e, stands_for n e /\ r = rnd e /\ Rabs r < limit.

(** A conversion pint makes: finite numbers, and those that multiply or divide are positive. *)
Definition proper (s : step) : Prop :=
  match s with Times k | Over k => finite k /\ 0 < value k | Plus k | Minus k => finite k end.

Definition total (l : list double) : R := fold_right (fun x s => value x + s) 0 l.
