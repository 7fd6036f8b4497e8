(** Real bounds, continuous values and categorical distributions over the numbers Python has: integers
    of any size and IEEE 754 doubles.

    /repo/gemd/entity/bounds/real_bounds.py, gemd/entity/value/{uniform,normal,nominal}_real.py,
    gemd/entity/value/discrete_categorical.py, gemd/units/impl.py:259-295.

    [BoundsModel] and [ValuesModel] have the same code over exact rationals. Here the arithmetic is the
    one Python does: doubles are Flocq's [binary_float 53 1024] with one NaN, rounding to nearest, ties
    to even. Simplified: what pint does for a conversion is a list of multiplications, additions,
    subtractions and divisions by doubles ([step]), which ones is left open; unit texts are compared as
    strings and parsed by a function that is left open. *)
From Coq Require Import String List Bool ZArith.
From Flocq Require Import IEEE754.BinarySingleNaN Core.FLX.
From Verif Require Import Base.
Import ListNotations.
Open Scope string_scope.
Open Scope Z_scope.
Open Scope list_scope.

(** ** Numbers *)

Definition double := binary_float 53 1024.

#[export] Instance prec53 : Prec_gt_0 53 := eq_refl.
#[export] Instance prec53_emax : Prec_lt_emax 53 1024 := eq_refl.

Definition fmul (x y : double) : double := Bmult mode_NE x y.
Definition fadd (x y : double) : double := Bplus mode_NE x y.
Definition fsub (x y : double) : double := Bminus mode_NE x y.
Definition fdiv (x y : double) : double := Bdiv mode_NE x y.

(** A Python number: an [int] or a [float]. *)
Inductive num : Type := NInt (z : Z) | NFlo (x : double).

(** The double nearest to m * 2^e. *)
Definition nearest (m e : Z) : double := binary_normalize 53 1024 prec53 prec53_emax mode_NE m e false.

(** [float(x)]: an integer beyond the largest double raises OverflowError. *)
Definition to_float (n : num) : res double :=
  match n with
  | NInt z => let x := nearest z 0 in if is_finite x then Ok x else Err OverflowError
  | NFlo x => Ok x
  end.

(** [math.isfinite(x)], which converts its argument first. *)
Definition isfinite (n : num) : res bool := do x <- to_float n; Ok (is_finite x).

(** Python compares an integer with a float exactly, without rounding either. *)
Definition parts (x : double) : Z * Z :=
  match x with B754_finite s m e _ => ((if s then Zneg m else Zpos m), e) | _ => (0, 0) end.
Definition compare_parts (a b : Z * Z) : comparison :=
  let e := Z.min (snd a) (snd b) in (fst a * 2 ^ (snd a - e)) ?= (fst b * 2 ^ (snd b - e)).
Definition compare (a b : num) : option comparison :=
  match a, b with
  | NInt y, NInt z => Some (y ?= z)
  | NFlo x, NFlo y => Bcompare x y
  | NInt z, NFlo x =>
      match x with B754_nan => None | B754_infinity s => Some (if s then Gt else Lt) | _ => Some (compare_parts (z, 0) (parts x)) end
  | NFlo x, NInt z =>
      match x with B754_nan => None | B754_infinity s => Some (if s then Lt else Gt) | _ => Some (compare_parts (parts x) (z, 0)) end
  end.
(** [a > b], [a < b], [a >= b], [a <= b]; each is false if one of them is NaN. *)
Definition gt (a b : num) : bool := match compare a b with Some Gt => true | _ => false end.
Definition lt (a b : num) : bool := match compare a b with Some Lt => true | _ => false end.
Definition ge (a b : num) : bool := match compare a b with Some Gt | Some Eq => true | _ => false end.
Definition le (a b : num) : bool := match compare a b with Some Lt | Some Eq => true | _ => false end.

(** ** Units *)

(** What pint computes in a conversion, one operation after the other: [value * factor] for
    multiplicative units; for units with an offset it multiplies by the scale and adds the offset, and
    on the other side subtracts and divides. *)
Inductive step : Type := Times (k : double) | Plus (k : double) | Minus (k : double) | Over (k : double).
Definition do_step (x : double) (s : step) : double :=
  match s with Times k => fmul x k | Plus k => fadd x k | Minus k => fsub x k | Over k => fdiv x k end.
Definition do_steps (x : double) (l : list step) : double := fold_left do_step l x.

(** real_bounds.py:27-36: the attributes; [None] before they are first assigned. *)
Record rbounds : Type := mkRB { rb_lower : option double; rb_upper : option double; rb_units : string }.

Section Bounds.
  (** The conversion between two units, [None] if they are of different kind. *)
  Variable conversion : string -> string -> option (list step).
  (** [parse_units(text, return_unit=False)] *)
  Variable parse : string -> res string.

  (** units/impl.py:259-295; equal texts skip the computation. *)
  Definition convert_units (x : double) (from to : string) : res double :=
    if (from =? to)%string then Ok x
    else match conversion from to with None => Err IncompatibleUnitsError | Some l => Ok (do_steps x l) end.

  (** real_bounds.py:43-51; [None] is Python's None. *)
  Definition set_lower (b : rbounds) (v : option num) : res rbounds :=
    match v with
    | None => Err ValueError
    | Some n =>
        do f <- isfinite n;
        if negb f then Err ValueError
        else if match rb_upper b with Some u => gt n (NFlo u) | None => false end then Err ValueError
        else do x <- to_float n; Ok (mkRB (Some x) (rb_upper b) (rb_units b))
    end.

  (** real_bounds.py:58-66 *)
  Definition set_upper (b : rbounds) (v : option num) : res rbounds :=
    match v with
    | None => Err ValueError
    | Some n =>
        do f <- isfinite n;
        if negb f then Err ValueError
        else if match rb_lower b with Some l => lt n (NFlo l) | None => false end then Err ValueError
        else do x <- to_float n; Ok (mkRB (rb_lower b) (Some x) (rb_units b))
    end.

  (** real_bounds.py:78-84 *)
  Definition set_units (b : rbounds) (u : option string) : res rbounds :=
    match u with None => Err ValueError | Some u => do t <- parse u; Ok (mkRB (rb_lower b) (rb_upper b) t) end.

  (** real_bounds.py:27-34 *)
  Definition make_bounds (lo hi : option num) (u : option string) : res rbounds :=
    do b <- set_units (mkRB None None "") u; do b <- set_lower b lo; set_upper b hi.

  (** real_bounds.py:182-204. Only IncompatibleUnitsError is caught. Bounds that lack an end cannot be
      reached by users; reading them is a TypeError here. *)
  Definition convert_bounds (b : rbounds) (target : string) : res (option (double * double)) :=
    match rb_lower b, rb_upper b with
    | Some lo, Some hi =>
        match (do l <- convert_units lo (rb_units b) target; do h <- convert_units hi (rb_units b) target; Ok (l, h)) with
        | Ok p => Ok (Some p)
        | Err IncompatibleUnitsError => Ok None
        | Err e => Err e
        end
    | _, _ => Err TypeError
    end.

  (** real_bounds.py:110-124, for an argument that is a RealBounds or was turned into one. *)
  Definition contains (a b : rbounds) : res bool :=
    do c <- convert_bounds a (rb_units b);
    match c with
    | None => Ok false
    | Some (lower, upper) =>
        match rb_lower b, rb_upper b with
        | Some lo, Some hi => Ok (ge (NFlo lo) (NFlo lower) && le (NFlo hi) (NFlo upper))
        | _, _ => Err TypeError
        end
    end.

  (** real_bounds.py:146-163: the loop, with [lower] and [upper] so far. *)
  Fixpoint union_loop (unit_ : string) (lower upper : double) (others : list rbounds) : res (double * double) :=
    match others with
    | [] => Ok (lower, upper)
    | b :: r =>
        do c <- convert_bounds b unit_;
        match c with
        | None => Err IncompatibleUnitsError
        | Some (lo, hi) =>
            union_loop unit_ (if lt (NFlo lo) (NFlo lower) then lo else lower) (if gt (NFlo hi) (NFlo upper) then hi else upper) r
        end
    end.
  Definition union (a : rbounds) (others : list rbounds) : res rbounds :=
    match rb_lower a, rb_upper a with
    | Some lo, Some hi =>
        do p <- union_loop (rb_units a) lo hi others;
        make_bounds (Some (NFlo (fst p))) (Some (NFlo (snd p))) (Some (rb_units a))
    | _, _ => Err TypeError
    end.

  (** real_bounds.py:177-180: three assignments, one after the other. The state is returned also when
      an assignment raises. *)
  Definition after (b : rbounds) (r : res rbounds) : rbounds * option exn :=
    match r with Ok b' => (b', None) | Err e => (b, Some e) end.
  Definition update (a : rbounds) (others : list rbounds) : rbounds * option exn :=
    match union a others with
    | Err e => (a, Some e)
    | Ok r =>
        match after a (set_lower a (option_map NFlo (rb_lower r))) with
        | (a1, Some e) => (a1, Some e)
        | (a1, None) =>
            match after a1 (set_upper a1 (option_map NFlo (rb_upper r))) with
            | (a2, Some e) => (a2, Some e)
            | (a2, None) => after a2 (set_units a2 (Some (rb_units r)))
            end
        end
    end.

  (** What a user can do to bounds. *)
  Inductive op : Type := SetLower (v : option num) | SetUpper (v : option num) | SetUnits (u : option string) | Update (others : list rbounds).
  Definition do_op (b : rbounds) (o : op) : rbounds :=
    match o with
    | SetLower v => fst (after b (set_lower b v))
    | SetUpper v => fst (after b (set_upper b v))
    | SetUnits u => fst (after b (set_units b u))
    | Update others => fst (update b others)
    end.

  (** ** Continuous values *)

  (** uniform_real.py, normal_real.py, nominal_real.py: the numbers as they were given. *)
  Inductive cvalue : Type := CUniform (lo hi : num) (u : string) | CNormal (mean std : num) (u : string) | CNominal (x : num) (u : string).

  (** uniform_real.py:28-33 (the assertion compares the arguments as given; [None] is a TypeError and
      left out), continuous_value.py:33-42. *)
  Definition make_uniform (lo hi : num) (u : option string) : res cvalue :=
    match u with
    | None => Err ValueError
    | Some u => do t <- parse u; if le lo hi then Ok (CUniform lo hi t) else Err AssertionError
    end.

  (** uniform_real.py:35-50, normal_real.py:27-42, nominal_real.py *)
  Definition to_bounds (v : cvalue) : res rbounds :=
    match v with
    | CUniform lo hi u => make_bounds (Some lo) (Some hi) (Some u)
    | CNormal m _ u => make_bounds (Some m) (Some m) (Some u)
    | CNominal x u => make_bounds (Some x) (Some x) (Some u)
    end.
End Bounds.

(** ** Categorical distributions *)

(** discrete_categorical.py:44: [abs(sum(probabilities.values()) - 1.0) > 1.0e-9] for values that are
    floats. [sum] starts at the integer 0 and adds from left to right, as Python does before 3.12
    (later versions add with a correction term). *)
Definition zero : double := B754_zero false.
Definition one : double := nearest 1 0.
(** The double written 1.0e-9: 4835703278458517 * 2^-82. *)
Definition tolerance : double := nearest 4835703278458517 (-82).
Definition sum (l : list double) : double := fold_left fadd l zero.
Definition normalised (l : list double) : bool := negb (gt (NFlo (Babs (fsub (sum l) one))) (NFlo tolerance)).
