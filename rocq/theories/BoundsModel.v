(** Model of gemd/entity/bounds/*.py and of the value classes in gemd/entity/value/*.py.
    Simplifications: floating-point numbers are exact rationals (plus None, NaN and the infinities
    where a caller may supply them); a category set is a list used through membership only; a unit
    is the affine map pint applies to it (dimension, scale, offset). *)
From Coq Require Import String Ascii List Bool ZArith QArith.
From Verif Require Import Base PyStr.
Import ListNotations.
Open Scope list_scope.

(** What a caller may pass as a number. *)
Inductive pynum : Type :=
| PyNone | PyInt (z : Z) | PyFloat (q : Q) | PyNaN | PyInf | PyNegInf.

Definition num_value (x : pynum) : option Q :=
  match x with PyInt z => Some (inject_Z z) | PyFloat q => Some q | _ => None end.

(** ** Units (gemd/units/impl.py:260-299 [convert_units]).
    Two units are interconvertible when they have the same root units; the conversion is affine.
    The "same unit string" shortcut at line 281 is the identity, as is this map. *)
Record uunit : Type := mkUnit { udim : list Z; uscale : Q; uoff : Q }.

Fixpoint dim_eqb (a b : list Z) : bool :=
  match a, b with
  | [], [] => true
  | x :: r, y :: s => Z.eqb x y && dim_eqb r s
  | _, _ => false
  end.

Definition to_base (u : uunit) (x : Q) : Q := x * uscale u + uoff u.

Definition convert (x : Q) (u v : uunit) : res Q :=
  if dim_eqb (udim u) (udim v) then Ok ((to_base u x - uoff v) / uscale v)
  else Err IncompatibleUnitsError.

(** ** Bounds objects once constructed. *)
Inductive bounds : Type :=
| BReal (lo hi : Q) (u : uunit)   (* real_bounds.py:26-33 *)
| BInt (lo hi : Z)                (* integer_bounds.py:25-30 *)
| BCat (cs : list string)         (* categorical_bounds.py:23-25 *)
| BComp (cs : list string)        (* composition_bounds.py:24-26 *)
| BMol.                           (* molecular_structure_bounds.py:16 *)

(** *** IntegerBounds attribute setters, with the attributes None until first set. *)
Record iattr : Type := mkI { ilo : option Z; ihi : option Z }.

(** [int(value) == float(value)] for a Python int: exact only if the int has at most 53
    significant bits; [isfinite]/[float] raise OverflowError from 2^1024 - 2^970 on, where the nearest
    53-bit number would be 2^1024. *)
Definition float_exact (z : Z) : bool :=
  let a := Z.abs z in
  if (a <? 2 ^ 53)%Z then true
  else let k := (Z.log2 a - 52)%Z in (a mod 2 ^ k =? 0)%Z.

Definition int_checked (x : pynum) : res Z :=
  match x with
  | PyNone => Err ValueError
  | PyNaN | PyInf | PyNegInf => Err ValueError
  | PyInt z => if (Z.abs z <? 2 ^ 1024 - 2 ^ 970)%Z
               then (if float_exact z then Ok z else Err ValueError)
               else Err OverflowError
  | PyFloat q => if Z.eqb (Zpos (Qden (Qred q))) 1 then Ok (Qnum (Qred q)) else Err ValueError
  end.

(** integer_bounds.py:37-45 *)
Definition set_ilo (s : iattr) (x : pynum) : iattr * option exn :=
  match int_checked x with
  | Err e => (s, Some e)
  | Ok z => match ihi s with
            | Some h => if (h <? z)%Z then (s, Some ValueError) else (mkI (Some z) (ihi s), None)
            | None => (mkI (Some z) (ihi s), None)
            end
  end.

(** integer_bounds.py:52-60 *)
Definition set_ihi (s : iattr) (x : pynum) : iattr * option exn :=
  match int_checked x with
  | Err e => (s, Some e)
  | Ok z => match ilo s with
            | Some l => if (z <? l)%Z then (s, Some ValueError) else (mkI (ilo s) (Some z), None)
            | None => (mkI (ilo s) (Some z), None)
            end
  end.

(** integer_bounds.py:25-30 *)
Definition init_int (lo hi : pynum) : res iattr :=
  match set_ilo (mkI None None) lo with
  | (_, Some e) => Err e
  | (s, None) => match set_ihi s hi with (_, Some e) => Err e | (s', None) => Ok s' end
  end.

Definition iattr_bounds (s : iattr) : res bounds :=
  match ilo s, ihi s with Some l, Some h => Ok (BInt l h) | _, _ => Err TypeError end.

(** *** RealBounds attribute setters. *)
Record rattr : Type := mkR { rlo : option Q; rhi : option Q; runit : uunit }.

Definition finite_checked (x : pynum) : res Q :=
  match num_value x with Some q => Ok q | None => Err ValueError end.

(** real_bounds.py:40-48 *)
Definition set_rlo (s : rattr) (x : pynum) : rattr * option exn :=
  match finite_checked x with
  | Err e => (s, Some e)
  | Ok q => match rhi s with
            | Some h => if Qle_bool q h then (mkR (Some q) (rhi s) (runit s), None)
                        else (s, Some ValueError)
            | None => (mkR (Some q) (rhi s) (runit s), None)
            end
  end.

(** real_bounds.py:55-63 *)
Definition set_rhi (s : rattr) (x : pynum) : rattr * option exn :=
  match finite_checked x with
  | Err e => (s, Some e)
  | Ok q => match rlo s with
            | Some l => if Qle_bool l q then (mkR (rlo s) (Some q) (runit s), None)
                        else (s, Some ValueError)
            | None => (mkR (rlo s) (Some q) (runit s), None)
            end
  end.

(** real_bounds.py:75-81; [None] stands for Python's None, a unit is already parsed. *)
Definition set_runit (s : rattr) (u : option uunit) : rattr * option exn :=
  match u with
  | None => (s, Some ValueError)
  | Some u => (mkR (rlo s) (rhi s) u, None)
  end.

(** real_bounds.py:26-33 *)
Definition init_real (lo hi : pynum) (u : option uunit) : res rattr :=
  match u with
  | None => Err ValueError
  | Some u =>
      match set_rlo (mkR None None u) lo with
      | (_, Some e) => Err e
      | (s, None) => match set_rhi s hi with (_, Some e) => Err e | (s', None) => Ok s' end
      end
  end.

Definition rattr_bounds (s : rattr) : res bounds :=
  match rlo s, rhi s with Some l, Some h => Ok (BReal l h (runit s)) | _, _ => Err TypeError end.

Definition new_real (lo hi : pynum) (u : uunit) : res bounds :=
  do s <- init_real lo hi (Some u); rattr_bounds s.
Definition new_int (lo hi : pynum) : res bounds :=
  do s <- init_int lo hi; iattr_bounds s.

(** *** Category and component setters. *)
Inductive pyobj : Type := OStr (s : string) | ONotStr.
Inductive pyset : Type := SNone | SCollection (l : list pyobj) | SOther.

Definition obj_is_str (o : pyobj) : bool := match o with OStr _ => true | ONotStr => false end.

(** categorical_bounds.py:32-44 and composition_bounds.py:33-46: the attribute is assigned before
    the string check, so a ValueError from the check leaves the new content in place. *)
Definition set_categories (old : list pyobj) (x : pyset) : list pyobj * option exn :=
  match x with
  | SNone => ([], None)
  | SOther => (old, Some ValueError)
  | SCollection l => if forallb obj_is_str l then (l, None) else (l, Some ValueError)
  end.

Definition obj_strings (l : list pyobj) : list string :=
  flat_map (fun o => match o with OStr s => [s] | ONotStr => [] end) l.

(** ** Values *)
Inductive value : Type :=
| VNominalReal (nominal : pynum) (u : uunit)              (* nominal_real.py *)
| VUniformReal (lo hi : pynum) (u : uunit)                (* uniform_real.py *)
| VNormalReal (mean std : pynum) (u : uunit)              (* normal_real.py *)
| VNominalInteger (z : Z)                                 (* nominal_integer.py *)
| VUniformInteger (lo hi : Z)                             (* uniform_integer.py *)
| VNominalCategorical (c : option string)                 (* nominal_categorical.py *)
| VDiscreteCategorical (p : option (list (string * Q)))   (* discrete_categorical.py *)
| VNominalComposition (q : list (string * Q))             (* nominal_composition.py *)
| VEmpiricalFormula (f : option string)                   (* empirical_formula.py *)
| VInChI (s : option string)                              (* inchi_value.py *)
| VSmiles (s : option string).                            (* smiles_value.py *)

(** empirical_formula.py:46-49: re.findall('[A-Z][a-z]* ', value), greedy, left to right.
    [cur] is the token being read, reversed. *)
Fixpoint elements_go (cur : option string) (s : string) : list string :=
  match s with
  | EmptyString => match cur with Some t => [t] | None => [] end
  | String c r =>
      if is_upper c then
        match cur with
        | Some t => t :: elements_go (Some (String c EmptyString)) r
        | None => elements_go (Some (String c EmptyString)) r
        end
      else match cur with
           | Some t => if is_lower c then elements_go (Some (t ++ String c EmptyString)%string) r
                       else t :: elements_go None r
           | None => elements_go None r
           end
  end.
Definition elements (s : string) : list string := elements_go None s.

(** [_to_bounds] of each class (cited above); nominal_categorical.py:47 builds {None} when no
    category is set, discrete_categorical.py:62 calls set(None), empirical_formula.py:75 calls
    re.findall on None. *)
Definition to_bounds (v : value) : res bounds :=
  match v with
  | VNominalReal x u => new_real x x u
  | VUniformReal lo hi u => new_real lo hi u
  | VNormalReal m _ u => new_real m m u
  | VNominalInteger z => new_int (PyInt z) (PyInt z)
  | VUniformInteger lo hi => new_int (PyInt lo) (PyInt hi)
  | VNominalCategorical (Some c) => Ok (BCat [c])
  | VNominalCategorical None => Err ValueError
  | VDiscreteCategorical (Some p) => Ok (BCat (keys p))
  | VDiscreteCategorical None => Err TypeError
  | VNominalComposition q => Ok (BComp (keys q))
  | VEmpiricalFormula (Some f) => Ok (BComp (elements f))
  | VEmpiricalFormula None => Err TypeError
  | VInChI _ | VSmiles _ => Ok BMol
  end.

(** ** contains *)
Inductive carg : Type := ANone | ABounds (b : bounds) | AValue (v : value) | AOther.

Definition subset (a b : list string) : bool :=
  forallb (fun x => existsb (String.eqb x) b) a.

(** real_bounds.py:182-204 [_convert_bounds] *)
Definition convert_bounds (lo hi : Q) (u target : uunit) : option (Q * Q) :=
  match convert lo u target, convert hi u target with
  | Ok l, Ok h => Some (l, h)
  | _, _ => None
  end.

(** integer_bounds.py:88-91, real_bounds.py:111-118, categorical_bounds.py:73-76,
    composition_bounds.py:74-77, molecular_structure_bounds.py:45-48: the class-specific tail. *)
Definition contains_bounds (self other : bounds) : bool :=
  match self, other with
  | BInt lo hi, BInt lo' hi' => ((lo <=? lo') && (hi' <=? hi))%Z%bool
  | BReal lo hi u, BReal lo' hi' u' =>
      match convert_bounds lo hi u u' with
      | None => false
      | Some (l, h) => Qle_bool l lo' && Qle_bool hi' h
      end
  | BCat cs, BCat cs' => subset cs' cs
  | BComp cs, BComp cs' => subset cs' cs
  | BMol, BMol => true
  | _, _ => false
  end.

(** base_bounds.py:16-41 followed by the class-specific part. *)
Definition contains (self : bounds) (x : carg) : res bool :=
  match x with
  | ANone => Ok false
  | AOther => Err TypeError
  | ABounds b => Ok (contains_bounds self b)
  | AValue v => do b <- to_bounds v; Ok (contains_bounds self b)
  end.

(** ** union and update *)
Inductive kind : Type := KReal | KInt | KCat | KComp | KMol.
Definition kind_eqb (a b : kind) : bool :=
  match a, b with
  | KReal, KReal | KInt, KInt | KCat, KCat | KComp, KComp | KMol, KMol => true
  | _, _ => false
  end.
Definition bounds_kind (b : bounds) : kind :=
  match b with BReal _ _ _ => KReal | BInt _ _ => KInt | BCat _ => KCat | BComp _ => KComp | BMol => KMol end.
Definition value_kind (v : value) : kind :=
  match v with
  | VNominalReal _ _ | VUniformReal _ _ _ | VNormalReal _ _ _ => KReal
  | VNominalInteger _ | VUniformInteger _ _ => KInt
  | VNominalCategorical _ | VDiscreteCategorical _ => KCat
  | VNominalComposition _ | VEmpiricalFormula _ => KComp
  | VInChI _ | VSmiles _ => KMol
  end.
Definition arg_has_kind (k : kind) (x : carg) : bool :=
  match x with
  | ABounds b => kind_eqb k (bounds_kind b)
  | AValue v => kind_eqb k (value_kind v)
  | _ => false
  end.
Definition arg_bounds (x : carg) : res bounds :=
  match x with ABounds b => Ok b | AValue v => to_bounds v | _ => Err TypeError end.

(** The loops at real_bounds.py:151-160 ... *)
Fixpoint union_real (lo hi : Q) (u : uunit) (others : list carg) : res (Q * Q) :=
  match others with
  | [] => Ok (lo, hi)
  | x :: r =>
      do b <- arg_bounds x;
      match b with
      | BReal lo' hi' u' =>
          match convert_bounds lo' hi' u' u with
          | None => Err IncompatibleUnitsError
          | Some (l, h) =>
              union_real (if Qle_bool lo l then lo else l) (if Qle_bool h hi then hi else h) u r
          end
      | _ => Err TypeError
      end
  end.
(** ... integer_bounds.py:123-129 ... *)
Fixpoint union_int (lo hi : Z) (others : list carg) : res (Z * Z) :=
  match others with
  | [] => Ok (lo, hi)
  | x :: r =>
      do b <- arg_bounds x;
      match b with
      | BInt lo' hi' => union_int (if lo' <? lo then lo' else lo)%Z (if hi <? hi' then hi' else hi)%Z r
      | _ => Err TypeError
      end
  end.
(** ... and categorical_bounds.py:107-111, composition_bounds.py:108-112. *)
Fixpoint union_set (cs : list string) (others : list carg) : res (list string) :=
  match others with
  | [] => Ok cs
  | x :: r =>
      do b <- arg_bounds x;
      match b with
      | BCat cs' | BComp cs' => union_set (cs ++ cs') r
      | _ => Err TypeError
      end
  end.

(** integer_bounds.py:93-130, real_bounds.py:120-161, categorical_bounds.py:78-112,
    composition_bounds.py:79-113, molecular_structure_bounds.py:50-79 *)
Definition union (self : bounds) (others : list carg) : res bounds :=
  if forallb (arg_has_kind (bounds_kind self)) others then
    match self with
    | BReal lo hi u => do (l, h) <- union_real lo hi u others; new_real (PyFloat l) (PyFloat h) u
    | BInt lo hi => do (l, h) <- union_int lo hi others; new_int (PyInt l) (PyInt h)
    | BCat cs => do c <- union_set cs others; Ok (BCat c)
    | BComp cs => do c <- union_set cs others; Ok (BComp c)
    | BMol => Ok BMol
    end
  else Err TypeError.

(** integer_bounds.py:132-148, real_bounds.py:163-180, categorical_bounds.py:114-128,
    composition_bounds.py:115-129, molecular_structure_bounds.py:81-95 (a no-op, whatever the
    arguments). The new state and the exception, if any. *)
Definition update (self : bounds) (others : list carg) : bounds * option exn :=
  match self with
  | BMol => (BMol, None)
  | BReal lo hi u =>
      match union self others with
      | Err e => (self, Some e)
      | Ok (BReal l h u') =>
          match set_rlo (mkR (Some lo) (Some hi) u) (PyFloat l) with
          | (_, Some e) => (self, Some e)
          | (s1, None) =>
              match set_rhi s1 (PyFloat h) with
              | (_, Some e) => (BReal l hi u, Some e)
              | (_, None) => (BReal l h u', None)
              end
          end
      | Ok _ => (self, Some AttributeError)
      end
  | BInt lo hi =>
      match union self others with
      | Err e => (self, Some e)
      | Ok (BInt l h) =>
          match set_ilo (mkI (Some lo) (Some hi)) (PyInt l) with
          | (_, Some e) => (self, Some e)
          | (s1, None) =>
              match set_ihi s1 (PyInt h) with
              | (_, Some e) => (BInt l hi, Some e)
              | (_, None) => (BInt l h, None)
              end
          end
      | Ok _ => (self, Some AttributeError)
      end
  | BCat _ | BComp _ =>
      match union self others with
      | Err e => (self, Some e)
      | Ok b => (b, None)
      end
  end.

(** A history of assignments and updates on one bounds object. Assigning lower_bound to bounds that
    have no such attribute is left out (no-op). *)
Inductive bop : Type :=
| OSetLo (x : pynum) | OSetHi (x : pynum) | OSetUnits (u : option uunit) | OUpdate (others : list carg).

Definition bstep (b : bounds) (o : bop) : bounds * option exn :=
  match b, o with
  | BReal lo hi u, OSetLo x =>
      let (s, e) := set_rlo (mkR (Some lo) (Some hi) u) x in
      match rattr_bounds s with Ok b' => (b', e) | Err e' => (b, Some e') end
  | BReal lo hi u, OSetHi x =>
      let (s, e) := set_rhi (mkR (Some lo) (Some hi) u) x in
      match rattr_bounds s with Ok b' => (b', e) | Err e' => (b, Some e') end
  | BReal lo hi u, OSetUnits v =>
      let (s, e) := set_runit (mkR (Some lo) (Some hi) u) v in
      match rattr_bounds s with Ok b' => (b', e) | Err e' => (b, Some e') end
  | BInt lo hi, OSetLo x =>
      let (s, e) := set_ilo (mkI (Some lo) (Some hi)) x in
      match iattr_bounds s with Ok b' => (b', e) | Err e' => (b, Some e') end
  | BInt lo hi, OSetHi x =>
      let (s, e) := set_ihi (mkI (Some lo) (Some hi)) x in
      match iattr_bounds s with Ok b' => (b', e) | Err e' => (b, Some e') end
  | _, OUpdate others => update b others
  | _, _ => (b, None)
  end.

Definition brun (b : bounds) (ops : list bop) : bounds :=
  fold_left (fun b o => fst (bstep b o)) ops b.
