(** Model of the attribute setters of the value classes in gemd/entity/value/*.py and of
    gemd/enumeration/base_enumeration.py. *)
From Coq Require Import String Ascii List Bool ZArith QArith Qabs.
From Verif Require Import Base PyStr BoundsModel.
Import ListNotations.
Open Scope list_scope.

(** ** UniformInteger (uniform_integer.py:21-63) *)

(** The check [isinstance(x, (int, float)) and int(x) == x], lines 37 and 56: int() of NaN raises
    ValueError, of an infinity OverflowError. *)
Definition int_like (x : pynum) : res Z :=
  match x with
  | PyNone => Err TypeError
  | PyNaN => Err ValueError
  | PyInf | PyNegInf => Err OverflowError
  | PyInt z => Ok z
  | PyFloat q => if Z.eqb (Zpos (Qden (Qred q))) 1 then Ok (Qnum (Qred q)) else Err TypeError
  end.

(** uniform_integer.py:34-45 *)
Definition set_ulo (s : iattr) (x : pynum) : iattr * option exn :=
  match int_like x with
  | Err e => (s, Some e)
  | Ok z => match ihi s with
            | Some h => if (h <? z)%Z then (s, Some ValueError) else (mkI (Some z) (ihi s), None)
            | None => (mkI (Some z) (ihi s), None)
            end
  end.

(** uniform_integer.py:53-63; [int(None)] is a TypeError. *)
Definition set_uhi (s : iattr) (x : pynum) : iattr * option exn :=
  match int_like x with
  | Err e => (s, Some e)
  | Ok z => match ilo s with
            | Some l => if (z <? l)%Z then (s, Some ValueError) else (mkI (ilo s) (Some z), None)
            | None => (s, Some TypeError)
            end
  end.

(** uniform_integer.py:21-26 *)
Definition init_uniform (lo hi : pynum) : res iattr :=
  match set_ulo (mkI None None) lo with
  | (_, Some e) => Err e
  | (s, None) => match set_uhi s hi with (_, Some e) => Err e | (s', None) => Ok s' end
  end.

Inductive uop : Type := USetLo (x : pynum) | USetHi (x : pynum).
Definition ustep (s : iattr) (o : uop) : iattr * option exn :=
  match o with USetLo x => set_ulo s x | USetHi x => set_uhi s x end.
Definition urun (s : iattr) (ops : list uop) : iattr := fold_left (fun s o => fst (ustep s o)) ops s.

(** NominalInteger (nominal_integer.py:28-35) *)
Definition set_nominal_integer (old : option Z) (x : pynum) : option Z * option exn :=
  match int_like x with Ok z => (Some z, None) | Err e => (old, Some e) end.

(** ** UniformReal (uniform_real.py:30-35): plain attributes, checked by the constructor only. *)
Record ureal : Type := mkUR { ur_lo : pynum; ur_hi : pynum }.
Definition pynum_le (x y : pynum) : res bool :=
  match x, y with
  | PyNone, _ | _, PyNone => Err TypeError
  | PyNaN, _ | _, PyNaN => Ok false
  | PyNegInf, _ | _, PyInf => Ok true
  | PyInf, _ | _, PyNegInf => Ok false
  | _, _ => match num_value x, num_value y with Some a, Some b => Ok (Qle_bool a b) | _, _ => Ok false end
  end.
Definition init_uniform_real (lo hi : pynum) : res ureal :=
  do b <- pynum_le lo hi; if (b : bool) then Ok (mkUR lo hi) else Err AssertionError.
Definition set_ur_lo (s : ureal) (x : pynum) : ureal := mkUR x (ur_hi s).
Definition set_ur_hi (s : ureal) (x : pynum) : ureal := mkUR (ur_lo s) x.

(** ** InChI (inchi_value.py:28-42) *)
Inductive pystr : Type := SNoneV | SStr (s : string) | SNotStr.

Definition normal_inchi (v : string) : string :=
  if startswith "1s/" (lower v) then replace (take 2 v) "InChI=1S" v
  else if negb (startswith "inchi" (lower v)) then ("InChI=1S/" ++ v)%string
  else if negb (startswith "InChI" v) then replace (take 5 v) "InChI" v
  else v.

Definition set_inchi (old : option string) (x : pystr) : option string * option exn :=
  match x with
  | SNoneV => (None, None)
  | SStr s => (Some (normal_inchi s), None)
  | SNotStr => (old, Some TypeError)
  end.

(** ** EmpiricalFormula (empirical_formula.py:10-22, 51-62) *)
Definition nl : string := String (ascii_of_nat 10) EmptyString.
Definition periodic_table : string := (nl ++
"H   D   T                                                           He" ++ nl ++
"Li  Be                                          B   C   N   O   F   Ne" ++ nl ++
"Na  Mg                                          Al  Si  P   S   Cl  Ar" ++ nl ++
"K   Ca  Sc  Ti  V   Cr  Mn  Fe  Co  Ni  Cu  Zn  Ga  Ge  As  Se  Br  Kr" ++ nl ++
"Rb  Sr  Y   Zr  Nb  Mo  Tc  Ru  Rh  Pd  Ag  Cd  In  Sn  Sb  Te  I   Xe" ++ nl ++
"Cs  Ba      Hf  Ta  W   Re  Os  Ir  Pt  Au  Hg  Tl  Pb  Bi  Po  At  Rn" ++ nl ++
"Fr  Ra      Rf  Db  Sg  Bh  Hs  Mt  Ds  Rg  Cn  Nh  Fl  Mc  Lv  Ts  Og" ++ nl ++
nl ++
"La  Ce  Pr  Nd  Pm  Sm  Eu  Gd  Tb  Dy  Ho  Er  Tm  Yb  Lu" ++ nl ++
"Ac  Th  Pa  U   Np  Pu  Am  Cm  Bk  Cf  Es  Fm  Md  No  Lr" ++ nl)%string.

(** [re.split(r"\s+", s)]: [cur] is the field being read, [sep] whether the last character read was
    white space. *)
Fixpoint split_ws (cur : string) (sep : bool) (s : string) : list string :=
  match s with
  | EmptyString => [cur]
  | String c r =>
      if is_space c then
        (if sep then split_ws cur true r else cur :: split_ws "" true r)
      else split_ws (cur ++ String c "")%string false r
  end.
Definition all_elements : list string := split_ws "" false (strip periodic_table).

Definition set_formula (old : option string) (x : pystr) : option string * option exn :=
  match x with
  | SNoneV => (None, None)
  | SStr s => if subset (elements s) all_elements then (Some s, None) else (old, Some ValueError)
  | SNotStr => (old, Some TypeError)
  end.

(** ** DiscreteCategorical (discrete_categorical.py:37-49) *)

(** float arithmetic on the extended numbers; adding None raises TypeError. Values are exact
    rationals (no rounding). *)
Definition num_add (x y : pynum) : res pynum :=
  match x, y with
  | PyNone, _ | _, PyNone => Err TypeError
  | PyNaN, _ | _, PyNaN => Ok PyNaN
  | PyInf, PyNegInf | PyNegInf, PyInf => Ok PyNaN
  | PyInf, _ | _, PyInf => Ok PyInf
  | PyNegInf, _ | _, PyNegInf => Ok PyNegInf
  | PyInt a, PyInt b => Ok (PyInt (a + b))
  | PyInt a, PyFloat b => Ok (PyFloat (inject_Z a + b))
  | PyFloat a, PyInt b => Ok (PyFloat (a + inject_Z b))
  | PyFloat a, PyFloat b => Ok (PyFloat (a + b))
  end.
Fixpoint num_sum (acc : pynum) (l : list pynum) : res pynum :=
  match l with [] => Ok acc | x :: r => do s <- num_add acc x; num_sum s r end.

(** [abs(s - 1.0) > 1.0e-9] *)
Definition off_one (s : pynum) : bool :=
  match s with
  | PyInf | PyNegInf => true
  | PyInt z => negb (Qle_bool (Qabs (inject_Z z - 1)) (1 # 1000000000))
  | PyFloat q => negb (Qle_bool (Qabs (q - 1)) (1 # 1000000000))
  | _ => false
  end.

Inductive probarg : Type :=
| PrNone | PrStr (s : string) | PrDict (d : list (pyobj * pynum)) | PrOther.
Definition probs : Type := option (list (string * pynum)).

(** validate_str (setters.py:42-64) on every key. *)
Fixpoint validate_keys (d : list (pyobj * pynum)) : res (list (string * pynum)) :=
  match d with
  | [] => Ok []
  | (OStr k, v) :: r => do r' <- validate_keys r; Ok ((k, v) :: r')
  | (ONotStr, _) :: _ => Err TypeError
  end.

Definition set_probabilities (old : probs) (x : probarg) : probs * option exn :=
  match x with
  | PrNone => (None, None)
  | PrStr s => (Some [(s, PyFloat 1)], None)
  | PrDict d =>
      match num_sum (PyInt 0) (map snd d) with
      | Err e => (old, Some e)
      | Ok s => if off_one s then (old, Some ValueError)
                else match validate_keys d with
                     | Err e => (old, Some e)
                     | Ok d' => (Some d', None)
                     end
      end
  | PrOther => (old, Some TypeError)
  end.
Definition prun (s : probs) (ops : list probarg) : probs :=
  fold_left (fun s o => fst (set_probabilities s o)) ops s.

(** ** Enumerations (base_enumeration.py:29-79) *)
Record member : Type := mkMember { mvalue : string; msynonyms : list string }.
(** line 38 *)
Definition matches (m : member) : list string := lower (mvalue m) :: map lower (msynonyms m).

(** lines 42-66. *)
Definition from_str (cls : list member) (val : option string) (exception : bool) : res (option member) :=
  let result := match val with
                | None => None
                | Some v => find (fun m => existsb (String.eqb (strip (lower v))) (matches m)) cls
                end in
  match result, exception with
  | None, true => Err ValueError
  | _, _ => Ok result
  end.

(** Class creation: each member goes through [__new__] (lines 29-39) while the earlier ones are
    already in the class. Python's Enum then makes a member whose value equals an earlier one's an
    alias of it: the new object, with its synonyms, is dropped. Simplification: all values are
    strings. *)
Definition add_member (cls : list member) (m : member) : res (list member) :=
  match from_str cls (Some (mvalue m)) false with
  | Ok (Some _) => Err ValueError
  | _ => if existsb (fun m' => String.eqb (mvalue m') (mvalue m)) cls then Ok cls else Ok (cls ++ [m])
  end.
Fixpoint define_enum (cls : list member) (ms : list member) : res (list member) :=
  match ms with
  | [] => Ok cls
  | m :: r => do c <- add_member cls m; define_enum c r
  end.

(** [Class(value)]: Enum looks the exact value up and falls back to [_missing_], lines 72-79; a
    None from it makes Enum raise ValueError. *)
Definition enum_call (cls : list member) (v : string) : res member :=
  match find (fun m => String.eqb (mvalue m) v) cls with
  | Some m => Ok m
  | None => match from_str cls (Some v) false with
            | Ok (Some m) => Ok m
            | _ => Err ValueError
            end
  end.
