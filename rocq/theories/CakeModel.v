(** Model of the cake and measurement demos: the scopes (gemd/demo/cake.py:33-66), how make_cake gives the runs of any recipe their
    particulars (cake.py:796-888) and the flexural tests (gemd/demo/measurement_example.py).
    Simplifications: numbers are rationals and rounding is left out; the level of validation is below FATAL; every run has a spec,
    as the runs of make_instance do; of the uids only that of the demo scope is kept. The attributes appended at cake.py:899-1046
    are fixed and not modelled. *)
From Coq Require Import String Ascii List Bool Arith ZArith QArith.
From Verif Require Import Base.
Import ListNotations.
Open Scope string_scope.
Open Scope list_scope.
Open Scope nat_scope.

(** ** cake.py:33-66 *)
Record scopes : Type := mkScopes { demo_scope : string; template_scope : string }.
Definition scopes0 : scopes := mkScopes "citrine-demo" "citrine-demo-template".
Definition change_scope (data : string) (templates : option string) (s : scopes) : scopes :=
  mkScopes data (match templates with None => (data ++ "-template")%string | Some t => t end).

(** ** Random numbers: [rand n] is the n-th draw of random.random(), [pick n k] the index the n-th draw chooses among k *)
Section Cake.
  Variable rand : nat -> Q.
  Variable pick : nat -> nat -> nat.
  Variable run_key : string.

  (** a quantity of a spec; [sq_nominal] is [None] if the value has no attribute nominal *)
  Record squant : Type := mkSQ { sq_nominal : option Q; sq_units : string }.
  Inductive rquant : Type := RNormal (mean std : Q) (units : string) | RUniform (lower upper : Q) (units : string).
  Record cspec : Type := mkCS { cs_uid : option string; cs_name : string; cs_tags : list string; cs_notes : option string;
                                cs_template : option string;
                                cs_absolute : option squant; cs_volume : option squant; cs_mass : option squant; cs_number : option squant }.
  Inductive ckind : Type := CMaterial | CProcess | CIngredient | COther.
  Record source : Type := mkSource { performed_by : string; performed_date : string }.
  Record crun : Type := mkCR { cr_kind : ckind; cr_spec : cspec; cr_name : string; cr_uid : option string; cr_tags : list string;
                               cr_notes : option string; cr_output : option nat; cr_source : option source;
                               cr_absolute : option rquant; cr_volume : option rquant; cr_mass : option rquant; cr_number : option rquant }.
  Definition runs : Type := nat -> crun.
  Definition put (h : runs) (i : nat) (r : crun) : runs := fun j => if j =? i then r else h j.

  (** cake.py:797-798 *)
  Definition producers : list string := ["Fresh Farm"; "Sunnydale"; "Greenbrook"].
  Definition drygoods : list string := ["Acme"; "A1"; "Reliable"; "Big Box"].
  Definition choose (n : nat) (l : list string) : string := nth (pick n (length l)) l "".
  Definition has (x : string) (l : list string) : bool := existsb (String.eqb x) l.

  (** cake.py:825-847: the four quantities *)
  Definition nominal_of (q : squant) : res Q := match sq_nominal q with Some x => Ok x | None => Err AttributeError end.
  Definition quantity (q : option squant) (f : Q -> string -> rquant) (old : option rquant) : res (option rquant) :=
    match q with None => Ok old | Some q => do x <- nominal_of q; Ok (Some (f x (sq_units q))) end.
  Definition fuzz_of (r : Q) : Q := ((95 # 100) + (1 # 10) * r)%Q.
  Definition scaled (fuzz x : Q) (u : string) : rquant := RNormal (fuzz * x)%Q ((5 # 100) * x)%Q u.
  Definition shifted (fuzz x : Q) (u : string) : rquant := RNormal ((1 # 100) * (fuzz - (1 # 2)) + x)%Q (5 # 1000)%Q u.
  Definition spread (fuzz x : Q) (u : string) : rquant := RUniform ((fuzz - (5 # 100)) * x)%Q ((fuzz + (5 # 100)) * x)%Q u.

  (** [item.source] of the process of the cake, at cake.py:824 *)
  Variable cake_process : nat.
  (** cake.py:802-847 *)
  Definition randomize (i : nat) (st : runs * nat) : res (runs * nat) :=
    let '(h, n) := st in
    let r := h i in
    let s := cr_spec r in
    match cr_kind r with
    | COther => Ok (h, n)
    | k =>
        do u <- match cs_uid s with Some u => Ok u | None => Err KeyError end;
        let uid := Some (u ++ "-" ++ run_key)%string in
        let tags := cs_tags s in
        let notes := match cs_notes s with
                     | Some t => if String.eqb t "" then cr_notes r else Some ("The spec says """ ++ t ++ """")%string
                     | None => cr_notes r
                     end in
        match k with
        | CMaterial =>
            let '(name, n') :=
              if has "raw material" tags
              then ((choose n (if has "produce" tags then producers else drygoods) ++ " " ++ cs_name s)%string, S n)
              else (cr_name r, n) in
            Ok (put h i (mkCR k s name uid tags notes (cr_output r) (cr_source r) (cr_absolute r) (cr_volume r) (cr_mass r) (cr_number r)), n')
        | CProcess =>
            match cs_template s with
            | None => Err AttributeError
            | Some t =>
                if String.eqb t "Procuring"
                then match cr_output r with
                     | None => Err AttributeError
                     | Some o => Ok (put h i (mkCR k s (t ++ " " ++ cr_name (h o))%string uid tags notes (cr_output r) (Some (mkSource "hamilton" "2015-02-17"))
                                               (cr_absolute r) (cr_volume r) (cr_mass r) (cr_number r)), n)
                     end
                else Ok (put h i (mkCR k s (cr_name r) uid tags notes (cr_output r) (cr_source (h cake_process)) (cr_absolute r) (cr_volume r) (cr_mass r) (cr_number r)), n)
            end
        | _ =>
            let fuzz := fuzz_of (rand n) in
            do a <- quantity (cs_absolute s) (scaled fuzz) (cr_absolute r);
            do v <- quantity (cs_volume s) (shifted fuzz) (cr_volume r);
            do m <- quantity (cs_mass s) (spread fuzz) (cr_mass r);
            do x <- quantity (cs_number s) (scaled fuzz) (cr_number r);
            Ok (put h i (mkCR k s (cr_name r) uid tags notes (cr_output r) (cr_source r) a v m x), S n)
        end
    end.
  (** cake.py:848: the objects in the order of the traversal *)
  Fixpoint randomize_all (l : list nat) (st : runs * nat) : res (runs * nat) :=
    match l with [] => Ok st | i :: r => do st' <- randomize i st; randomize_all r st' end.
End Cake.

(** ** cake.py:850-867: looking for materials by name *)
Section Find.
  (** the name of a material; the materials of the ingredients of its process ([None]: an ingredient without one);
      [None] if it has no process *)
  Variable name_of : nat -> string.
  Variable ingredients : nat -> option (list (option nat)).
  Fixpoint prefix_of (p s : string) : bool :=
    match p, s with EmptyString, _ => true | String a p', String b s' => Ascii.eqb a b && prefix_of p' s' | _, EmptyString => false end.
  (** [p in s] *)
  Fixpoint inside (p s : string) : bool :=
    prefix_of p s || match s with EmptyString => false | String _ s' => inside p s' end.
  (** cake.py:855-863; [None] if the depth [fuel] is not enough *)
  Fixpoint find_name (fuel : nat) (name : string) (m : nat) : option (res (option nat)) :=
    match fuel with
    | 0 => None
    | S f =>
        if inside name (name_of m) then Some (Ok (Some m))
        else match ingredients m with
             | None => Some (Err AttributeError)
             | Some l =>
                 (fix go (l : list (option nat)) : option (res (option nat)) :=
                    match l with
                    | [] => Some (Ok None)
                    | None :: _ => Some (Err AttributeError)
                    | Some x :: r => match find_name f name x with Some (Ok None) => go r | y => y end
                    end) l
             end
    end.
  (** cake.py:850-853: next(x.material for x in ingredients if part in x.name) *)
  Fixpoint next_named (part : string) (l : list (string * option nat)) : res (option nat) :=
    match l with [] => Err StopIteration | (n, m) :: r => if inside part n then Ok m else next_named part r end.
End Find.

(** ** cake.py:884-890: the uids of the measurements; the uid of a spec is its name in lower case *)
Definition measurement_uid (spec_uid material_uid run_key : string) : string := (spec_uid ++ "--" ++ material_uid ++ "-" ++ run_key)%string.
Definition cake_measurement_uids (cake frosting baked flour salt sugar run_key : string) : list string :=
  map (fun p => measurement_uid (fst p) (snd p) run_key)
      [("taste", cake); ("appearance", cake); ("taste", frosting); ("sweetness", frosting); ("doneness", baked);
       ("nutritional analysis", flour); ("elemental analysis", salt); ("elemental analysis", sugar)].

(** ** measurement_example.py:13-75 *)
Section Flexural.
  Open Scope Q_scope.
  Definition thickness : Q := 4.
  Definition width : Q := 10.
  Definition span : Q := 64.
  Definition applied_force : Q := 100.
  Record flexural : Type := mkFlex { fx_id : string; fx_tags : list string; fx_stress : Q * Q; fx_strain : Q * Q; fx_modulus : Q * Q; fx_deflection : Q }.
  Definition divide (x y : Q) : res Q := if Qeq_bool y 0 then Err ZeroDivisionError else Ok (x / y).
  (** measurement_example.py:38-75 *)
  Definition make_flexural (my_id : string) (deflection : Q) (extra_tags : list string) : res flexural :=
    do stress <- divide (3 * applied_force * span) (2 * thickness * thickness * width);
    do strain <- divide (6 * deflection * thickness) (span * span);
    do modulus <- divide stress strain;
    Ok (mkFlex my_id (["3_pt_bend"; "mechanical"; "flex"] ++ extra_tags)%list
               (stress, (1 # 100) * stress) (strain, (1 # 100) * strain) (modulus, (1 # 100) * modulus) deflection).
  (** measurement_example.py:22-35: eight letters, then the deflection, for each; [letters n] is the n-th letter drawn *)
  Definition random_id (letter : nat -> ascii) (n : nat) : string := fold_right String "" (map (fun i => letter (n + i)%nat) (seq 0 8)).
  Fixpoint make_demo (letter : nat -> ascii) (rand : nat -> Q) (k i : nat) (extra_tags : list string) : res (list flexural) :=
    match k with
    | O => Ok []
    | S k' =>
        do m <- make_flexural (random_id letter (9 * i)%nat) (rand (9 * i + 8)%nat) extra_tags;
        do l <- make_demo letter rand k' (S i) extra_tags;
        Ok (m :: l)
    end.
End Flexural.
