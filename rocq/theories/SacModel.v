(** Model of the Strehlow & Cook demo (gemd/demo/strehlow_and_cook.py): from a table of records to material runs
    (make_strehlow_objects), to a structured table (make_strehlow_table), to a display table (make_display_table), and
    minimal_subset.
    Simplifications: numbers are rationals and rounding is left out; values in the records are texts and every attribute of
    a record has a first scalar with a value; the level of validation is below FATAL, so that appending an attribute never
    raises; uids and tags are left out. *)
From Coq Require Import String Ascii List Bool Arith ZArith QArith.
From Verif Require Import Base PyStr ReModel.
Import ListNotations.
Open Scope string_scope.
Open Scope list_scope.
Open Scope nat_scope.

(** Values and other contents of the cells of a structured table, by their class; [CObject] is any class not named in the
    demo. *)
Inductive cell : Type :=
| CNone | CStr (s : string)
| CNominal (x : Q) (u : string) | CNormal (m sd : Q) (u : string) | CUniform (lo hi : Q) (u : string)
| CCategory (s : string) | CFormula (s : string) | CObject (n : nat).
Inductive cbounds : Type := RealB (u : string) | CatB (cs : list string) | CompB | OtherB (n : nat).

(** ** strehlow_and_cook.py:54-69; [type_text] is [str(type(x))] *)
Section Subset.
  Context {A : Type} (type_text : A -> string).
  Definition fingerprint (row : list A) : string := fold_right append "" (map type_text row).
  Fixpoint subset_from (seen : list string) (table : list (list A)) : list (list A) :=
    match table with
    | [] => []
    | row :: r =>
        let mask := fingerprint row in
        if existsb (String.eqb mask) seen then subset_from seen r else row :: subset_from (mask :: seen) r
    end.
  Definition minimal_subset (table : list (list A)) : list (list A) := subset_from [] table.
End Subset.

(** ** strehlow_and_cook.py:84-192: the templates *)
Inductive tkind : Type := PropertyK | ConditionK | ObjectK.
Definition truth : cbounds := CatB ["True"; "False"].
Definition attribute_feed : list (string * (tkind * cbounds)) :=
  [ ("Formula", (PropertyK, CompB));
    ("Crystallinity", (ConditionK, CatB ["Amorphous"; "Polycrystalline"; "Single crystalline"]));
    ("Color", (PropertyK, CatB ["Amber"; "Black"; "Blue"; "Bluish"; "Bronze"; "Brown"; "Brown-Black";
       "Copper-Red"; "Dark Brown"; "Dark Gray"; "Dark Green"; "Dark Red"; "Gray";
       "Light Gray"; "Ocher"; "Orange"; "Orange-Red"; "Pale Yellow"; "Red";
       "Red-Yellow"; "Violet"; "White"; "Yellow"; "Yellow-Orange"; "Yellow-White"]));
    ("Band gap", (PropertyK, RealB "eV"));
    ("Temperature", (ConditionK, RealB "K"));
    ("Temperature derivative of band gap", (PropertyK, RealB "eV/K"));
    ("Lasing", (PropertyK, truth));
    ("Cathodoluminescence", (PropertyK, truth));
    ("Mechanical luminescence", (PropertyK, truth));
    ("Photoluminescence", (PropertyK, truth));
    ("Electroluminescence", (PropertyK, truth));
    ("Thermoluminescence", (PropertyK, truth));
    ("Morphology", (ConditionK, CatB ["Thin film"; "Bulk"]));
    ("Electric field polarization", (ConditionK, CatB ["Parallel to A axis"; "Parallel to B axis"; "Parallel to C axis";
       "Perpendicular to B axis"; "Perpendicular to C axis"]));
    ("Phase", (ConditionK, CatB ["A"; "B"; "B1"; "B2"; "Fused quartz"; "Natural diamond"; "Rutile"; "Sapphire"; "Synthetic quartz"]));
    ("Crystal system", (ConditionK, CatB ["Cubic"; "Hexagonal"; "Orthorhombic"; "Tetragonal"; "Trigonal"]));
    ("Transition", (ConditionK, CatB ["Direct"; "Excitonic"; "Indirect"]));
    ("Bands", (ConditionK, CatB ["G1 to X1"; "G15 to G1"; "G15 to X1"; "G25 to G1"; "G25 to G12"; "G25 to G15"; "G6 to G8"; "G8 to G6+"; "L6+ to L6-"])) ].
Definition object_feed : list string := ["Sample preparation"; "Chemical"; "Band gap measurement"].
(** [tmpl[name]] *)
Definition tmpl (name : string) : option (tkind * cbounds) :=
  match dict_get name attribute_feed with
  | Some x => Some x
  | None => if existsb (String.eqb name) object_feed then Some (ObjectK, OtherB 0) else None
  end.
(** The attribute templates of "Band gap measurement": properties and conditions (there are no parameters). *)
Definition pick (names : list string) : list (string * cbounds) :=
  flat_map (fun n => match dict_get n attribute_feed with Some (_, b) => [(n, b)] | None => [] end) names.
Definition measurement_properties : list (string * cbounds) :=
  pick ["Band gap"; "Temperature derivative of band gap"; "Color"; "Lasing"; "Cathodoluminescence"; "Mechanical luminescence";
        "Photoluminescence"; "Electroluminescence"; "Thermoluminescence"].
Definition measurement_conditions : list (string * cbounds) :=
  pick ["Temperature"; "Crystallinity"; "Morphology"; "Electric field polarization"; "Phase"; "Crystal system"; "Transition"; "Bands"].

(** ** Material runs, as far as the tables read them. *)
Record tattr : Type := mkTA { ta_name : string; ta_value : cell; ta_origin : string; ta_notes : string }.
Record mtemplate : Type := mkMT { mt_properties : list (string * cbounds); mt_conditions : list (string * cbounds); mt_parameters : list (string * cbounds) }.
(** [ms_template] and the second component of a property: the name of the template, [None] without a template *)
Record mspec : Type := mkMS { ms_name : string; ms_template : option string; ms_properties : list (tattr * option string) }.
(** [me_template]: the template of the spec, [None] if there is no spec or it has none *)
Record meas : Type := mkME { me_template : option mtemplate; me_properties : list tattr; me_conditions : list tattr }.
Record comp : Type := mkC { c_spec : option mspec; c_measurements : list meas }.

Record header : Type := mkH { h_name : list string; h_bounds : option cbounds }.
Record structured : Type := mkS { s_headers : list header; s_content : list (list cell) }.

(** ** strehlow_and_cook.py:316-394 *)
(** [next(p.property.template for c in compounds for p in c.spec.properties)] *)
Fixpoint first_template (l : list comp) : res (option string) :=
  match l with
  | [] => Err StopIteration
  | c :: r =>
      match c_spec c with
      | None => Err AttributeError
      | Some s => match ms_properties s with (_, t) :: _ => Ok t | [] => first_template r end
      end
  end.
Definition terms : list string :=
  ["Band gap"; "Temperature derivative of band gap"; "Temperature"; "Color";
   "Lasing"; "Cathodoluminescence"; "Mechanical luminescence"; "Photoluminescence";
   "Electroluminescence"; "Thermoluminescence"; "Transition"; "Bands";
   "Electric field polarization"; "Crystallinity"; "Morphology"; "Phase"; "Crystal system"].
Definition attribute {A} (o : option A) : res A := match o with Some a => Ok a | None => Err AttributeError end.
Definition item {A} (o : option A) (e : exn) : res A := match o with Some a => Ok a | None => Err e end.
Fixpoint each {A B} (f : A -> res B) (l : list A) : res (list B) :=
  match l with [] => Ok [] | x :: r => do y <- f x; do ys <- each f r; Ok (y :: ys) end.
(** the dict of templates by name: of equal names the last one counts *)
Definition templates_by_name (m : mtemplate) : list (string * cbounds) :=
  dict_update (mt_properties m ++ mt_conditions m ++ mt_parameters m) [].
(** [list(filter(lambda y: y.name == name, l))], and its first value or None *)
Definition first_value (name : string) (l : list tattr) : cell :=
  match filter (fun y => String.eqb (ta_name y) name) l with x :: _ => ta_value x | [] => CNone end.
Definition comp_row (chem : string) (c : comp) : res (list cell) :=
  do s <- attribute (c_spec c);
  do vs <- each (fun term => do m <- item (hd_error (c_measurements c)) IndexError;
                             Ok (first_value term (me_properties m ++ me_conditions m))) terms;
  Ok (CStr (ms_name s) :: first_value chem (map fst (ms_properties s)) :: vs).
Definition make_strehlow_table (compounds : list comp) : res structured :=
  do chem_tmpl <- first_template compounds;
  do c0 <- item (hd_error compounds) IndexError;
  do s0 <- attribute (c_spec c0);
  do m0 <- item (hd_error (c_measurements c0)) IndexError;
  do mt <- attribute (me_template m0);
  do mat <- attribute (ms_template s0);
  do chem <- attribute chem_tmpl;
  do hs <- each (fun term => do b <- item (dict_get term (templates_by_name mt)) KeyError; Ok (mkH [mat; term] (Some b))) terms;
  do rows <- each (comp_row chem) compounds;
  Ok (mkS (mkH [mat; "Display name"] None :: mkH [mat; chem] (Some CompB) :: hs) rows).

(** ** strehlow_and_cook.py:397-451 *)
Inductive shown : Type := ShText (s : string) | ShNum (q : Q).
Definition header_kind (b : option cbounds) : res string :=
  match b with
  | Some (RealB u) => Ok ("Mean(" ++ u ++ ")")%string
  | Some (CatB _) => Ok "Category"
  | Some CompB => Ok "Formula"
  | None => Ok "Label"
  | Some (OtherB _) => Err KeyError
  end.
(** ['~'.join] *)
Fixpoint tilde (l : list string) : string :=
  match l with [] => "" | [x] => x | x :: r => (x ++ "~" ++ tilde r)%string end.
Definition header_text (h : header) : res string := do k <- header_kind (h_bounds h); Ok (tilde (h_name h ++ [k])).
(** ['Band gap' in text] *)
Fixpoint occurs (sub s : string) : bool :=
  startswith sub s || match s with EmptyString => false | String _ r => occurs sub r end.
Fixpoint first_index {A} (f : A -> bool) (l : list A) : option nat :=
  match l with [] => None | x :: r => if f x then Some 0 else option_map S (first_index f r) end.
(** [list.insert] *)
Definition insert_at {A} (i : nat) (x : A) (l : list A) : list A := firstn i l ++ x :: skipn i l.
Definition content (c : cell) : res shown :=
  match c with
  | CNominal x _ => Ok (ShNum x)
  | CNormal m _ _ => Ok (ShNum m)
  | CUniform lo hi _ => Ok (ShNum ((1 # 2) * (lo + hi)))
  | CCategory s => Ok (ShText s)
  | CFormula s => Ok (ShText s)
  | CStr s => Ok (ShText s)
  | CNone => Ok (ShText "")
  | CObject _ => Err KeyError
  end.
Definition uncert (c : cell) : res shown :=
  match c with
  | CNominal _ _ => Ok (ShText "")
  | CNormal _ sd _ => Ok (ShNum sd)
  | CUniform lo hi _ => Ok (ShNum ((29 # 100) * (hi - lo)))
  | CNone => Ok (ShText "")
  | _ => Err KeyError
  end.
Definition default_units (b : option cbounds) : res string :=
  match b with None => Err KeyError | Some (RealB u) => Ok u | Some _ => Err AttributeError end.
Definition display_row (i : nat) (row : list cell) : res (list shown) :=
  do xs <- each content row;
  do c <- item (nth_error row i) IndexError;
  do u <- uncert c;
  Ok (insert_at (i + 1) u xs).
Definition make_display_table (t : structured) : res (list (list shown)) :=
  do hs <- each header_text (s_headers t);
  do i <- item (first_index (occurs "Band gap") hs) AssertionError;
  do col <- item (nth_error (s_headers t) i) IndexError;
  do u <- default_units (h_bounds col);
  do rows <- each (display_row i) (s_content t);
  Ok (map ShText (insert_at (i + 1) (tilde (h_name col ++ [("Std Deviation(" ++ u ++ ")")%string])) hs) :: rows).

(** ** strehlow_and_cook.py:195-313 *)
Record pattr : Type := mkPA { i_name : string; i_value : string; i_uncertainty : option string; i_units : option string }.
Record prop : Type := mkP { p_attr : pattr; p_conditions : list pattr; p_data_type : option string; p_method : option string }.
Record record : Type := mkR { r_formula : string; r_properties : list prop }.

Section Objects.
  (** [float(text)], [convert_units], setting the units of a value, the setter of the formula of an EmpiricalFormula *)
  Variable to_float : string -> res Q.
  Variable convert : Q -> string -> string -> res Q.
  Variable units_error : string -> option exn.
  Variable formula_error : string -> option exn.

  Definition clean (s : string) : string := string_of_list_ascii (formula_clean (list_ascii_of_string s)).
  Definition latex (s : string) : string := string_of_list_ascii (formula_latex (list_ascii_of_string s)).

  Definition with_units {A} (u : string) (x : A) : res A := match units_error u with Some e => Err e | None => Ok x end.
  (** strehlow_and_cook.py:207-233 *)
  Definition real_mapper (p : pattr) : res cell :=
    match i_uncertainty p with
    | Some unc =>
        do u <- item (i_units p) KeyError;
        if String.eqb u "eV" then
          do x <- to_float (i_value p); do mean <- convert x u "aJ";
          do y <- to_float (i_value p); do sd <- convert y u "aJ";
          with_units "aJ" (CNormal mean sd "aJ")
        else
          do mean <- to_float (i_value p); do sd <- to_float unc;
          with_units u (CNormal mean sd u)
    | None =>
        do x <- to_float (i_value p); do u <- item (i_units p) KeyError;
        with_units u (CNominal x u)
    end.
  (** strehlow_and_cook.py:235-239 *)
  Definition content_value (b : cbounds) (p : pattr) : res cell :=
    match b with
    | RealB _ => real_mapper p
    | CatB _ => Ok (CCategory (i_value p))
    | CompB | OtherB _ => Err KeyError
    end.
  Definition name_map (n : string) : option string :=
    if String.eqb n "Phase" then Some "Crystal system" else if String.eqb n "Transition" then Some "Bands" else None.
  (** strehlow_and_cook.py:285-292: the template for an attribute, with its name *)
  Definition template_for (p : pattr) : res (string * (tkind * cbounds)) :=
    do t <- item (tmpl (i_name p)) KeyError;
    match name_map (i_name p) with
    | Some other =>
        match snd t with
        | CatB cs => if existsb (String.eqb (i_value p)) cs then Ok (i_name p, t)
                     else do t' <- item (tmpl other) KeyError; Ok (other, t')
        | _ => Err AttributeError
        end
    | None => Ok (i_name p, t)
    end.
  Definition origin_of (d : option string) : string :=
    match d with
    | Some d => if String.eqb d "EXPERIMENTAL" then "measured" else if String.eqb d "COMPUTATIONAL" then "computed" else "unknown"
    | None => "unknown"
    end.
  Definition method_of (m : option string) : string := ("Method: " ++ match m with Some m => m | None => "unreported" end)%string.
  (** strehlow_and_cook.py:274-285: what the two loops go over *)
  Definition attributes_of (p : prop) : list (pattr * string * string) :=
    map (fun a => (a, origin_of (p_data_type p), method_of (p_method p))) (p_attr p :: p_conditions p).
  (** strehlow_and_cook.py:280-311; [true] marks a property *)
  Fixpoint attributes_from (seen : list string) (l : list (pattr * string * string)) : res (list (bool * tattr)) :=
    match l with
    | [] => Ok []
    | (a, origin, method) :: r =>
        if existsb (String.eqb (i_name a)) seen then attributes_from seen r
        else
          do nt <- template_for a;
          let '(name, (k, b)) := nt in
          match k with
          | ObjectK => attributes_from (i_name a :: seen) r
          | _ =>
              do v <- content_value b a;
              do rest <- attributes_from (i_name a :: seen) r;
              Ok ((match k with PropertyK => true | _ => false end, mkTA name v origin method) :: rest)
          end
    end.
  Definition measurement_of (r : record) : res meas :=
    do l <- attributes_from [] (flat_map attributes_of (r_properties r));
    Ok (mkME (Some (mkMT measurement_properties measurement_conditions []))
             (map snd (filter (fun x => fst x) l)) (map snd (filter (fun x => negb (fst x)) l))).
  (** strehlow_and_cook.py:245-262; the origin of a property is "unknown" and its notes None by default *)
  Definition spec_for (formula : string) : res mspec :=
    match formula_error formula with
    | Some e => Err e
    | None => Ok (mkMS (latex formula) (Some "Chemical") [(mkTA "Formula" (CFormula formula) "unknown" "", Some "Formula")])
    end.
  (** strehlow_and_cook.py:241-313; [compounds] maps formulas to the numbers of their specs; a run is given with the number
      of its spec *)
  Fixpoint objects_from (compounds : list (string * nat)) (table : list record) : res (list (nat * comp)) :=
    match table with
    | [] => Ok []
    | r :: rest =>
        let formula := clean (r_formula r) in
        let '(id, compounds') := match dict_get formula compounds with
                                 | Some n => (n, compounds)
                                 | None => (length compounds, compounds ++ [(formula, length compounds)])
                                 end in
        do s <- spec_for formula;
        do m <- measurement_of r;
        do runs <- objects_from compounds' rest;
        Ok ((id, mkC (Some s) [m]) :: runs)
    end.
  Definition make_strehlow_objects (table : list record) : res (list (nat * comp)) := objects_from [] table.
End Objects.
