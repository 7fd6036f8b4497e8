(** What the tables of the Strehlow & Cook demo should hold, independent of how SacModel.v computes them. *)
From Coq Require Import String Ascii List Bool Arith ZArith QArith.
From Verif Require Import Base SacModel.
Import ListNotations.
Open Scope string_scope.
Open Scope list_scope.
Open Scope nat_scope.

(** In the same order, some left out. *)
Inductive subsequence {A} : list A -> list A -> Prop :=
| sub_nil : subsequence [] []
| sub_keep x l m : subsequence l m -> subsequence (x :: l) (x :: m)
| sub_drop x l m : subsequence l m -> subsequence l (x :: m).
Fixpoint has_char (c : ascii) (s : string) : Prop := match s with "" => False | String d r => c = d \/ has_char c r end.
(** How Python writes a class with this name. *)
Definition class_text (name : string) : string := ("<class '" ++ name ++ "'>")%string.

(** A heading: the parts of the name of a column and what is shown of its values, with tildes between. *)
Inductive joined : list string -> string -> Prop :=
| join_one x : joined [x] x
| join_more x y l s : joined (y :: l) s -> joined (x :: y :: l) (x ++ "~" ++ s)%string.
Inductive kind_shown : option cbounds -> string -> Prop :=
| kind_label : kind_shown None "Label"
| kind_real u : kind_shown (Some (RealB u)) ("Mean(" ++ u ++ ")")
| kind_category cs : kind_shown (Some (CatB cs)) "Category"
| kind_formula : kind_shown (Some CompB) "Formula".
Definition heading (h : header) (s : string) : Prop := exists k, kind_shown (h_bounds h) k /\ joined (h_name h ++ [k]) s.
Definition mentions_band_gap (s : string) : Prop := exists a b, s = (a ++ "Band gap" ++ b)%string.

(** How a value is shown, and its standard deviation. *)
Inductive shows : cell -> shown -> Prop :=
| shows_nominal x u : shows (CNominal x u) (ShNum x)
| shows_normal m sd u : shows (CNormal m sd u) (ShNum m)
| shows_uniform lo hi u : shows (CUniform lo hi u) (ShNum ((1 # 2) * (lo + hi)))
| shows_category s : shows (CCategory s) (ShText s)
| shows_formula s : shows (CFormula s) (ShText s)
| shows_text s : shows (CStr s) (ShText s)
| shows_none : shows CNone (ShText "").
Inductive deviates : cell -> shown -> Prop :=
| dev_nominal x u : deviates (CNominal x u) (ShText "")
| dev_normal m sd u : deviates (CNormal m sd u) (ShNum sd)
| dev_uniform lo hi u : deviates (CUniform lo hi u) (ShNum ((29 # 100) * (hi - lo)))
| dev_none : deviates CNone (ShText "").
(** A row with the deviation of the value at position [i] right behind it. *)
Definition row_shown (i : nat) (row : list cell) (out : list shown) : Prop :=
  exists before c after sbefore sc sd safter, row = before ++ c :: after /\ length before = i
    /\ out = sbefore ++ sc :: sd :: safter
    /\ Forall2 shows before sbefore /\ shows c sc /\ deviates c sd /\ Forall2 shows after safter.

(** The value of the first attribute with this name, None if there is none. *)
Definition holds (name : string) (l : list tattr) (v : cell) : Prop :=
  (exists x a y, l = x ++ a :: y /\ ta_name a = name /\ v = ta_value a /\ (forall b, In b x -> ta_name b <> name))
  \/ ((forall b, In b l -> ta_name b <> name) /\ v = CNone).
(** The bounds of the last template with this name. *)
Definition bounds_of (name : string) (l : list (string * cbounds)) (b : cbounds) : Prop :=
  exists x y, l = x ++ (name, b) :: y /\ ~ In name (map fst y).
Definition row_of (chem : string) (c : comp) (row : list cell) : Prop :=
  exists s m ms v vs, c_spec c = Some s /\ c_measurements c = m :: ms /\ row = CStr (ms_name s) :: v :: vs
    /\ holds chem (map fst (ms_properties s)) v
    /\ Forall2 (fun term v => holds term (me_properties m ++ me_conditions m) v) terms vs.
(** The template of the first property of all the specs. *)
Definition first_property (compounds : list comp) (t : option string) : Prop :=
  exists before c after s a l, compounds = before ++ c :: after /\ c_spec c = Some s /\ ms_properties s = (a, t) :: l
    /\ (forall d, In d before -> exists s', c_spec d = Some s' /\ ms_properties s' = []).

(** The attributes of a record: each property before its conditions, all with the origin and the method of the property. *)
Inductive origin_said : option string -> string -> Prop :=
| said_measured : origin_said (Some "EXPERIMENTAL") "measured"
| said_computed : origin_said (Some "COMPUTATIONAL") "computed"
| said_nothing d : d <> Some "EXPERIMENTAL" -> d <> Some "COMPUTATIONAL" -> origin_said d "unknown".
Inductive method_said : option string -> string -> Prop :=
| said_method m : method_said (Some m) ("Method: " ++ m)%string
| said_no_method : method_said None "Method: unreported".
Inductive listed : list prop -> list (pattr * string * string) -> Prop :=
| listed_end : listed [] []
| listed_property a conditions d m o n r l : origin_said d o -> method_said m n -> listed r l ->
    listed (mkP a conditions d m :: r) ((a, o, n) :: map (fun c => (c, o, n)) conditions ++ l).
(** Of the attributes of a record with one name the first is kept. *)
Definition nm (x : pattr * string * string) : string := i_name (fst (fst x)).
Fixpoint firsts (l : list (pattr * string * string)) : list (pattr * string * string) :=
  match l with [] => [] | x :: r => x :: filter (fun y => negb (String.eqb (nm y) (nm x))) (firsts r) end.
(** The template an attribute goes to: the one with its name; but phases and transitions that are no category of theirs go to
    "Crystal system" and "Bands". *)
Definition second_column (n : string) (m : string) : Prop := (n = "Phase" /\ m = "Crystal system") \/ (n = "Transition" /\ m = "Bands").
Inductive destination : string -> string -> string -> tkind -> cbounds -> Prop :=
| dest_own n v k b : tmpl n = Some (k, b) -> (forall m, ~ second_column n m) -> destination n v n k b
| dest_first n m v k cs : tmpl n = Some (k, CatB cs) -> second_column n m -> In v cs -> destination n v n k (CatB cs)
| dest_second n m v k cs k' b : tmpl n = Some (k, CatB cs) -> second_column n m -> ~ In v cs -> tmpl m = Some (k', b) -> destination n v m k' b.
Section Objects.
  Variable to_float : string -> res Q.
  Variable convert : Q -> string -> string -> res Q.
  Variable units_error : string -> option exn.
  Variable formula_error : string -> option exn.
  (** The value made of an attribute. The deviation of a value in eV is made of the value itself (see
      [band_gap_deviation_refuted]). *)
  Inductive valued : cbounds -> pattr -> cell -> Prop :=
  | val_category cs a : valued (CatB cs) a (CCategory (i_value a))
  | val_nominal u' a u x : i_uncertainty a = None -> i_units a = Some u -> to_float (i_value a) = Ok x -> units_error u = None ->
      valued (RealB u') a (CNominal x u)
  | val_normal u' a unc u x sd : i_uncertainty a = Some unc -> i_units a = Some u -> u <> "eV" -> to_float (i_value a) = Ok x -> to_float unc = Ok sd ->
      units_error u = None -> valued (RealB u') a (CNormal x sd u)
  | val_electronvolt u' a unc x y : i_uncertainty a = Some unc -> i_units a = Some "eV" -> to_float (i_value a) = Ok x -> convert x "eV" "aJ" = Ok y ->
      units_error "aJ" = None -> valued (RealB u') a (CNormal y y "aJ").
  (** What is kept of an attribute: nothing if its name is that of an object template. *)
  Definition stored (x : pattr * string * string) (o : option (bool * tattr)) : Prop :=
    let '(a, origin, method) := x in
    exists name k b, destination (i_name a) (i_value a) name k b
      /\ match k with
         | ObjectK => o = None
         | PropertyK => exists v, valued b a v /\ o = Some (true, mkTA name v origin method)
         | ConditionK => exists v, valued b a v /\ o = Some (false, mkTA name v origin method)
         end.
  Definition taken (p : bool) (l : list (option (bool * tattr))) : list tattr :=
    flat_map (fun o => match o with Some (q, a) => if Bool.eqb p q then [a] else [] | None => [] end) l.
  (** The run made of a record. *)
  Definition run_made (r : record) (c : comp) : Prop :=
    exists f m x l, f = clean (r_formula r) /\ formula_error f = None
      /\ c = mkC (Some (mkMS (latex f) (Some "Chemical") [(mkTA "Formula" (CFormula f) "unknown" "", Some "Formula")])) [m]
      /\ listed (r_properties r) x /\ Forall2 stored (firsts x) l
      /\ m = mkME (Some (mkMT measurement_properties measurement_conditions [])) (taken true l) (taken false l).
End Objects.
