(** Model of the ingesters of the demo: _parse_value and ingest_material_run (gemd/demo/material_run_example.py) and
    ingest_table (gemd/demo/table_example.py).
    Simplifications: characters are 8-bit; the level of validation is below FATAL, so that making an attribute with a template
    never raises and appending it never does; a pandas table is a list of rows from column names to numbers. *)
From Coq Require Import String Ascii List Bool Arith.
From Verif Require Import Base.
Import ListNotations.
Open Scope string_scope.
Open Scope list_scope.
Open Scope nat_scope.

(** [str.isspace] for 8-bit characters *)
Definition blank_char (c : ascii) : bool :=
  let n := nat_of_ascii c in (9 <=? n) && (n <=? 13) || (28 <=? n) && (n <=? 32) || (n =? 133) || (n =? 160).
(** [str.split()]; [w] is the word so far *)
Fixpoint split_from (w : string) (s : string) : list string :=
  match s with
  | EmptyString => if String.eqb w "" then [] else [w]
  | String c r => if blank_char c then (if String.eqb w "" then split_from "" r else w :: split_from "" r)
                  else split_from (w ++ String c "")%string r
  end.
Definition split (s : string) : list string := split_from "" s.

Section Ingest.
  (** numbers; [float(text)]; [x >= 0]; the numbers False and True; whether a number is true *)
  Variable F : Type.
  Variable to_float : string -> option F.
  Variable nonneg : F -> bool.
  Variable of_bool : bool -> F.
  Variable nonzero : F -> bool.
  (** units.parse_units *)
  Variable parse_units : string -> res string.
  (** the order in which a set is iterated over *)
  Variable set_order : list string -> list string.

  Inductive dv : Type := DNone | DBool (b : bool) | DNum (x : F) | DStr (s : string) | DList (l : list dv) | DDict (l : list (string * dv)).
  Inductive val : Type := VNominal (x : F) (u : string) | VNormal (m sd : F) (u : string) | VCategory (s : string).

  Definition float (s : string) : res F := match to_float s with Some x => Ok x | None => Err ValueError end.
  Definition is_pm (s : string) : bool := String.eqb s "+-" || String.eqb s "+/-".
  (** units of a value (continuous_value.py:33-38) *)
  Definition nominal (x : F) (u : string) : res val := do u' <- parse_units u; Ok (VNominal x u').
  Definition normal (m sd : F) (u : string) : res val := do u' <- parse_units u; Ok (VNormal m sd u').
  (** material_run_example.py:42-73; [std] is [None] for -1 *)
  Definition parse_value (v : dv) : res val :=
    match v with
    | DStr s =>
        match split s with
        | t0 :: t1 :: rest =>
            do mean <- float t0;
            do std <- (if is_pm t1 then match rest with [] => Err IndexError | t2 :: _ => do x <- float t2; Ok (Some x) end else Ok None);
            do unit <- match parse_units (last (t1 :: rest) "") with
                       | Ok u => Ok u
                       | Err ValueError => Ok ""
                       | Err UndefinedUnitError => Ok ""
                       | Err e => Err e
                       end;
            match std with
            | Some x => if nonneg x then normal mean x unit else nominal mean unit
            | None => nominal mean unit
            end
        | _ => match to_float s with Some x => nominal x "" | None => Ok (VCategory s) end
        end
    | DNum x => nominal x ""
    | DBool b => nominal (of_bool b) ""
    | _ => Err ValueError
    end.

  Record iattr : Type := mkIA { ia_name : string; ia_value : val }.
  Record imeas : Type := mkIM { im_properties : list iattr; im_conditions : list iattr; im_parameters : list iattr; im_uids : list (string * dv); im_tags : list string }.
  (** [mt_other]: attributes set that are no property of the class *)
  Record imat (S P : Type) : Type := mkMat { mt_uids : list (string * dv); mt_tags : list string; mt_measurements : list imeas; mt_spec : option S; mt_process : option P; mt_other : list (string * S) }.
  Arguments mkMat {S P}.
  Arguments mt_uids {S P}. Arguments mt_tags {S P}. Arguments mt_measurements {S P}. Arguments mt_spec {S P}. Arguments mt_process {S P}. Arguments mt_other {S P}.

  (** material_run_example.py:16-39: the names *)
  Definition known_properties : list string := ["density"; "kinematic viscosity"].
  Definition known_conditions : list string := ["temperature"].
  Definition known_parameters : list string := ["knob_2_setting"].

  (** [if x:] *)
  Definition truthy (v : option dv) : bool :=
    match v with
    | None | Some DNone => false
    | Some (DBool b) => b
    | Some (DNum x) => nonzero x
    | Some (DStr s) => negb (String.eqb s "")
    | Some (DList l) => negb (match l with [] => true | _ => false end)
    | Some (DDict l) => negb (match l with [] => true | _ => false end)
    end.
  Definition get (k : string) (l : list (string * dv)) : option dv := dict_get k l.
  Fixpoint strings (l : list dv) : res (list string) :=
    match l with [] => Ok [] | DStr s :: r => do t <- strings r; Ok (s :: t) | _ :: r => Err TypeError end.
  (** the setter of tags: validate_list(tags, str) *)
  Definition tags_set (v : dv) : res (list string) :=
    match v with
    | DNone => Ok []
    | DStr s => Ok [s]
    | DList l => strings l
    | DDict l => Ok (map fst l)
    | _ => Err TypeError
    end.
  (** the uid and the tags of a dictionary: add_uid and tags only if they are true *)
  Definition uid_of (scope key : string) (d : list (string * dv)) : list (string * dv) :=
    match get key d with Some v => if truthy (Some v) then [(scope, v)] else [] | None => [] end.
  Definition tags_of (d : list (string * dv)) : res (list string) :=
    match get "tags" d with Some v => if truthy (Some v) then tags_set v else Ok [] | None => Ok [] end.
  Fixpoint attrs (names : list string) (d : list (string * dv)) : res (list iattr) :=
    match names with
    | [] => Ok []
    | n :: r => do v <- match get n d with Some x => parse_value x | None => Err KeyError end; do t <- attrs r d; Ok (mkIA n v :: t)
    end.
  (** [set(known.keys()).intersection(experiment.keys())] *)
  Definition present (known : list string) (d : list (string * dv)) : list string :=
    set_order (filter (fun n => dict_mem n d) known).
  (** material_run_example.py:95-128 *)
  Definition experiment (v : dv) : res imeas :=
    match v with
    | DDict d =>
        do ps <- attrs (present known_properties d) d;
        do cs <- attrs (present known_conditions d) d;
        do qs <- attrs (present known_parameters d) d;
        do t <- tags_of d;
        Ok (mkIM ps cs qs (uid_of "given_scan_id" "scan_id" d) t)
    | _ => Err AttributeError
    end.
  Fixpoint each {A B} (f : A -> res B) (l : list A) : res (list B) :=
    match l with [] => Ok [] | x :: r => do y <- f x; do ys <- each f r; Ok (y :: ys) end.
  (** [for x in v] *)
  Definition iterate (v : dv) : res (list dv) :=
    match v with
    | DList l => Ok l
    | DStr s => Ok (map (fun c => DStr (String c "")) (list_ascii_of_string s))
    | DDict l => Ok (map (fun p => DStr (fst p)) l)
    | _ => Err TypeError
    end.
  (** material_run_example.py:84-137 *)
  Definition ingest_dict {S P} (d : list (string * dv)) (material_spec : option S) (process_run : option P) : res (imat S P) :=
    do t <- tags_of d;
    do es <- match get "experiments" d with Some v => iterate v | None => Ok [] end;
    do ms <- each experiment es;
    Ok (mkMat (uid_of "given_sample_id" "sample_id" d) t ms None process_run
              (match material_spec with Some s => [("material_spec", s)] | None => [] end)).
  Inductive ingested (S P : Type) : Type := IMat (m : imat S P) | IList (l : list (ingested S P)).
  Arguments IMat {S P}. Arguments IList {S P}.
  (** material_run_example.py:76-82 *)
  Fixpoint ingest_material_run {S P} (data : dv) (material_spec : option S) (process_run : option P) : res (ingested S P) :=
    match data with
    | DList l =>
        do xs <- (fix go (l : list dv) : res (list (ingested S P)) :=
           match l with [] => Ok [] | x :: r => do y <- ingest_material_run x material_spec None; do ys <- go r; Ok (y :: ys) end) l;
        Ok (IList xs)
    | DDict d => do m <- ingest_dict d material_spec process_run; Ok (IMat m)
    | _ => Err ValueError
    end.

  (** table_example.py:11-25: the measurements of the run are those it had, then one for each row *)
  Definition column (known : list string) (row : list (string * F)) : res (list iattr) :=
    each (fun p => do v <- nominal (snd p) ""; Ok (mkIA (fst p) v))
         (flat_map (fun n => match dict_get n row with Some x => [(n, x)] | None => [] end) known).
  Definition row_measurement (row : list (string * F)) : res imeas :=
    do ps <- column ["vapor pressure"] row;
    do cs <- column ["temperature"] row;
    Ok (mkIM ps cs [] [] []).
  Definition ingest_table (measurements : list imeas) (table : list (list (string * F))) : res (list imeas) :=
    do ms <- each row_measurement table; Ok (measurements ++ ms).
End Ingest.
Arguments DNone {F}. Arguments DBool {F}. Arguments DNum {F}. Arguments DStr {F}. Arguments DList {F}. Arguments DDict {F}.
Arguments VNominal {F}. Arguments VNormal {F}. Arguments VCategory {F}.
Arguments mkIA {F}. Arguments ia_name {F}. Arguments ia_value {F}.
Arguments mkIM {F}. Arguments im_properties {F}. Arguments im_conditions {F}. Arguments im_parameters {F}. Arguments im_uids {F}. Arguments im_tags {F}.
Arguments mkMat {F S P}. Arguments mt_uids {F S P}. Arguments mt_tags {F S P}. Arguments mt_measurements {F S P}. Arguments mt_spec {F S P}. Arguments mt_process {F S P}. Arguments mt_other {F S P}.
Arguments IMat {F S P}. Arguments IList {F S P}.
