(** Model of the unit functions with their caches and of change_definitions_file, gemd/units/impl.py lines 260-297
    (convert_units), 328-364 (parse_units), 367-388 (get_base_units) and 391-422 (change_definitions_file).

    Simplifications. What pint computes from a text, a unit and the definitions is a parameter (see [engine]); the
    preprocessors, which write to the registry, are the model of ScaleModel.v. Arguments are given positionally,
    [return_unit] by keyword. Exponents of a unit that are equal as numbers are the same. *)
From Coq Require Import String Ascii List Bool Arith.
From Verif Require Import Base PyStr ScaleModel.
Import ListNotations.
Open Scope list_scope.
Open Scope nat_scope.

(** ** functools.lru_cache *)
(** How a key compares with a stored one. Comparing units of two registries raises ValueError. *)
Inductive comparison := Same | Differ | Raises.

Section Lru.
  Context {K V R : Type} (cmp : K -> K -> comparison) (maxsize : nat).
  (** Entries, most recently used first. *)
  Definition cache := list (K * V).
  Fixpoint find (k : K) (c : cache) : res (option ((K * V) * cache)) :=
    match c with
    | [] => Ok None
    | e :: r =>
        match cmp k (fst e) with
        | Same => Ok (Some (e, r))
        | Raises => Err ValueError
        | Differ => match find k r with
                    | Ok (Some (x, r')) => Ok (Some (x, e :: r'))
                    | Ok None => Ok None
                    | Err x => Err x
                    end
        end
    end.
  (** A hit moves the entry to the front and does not run the function. A miss runs it; what it returns is stored, the
      least recently used entry leaving when there are too many; what it raises is not. *)
  Definition cached (compute : R -> R * res V) (k : K) (c : cache) (r : R) : cache * (R * res V) :=
    match find k c with
    | Err x => (c, (r, Err x))
    | Ok (Some (e, c')) => (e :: c', (r, Ok (snd e)))
    | Ok None => let '(r', out) := compute r in
                 match out with
                 | Err x => (c, (r', Err x))
                 | Ok v => (firstn maxsize ((k, v) :: c), (r', Ok v))
                 end
    end.
End Lru.

(** What pint does. [defs] is what a definitions file says, [unit_t] the contents of a Unit, [num] Python numbers. A
    lookup tells what the registry holds for the names the preprocessor defined. *)
Record engine := mkEngine {
  defs : Type; value : Type; unit_t : Type; num : Type;
  long_name : defs -> text -> res text;                               (* f"{parse_units(u)}", line 177 *)
  evaluate : defs -> text -> res value;                               (* f"{parse_expression(term)}", line 189 *)
  pint_parse : defs -> (text -> option value) -> text -> res unit_t;  (* parse_units on preprocessed text *)
  pint_convert : defs -> (text -> option value) -> num -> unit_t -> unit_t -> res num;   (* lines 283-297 *)
  pint_base : defs -> (text -> option value) -> unit_t -> res (unit_t * num * num);      (* lines 386-388 *)
  pint_format : unit_t -> text;
  unit_eqb : unit_t -> unit_t -> bool;
  num_eqb : num -> num -> bool
}.

Section Units.
  Context (E : engine).

  (** A registry: the definitions it was loaded from, which registry it is, and the names defined since. *)
  Record registry := mkReg { reg_defs : defs E; reg_id : nat; reg_names : scaling_names (value E) }.
  Definition look (r : registry) (n : text) : option (value E) := lookup_name (value E) n (reg_names r).
  Definition with_names (r : registry) d := mkReg (reg_defs r) (reg_id r) d.

  (** _REGISTRY.parse_units(s): preprocessors, then pint. *)
  Definition reg_parse (s : text) (r : registry) : registry * res (unit_t E) :=
    let '(d, out) := preprocess (long_name E (reg_defs r)) (value E) (evaluate E (reg_defs r)) s (reg_names r) in
    let r' := with_names r d in
    (r', match out with Err x => Err x | Ok x => pint_parse E (reg_defs r) (look r') x end).

  Inductive arg := ANone | AStr (s : text) | AUnit (reg : nat) (u : unit_t E) | AOther.
  Inductive parsed := PNone | PStr (s : text) | PUnit (reg : nat) (u : unit_t E).
  Definition of_bool (o : option bool) : bool := match o with Some b => b | None => false end.

  (** _ScaleFactorUnit.__format__, lines 228-230 *)
  Definition show_unit (u : unit_t E) : text :=
    match unmangle (pint_format E u) with Some x => x | None => [] end.
  (** Line 356: the text without internal names. *)
  Definition unmangled (s : text) : text := match unmangle s with Some x => x | None => [] end.

  (** parse_units without its cache, lines 349-364 *)
  Definition parse_raw (a : arg) (ret : option bool) (r : registry) : registry * res parsed :=
    match a with
    | ANone => if of_bool ret then let '(r', out) := reg_parse [] r in
                                   (r', match out with Ok u => Ok (PUnit (reg_id r) u) | Err x => Err x end)
               else (r, Ok PNone)
    | AStr s => let '(r', out) := reg_parse (unmangled s) r in
                (r', match out with
                     | Ok u => Ok (if of_bool ret then PUnit (reg_id r) u else PStr (show_unit u))
                     | Err x => Err x
                     end)
    | AUnit g u => (r, Ok (PUnit g u))
    | AOther => (r, Err UndefinedUnitError)
    end.

  (** convert_units without its cache, lines 280-297 *)
  Definition convert_raw (v : num E) (s1 s2 : text) (r : registry) : registry * res (num E) :=
    if teqb s1 s2 then (r, Ok v)
    else let '(r1, o1) := reg_parse s1 r in
         match o1 with
         | Err x => (r1, Err x)
         | Ok u1 => let '(r2, o2) := reg_parse s2 r1 in
                    match o2 with
                    | Err x => (r2, Err x)
                    | Ok u2 => (r2, pint_convert E (reg_defs r2) (look r2) v u1 u2)
                    end
         end.

  (** get_base_units without its cache, lines 384-388; a unit of another registry is refused by pint. *)
  Definition based := (nat * unit_t E * num E * num E)%type.
  Definition base_of (u : unit_t E) (r : registry) : registry * res based :=
    (r, match pint_base E (reg_defs r) (look r) u with
        | Ok (b, ratio, offset) => Ok (reg_id r, b, ratio, offset)
        | Err x => Err x
        end).
  Definition base_raw (a : arg) (r : registry) : registry * res based :=
    match a with
    | AStr s => let '(r', out) := reg_parse s r in match out with Err x => (r', Err x) | Ok u => base_of u r' end
    | AUnit g u => if g =? reg_id r then base_of u r else (r, Err ValueError)
    | ANone | AOther => (r, Err TypeError)
    end.

  (** Keys. *)
  Definition cmp_arg (a b : arg) : comparison :=
    match a, b with
    | ANone, ANone => Same
    | AStr s, AStr s' => if teqb s s' then Same else Differ
    | AUnit g u, AUnit g' u' => if unit_eqb E u u' then if g =? g' then Same else Raises else Differ
    | _, _ => Differ
    end.
  Definition same_ret (a b : option bool) : bool :=
    match a, b with None, None => true | Some x, Some y => Bool.eqb x y | _, _ => false end.
  Definition cmp_parse (a b : arg * option bool) : comparison :=
    if same_ret (snd a) (snd b) then cmp_arg (fst a) (fst b) else Differ.
  Definition cmp_convert (a b : num E * text * text) : comparison :=
    let '(v, s1, s2) := a in let '(w, r1, r2) := b in
    if num_eqb E v w && teqb s1 r1 && teqb s2 r2 then Same else Differ.

  (** The module: the registry in force, the caches and their sizes, and the working directory of the process. *)
  Record module_state := mkSt {
    reg : registry; next : nat;
    parse_cache : cache (K := arg * option bool) (V := parsed);
    convert_cache : cache (K := num E * text * text) (V := num E);
    base_cache : cache (K := arg) (V := based);
    cwd : string
  }.
  Record sizes := mkSizes { parse_size : nat; convert_size : nat; base_size : nat }.
  Context (Z : sizes).

  (** How a change of definitions goes: the file is not found; the directory cannot be entered; the file cannot be
      found from there or read; it is read. *)
  Inductive outcome := NotFound (e : exn) | NoDirectory (e : exn) | NotLoaded (dir : string) (e : exn)
                     | Loaded (dir : string) (d : defs E).
  Inductive op :=
  | Parse (a : arg) (ret : option bool)
  | Convert (v : num E) (s1 s2 : text)
  | Base_ (a : arg)
  | Change (o : outcome).
  Inductive answer := RParse (r : res parsed) | RConvert (r : res (num E)) | RBase (r : res based) | RChange (r : res unit).

  (** change_definitions_file, lines 401-422: the caches are emptied first; the registry is replaced only by a
      complete one; the directory is entered and left. *)
  Definition change (o : outcome) (s : module_state) : module_state * res unit :=
    let cleared := mkSt (reg s) (next s) [] [] [] (cwd s) in
    match o with
    | NotFound e => (cleared, Err e)
    | NoDirectory e => (cleared, Err e)
    | NotLoaded dir e =>
        let there := mkSt (reg s) (next s) [] [] [] dir in
        (mkSt (reg there) (next there) [] [] [] (cwd s), Err e)
    | Loaded dir d =>
        let there := mkSt (mkReg d (next s) []) (S (next s)) [] [] [] dir in
        (mkSt (reg there) (next there) [] [] [] (cwd s), Ok tt)
    end.

  Definition step (o : op) (s : module_state) : module_state * answer :=
    match o with
    | Parse a ret =>
        let '(c, (r, out)) := cached cmp_parse (parse_size Z) (parse_raw a ret) (a, ret) (parse_cache s) (reg s) in
        (mkSt r (next s) c (convert_cache s) (base_cache s) (cwd s), RParse out)
    | Convert v s1 s2 =>
        let '(c, (r, out)) := cached cmp_convert (convert_size Z) (convert_raw v s1 s2) (v, s1, s2) (convert_cache s) (reg s) in
        (mkSt r (next s) (parse_cache s) c (base_cache s) (cwd s), RConvert out)
    | Base_ a =>
        let '(c, (r, out)) := cached cmp_arg (base_size Z) (base_raw a) a (base_cache s) (reg s) in
        (mkSt r (next s) (parse_cache s) (convert_cache s) c (cwd s), RBase out)
    | Change o => let '(s', out) := change o s in (s', RChange out)
    end.
  (** A history of calls and their answers. *)
  Fixpoint run (ops : list op) (s : module_state) : list (op * answer) * module_state :=
    match ops with
    | [] => ([], s)
    | o :: r => let '(s', a) := step o s in let '(l, s'') := run r s' in ((o, a) :: l, s'')
    end.
  (** Loading the module: line 425. *)
  Definition start (d : defs E) (dir : string) : module_state := mkSt (mkReg d 0 []) 1 [] [] [] dir.
End Units.
