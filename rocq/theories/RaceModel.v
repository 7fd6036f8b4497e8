(** Model of change_definitions_file and of the cached unit functions of gemd/units/impl.py used by several threads. The steps
    are the accesses to what threads share: the registry in force (_REGISTRY), the three caches, the working directory.
    Simplifications: a registry is known by the file it was loaded from and by when it was loaded, the names that the
    preprocessor defines in it are left out (CacheModel.v has them); what a call returns is given by the registries it has
    read; a call that raises is not followed further; reading a definitions file is one step; no other part of the program
    changes the working directory or the files. *)
From Coq Require Import List Bool Arith.
Import ListNotations.

(** Directories, file names, and files in a directory. *)
Definition dir := nat.
Definition path := (nat * nat)%type.
Record files := mkFiles {
  resolve : dir -> nat -> option path;   (* Path(filename).expanduser().resolve(strict=True) in a working directory, lines 405-408 *)
  child : dir -> nat -> option path;     (* (directory / name).resolve(strict=True), line 414 *)
  is_dir : dir -> bool;                  (* os.chdir works *)
  loads : path -> bool                   (* pint reads the file *)
}.
Record reg := mkReg { r_id : nat; r_file : path }.

(** convert_units (260-297), parse_units (328-364), get_base_units (367-388), each with its lru_cache. *)
Inductive kind := KConvert | KParse | KBase.
Definition kind_eqb (a b : kind) : bool := match a, b with KConvert, KConvert | KParse, KParse | KBase, KBase => true | _, _ => false end.
(** What a thread does: calls, named by function and arguments, and changes of the definitions file. *)
Inductive op := Call (k : kind) (key : nat) | Change (f : nat).
(** Where a thread is. A call: the registries read so far. A change: the lines 403, 404, 405-408, 410, 412, 414, 415 (the
    constructor), 415 (the assignment) and 421 that come next, with what has been found out. *)
Inductive place :=
| Between
| Computing (k : kind) (key : nat) (got : list reg)
| ClearParse (f : nat) | ClearBase (f : nat) | Resolving (f : nat)
| Keeping (f : nat) (target : path)
| Entering (f : nat) (target : path) (old : dir)
| Checking (f : nat) (target : path) (old : dir)
| Loading (f : nat) (updated : path) (old : dir)
| Swapping (f : nat) (updated : path) (old : dir)
| Leaving (f : nat) (old : dir) (ok : bool).
Inductive event := Answered (k : kind) (key : nat) (got : list reg) | Changed (f : nat) (ok : bool).
Record thread := mkT { at_ : place; todo : list op }.

(** What is shared, the threads, what has been returned, and the registries that have been in force, latest first. *)
Record machine := mkM {
  m_cwd : dir; m_reg : reg; m_next : nat; m_cache : kind -> nat -> option (list reg);
  m_thread : nat -> thread; m_log : list event; m_past : list reg
}.
Definition upd {A} (f : nat -> A) (t : nat) (x : A) : nat -> A := fun u => if u =? t then x else f u.
Definition put (c : kind -> nat -> option (list reg)) (k : kind) (key : nat) (v : option (list reg)) : kind -> nat -> option (list reg) :=
  fun k' key' => if kind_eqb k k' && (key' =? key) then v else c k' key'.
Definition clear (c : kind -> nat -> option (list reg)) (k : kind) : kind -> nat -> option (list reg) :=
  fun k' key' => if kind_eqb k k' then None else c k' key'.

Section Steps.
  Context (F : files) (reads : kind -> nat -> nat).   (* how often a call reads _REGISTRY *)
  Definition goto (t : nat) (p : place) (m : machine) : machine :=
    mkM (m_cwd m) (m_reg m) (m_next m) (m_cache m) (upd (m_thread m) t (mkT p (todo (m_thread m t)))) (m_log m) (m_past m).
  Definition next_op (t : nat) (r : list op) (m : machine) : machine :=
    mkM (m_cwd m) (m_reg m) (m_next m) (m_cache m) (upd (m_thread m) t (mkT (at_ (m_thread m t)) r)) (m_log m) (m_past m).
  Definition set_cache (c : kind -> nat -> option (list reg)) (m : machine) : machine :=
    mkM (m_cwd m) (m_reg m) (m_next m) c (m_thread m) (m_log m) (m_past m).
  Definition set_cwd (d : dir) (m : machine) : machine :=
    mkM d (m_reg m) (m_next m) (m_cache m) (m_thread m) (m_log m) (m_past m).
  Definition set_reg (p : path) (m : machine) : machine :=
    let r := mkReg (m_next m) p in mkM (m_cwd m) r (S (m_next m)) (m_cache m) (m_thread m) (m_log m) (r :: m_past m).
  Definition say (e : event) (m : machine) : machine :=
    mkM (m_cwd m) (m_reg m) (m_next m) (m_cache m) (m_thread m) (m_log m ++ [e]) (m_past m).

  Definition step (t : nat) (m : machine) : machine :=
    match at_ (m_thread m t) with
    | Between =>
        match todo (m_thread m t) with
        | [] => m
        | Call k key :: r =>
            match m_cache m k key with
            | Some v => say (Answered k key v) (next_op t r m)     (* a hit *)
            | None => goto t (Computing k key []) (next_op t r m)
            end
        | Change f :: r => goto t (ClearParse f) (next_op t r (set_cache (clear (m_cache m) KConvert) m))   (* 402 *)
        end
    | Computing k key got =>
        if length got <? reads k key then goto t (Computing k key (got ++ [m_reg m])) m
        else let c := match m_cache m k key with Some _ => m_cache m | None => put (m_cache m) k key (Some got) end in
             say (Answered k key got) (goto t Between (set_cache c m))
    | ClearParse f => goto t (ClearBase f) (set_cache (clear (m_cache m) KParse) m)        (* 403 *)
    | ClearBase f => goto t (Resolving f) (set_cache (clear (m_cache m) KBase) m)          (* 404 *)
    | Resolving f => match resolve F (m_cwd m) f with                                      (* 405-408 *)
                     | Some p => goto t (Keeping f p) m
                     | None => say (Changed f false) (goto t Between m)
                     end
    | Keeping f p => goto t (Entering f p (m_cwd m)) m                                     (* 410 *)
    | Entering f p old => if is_dir F (fst p) then goto t (Checking f p old) (set_cwd (fst p) m) else goto t (Leaving f old false) m  (* 412 *)
    | Checking f p old => match child F (m_cwd m) (snd p) with                             (* 414 *)
                          | Some u => goto t (Loading f u old) m
                          | None => goto t (Leaving f old false) m
                          end
    | Loading f u old => if loads F u then goto t (Swapping f u old) m else goto t (Leaving f old false) m   (* 415-420 *)
    | Swapping f u old => goto t (Leaving f old true) (set_reg u m)                        (* 415 *)
    | Leaving f old ok => say (Changed f ok) (goto t Between (set_cwd old m))              (* 421-422 *)
    end.
  (** A schedule: a thread takes a step, or a cache drops an entry. *)
  Inductive act := Go (t : nat) | Drop (k : kind) (key : nat).
  Definition perform (a : act) (m : machine) : machine :=
    match a with Go t => step t m | Drop k key => set_cache (put (m_cache m) k key None) m end.
  Definition run (s : list act) (m : machine) : machine := fold_left (fun m a => perform a m) s m.
End Steps.
Definition init (c0 : dir) (p0 : path) (progs : nat -> list op) : machine :=
  mkM c0 (mkReg 0 p0) 1 (fun _ _ => None) (fun t => mkT Between (progs t)) [] [mkReg 0 p0].
