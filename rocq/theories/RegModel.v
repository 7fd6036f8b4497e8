(** Model of the type registry: the metaclass of serialisable classes, dict_serializable.py:17-52.

    Simplifications. Class bodies other than [typ] and [skip] are left out, as are metaclasses other
    than this one and virtual subclasses (ABCMeta.register). A class is its position in the list of
    the classes created so far; [object], which every class ends in, is left out. *)
From Coq Require Import String List Bool Arith.
From Verif Require Import Base.
Import ListNotations.
Open Scope string_scope.
Open Scope list_scope.
Open Scope nat_scope.

Definition cid := nat.

(** A class: its bases, its method resolution order (itself first), whether this metaclass made it, its
    own attribute [typ] ([Some None] is NotImplementedError) and its attribute [skip]. [c_given] and
    [c_keep] are the arguments [typ] and [skip] of its class statement. *)
Record pyclass := mkC {
  c_bases : list cid; c_mro : list cid; c_meta : bool;
  c_typ : option (option string); c_skip : list string;
  c_given : option string; c_keep : list string }.

(** ** Python's linearisation of base classes (C3) *)

Definition mem (c : cid) (l : list cid) : bool := existsb (Nat.eqb c) l.
Definition heads (ls : list (list cid)) : list cid := flat_map (fun l => match l with [] => [] | c :: _ => [c] end) ls.
Definition tails (ls : list (list cid)) : list cid := flat_map (fun l => match l with [] => [] | _ :: r => r end) ls.
Definition drop_head (c : cid) (l : list cid) : list cid :=
  match l with [] => [] | d :: r => if Nat.eqb c d then r else l end.

(** None: no consistent order, TypeError. [n] is at least the number of the entries of the lists. *)
Fixpoint merge (n : nat) (ls : list (list cid)) : option (list cid) :=
  match heads ls with
  | [] => Some []
  | hs => match n with
          | O => None
          | S n' => match find (fun c => negb (mem c (tails ls))) hs with
                    | Some c => option_map (cons c) (merge n' (map (drop_head c) ls))
                    | None => None
                    end
          end
  end.
Definition entries (ls : list (list cid)) : nat := length (concat ls).

(** ** The registry *)

(** Dictionaries in memory, by address. The registry, [DictSerializableMeta._class]
    (dict_serializable.py:20), is at address 0. [handles]: the dictionaries the program has been
    given. *)
Record world := mkW { classes : list pyclass; dicts : list (list (string * cid)); handles : list nat }.
Definition start : world := mkW [] [[]] [].

Definition dict_at (w : world) (a : nat) : list (string * cid) := nth a (dicts w) [].
Fixpoint put {A} (l : list A) (a : nat) (d : A) : list A :=
  match l, a with
  | [], _ => []
  | _ :: r, O => d :: r
  | x :: r, S n => x :: put r n d
  end.
Definition registry (w : world) : list (string * cid) := dict_at w 0.

Definition class_at (w : world) (c : cid) : option pyclass := nth_error (classes w) c.
Definition mro_of (w : world) (c : cid) : list cid := match class_at w c with Some k => c_mro k | None => [] end.

(** [getattr(b, 'skip', {})] *)
Definition skip_of (w : world) (b : cid) : list string := match class_at w b with Some k => c_skip k | None => [] end.

(** [hasattr(cls, "typ")] and [cls.typ] for a class with these ancestors. *)
Fixpoint typ_in (w : world) (mro : list cid) : option (option string) :=
  match mro with
  | [] => None
  | a :: r => match class_at w a with
              | Some k => match c_typ k with Some t => Some t | None => typ_in w r end
              | None => typ_in w r
              end
  end.

(** dict_serializable.py:22-37. [explicit]: the class statement says [metaclass=]; a base with the
    metaclass passes it on. *)
Definition define (w : world) (explicit : bool) (bases : list cid) (typ : option string) (skip : list string) : world * option exn :=
  let c := length (classes w) in
  let meta := explicit || existsb (fun b => match class_at w b with Some k => c_meta k | None => false end) bases in
  let ls := map (mro_of w) bases ++ [bases] in
  if negb (forallb (fun b => b <? c) bases) then (w, Some TypeError) (* not a class *)
  else match merge (entries ls) ls with
  | None => (w, Some TypeError)
  | Some rest =>
      let add t s d := mkW (classes w ++ [mkC bases (c :: rest) meta t s typ skip]) d (handles w) in
      if meta then
        let s := flat_map (skip_of w) bases ++ skip in
        match typ with
        | Some t =>
            if match dict_get t (registry w) with Some holder => negb (mem holder (c :: rest)) | None => false end
            then (w, Some ValueError)
            else (add (Some (Some t)) s (put (dicts w) 0 (dict_set t c (registry w))), None)
        | None => (add (match typ_in w rest with Some _ => None | None => Some None end) s (dicts w), None)
        end
      else match typ, skip with
           | None, [] => (add None [] (dicts w), None)
           | _, _ => (w, Some TypeError) (* an ordinary class takes no such arguments *)
           end
  end.

(** dict_serializable.py:39-52 *)
Definition class_mapping (w : world) : world * nat :=
  let a := length (dicts w) in
  (mkW (classes w) (dicts w ++ [registry w]) (handles w ++ [a]), a).

(** What a program does: define a class; ask for the mapping; change a mapping it was given (the [n]-th). *)
Inductive op :=
| Define (explicit : bool) (bases : list cid) (typ : option string) (skip : list string)
| Ask
| Store (n : nat) (k : string) (c : cid)
| Remove (n : nat) (k : string)
| Clear (n : nat).

Definition on_handle (w : world) (n : nat) (f : list (string * cid) -> list (string * cid)) : world :=
  match nth_error (handles w) n with
  | Some a => mkW (classes w) (put (dicts w) a (f (dict_at w a))) (handles w)
  | None => w
  end.

Definition step (w : world) (o : op) : world :=
  match o with
  | Define e b t s => fst (define w e b t s)
  | Ask => fst (class_mapping w)
  | Store n k c => on_handle w n (dict_set k c)
  | Remove n k => on_handle w n (dict_del k)
  | Clear n => on_handle w n (fun _ => [])
  end.
Definition run (w : world) (ops : list op) : world := fold_left step ops w.

(** [cls.typ]: what an instance writes as its type (dict_serializable.py:107). None: there is no such
    attribute, or it is NotImplementedError. *)
Definition typ_of_class (w : world) (c : cid) : option string :=
  match typ_in w (mro_of w c) with Some (Some t) => Some t | _ => None end.
