(** Model of the other ways to write objects: thin_dumps and copy of gemd/json/gemd_json.py, and
    complete_material_history of gemd/entity/util.py. *)
From Coq Require Import String List Bool Arith.
From Verif Require Import Base CidModel GraphModel EqModel TravModel SerialModel.
Import ListNotations.
Open Scope string_scope.
Open Scope list_scope.

Section Thin.
  Variable lower : string -> string.
  Variable known : string -> bool.
  Variable construct : heap -> string -> list (string * pv) -> res (list (string * pv)).
  Variable sorted : list (string * pv) -> list (string * pv).
  Variable uuid4 : nat -> string.

  (** gemd_json.py:166-185 with scope [scope]. The copy that substitute_links makes of an entity
      contains no entities, so it is encoded by itself. *)
  Definition thin_dumps (h : heap) (n : nat) (v : pv) (scope : string) : res (heap * nat * json) :=
    do (h', n') <- of_outcome (set_uuids uuid4 h n v scope);
    do j <- match v with
            | PRef o => do e <- substitute_links_entity lower known construct h' None true o; encode_nested [e] 1 0
            | _ => do w <- substitute_links lower known construct h' None true v; encode (fun _ => Err ValueError) w
            end;
    Ok (h', n', j).

  (** gemd_json.py:130-145 *)
  Definition copy (h : heap) (n : nat) (v : pv) (scope : string) : res (heap * nat * pv) :=
    do (h', n', j) <- dumps lower known construct sorted uuid4 h n v scope;
    do (w, g) <- loads lower known construct h' j;
    Ok (g, n', w).

  (** [json_builtin.loads(...)["context"][0]] (util.py:127) *)
  Definition first_record (j : json) : res json :=
    match j with
    | JObj l => match dict_get "context" l with
                | Some (JArr (x :: _)) => Ok x
                | Some (JArr []) => Err IndexError
                | Some _ => Err TypeError
                | None => Err KeyError
                end
    | _ => Err TypeError
    end.

  (** util.py:125-127. What is copied is not referred to afterwards, so it is left out of the heap
      that results. [gemd_json] has the scope "auto" (gemd/json/__init__.py:27). *)
  Definition history_body (st : heap * nat * list json) (o : oid) : res (heap * nat * list json) :=
    let '(h, n, acc) := st in
    do (h1, n1, j) <- dumps lower known construct sorted uuid4 h n (PRef o) "auto";
    do (c, g) <- loads lower known construct h1 j;
    match c with
    | PRef c =>
        do e <- substitute_links_entity lower known construct g None true c;
        do (_, n2, j2) <- dumps lower known construct sorted uuid4 [e] n1 (PRef 0) "auto";
        do r <- first_record j2;
        Ok (h1, n2, acc ++ [r])
    | _ => Err AttributeError
    end.

  Fixpoint each {A B} (f : A -> B -> res A) (a : A) (l : list B) : res A :=
    match l with [] => Ok a | x :: r => do b <- f a x; each f b r end.

  (** util.py:100-131. The entities visited are those of the traversal of the heap at the start:
      the body sets uids only. *)
  Definition complete_material_history (h : heap) (n : nat) (mat : oid) : res (heap * nat * list json) :=
    do os <- of_outcome (foreach h (PRef mat));
    each history_body (h, n, []) os.
End Thin.
