(** Specification for C01/C02: a map whose keys are considered up to case.
    The state is just the list of stored (key, value) pairs in insertion order. Nothing here uses
    the implementation: a key [k] denotes the entry whose key has the same lower-case form. *)
From Coq Require Import String List Bool.
From Verif Require Import Base CidModel.
Import ListNotations.
Open Scope list_scope.

Section CidSpec.
  Variable lower : string -> string.
  Variable V : Type.

  Definition same_key (a b : string) : bool := String.eqb (lower a) (lower b).

  Definition entry (k : string) (s : list (string * V)) : option (string * V) :=
    find (fun kv => same_key k (fst kv)) s.

  Definition without (k : string) (s : list (string * V)) : list (string * V) :=
    filter (fun kv => negb (same_key k (fst kv))) s.

  Definition overwrite (k : string) (v : V) (s : list (string * V)) : list (string * V) :=
    map (fun kv => if same_key k (fst kv) then (fst kv, v) else kv) s.

  (** Storing: refused if the key is present in another casing. *)
  Definition store (s : list (string * V)) (k : string) (v : V) : option (list (string * V)) :=
    match entry k s with
    | None => Some (s ++ [(k, v)])
    | Some (k', _) => if String.eqb k k' then Some (overwrite k v s) else None
    end.

  Fixpoint store_all (s : list (string * V)) (items : list (string * V)) : option (list (string * V)) :=
    match items with
    | [] => Some s
    | (k, v) :: r => match store s k v with Some s' => store_all s' r | None => None end
    end.

  Definition spec_step (s : list (string * V)) (o : op V) : list (string * V) * out V :=
    match o with
    | OSet k v => match store s k v with Some s' => (s', RNone) | None => (s, RExn ValueError) end
    | ODel k => match entry k s with Some _ => (without k s, RNone) | None => (s, RExn KeyError) end
    | OPop k d => match entry k s, d with
                  | Some (_, v), _ => (without k s, RVal (Some v))
                  | None, Some d => (s, RVal d)
                  | None, None => (s, RExn KeyError)
                  end
    | OPopitem => match s with
                  | [] => (s, RExn KeyError)
                  | x :: r => let y := last s x in (removelast s, RItem (fst y) (snd y))
                  end
    | OClear => ([], RNone)
    | OCopy => (s, RNone)
    | OUpdate items | OIor items => match store_all s items with
                                    | Some s' => (s', RNone)
                                    | None => (s, RExn ValueError)
                                    end
    | OGetitem k => (s, match entry k s with Some (_, v) => RVal (Some v) | None => RExn KeyError end)
    | OGet k d => (s, match entry k s with Some (_, v) => RVal (Some v) | None => RVal d end)
    | OContains k => (s, RBool (match entry k s with Some _ => true | None => false end))
    | OLen => (s, RLen (length s))
    | OItems => (s, RItems s)
    | OSetdefault k v => match entry k s with
                         | Some (_, v') => (s, RVal (Some v'))
                         | None => (s ++ [(k, v)], RVal (Some v))
                         end
    end.

  Fixpoint spec_run (s : list (string * V)) (ops : list (op V)) : list (string * V) * list (out V) :=
    match ops with
    | [] => (s, [])
    | o :: r => let '(s1, x) := spec_step s o in
                let '(s2, xs) := spec_run s1 r in (s2, x :: xs)
    end.

  (** No two keys agree up to case. *)
  Definition distinct_keys (s : list (string * V)) : Prop := NoDup (map (fun kv => lower (fst kv)) s).

  (** The argument of an update names each key in one casing only. *)
  Definition consistent_casing (items : list (string * V)) : Prop :=
    forall k v k' v', In (k, v) items -> In (k', v') items -> lower k = lower k' -> k = k'.

  (** Operations covered by the refinement: [setdefault] and [|=] (inherited, unregistered) are
      excluded, and an update must not itself name one key in two casings. *)
  Definition covered (o : op V) : Prop :=
    match o with
    | OUpdate items => consistent_casing items
    | OSetdefault _ _ | OIor _ => False
    | _ => True
    end.
End CidSpec.
