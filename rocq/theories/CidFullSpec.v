(** Specification for C50: everything the case-insensitive dictionary does, inherited operations
    and failures included. Besides the stored pairs, an ordinary dictionary, there are the keys
    lookups can see; stored keys that are not among them are hidden. *)
From Coq Require Import String List Bool.
From Verif Require Import Base CidModel CidSpec.
Import ListNotations.
Open Scope list_scope.

Section CidFullSpec.
  Variable lower : string -> string.
  Variable V : Type.

  Record cdict : Type := mkD { stored : list (string * V); visible : list string }.

  (** The visible key that equals [k] up to case. *)
  Definition seen_as (k : string) (d : cdict) : option string := find (same_key lower k) (visible d).

  Definition drop (k : string) (l : list string) : list string := filter (fun x => negb (String.eqb k x)) l.

  (** Making stored keys visible, one after the other, up to the first that is visible in another casing. *)
  Fixpoint reveal (ks : list string) (d : cdict) : cdict * out V :=
    match ks with
    | [] => (d, RNone)
    | k :: r => match seen_as k d with
                | None => reveal r (mkD (stored d) (visible d ++ [k]))
                | Some k' => if String.eqb k' k then reveal r d else (d, RExn ValueError)
                end
    end.

  Definition full_step (d : cdict) (o : op V) : cdict * out V :=
    match o with
    | OSet k v =>
        match seen_as k d with
        | None => (mkD (dict_set k v (stored d)) (visible d ++ [k]), RNone)
        | Some k' => if String.eqb k' k then (mkD (dict_set k v (stored d)) (visible d), RNone) else (d, RExn ValueError)
        end
    | ODel k =>
        match seen_as k d with
        | Some k' => (mkD (dict_del k' (stored d)) (drop k' (visible d)), RNone)
        | None => (mkD (dict_del k (stored d)) (visible d), RExn KeyError)
        end
    | OPop k default =>
        match seen_as k d, default with
        | Some k', _ => (mkD (dict_del k' (stored d)) (drop k' (visible d)), RVal (dict_get k' (stored d)))
        | None, Some x => (d, RVal x)
        | None, None => (d, RExn KeyError)
        end
    | OPopitem =>
        match stored d with
        | [] => (d, RExn KeyError)
        | x :: _ => let (k, v) := last (stored d) x in
            match seen_as k d with
            | Some k' => (mkD (removelast (stored d)) (drop k' (visible d)), RItem k v)
            | None => (mkD (removelast (stored d)) (visible d), RExn KeyError)
            end
        end
    | OClear => (mkD [] [], RNone)
    | OCopy =>
        match reveal (map fst (stored d)) (mkD (stored d) []) with
        | (d', RNone) => (d', RNone)
        | (_, x) => (d, x)
        end
    | OUpdate items =>
        if existsb (fun kv => match seen_as (fst kv) d with Some k' => negb (String.eqb k' (fst kv)) | None => false end) items
        then (d, RExn ValueError)
        else reveal (map fst items) (mkD (dict_update items (stored d)) (visible d))
    | OGetitem k => (d, match seen_as k d with Some k' => RVal (dict_get k' (stored d)) | None => RExn KeyError end)
    | OGet k default => (d, match seen_as k d with Some k' => RVal (dict_get k' (stored d)) | None => RVal default end)
    | OContains k => (d, RBool (match seen_as k d with Some _ => true | None => false end))
    | OLen => (d, RLen (length (stored d)))
    | OItems => (d, RItems (stored d))
    | OSetdefault k v =>
        match dict_get k (stored d) with
        | Some v' => (d, RVal (Some v'))
        | None => (mkD (stored d ++ [(k, v)]) (visible d), RVal (Some v))
        end
    | OIor items => (mkD (dict_update items (stored d)) (visible d), RNone)
    end.

  Fixpoint full_run (d : cdict) (ops : list (op V)) : cdict * list (out V) :=
    match ops with
    | [] => (d, [])
    | o :: r => let '(d1, x) := full_step d o in
                let '(d2, xs) := full_run d1 r in (d2, x :: xs)
    end.

  (** Visible keys are stored, and no two are equal up to case. *)
  Definition sound (d : cdict) : Prop :=
    NoDup (map fst (stored d)) /\ NoDup (map lower (visible d)) /\ incl (visible d) (map fst (stored d)).

  Definition hidden (d : cdict) (k : string) : Prop := In k (map fst (stored d)) /\ ~ In k (visible d).

  (** The operations that raise although they have changed something: deleting a hidden key,
      popping the last pair if its key is hidden, and an update that names a key in two casings. *)
  Definition raises_late (d : cdict) (o : op V) : Prop :=
    match o with
    | ODel k => hidden d k /\ seen_as k d = None
    | OPopitem => exists k v, last (map Some (stored d)) None = Some (k, v) /\ hidden d k /\ seen_as k d = None
    | OUpdate items => ~ consistent_casing lower V items
    | _ => False
    end.
End CidFullSpec.
Arguments mkD {V}. Arguments stored {V}. Arguments visible {V}.
