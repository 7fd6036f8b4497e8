(** Unit functions without caches. *)
From Coq Require Import String Ascii List Bool Arith.
From Verif Require Import Base PyStr ScaleModel CacheModel.
Import ListNotations.
Open Scope list_scope.
Open Scope nat_scope.

Section Spec.
  Context (E : engine).

  (** A registry just loaded from [d]. *)
  Definition fresh (d : defs E) (id : nat) : registry E := mkReg E d id [].

  (** Python's == on numbers, and being the same number. *)
  Definition num_agree (v w : num E) : Prop := v = w \/ num_eqb E v w = true.
  Definition res_agree (a b : res (num E)) : Prop :=
    match a, b with Ok v, Ok w => num_agree v w | Err x, Err y => x = y | _, _ => False end.

  (** The names the preprocessor defines begin with an underscore. *)
  Definition own_name (n : text) : bool := match n with c :: _ => Ascii.eqb c us | [] => false end.

  (** The scaled units in a text, and what it becomes. *)
  Definition scaled_in (s : text) : list scaled :=
    match find_blocks (tokenizer (scientific s)) with
    | Ok bs => match identify_factors (scientific s) (tl bs) with Ok l => l | Err _ => [] end
    | Err _ => []
    end.
  Definition internal_name (d : defs E) (x : scaled) (n : text) : Prop := mangled (long_name E d) x = Ok n.
  Definition preprocessed (d : defs E) (s x : text) : Prop :=
    snd (preprocess (long_name E d) (value E) (evaluate E d) s []) = Ok x.

  (** *** What is asked of pint *)
  (** The names pint may look up to read a text, or to work with a unit. *)
  Context (uses : text -> list text) (unit_uses : unit_t E -> list text).
  Definition agree (l : list text) (f g : text -> option (value E)) : Prop := forall n, In n l -> f n = g n.
  Record pint_ok : Prop := {
    parse_local : forall d f g x, agree (uses x) f g -> pint_parse E d f x = pint_parse E d g x;
    parse_names : forall d f x u, pint_parse E d f x = Ok u -> incl (unit_uses u) (uses x);
    convert_local : forall d f g v u1 u2, agree (unit_uses u1) f g -> agree (unit_uses u2) f g ->
      pint_convert E d f v u1 u2 = pint_convert E d g v u1 u2;
    convert_num : forall d f v w u1 u2, num_eqb E v w = true -> res_agree (pint_convert E d f v u1 u2) (pint_convert E d f w u1 u2);
    base_local : forall d f g u, agree (unit_uses u) f g -> pint_base E d f u = pint_base E d g u;
    base_plain : forall d f u b x y, pint_base E d f u = Ok (b, x, y) -> forall n, In n (unit_uses b) -> own_name n = false;
    unit_eqb_ok : forall u v, unit_eqb E u v = true -> u = v;
    num_eqb_sym : forall v w, num_eqb E v w = num_eqb E w v
  }.

  (** *** The texts considered *)
  (** [good d s]: texts given while [d] is in force. None spells an internal name that is not one of its own scaled
      units, and two of their scaled units that have the same internal name are worth the same. *)
  Context (good : defs E -> text -> Prop).
  Record texts_ok : Prop := {
    self_contained : forall d s x n, good d s -> preprocessed d s x -> In n (uses x) -> own_name n = true ->
      exists t, In t (scaled_in s) /\ internal_name d t n;
    unambiguous : forall d s s' a b n, good d s -> good d s' -> In a (scaled_in s) -> In b (scaled_in s') ->
      internal_name d a n -> internal_name d b n -> evaluate E d (term a) = evaluate E d (term b)
  }.

  (** *** The right answers *)
  (** A registry loaded from [d] in which only such texts were read. *)
  Inductive reads (d : defs E) (id : nat) : registry E -> Prop :=
  | reads_fresh : reads d id (fresh d id)
  | reads_text : forall r s, reads d id r -> good d s -> reads d id (fst (reg_parse E s r)).
  (** The registry knows all names in the unit. *)
  Definition knows (r : registry E) (u : unit_t E) : Prop :=
    forall n, In n (unit_uses u) -> own_name n = true -> look E r n <> None.

  (** [right d id o a]: [a] is the answer to [o] that a registry just loaded from [d] gives, without any cache. A unit
      object is only known to the registry that made it: there, the answer is that of every registry loaded from [d]
      that knows the unit. *)
  Definition right (d : defs E) (id : nat) (o : op E) (a : answer E) : Prop :=
    match o, a with
    | Parse _ x ret, RParse _ r => r = snd (parse_raw E x ret (fresh d id))
    | Convert _ v s1 s2, RConvert _ r => res_agree r (snd (convert_raw E v s1 s2 (fresh d id)))
    | Base_ _ (AUnit _ g u), RBase _ r => forall r', reads d id r' -> knows r' u -> r = snd (base_raw E (AUnit E g u) r')
    | Base_ _ x, RBase _ r => r = snd (base_raw E x (fresh d id))
    | Change _ (Loaded _ _ _), RChange _ r => r = Ok tt
    | Change _ (NotFound _ e), RChange _ r | Change _ (NoDirectory _ e), RChange _ r
    | Change _ (NotLoaded _ _ e), RChange _ r => r = Err e
    | _, _ => False
    end.

  (** *** Fair histories *)
  (** Texts are good for the definitions in force, and unit objects were handed out since these were loaded. *)
  Definition arg_texts (a : arg E) (ret : option bool) : list text :=
    match a with AStr _ s => [unmangled s] | ANone _ => if of_bool ret then [[]] else [] | _ => [] end.
  Definition op_texts (o : op E) : list text :=
    match o with
    | Parse _ a ret => arg_texts a ret
    | Convert _ _ s1 s2 => if teqb s1 s2 then [] else [s1; s2]
    | Base_ _ (AStr _ s) => [s]
    | _ => []
    end.
  Definition op_units (o : op E) : list (nat * unit_t E) :=
    match o with Parse _ (AUnit _ g u) _ | Base_ _ (AUnit _ g u) => [(g, u)] | _ => [] end.
  Definition answer_units (a : answer E) : list (nat * unit_t E) :=
    match a with RParse _ (Ok (PUnit _ g u)) => [(g, u)] | RBase _ (Ok (g, b, _, _)) => [(g, b)] | _ => [] end.

  (** The definitions in force after the changes of a history: those of the last one that succeeded. *)
  Fixpoint in_force (d : defs E) (ops : list (op E)) : defs E :=
    match ops with
    | [] => d
    | Change _ (Loaded _ _ d') :: r => in_force d' r
    | _ :: r => in_force d r
    end.
  (** Which registry is in force: the number of changes that succeeded. *)
  Fixpoint epoch (ops : list (op E)) : nat :=
    match ops with [] => 0 | Change _ (Loaded _ _ _) :: r => S (epoch r) | _ :: r => epoch r end.

  (** [l] is the list of calls with their answers. *)
  Definition fair_call (d0 : defs E) (past : list (op E * answer E)) (o : op E) : Prop :=
    (forall s, In s (op_texts o) -> good (in_force d0 (map fst past)) s)
    /\ (forall g u, In (g, u) (op_units o) -> g = epoch (map fst past) /\ In (g, u) (concat (map (fun p => answer_units (snd p)) past))).
  Definition fair (d0 : defs E) (l : list (op E * answer E)) : Prop :=
    forall past o a future, l = past ++ (o, a) :: future -> fair_call d0 past o.
  Definition all_right (d0 : defs E) (l : list (op E * answer E)) : Prop :=
    forall past o a future, l = past ++ (o, a) :: future ->
      right (in_force d0 (map fst past)) (epoch (map fst past)) o a.
End Spec.
