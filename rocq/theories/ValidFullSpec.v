(** Specification for C53: what validation says, for every argument and level. *)
From Coq Require Import String List Bool ZArith QArith.
From Verif Require Import Base BoundsModel BoundsSpec BoundsFullSpec VlModel ValidationModel ValidationSpec.
Import ListNotations.
Open Scope list_scope.

Inductive verdict : Type := Accept | Warn | Reject (e : exn).

(** A value against bounds. *)
Inductive judged (b : bounds) (v : value) : level -> verdict -> Prop :=
| judged_ignore : judged b v IGNORE Accept
| judged_empty : forall l e, l <> IGNORE -> no_content v e -> judged b v l (Reject e)
| judged_fits : forall l, l <> IGNORE -> good_value v -> fits v b -> judged b v l Accept
| judged_warn : good_value v -> ~ fits v b -> judged b v WARNING Warn
| judged_fatal : good_value v -> ~ fits v b -> judged b v FATAL (Reject ValueError).

(** What a verdict does: the new state and a message at most, or an exception and the old state. *)
Definition carried {A} (old new : A) (log : nat) (d : verdict) : A * option exn * nat :=
  match d with Accept => (new, None, log) | Warn => (new, None, S log) | Reject e => (old, Some e, log) end.

(** ** Attributes *)
Inductive attr_verdict (k : akind) (l : level) (a : attr) : aop -> verdict -> Prop :=
| av_type : forall o, ~ well_typed k o -> attr_verdict k l a o (Reject TypeError)
| av_free : forall o, well_typed k o -> a_value (assigned o a) = None \/ a_template (assigned o a) = None -> attr_verdict k l a o Accept
| av_set_link : forall s i, attr_verdict k l a (ASetTemplate (TRef (RLink s i))) Accept
| av_link_ignored : forall v, l = IGNORE -> (exists s i, a_template a = Some (RLink s i)) -> attr_verdict k l a (ASetValue (VVal v)) Accept
| av_link : forall v, l <> IGNORE -> (exists s i, a_template a = Some (RLink s i)) -> attr_verdict k l a (ASetValue (VVal v)) (Reject AttributeError)
| av_judged : forall o v t d, well_typed k o -> a_value (assigned o a) = Some v -> a_template (assigned o a) = Some (RTmpl t) ->
    judged (t_bounds t) v l d -> attr_verdict k l a o d.

Definition aop_ok (o : aop) : Prop :=
  match o with
  | ASetValue (VVal v) => BoundsFullSpec.value_unit v
  | ASetTemplate (TRef (RTmpl t)) => good_bounds (t_bounds t)
  | _ => True
  end.
Definition attr_ok (a : attr) : Prop :=
  (forall v, a_value a = Some v -> BoundsFullSpec.value_unit v) /\ (forall t, a_template a = Some (RTmpl t) -> good_bounds (t_bounds t)).

(** ** Attributes in the list of an object *)
Section Objects.
  Variable same : tref -> tref -> bool.
  Variable k : akind.

  (** The entry that counts: the first about the attribute; on the way to it, an attribute without
      template trips over a link. *)
  Inductive looks_up (a : attr) : list entry -> res (option entry) -> Prop :=
  | lu_none : looks_up a [] (Ok None)
  | lu_hit : forall e r, about same a e -> looks_up a (e :: r) (Ok (Some e))
  | lu_link : forall s i b r, a_template a = None -> looks_up a ((RLink s i, b) :: r) (Err AttributeError)
  | lu_next : forall e r x, ~ about same a e -> (a_template a = None -> exists t, fst e = RTmpl t) -> looks_up a r x -> looks_up a (e :: r) x.

  Inductive object_verdict (l : level) (es : option (list entry)) (a : attr) : verdict -> Prop :=
  | ov_off : l = IGNORE \/ es = None -> object_verdict l es a Accept
  | ov_trips : forall x e, l <> IGNORE -> es = Some x -> looks_up a x (Err e) -> object_verdict l es a (Reject e)
  | ov_unmentioned : forall x, l <> IGNORE -> es = Some x -> looks_up a x (Ok None) -> object_verdict l es a Accept
  | ov_no_bounds : forall x e, l <> IGNORE -> es = Some x -> looks_up a x (Ok (Some e)) -> (forall b, ~ imposes k e b) -> object_verdict l es a Accept
  | ov_no_value_warn : forall x e b, l = WARNING -> es = Some x -> looks_up a x (Ok (Some e)) -> imposes k e b -> a_value a = None -> object_verdict l es a Warn
  | ov_no_value_fatal : forall x e b, l = FATAL -> es = Some x -> looks_up a x (Ok (Some e)) -> imposes k e b -> a_value a = None -> object_verdict l es a (Reject ValueError)
  | ov_judged : forall x e b v d, l <> IGNORE -> es = Some x -> looks_up a x (Ok (Some e)) -> imposes k e b -> a_value a = Some v ->
      judged b v l d -> object_verdict l es a d.

  (** Several attributes, in order, up to the first that is refused: messages and exception. *)
  Inductive all_verdicts (l : level) (es : option (list entry)) : list attr -> nat -> option exn -> Prop :=
  | vs_nil : all_verdicts l es [] 0 None
  | vs_accept : forall a r n e, object_verdict l es a Accept -> all_verdicts l es r n e -> all_verdicts l es (a :: r) n e
  | vs_warn : forall a r n e, object_verdict l es a Warn -> all_verdicts l es r n e -> all_verdicts l es (a :: r) (S n) e
  | vs_reject : forall a r e, object_verdict l es a (Reject e) -> all_verdicts l es (a :: r) 0 (Some e).

  Definition entries_ok (es : option (list entry)) : Prop := forall x, es = Some x -> good_entries k x.
  Definition value_ok (a : attr) : Prop := forall v, a_value a = Some v -> BoundsFullSpec.value_unit v.
End Objects.

(** ** Ingredient quantities: exception and number of messages. *)
Section Quantities.
  Variable dimless : uunit.
  Definition unit_of (v : value) : option uunit :=
    match v with VNominalReal _ u | VUniformReal _ _ u | VNormalReal _ _ u => Some u | _ => None end.
  (** Between zero and the largest double, in its own units / as a pure number. *)
  Definition largest_double : Q := inject_Z (2 ^ 1024 - 2 ^ 971).
  Definition in_own_units (v : value) : Prop := exists u, unit_of v = Some u /\ fits v (BReal 0 largest_double u).
  Definition pure_number (v : value) : Prop := fits v (BReal 0 largest_double dimless).

  Inductive quantity_does (l : level) (f : qfield) : varg -> option exn -> nat -> Prop :=
  | qd_none : quantity_does l f VNone None 0
  | qd_other : quantity_does l f VOther (Some TypeError) 0
  | qd_kind : forall v, value_kind v <> KReal -> quantity_does l f (VVal v) (Some TypeError) 0
  | qd_ignore : forall v, l = IGNORE -> value_kind v = KReal -> quantity_does l f (VVal v) None 0
  | qd_empty : forall v e, l <> IGNORE -> value_kind v = KReal -> no_content v e -> quantity_does l f (VVal v) (Some e) 0
  | qd_fraction : forall v, l <> IGNORE -> f <> QAbsolute -> value_kind v = KReal -> good_value v -> is_fraction v -> quantity_does l f (VVal v) None 0
  | qd_fraction_warn : forall v, l = WARNING -> f <> QAbsolute -> value_kind v = KReal -> good_value v -> ~ is_fraction v -> quantity_does l f (VVal v) None 1
  | qd_fraction_fatal : forall v, l = FATAL -> f <> QAbsolute -> value_kind v = KReal -> good_value v -> ~ is_fraction v -> quantity_does l f (VVal v) (Some ValueError) 0
  | qd_absolute_fatal : forall v, l = FATAL -> f = QAbsolute -> value_kind v = KReal -> good_value v -> quantity_does l f (VVal v) (Some ValueError) 0
  | qd_absolute_warn : forall v n m, l = WARNING -> f = QAbsolute -> value_kind v = KReal -> good_value v ->
      (in_own_units v /\ n = 0%nat \/ ~ in_own_units v /\ n = 1%nat) -> (pure_number v /\ m = 1%nat \/ ~ pure_number v /\ m = 0%nat) ->
      quantity_does l f (VVal v) None (n + m).
  Definition stored_value (x : varg) : option value := match x with VVal v => Some v | _ => None end.
End Quantities.

(** ** Levels a program names. *)
Fixpoint names_level (p : prog) (l : level) : Prop :=
  match p with
  | PSkip | PRaise => False
  | PSet x => x = Some l
  | PWith x p => x = Some l \/ names_level p l
  | PSeq p q | PTry p q | PFinally p q => names_level p l \/ names_level q l
  end.

(** Programs as one would want them to run: a with-block puts the level back however its body ends. *)
Fixpoint intended (p : prog) (l : level) : level * bool :=
  match p with
  | PSkip => (l, false)
  | PRaise | PSet None | PWith None _ => (l, true)
  | PSet (Some x) => (x, false)
  | PWith (Some x) p => (l, snd (intended p x))
  | PSeq p q => if snd (intended p l) then intended p l else intended q (fst (intended p l))
  | PTry p q => if snd (intended p l) then intended q (fst (intended p l)) else intended p l
  | PFinally p q => (fst (intended q (fst (intended p l))), (snd (intended p l) || snd (intended q (fst (intended p l))))%bool)
  end.
(** In that run, no exception leaves a with-block. *)
Fixpoint none_leaves (p : prog) (l : level) : Prop :=
  match p with
  | PWith (Some x) p => snd (intended p x) = false /\ none_leaves p x
  | PSeq p q => none_leaves p l /\ (snd (intended p l) = false -> none_leaves q (fst (intended p l)))
  | PTry p q => none_leaves p l /\ (snd (intended p l) = true -> none_leaves q (fst (intended p l)))
  | PFinally p q => none_leaves p l /\ none_leaves q (fst (intended p l))
  | _ => True
  end.
