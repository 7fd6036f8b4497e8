(** What the attribute template lists of object templates take. *)
From Coq Require Import String List Bool.
From Verif Require Import Base BoundsModel BoundsSpec ValidationModel ValidationSpec.
Import ListNotations.
Open Scope list_scope.

(** Things of the types a list of attribute templates of kind [k] is declared with. *)
Inductive permitted (k : akind) : hval -> Prop :=
| per_template t : t_kind t = k -> permitted k (HTmpl t)
| per_link s i : permitted k (HLink s i)
| per_sequence l : permitted k (HSeq l).

Definition named (x : hval) (r : tref) : Prop :=
  match r with RTmpl t => x = HTmpl t | RLink s i => x = HLink s i end.
(** What is recorded for something of these types, or raised. *)
Inductive recorded : hval -> res entry -> Prop :=
| rec_alone x r : named x r -> recorded x (Ok (r, None))
| rec_pair x r : named x r -> recorded (HSeq [x; HNone]) (Ok (r, None))
| rec_link s i b : recorded (HSeq [HLink s i; HBounds b]) (Ok (RLink s i, Some b))
| rec_inside t b : inside b (t_bounds t) -> recorded (HSeq [HTmpl t; HBounds b]) (Ok (RTmpl t, Some b))
| rec_outside t b : ~ inside b (t_bounds t) -> recorded (HSeq [HTmpl t; HBounds b]) (Err ValueError)
| rec_length l : length l <> 2 -> recorded (HSeq l) (Err ValueError)
| rec_first x y : (forall r, ~ named x r) -> recorded (HSeq [x; y]) (Err TypeError)
| rec_second x y : y <> HNone -> (forall b, y <> HBounds b) -> recorded (HSeq [x; y]) (Err TypeError).

(** A list: a wrong type anywhere is found first, then the first entry that is refused. *)
Inductive all_recorded (k : akind) (l : list hval) : res (list entry) -> Prop :=
| all_wrong x : In x l -> ~ permitted k x -> all_recorded k l (Err TypeError)
| all_good es : Forall (permitted k) l -> Forall2 (fun x e => recorded x (Ok e)) l es -> all_recorded k l (Ok es)
| all_refused l1 x l2 es e : Forall (permitted k) l -> l = l1 ++ x :: l2 -> Forall2 (fun x e => recorded x (Ok e)) l1 es ->
    recorded x (Err e) -> all_recorded k l (Err e).

(** What is assigned stands for these entries: nothing, one, those of a list, or a list with bounds in it as one pair. *)
Inductive stands_for : hval -> list hval -> Prop :=
| st_none : stands_for HNone []
| st_list l : (forall b, ~ In (HBounds b) l) -> stands_for (HSeq l) l
| st_pair l b : In (HBounds b) l -> stands_for (HSeq l) [HSeq l]
| st_one x : x <> HNone -> (forall l, x <> HSeq l) -> stands_for x [x].

(** All bounds involved are ones the constructors make. *)
Fixpoint sound (x : hval) : Prop :=
  match x with
  | HTmpl t => good_bounds (t_bounds t)
  | HBounds b => good_bounds b
  | HSeq l => (fix all (l : list hval) : Prop := match l with [] => True | y :: r => sound y /\ all r end) l
  | _ => True
  end.
(** The list reads as these entries. *)
Definition holds (v : VlModel.vlist hval hty unit) (es : list entry) : Prop := map as_entry (VlModel.items v) = map Some es.
