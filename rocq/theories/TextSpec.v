(** Specification for C52: every text and every table. *)
From Coq Require Import String Ascii List Bool ZArith QArith Qabs.
From Verif Require Import Base PyStr BoundsModel BoundsSpec ValuesModel ValuesSpec TextModel.
Import ListNotations.
Open Scope list_scope.

(** ** Enumerations *)

(** [s] reads as [m]: up to case and surrounding white space it is a spelling of [m]. A spelling that
    itself has white space at an end is never read. *)
Definition reads_as (s : string) (m : member) : Prop := exists t, spelling m t /\ trimmed t /\ reads s t.
(** [m] is the first member that [s] reads as. *)
Definition first_reading (cls : list member) (s : string) (m : member) : Prop :=
  exists l1 l2, cls = l1 ++ m :: l2 /\ reads_as s m /\ forall m', In m' l1 -> ~ reads_as s m'.
Definition unread (cls : list member) (s : string) : Prop := forall m, In m cls -> ~ reads_as s m.

(** What [Class(s)] is: the member with exactly that value, else the first one [s] reads as. *)
Definition member_for (cls : list member) (s : string) (m : member) : Prop :=
  (In m cls /\ mvalue m = s) \/ ((forall m', In m' cls -> mvalue m' <> s) /\ first_reading cls s m).

(** The class a body declares. A value that reads as an earlier member is refused; one that repeats an
    earlier value (possible only with white space at an end) is an alias. *)
Inductive declares : list member -> list member -> Prop :=
| declares_nil : declares [] []
| declares_new : forall ms cls m, declares ms cls -> unread cls (mvalue m) ->
    (forall m', In m' cls -> mvalue m' <> mvalue m) -> declares (ms ++ [m]) (cls ++ [m])
| declares_alias : forall ms cls m m', declares ms cls -> unread cls (mvalue m) ->
    In m' cls -> mvalue m' = mvalue m -> declares (ms ++ [m]) cls.

(** ** Replacing text: leftmost occurrences, one after the other. [a] ends before the first one. *)
Definition first_before (old a rest : string) : Prop :=
  forall x y, (a ++ old ++ rest)%string = (x ++ old ++ y)%string -> (String.length a <= String.length x)%nat.
Inductive replaced (old new : string) : string -> string -> Prop :=
| replaced_none : forall s, ~ occurs old s -> replaced old new s s
| replaced_first : forall a rest t, first_before old a rest -> replaced old new rest t ->
    replaced old new (a ++ old ++ rest) (a ++ new ++ t).

(** What an InChI text becomes. *)
Inductive inchi_of : string -> string -> Prop :=
| inchi_one : forall p body t, lower p = "1s"%string -> replaced p "InChI=1S" ("/" ++ body) t -> inchi_of (p ++ "/" ++ body) ("InChI=1S" ++ t)
| inchi_bare : forall s, (forall p body, s = (p ++ "/" ++ body)%string -> lower p <> "1s"%string) ->
    (forall p body, s = (p ++ body)%string -> lower p <> "inchi"%string) -> inchi_of s ("InChI=1S/" ++ s)
| inchi_exact : forall body, inchi_of ("InChI" ++ body) ("InChI" ++ body)
| inchi_case : forall p body t, lower p = "inchi"%string -> p <> "InChI"%string -> replaced p "InChI" body t -> inchi_of (p ++ body) ("InChI" ++ t).

(** ** Probabilities: the sum Python computes, as a number or as one of the special ones. *)
Inductive sum_is : list pynum -> pynum -> Prop :=
| sum_nan : forall l, ~ In PyNone l -> In PyNaN l \/ (In PyInf l /\ In PyNegInf l) -> sum_is l PyNaN
| sum_inf : forall l, ~ In PyNone l -> ~ In PyNaN l -> In PyInf l -> ~ In PyNegInf l -> sum_is l PyInf
| sum_neg : forall l, ~ In PyNone l -> ~ In PyNaN l -> In PyNegInf l -> ~ In PyInf l -> sum_is l PyNegInf
| sum_finite : forall l qs q, Forall2 (fun x a => num_value x = Some a) l qs -> q == fold_right Qplus 0 qs -> sum_is l (PyFloat q).

Definition near_one (s : pynum) : Prop := s = PyNaN \/ exists q, s = PyFloat q /\ Qabs (q - 1) <= 1 # 1000000000.

(** What a probability assignment does to what was stored. *)
Inductive assigned (old : probs) : probarg -> probs -> option exn -> Prop :=
| as_none : assigned old PrNone None None
| as_text : forall s, assigned old (PrStr s) (Some [(s, PyFloat 1)]) None
| as_other : assigned old PrOther old (Some TypeError)
| as_missing : forall d, In PyNone (map snd d) -> assigned old (PrDict d) old (Some TypeError)
| as_off : forall d s, sum_is (map snd d) s -> ~ near_one s -> assigned old (PrDict d) old (Some ValueError)
| as_key : forall d s, sum_is (map snd d) s -> near_one s -> In ONotStr (map fst d) -> assigned old (PrDict d) old (Some TypeError)
| as_stored : forall l s, sum_is (map snd l) s -> near_one s ->
    assigned old (PrDict (map (fun kv => (OStr (fst kv), snd kv)) l)) (Some l) None.
