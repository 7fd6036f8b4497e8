(** C01, C02: the case-insensitive dictionary. *)
From Coq Require Import String List Bool.
From Verif Require Import Base BaseFacts PyStr CidModel CidSpec CidProofs.
Import ListNotations.
Open Scope string_scope.
Open Scope list_scope.

(** C01. Construction succeeds exactly when the supplied pairs can be stored one after another in a
    case-insensitive map. *)
Theorem cid_construction : forall lower V (seq : list (string * V)),
  match store_all lower V [] seq with
  | Some s => exists c, init lower V seq = Ok c /\ tbl c = s
  | None => init lower V seq = Err ValueError
  end.
Proof.
  intros lower V seq. destruct (store_all lower V [] seq) as [s|] eqn:E.
  - destruct (init_ok lower V seq s E) as [H _]. rewrite H. eexists; split; reflexivity.
  - now apply init_err.
Qed.
Print Assumptions cid_construction.

Example cid_construction_ex :
  init lower nat [("Foo", 1); ("bar", 2); ("Foo", 3)]
    = Ok (mkCid [("Foo", 3); ("bar", 2)] [("foo", "Foo"); ("bar", "bar")])
  /\ init lower nat [("Foo", 1); ("foo", 2)] = Err ValueError.
Proof. split; vm_compute; reflexivity. Qed.

(** C01. Every history of (covered) operations on a constructed dictionary gives the answers and the
    content of the specification, and never holds two keys equal up to case. *)
Theorem cid_history_partial : forall lower V (seq : list (string * V)) c ops,
  init lower V seq = Ok c -> Forall (covered lower V) ops ->
  exists s0, store_all lower V [] seq = Some s0 /\
    snd (run lower V c ops) = snd (spec_run lower V s0 ops) /\
    tbl (fst (run lower V c ops)) = fst (spec_run lower V s0 ops) /\
    distinct_keys lower V (tbl (fst (run lower V c ops))).
Proof.
  intros lower V seq c ops H C.
  destruct (store_all lower V [] seq) as [s|] eqn:E.
  - destruct (init_ok lower V seq s E) as [I D]. rewrite I in H. injection H as <-.
    destruct (run_refines lower V ops s D C) as (t & R & T & D'). exists s.
    rewrite R; cbn. rewrite <- T. auto.
  - rewrite (init_err lower V seq E) in H. discriminate.
Qed.
Print Assumptions cid_history_partial.

Definition ex_ops : list (op nat) :=
  [OSet "Foo" 1; OSet "FOO" 2; OGetitem "fOO"; OUpdate [("bar", 5); ("Foo", 7)]; OGet "FOO" None;
   ODel "foo"; OContains "Foo"; OSet "FOO" 9; OItems; OPop "fOO" None; OCopy; OPopitem; OPopitem].

Example cid_history_ex :
  Forall (covered lower nat) ex_ops /\
  run lower nat (mkCid [] []) ex_ops =
   (mkCid [] [],
    [RNone; RExn ValueError; RVal (Some 1); RNone; RVal (Some 7); RNone; RBool false; RNone;
     RItems [("bar", 5); ("FOO", 9)]; RVal (Some 9); RNone; RItem "bar" 5; RExn KeyError]).
Proof.
  split; [|vm_compute; reflexivity].
  unfold ex_ops. repeat constructor.
  intros k v k' v' [H|[H|[]]] [H'|[H'|[]]]; injection H as <- <-; injection H' as <- <-;
    vm_compute; congruence.
Qed.

(** C02. An operation that raises leaves both tables exactly as they were. *)
Theorem cid_failure_atomic_partial : forall lower V (seq : list (string * V)) c ops o c' e,
  init lower V seq = Ok c -> Forall (covered lower V) ops -> covered lower V o ->
  step lower V (fst (run lower V c ops)) o = (c', RExn e) ->
  c' = fst (run lower V c ops).
Proof.
  intros lower V seq c ops o c' e H C Co S.
  destruct (store_all lower V [] seq) as [s|] eqn:E.
  - destruct (init_ok lower V seq s E) as [I D]. rewrite I in H. injection H as <-.
    destruct (run_refines lower V ops s D C) as (t & R & T & D'). rewrite R in *. cbn in *.
    destruct (step_refines lower V t o D' Co) as (t' & S' & T' & _).
    rewrite S' in S. injection S as S1 S2. rewrite <- S1.
    apply spec_err_unchanged in S2. congruence.
  - rewrite (init_err lower V seq E) in H. discriminate.
Qed.
Print Assumptions cid_failure_atomic_partial.

Example cid_failure_atomic_ex :
  step lower nat (fst (run lower nat (mkCid [] []) [OSet "Foo" 1])) (OUpdate [("x", 2); ("foo", 3)])
  = (mkCid [("Foo", 1)] [("foo", "Foo")], RExn ValueError).
Proof. vm_compute. reflexivity. Qed.

(** Finding (C02 is false without the guard): an update naming one key in two casings raises, yet
    the dictionary has changed and holds two keys equal up to case. *)
Theorem cid_update_atomic_refuted : exists (c c' : cid nat) items,
  init lower nat [] = Ok c /\ step lower nat c (OUpdate items) = (c', RExn ValueError) /\
  c' <> c /\ ~ distinct_keys lower nat (tbl c').
Proof.
  exists (mkCid [] []), (mkCid [("id", 1); ("ID", 2)] [("id", "id")]), [("id", 1); ("ID", 2)].
  repeat split; try (vm_compute; reflexivity); [discriminate|].
  intros N. vm_compute in N. inversion N. apply H1. now left.
Qed.
Print Assumptions cid_update_atomic_refuted.

(** Finding: the inherited [setdefault] stores keys that lookups do not see, and can store the same
    key in two casings. *)
Theorem cid_setdefault_refuted : exists (c c1 c2 : cid nat),
  init lower nat [] = Ok c /\
  step lower nat c (OSetdefault "id" 1) = (c1, RVal (Some 1)) /\
  snd (step lower nat c1 (OContains "id")) = RBool false /\
  snd (step lower nat c1 (OGetitem "id")) = RExn KeyError /\
  step lower nat c1 (OSetdefault "ID" 2) = (c2, RVal (Some 2)) /\
  ~ distinct_keys lower nat (tbl c2).
Proof.
  exists (mkCid [] []), (mkCid [("id", 1)] []), (mkCid [("id", 1); ("ID", 2)] []).
  repeat split; try (vm_compute; reflexivity).
  intros N. vm_compute in N. inversion N. apply H1. now left.
Qed.
Print Assumptions cid_setdefault_refuted.
