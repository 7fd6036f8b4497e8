(** C50: everything the case-insensitive dictionary does. *)
From Coq Require Import String List Bool.
From Verif Require Import Base BaseFacts PyStr CidModel CidSpec CidProofs CidFullSpec CidFullProofs.
Import ListNotations.
Open Scope string_scope.
Open Scope list_scope.

(** Every history of operations on a constructed dictionary, inherited ones and failing ones
    included, gives the answers and the content of the full specification. *)
Theorem cid_full_history : forall lower V (seq : list (string * V)) c ops, init lower V seq = Ok c ->
  let d := mkD (tbl c) (map fst (tbl c)) in let r := run lower V c ops in
  snd r = snd (full_run lower V d ops) /\ tbl (fst r) = stored (fst (full_run lower V d ops)).
Proof.
  intros lower V seq c ops H. destruct (init_full lower V seq c H) as (d & -> & D & E). cbn zeta.
  assert (X : mkD (tbl (impl lower V d)) (map fst (tbl (impl lower V d))) = d) by (destruct d; cbn in *; now rewrite E). rewrite X.
  destruct (run_full lower V ops d D) as [R _]. rewrite R. auto.
Qed.
Print Assumptions cid_full_history.

(** Whatever was done before: no key is stored twice in the same casing; what a lookup gives is
    stored under a key that equals the one asked for up to case; [in] says whether a lookup
    succeeds; and all casings of a key are answered alike. *)
Theorem cid_lookups_sound : forall lower V (seq : list (string * V)) c0 ops k, init lower V seq = Ok c0 ->
  let c := fst (run lower V c0 ops) in
  NoDup (map fst (tbl c))
  /\ (forall v, getitem lower V c k = Ok v -> exists k', lower k' = lower k /\ In (k', v) (tbl c))
  /\ (contains lower V c k = true <-> exists v, getitem lower V c k = Ok v)
  /\ (forall k2, lower k2 = lower k -> getitem lower V c k2 = getitem lower V c k).
Proof.
  intros lower V seq c0 ops k H. destruct (init_full lower V seq c0 H) as (d0 & -> & D0 & _). cbn zeta.
  destruct (run_full lower V ops d0 D0) as [R D]. rewrite R. cbn [fst]. set (d := fst (full_run lower V d0 ops)) in *. clearbody d. clear R.
  assert (D' := D). destruct D' as (D1 & D2 & D3). split; [exact D1|].
  destruct (step_full lower V d (OGetitem k) D) as [G _]. cbn [step full_step fst snd] in G. injection G as G.
  destruct (step_full lower V d (OContains k) D) as [C _]. cbn [step full_step fst snd] in C. injection C as C.
  assert (Got : forall k', seen_as lower V k d = Some k' -> exists v, dict_get k' (stored d) = Some v).
  { intros k' S. apply seen_In in S as [I _]. apply dict_get_Some_key. now apply D3. }
  repeat split.
  - intros v E. rewrite E in G. destruct (seen_as lower V k d) as [k'|] eqn:S; [|discriminate]. injection G as G. exists k'. split; [now apply seen_In in S|]. now apply dict_get_In.
  - rewrite C. destruct (seen_as lower V k d) as [k'|] eqn:S; [|discriminate]. intros _. destruct (Got k' eq_refl) as [v Gv]. rewrite Gv in G. destruct (getitem lower V (impl lower V d) k); [eauto | discriminate].
  - intros [v E]. rewrite E in G. rewrite C. destruct (seen_as lower V k d); [auto | discriminate].
  - intros k2 L. unfold getitem. now rewrite L.
Qed.
Print Assumptions cid_lookups_sound.

(** An operation that raises changes nothing, except in three cases: deleting a hidden key, popping
    a last pair whose key is hidden, and an update that itself names a key in two casings. *)
Theorem cid_raises : forall lower V (seq : list (string * V)) c0 ops o e, init lower V seq = Ok c0 ->
  let d := fst (full_run lower V (mkD (tbl c0) (map fst (tbl c0))) ops) in let c := fst (run lower V c0 ops) in
  snd (step lower V c o) = RExn e -> fst (step lower V c o) = c \/ raises_late lower V d o.
Proof.
  intros lower V seq c0 ops o e H. destruct (init_full lower V seq c0 H) as (d0 & -> & D0 & E0). cbn zeta.
  assert (X : mkD (tbl (impl lower V d0)) (map fst (tbl (impl lower V d0))) = d0) by (destruct d0; cbn in *; now rewrite E0). rewrite X.
  destruct (run_full lower V ops d0 D0) as [R D]. rewrite R. cbn [fst]. destruct (step_full lower V (fst (full_run lower V d0 ops)) o D) as [S _]. rewrite S. cbn [fst snd].
  intros E. destruct (full_raise lower V _ _ _ D E) as [F|F]; auto. left. now rewrite F.
Qed.
Print Assumptions cid_raises.

(** The inherited [setdefault] and [|=] hide what they store; assigning the key brings it back;
    deleting a hidden key raises and deletes; a hidden last pair is popped with a KeyError; popping
    a hidden key hides the visible key of another casing. *)
Example cid_full_ex :
  run lower nat (mkCid [] [])
    [OSetdefault "id" 1; OContains "id"; OSet "id" 2; OGetitem "ID"; OIor [("ID", 3)]; OItems; OPopitem; OContains "id"; OLen;
     ODel "id"; OLen; OSetdefault "x" 4; OPopitem; OLen; OUpdate [("a", 5); ("A", 6); ("b", 7)]; OItems; OContains "b"; OGetitem "A"; OCopy; ODel "A"; OItems]
  = (mkCid [("A", 6); ("b", 7)] [],
     [RVal (Some 1); RBool false; RNone; RVal (Some 2); RNone; RItems [("id", 2); ("ID", 3)]; RItem "ID" 3; RBool false; RLen 1;
      RExn KeyError; RLen 0; RVal (Some 4); RExn KeyError; RLen 0; RExn ValueError; RItems [("a", 5); ("A", 6); ("b", 7)]; RBool false; RVal (Some 5); RExn ValueError; RNone;
      RItems [("A", 6); ("b", 7)]]).
Proof. vm_compute. reflexivity. Qed.

(** The three exceptions happen. *)
Theorem cid_raises_late_refuted : exists (c1 c2 c3 : cid nat),
  let hidden := [OSetdefault "id" 1] in
  c1 = fst (run lower nat (mkCid [] []) hidden) /\ tbl c1 = [("id", 1)]
  /\ step lower nat c1 (ODel "id") = (c2, RExn KeyError) /\ tbl c2 = []
  /\ step lower nat c1 OPopitem = (c2, RExn KeyError)
  /\ step lower nat c2 (OUpdate [("a", 1); ("A", 2)]) = (c3, RExn ValueError) /\ tbl c3 = [("a", 1); ("A", 2)].
Proof. exists (mkCid [("id", 1)] []), (mkCid [] []), (mkCid [("a", 1); ("A", 2)] [("a", "a")]). vm_compute. repeat split. Qed.
Print Assumptions cid_raises_late_refuted.
