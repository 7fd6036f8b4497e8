(** C49: what every assignment to a two-sided reference does, and what is left of it. *)
From Coq Require Import String List Bool Arith Lia.
From Verif Require Import Base BaseFacts GraphModel GraphSpec GraphProofs AssignSpec AssignProofs.
Import ListNotations.
Open Scope string_scope.
Open Scope list_scope.

(** Assigning to the process of a material, in any state: it is accepted exactly for None, a link or
    a process of the right class, raises a TypeError otherwise, and has the effect described by
    [process_effect] either way. *)
Theorem process_assignment : forall eq h m mk pk v, kind_at h m = Some mk -> couple mk pk ->
  let r := assign eq h m "process" v in
  (well_typed h m "process" v /\ snd r = None /\ process_effect h m pk v true (fst r))
  \/ (~ well_typed h m "process" v /\ snd r = Some TypeError /\ process_effect h m pk v false (fst r)).
Proof. exact process_assigned. Qed.
Print Assumptions process_assignment.

(** Assigning to the material of a measurement or the process of an ingredient, after any history:
    a ValueError and nothing changed if the owner's list has nothing that could be taken for the
    object; otherwise accepted exactly for None, a link or an owner of the right class, and a
    TypeError for anything else, with the effect described by [list_effect] either way. *)
Theorem list_assignment : forall eq before ck cf pk lf x v, listed ck cf pk lf ->
  let h := grun eq [] before in kind_at h x = Some ck ->
  let r := assign eq h x cf v in
  (lost eq h x cf pk lf /\ r = (h, Some ValueError))
  \/ (~ lost eq h x cf pk lf /\ well_typed h x cf v /\ snd r = None /\ list_effect eq h x cf pk lf v true (fst r))
  \/ (~ lost eq h x cf pk lf /\ ~ well_typed h x cf v /\ snd r = Some TypeError /\ list_effect eq h x cf pk lf v false (fst r)).
Proof.
  intros eq before ck cf pk lf x v L h K. apply (list_assigned eq h ck cf pk lf x v); auto.
  apply (orderly_run eq false before [] ltac:(discriminate) (orderly_nil false)).
Qed.
Print Assumptions list_assignment.

(** After any history, accepted and rejected assignments alike and whatever is equal to what, a list
    has at most as many items as there are objects that refer to its owner. *)
Theorem lists_never_longer : forall eq ops ck cf pk lf p l, listed ck cf pk lf ->
  let h := grun eq [] ops in kind_at h p = Some pk -> fval h p lf = PList l -> length l <= length (referring h ck cf p).
Proof.
  intros eq ops ck cf pk lf p l L h K F.
  destruct (orderly_run eq false ops [] ltac:(discriminate) (orderly_nil false)) as (C & _). eapply C; eauto.
Qed.
Print Assumptions lists_never_longer.

(** It has exactly as many if no assignment to an attached object is rejected, even among objects
    that are equal to each other. *)
Theorem lists_right_length : forall eq ops ck cf pk lf p l, throughout eq no_reject [] ops -> listed ck cf pk lf ->
  let h := grun eq [] ops in kind_at h p = Some pk -> fval h p lf = PList l -> length l = length (referring h ck cf p).
Proof.
  intros eq ops ck cf pk lf p l T L h K F.
  destruct (orderly_run eq true ops [] (fun _ => T) (orderly_nil true)) as (C & _). eapply C; eauto.
Qed.
Print Assumptions lists_right_length.

(** An object whose owner does not list it is stuck: for as long as nothing in the owner's list is
    equal to it, whatever else happens, it keeps referring to the owner, is not listed, and every
    assignment to its reference raises a ValueError and changes nothing. *)
Theorem unlisted_for_good : forall eq before ck cf pk lf x p l, listed ck cf pk lf ->
  let h := grun eq [] before in kind_at h x = Some ck -> holds h x cf pk p -> fval h p lf = PList l -> ~ In (PRef x) l ->
  forall ops, throughout eq (fun g _ => unlike eq x p lf g) h ops -> let h' := grun eq h ops in
  fval h' x cf = PRef p
  /\ (exists l', fval h' p lf = PList l' /\ ~ In (PRef x) l')
  /\ (unlike eq x p lf h' -> forall v, assign eq h' x cf v = (h', Some ValueError)).
Proof.
  intros eq before ck cf pk lf x p l L h Kx [F Kp] Fl N ops.
  assert (O : orderly false h) by apply (orderly_run eq false before [] ltac:(discriminate) (orderly_nil false)).
  assert (St : stuck ck cf pk lf x p h) by (unfold stuck; eauto 10). clearbody h. clear Kx F Kp Fl N l.
  revert h O St. induction ops as [|op ops IH]; intros h O St T; cbn [GraphModel.grun].
  - destruct O as (_ & _ & E). assert (St' := St). destruct St' as (Kx & Kp & F & l & Fl & N). repeat split; eauto.
    intros U v. assert (Lo := stuck_lost eq _ _ _ _ _ _ _ U St). destruct (list_assigned eq h ck cf pk lf x v L E Kx) as [[_ R]|[[X _]|[X _]]]; auto; contradiction.
  - destruct T as [U T]. apply IH; auto.
    + apply orderly_step; auto. discriminate.
    + apply stuck_step; auto. apply O.
Qed.
Print Assumptions unlisted_for_good.

(** Finding: a rejected assignment leaves an object in that state. The measurement below can never
    again be given a material, not even the one it shows, and whatever equality answers. *)
Theorem rejected_then_stuck_refuted : exists ops, forall eq v,
  let h := grun eq [] ops in
  graised eq [] ops = [TypeError] /\ fval h 1 "material" = PRef 0 /\ fval h 0 "measurements" = PList []
  /\ assign eq h 1 "material" v = (h, Some ValueError).
Proof.
  exists [ GNew KMatR [] []; GNew KMeasR [] []; GSet 1 "material" (PRef 0); GSet 1 "material" (PAtom (AStr "powder")) ].
  intros eq v. vm_compute. auto.
Qed.
Print Assumptions rejected_then_stuck_refuted.

(** Two measurements of one material; the second is given another material, the first is rejected
    and from then on stuck while others come and go. *)
Definition ex_before : list gop :=
  [ GNew KMatR [] []; GNew KMatR [] []; GNew KMeasR [] []; GNew KMeasR [] []; GSet 2 "material" (PRef 0); GSet 3 "material" (PRef 0);
    GSet 3 "material" (PRef 1) ].
Definition ex_after : list gop := [ GSet 3 "material" (PRef 0); GNew KMeasR [] []; GSet 4 "material" (PRef 0); GSet 3 "material" PNone; GSet 2 "material" PNone ].
Example ex_assignment :
  let eq := fun _ _ _ => false in
  let h := grun eq [] ex_before in
  let g := fst (assign eq h 2 "material" (PRef 2)) in
  throughout eq no_reject [] ex_before
  /\ fval h 0 "measurements" = PList [PRef 2] /\ referring h KMeasR "material" 0 = [2]
  /\ (~ lost eq h 2 "material" KMatR "measurements" /\ ~ well_typed h 2 "material" (PRef 2))
  /\ fval g 0 "measurements" = PList [] /\ referring g KMeasR "material" 0 = [2]
  /\ throughout eq (fun g _ => unlike eq 2 0 "measurements" g) g ex_after
  /\ (let g' := grun eq g ex_after in fval g' 0 "measurements" = PList [PRef 4] /\ fval g' 2 "material" = PRef 0 /\ referring g' KMeasR "material" 0 = [2; 4]).
Proof.
  intros eq h g. split; [|split; [reflexivity|split; [reflexivity|split]]].
  - unfold ex_before. cbn [throughout]. repeat split; try exact I; intros o f v k [= <- <- <-] K _ _; vm_compute in K; injection K as <-;
      exists KMeasR, KMatR; (split; [reflexivity|]); (split; [unfold asked_kind; cbn; tauto|]); right; right; eexists; split; reflexivity.
  - split.
    + intros (p & l & [F _] & Fl & N). vm_compute in F. injection F as <-. vm_compute in Fl. injection Fl as <-. apply (N (PRef 2)); [now left | now left].
    + intros (k & pk & K & A & W). vm_compute in K. injection K as <-. destruct W as [|[(? & ? & ?)|(p & [= <-] & Kp)]]; try discriminate.
      vm_compute in Kp. injection Kp as <-. unfold asked_kind in A. cbn in A. repeat (destruct A as [A|A]; try discriminate). contradiction.
  - split; [reflexivity|]. split; [reflexivity|]. split; [|vm_compute; auto]. unfold ex_after. cbn [throughout]. repeat split; intros ? ? _ _ _; reflexivity.
Qed.
