(** C15, C16, C17: two-sided references. *)
From Coq Require Import String List Bool Arith Lia.
From Verif Require Import Base BaseFacts GraphModel GraphSpec GraphProofs.
Import ListNotations.
Open Scope string_scope.
Open Scope list_scope.

(** ** C15: a material and its process name each other *)

(** After any history of object constructions and reference assignments of every kind -- runs and
    specs, objects, links, None -- starting from nothing, in which no process is given to a second
    material while a first holds it and no wrongly typed value is assigned to a field that holds an
    object, [m.process is p] exactly when [p.output_material is m].
    Missing for the full C15: a rejected assignment to a material that has a process (see
    [rejected_process_refuted]). *)
Theorem material_process_agree_partial : forall eq ops,
  throughout eq (fun h op => not_stolen h op /\ no_reject h op) [] ops ->
  processes_agree (grun eq [] ops).
Proof.
  intros eq ops T mk pk m p C. split.
  - intros [K F]. assert (B : inputs_agree []) by (intros ? ? [] ? ? ?; discriminate).
    exact (grun_inputs eq ops [] T B mk pk m p C K F).
  - intros [K F]. assert (A : outputs_agree []) by (intros ? ? ? [] ? ?; discriminate).
    exact (grun_outputs eq ops [] A mk pk m p C K F).
Qed.

(** Whatever the history -- stealing and rejected assignments included -- what a process names as
    its output always names the process back. *)
Theorem output_material_names_process : forall eq ops, outputs_agree (grun eq [] ops).
Proof. intros. apply grun_outputs. intros ? ? ? [] ? ?; discriminate. Qed.

(** An accepted assignment makes the two name each other at once and frees the previous process. *)
Theorem process_assignment_effect : forall eq h m p k pk q,
  kind_at h m = Some k -> couple k pk -> kind_at h p = Some pk ->
  fval h m "process" = PRef q -> kind_at h q = Some pk -> q <> p ->
  let r := assign eq h m "process" (PRef p) in
  snd r = None /\ fval (fst r) m "process" = PRef p /\ fval (fst r) p "output_material" = PRef m
  /\ fval (fst r) q "output_material" = PNone.
Proof.
  intros eq h m p k pk q K C Kp F Kq N r. unfold r, assign. rewrite K, (couple_role _ _ C).
  destruct (set_process_cases h pk m (PRef p) k K) as [[Hv E]|[[p' [Ep [Kpp E]]]|[E [V1 [V2 V3]]]]].
  - destruct Hv as [|[? [? ?]]]; discriminate.
  - injection Ep as <-. rewrite E; cbn [fst snd].
    assert (D : "process" <> "output_material") by discriminate. repeat split; auto.
    + apply fval_set_same. apply (kind_hget _ _ k). now rewrite kind_set_field, detach_kind.
    + rewrite fval_set_other by auto. apply fval_set_same. apply (kind_hget _ _ pk). now rewrite detach_kind.
    + rewrite fval_set_other by auto. rewrite fval_set_other by auto. rewrite detach_out_val, F, Nat.eqb_refl.
      now rewrite (proj2 (is_kind_ref _ _ _) Kq).
  - exfalso. eapply V3; eauto.
Qed.

(** A history that meets the hypotheses: two processes, a material moved between them, set to a
    link, back to an object and to None. *)
Definition ex_process_ops : list gop :=
  [ GNew KProcR [("a", "1")] [("name", PAtom (AStr "p"))]; GNew KProcR [] []; GNew KMatR [] [];
    GSet 2 "process" (PRef 0); GSet 2 "process" (PRef 1); GSet 2 "process" (PLink "a" "1");
    GSet 2 "process" (PAtom (AStr "no")); GSet 2 "process" (PRef 0); GNew KMatR [] []; GSet 3 "process" (PRef 1) ].

Ltac ok_stolen := intros m0 p0 mk0 m1 Hop;
  first [discriminate Hop | inversion Hop; subst; vm_compute; intros; congruence].
Ltac ok_reject := intros o0 f0 v0 k0 Hop;
  first [discriminate Hop
        | inversion Hop; subst; intros Hk _ [q0 Hq]; vm_compute in Hk, Hq;
          first [discriminate Hq
                | inversion Hk; subst; eexists _, _; split; [vm_compute; reflexivity|];
                  split; [unfold asked_kind; cbn; tauto | eauto 8]]].
Ltac ok_twin := intros x0 cf0 v0 ck0 pk0 lf0 p0 l0 y0 Hop; reflexivity.
Ltac history tac := repeat (cbn [throughout]; split; [tac|]); exact I.

Example ex_process_history :
  throughout (fun _ _ _ => false) (fun h op => not_stolen h op /\ no_reject h op) [] ex_process_ops
  /\ fval (grun (fun _ _ _ => false) [] ex_process_ops) 2 "process" = PRef 0
  /\ fval (grun (fun _ _ _ => false) [] ex_process_ops) 0 "output_material" = PRef 2
  /\ fval (grun (fun _ _ _ => false) [] ex_process_ops) 1 "output_material" = PRef 3
  /\ graised (fun _ _ _ => false) [] ex_process_ops = [TypeError].
Proof.
  split; [|vm_compute; auto].
  unfold ex_process_ops. history ltac:(split; [ok_stolen | ok_reject]).
Qed.

(** Giving a process to a second material leaves the first one pointing at it. *)
Theorem stolen_process_refuted : exists ops, forall eq,
  let h := grun eq [] ops in
  throughout eq no_reject [] ops /\
  kind_at h 1 = Some KMatR /\ fval h 1 "process" = PRef 0 /\ fval h 0 "output_material" = PRef 2.
Proof.
  exists [GNew KProcR [] []; GNew KMatR [] []; GNew KMatR [] []; GSet 1 "process" (PRef 0); GSet 2 "process" (PRef 0)].
  intros eq h. split; [|vm_compute; auto].
  history ok_reject.
Qed.

(** A rejected assignment to a material that has a process: the material still names the process,
    the process no longer names the material. *)
Theorem rejected_process_refuted : exists ops, forall eq,
  let h := grun eq [] ops in
  throughout eq not_stolen [] ops /\ graised eq [] ops = [TypeError] /\
  kind_at h 1 = Some KMatR /\ fval h 1 "process" = PRef 0 /\ fval h 0 "output_material" = PNone.
Proof.
  exists [GNew KProcR [] []; GNew KMatR [] []; GSet 1 "process" (PRef 0); GSet 1 "process" (PRef 1)].
  intros eq h. split; [|vm_compute; auto].
  history ok_stolen.
Qed.

(** ** C16: lists mirror references *)

(** After any history from nothing in which an object only leaves a list none of whose other
    members equals it, and no wrongly typed value is assigned to a field that holds an object,
    every [measurements] and [ingredients] list holds exactly the objects that refer to its owner,
    each once.
    Missing for the full C16: equal siblings and rejected assignments, for which it is false
    ([equal_sibling_refuted], [rejected_material_refuted]). *)
Theorem lists_mirror_references_partial : forall eq ops,
  throughout eq (fun h op => no_twin eq h op /\ no_reject h op) [] ops ->
  lists_mirror (grun eq [] ops).
Proof.
  intros eq ops T. apply grun_mirror; auto.
  intros ck cf pk lf L. split; [intros [] ?; discriminate | intros [] ? ?; discriminate].
Qed.

(** An accepted assignment puts the object at the end of its owner's list, takes it out of every
    other, and leaves the order of the rest. *)
Theorem new_entry_last : forall eq h ck cf pk lf x p,
  listed ck cf pk lf -> lists_mirror h -> kind_at h x = Some ck -> kind_at h p = Some pk ->
  no_twin eq h (GSet x cf (PRef p)) ->
  let r := assign eq h x cf (PRef p) in
  snd r = None /\ fval (fst r) x cf = PRef p /\
  forall q xs, kind_at h q = Some pk -> fval h q lf = PList (map PRef xs) ->
    fval (fst r) q lf = PList (map PRef (filter (fun y => negb (Nat.eqb y x)) xs ++ (if Nat.eqb p q then [x] else []))).
Proof.
  intros eq h ck cf pk lf x p L M K Kp NT r. unfold r, assign. rewrite K, (proj2 (role_owned _ _ _ _) L).
  destruct (set_owned_effect eq h ck cf pk lf x (PRef p) L M K) as [[E [_ [R1 R2]]]|[_ [[_ [_ V]] _]]].
  - intros q F l y Fl Iy Ny. eapply NT; eauto.
  - auto.
  - exfalso. eapply V; eauto.
Qed.

(** Under the same conditions every wrongly typed value is answered by TypeError and nothing else
    is ever raised. *)
Theorem well_typed_reference_accepted_partial : forall eq h ck cf pk lf x v,
  listed ck cf pk lf -> lists_mirror h -> kind_at h x = Some ck -> no_twin eq h (GSet x cf v) ->
  (well_typed h x cf v -> snd (assign eq h x cf v) = None /\ fval (fst (assign eq h x cf v)) x cf = v)
  /\ (~ well_typed h x cf v -> snd (assign eq h x cf v) = Some TypeError).
Proof.
  intros eq h ck cf pk lf x v L M K NT.
  destruct (listed_asked _ _ _ _ L) as [A _]. rewrite (well_typed_acceptable _ _ _ _ _ _ K A). unfold acceptable.
  unfold assign. rewrite K, (proj2 (role_owned _ _ _ _) L).
  destruct (set_owned_effect eq h ck cf pk lf x v L M K) as [[E [V [R1 R2]]]|[E [[V1 [V2 V3]] _]]].
  - intros q F l y Fl Iy Ny. eapply NT; eauto.
  - split; [auto|]. intros N; exfalso; auto.
  - split; [|auto]. intros [->|[[s [i ->]]|[q [-> Kq]]]]; exfalso; [congruence | eapply V2; eauto | eapply V3; eauto].
Qed.

Definition ex_list_ops : list gop :=
  [ GNew KMatR [] []; GNew KMatR [] []; GNew KMeasR [] []; GNew KMeasR [] [];
    GSet 2 "material" (PRef 0); GSet 3 "material" (PRef 0); GSet 2 "material" (PRef 0); GSet 3 "material" (PRef 1);
    GNew KProcS [] []; GNew KIngS [] []; GSet 5 "process" (PRef 4); GSet 5 "process" (PLink "a" "b") ].

Example ex_list_history :
  throughout (fun _ _ _ => false) (fun h op => no_twin (fun _ _ _ => false) h op /\ no_reject h op) [] ex_list_ops
  /\ fval (grun (fun _ _ _ => false) [] ex_list_ops) 0 "measurements" = PList [PRef 2]
  /\ fval (grun (fun _ _ _ => false) [] ex_list_ops) 1 "measurements" = PList [PRef 3]
  /\ fval (grun (fun _ _ _ => false) [] ex_list_ops) 4 "ingredients" = PList []
  /\ fval (grun (fun _ _ _ => false) [] (firstn 7 ex_list_ops)) 0 "measurements" = PList [PRef 3; PRef 2].
Proof.
  split; [|vm_compute; auto].
  unfold ex_list_ops. history ltac:(split; [ok_twin | ok_reject]).
Qed.

(** [list.remove] finds the first member that compares equal: moving the second of two equal
    measurements takes the first one out of the list. *)
Theorem equal_sibling_refuted : exists eq ops,
  let h := grun eq [] ops in
  graised eq [] ops = [] /\
  fval h 0 "measurements" = PList [PRef 2] /\ fval h 2 "material" = PNone /\ fval h 1 "material" = PRef 0.
Proof.
  exists (fun _ _ _ => true),
    [ GNew KMatR [] []; GNew KMeasR [] []; GNew KMeasR [] []; GSet 1 "material" (PRef 0); GSet 2 "material" (PRef 0); GSet 2 "material" PNone ].
  vm_compute. auto.
Qed.

(** A rejected assignment takes the measurement out of the list although it keeps its material,
    and from then on even clearing the field raises ValueError. *)
Theorem rejected_material_refuted : exists ops, forall eq,
  let h := grun eq [] ops in
  graised eq [] ops = [TypeError] /\
  fval h 1 "material" = PRef 0 /\ fval h 0 "measurements" = PList [] /\
  assign eq h 1 "material" PNone = (h, Some ValueError).
Proof.
  exists [ GNew KMatR [] []; GNew KMeasR [] []; GSet 1 "material" (PRef 0); GSet 1 "material" (PAtom (AStr "x")) ].
  intros eq. vm_compute. auto.
Qed.

(** ** C17: rejected assignments *)

(** One-sided reference fields (every [spec] and [template], and an ingredient's [material]):
    a wrongly typed value raises TypeError and every field of every object reads as before. *)
Theorem rejected_reference_unchanged : forall eq h o f v k pk,
  kind_at h o = Some k -> asked_kind k f pk -> ~ two_sided k f -> ~ well_typed h o f v ->
  snd (assign eq h o f v) = Some TypeError /\
  forall o' f', read (fst (assign eq h o f v)) o' f' = read h o' f'.
Proof. exact one_sided_rejected. Qed.

(** ... and a rightly typed one is stored, leaving every other reference alone. *)
Theorem accepted_reference_stored : forall eq h o f v k pk,
  kind_at h o = Some k -> asked_kind k f pk -> ~ two_sided k f -> well_typed h o f v ->
  snd (assign eq h o f v) = None /\ fval (fst (assign eq h o f v)) o f = v /\
  forall o' f', (o', f') <> (o, f) -> o' <> o \/ (f' <> "name" /\ f' <> "labels") ->
    fval (fst (assign eq h o f v)) o' f' = fval h o' f'.
Proof. exact one_sided_accepted. Qed.

(** Two-sided fields: nothing changes if the field held no object.
    Missing for the full C17: fields that hold an object ([rejected_process_refuted],
    [rejected_material_refuted]). *)
Theorem rejected_two_sided_unchanged_partial : forall eq h o f v k,
  kind_at h o = Some k -> two_sided k f -> ~ attached h o f -> ~ well_typed h o f v ->
  assign eq h o f v = (h, Some TypeError).
Proof. exact two_sided_rejected. Qed.

Theorem well_typed_process_accepted : forall eq h m v k,
  kind_at h m = Some k -> (k = KMatR \/ k = KMatS) -> well_typed h m "process" v ->
  snd (assign eq h m "process" v) = None /\ fval (fst (assign eq h m "process" v)) m "process" = v.
Proof. exact process_accepted. Qed.

Example ex_rejected :
  let h := grun (fun _ _ _ => false) [] [ GNew KIngS [] [("name", PAtom (AStr "salt"))]; GNew KIngR [] []; GSet 1 "spec" (PRef 0) ] in
  kind_at h 1 = Some KIngR /\ asked_kind KIngR "spec" KIngS /\ ~ two_sided KIngR "spec"
  /\ ~ well_typed h 1 "spec" (PRef 1) /\ well_typed h 1 "spec" (PRef 0)
  /\ read h 1 "name" = PAtom (AStr "salt")
  /\ read (fst (assign (fun _ _ _ => false) h 1 "spec" PNone)) 1 "name" = PAtom (AStr "salt").
Proof.
  intros h. split; [reflexivity|]. split; [unfold asked_kind; cbn; tauto|].
  split; [intros [[? _]|[? _]]; discriminate|]. split.
  - intros [k [pk [K [A W]]]]. vm_compute in K. injection K as <-.
    assert (pk = KIngS) by (apply (asked_fun KIngR "spec" KIngS pk); auto; unfold asked_kind; cbn; tauto). subst.
    destruct W as [|[[? [? ?]]|[p [[= <-] Kp]]]]; discriminate.
  - split; [|split; reflexivity]. exists KIngR, KIngS. split; [reflexivity|]. split; [unfold asked_kind; cbn; tauto|].
    right; right. exists 0. split; reflexivity.
Qed.

Print Assumptions material_process_agree_partial.
Print Assumptions output_material_names_process.
Print Assumptions process_assignment_effect.
Print Assumptions lists_mirror_references_partial.
Print Assumptions new_entry_last.
Print Assumptions well_typed_reference_accepted_partial.
Print Assumptions equal_sibling_refuted.
Print Assumptions rejected_material_refuted.
Print Assumptions rejected_reference_unchanged.
Print Assumptions accepted_reference_stored.
Print Assumptions rejected_two_sided_unchanged_partial.
Print Assumptions well_typed_process_accepted.

Print Assumptions stolen_process_refuted.
Print Assumptions rejected_process_refuted.
