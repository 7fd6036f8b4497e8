(** C46: objects can always be shown and written nested, however their references run in circles. *)
From Coq Require Import String List Bool Arith Lia ZArith.
From Verif Require Import Base BaseFacts GraphModel GraphSpec GraphProofs EqModel EqSpec TravModel TravSpec SerialModel SerialSpec ViewModel ViewSpec ViewProofs ReprModel ReprSpec ReprProofs.
Import ListNotations.
Open Scope string_scope.
Open Scope list_scope.

Lemma history_facts : forall eq ops, plain_history eq [] ops ->
  keys_ok (nrun eq [] ops) /\ orderly (nrun eq [] ops) /\ outputs_typed (nrun eq [] ops) /\ members_typed (nrun eq [] ops).
Proof.
  intros eq ops P. destruct (references_reachable eq (nrun eq [] ops)) as (R & O & M); [now exists ops|].
  destruct (plain_reachable eq ops []) as (_ & D & K); auto.
  - repeat intro. rewrite kind_nil in *. discriminate.
  - repeat split; repeat intro; rewrite kind_nil in *; discriminate.
  - repeat intro. rewrite kind_nil in *. discriminate.
  - intros [] e f G; discriminate.
  - split; [exact K|]. split; [now apply orderly_of | auto].
Qed.

(** After any history of constructions and assignments, accepted and rejected ones alike, the text of
    every object can be shown. At most six entities are shown inside one another, whatever the size
    of the graph and however references run in circles: allowing more changes nothing. Every
    attribute is shown, with the entities it holds in full, except that the read-only sides of
    two-sided references are given by class and name. *)
Theorem repr_total : forall eq ops format class_of o k, plain_history eq [] ops -> kind_at (nrun eq [] ops) o = Some k ->
  exists t, shown (nrun eq [] ops) (PRef o) t /\ forall n, 6 <= n -> repr (nrun eq [] ops) format class_of n o = Ok t.
Proof.
  intros eq ops format class_of o k P K. destruct (history_facts eq ops P) as (KO & OR & OT & MT).
  destruct (repr_ok (nrun eq [] ops) format class_of KO OR OT MT 6 o k K (rank_small k)) as (t & E & S).
  exists t. split; auto. intros n L. eapply repr_mono; eauto.
Qed.
Print Assumptions repr_total.

(** The text of an object depends on nothing but the entities it shows in full, and the classes and
    names of those it shows by name: any other change to the graph leaves it as it is. *)
Theorem repr_frame : forall h h' format class_of n o, same_view h h' o ->
  repr h' format class_of n o = repr h format class_of n o.
Proof. intros. eapply repr_view; eauto. constructor. Qed.
Print Assumptions repr_frame.

(** After any such history raw_dumps writes every value, without exception: nothing is ever nested in
    itself. Entities are written in full wherever they occur, without the read-only sides. *)
Theorem raw_dumps_total : forall eq ops v, plain_history eq [] ops ->
  (forall x, mentions v x -> exists k, kind_at (nrun eq [] ops) x = Some k) ->
  exists j, raw_dumps (nrun eq [] ops) v = Ok j /\ written (nrun eq [] ops) v j.
Proof.
  intros eq ops v P H. destruct (history_facts eq ops P) as (KO & OR & _ & _). apply encode_ok.
  intros x M. destruct (H x M) as [k K]. apply (nested_ok _ KO OR (under (nrun eq [] ops))) with k; auto.
  - intros y kx k'. apply under_lt.
  - assert (Q := under_le (nrun eq [] ops) k). lia.
Qed.
Print Assumptions raw_dumps_total.

(** Nor is it nested deeper than six entities. *)
Theorem raw_dumps_depth : forall eq ops o k n, plain_history eq [] ops -> kind_at (nrun eq [] ops) o = Some k -> 6 <= n ->
  exists j, encode_nested (nrun eq [] ops) n o = Ok j /\ raw_dumps (nrun eq [] ops) (PRef o) = Ok j.
Proof.
  intros eq ops o k n P K L. destruct (history_facts eq ops P) as (KO & OR & _ & _). set (h := nrun eq [] ops) in *.
  destruct (nested_ok h KO OR rank (fun _ _ _ _ H => H) 6 o k K (rank_small k)) as (j & E & _).
  destruct (nested_ok h KO OR (under h) (under_lt h) (S (length h)) o k K) as (j' & E' & _).
  { assert (Q := under_le h k). lia. }
  exists j. split; [eapply nested_mono; eauto|]. change (encode_nested h (S (length h)) o = Ok j). rewrite E'. f_equal.
  assert (A := nested_mono h _ (Nat.max 6 (S (length h))) (Nat.le_max_l _ _) o j E).
  assert (B := nested_mono h _ (Nat.max 6 (S (length h))) (Nat.le_max_r _ _) o j' E'). congruence.
Qed.
Print Assumptions raw_dumps_depth.

(** Without the restriction on data both recur without end: a material whose notes are the material
    itself (base_object.py:45 stores notes as they are; the assignment [m.notes = m] made after
    construction is written as construction with these notes here). *)
Theorem repr_self_refuted : exists eq ops o, kind_at (nrun eq [] ops) o = Some KMatR
  /\ (forall format class_of n, repr (nrun eq [] ops) format class_of n o = Err RecursionError)
  /\ raw_dumps (nrun eq [] ops) (PRef o) = Err ValueError.
Proof.
  exists (fun _ _ _ => false), [NNew KMatR [] (PAtom (AStr "m")) PNone [("notes", PRef 0)]], 0.
  split; [reflexivity|]. split; [|vm_compute; reflexivity].
  intros format class_of n. induction n as [|n IH]; [reflexivity|].
  set (h := nrun _ _ _) in *. cbn [repr]. rewrite show_dict_eq.
  assert (E : as_dict h 0 = [("uids", PDict []); ("spec", PNone); ("process", PNone); ("name", PAtom (AStr "m")); ("labels", PNone); ("notes", PRef 0); ("type", PAtom (AStr "material_run"))]) by reflexivity.
  rewrite E. cbn [show_pairs show bind]. rewrite IH. reflexivity.
Qed.
Print Assumptions repr_self_refuted.

(** Two materials in a circle: the process that makes the first uses it as an ingredient, and it was
    measured. *)
Definition ex_ops : list nop :=
  [ NNew KPropT [] (PAtom (AStr "density")) PNone []
  ; NNew KMatR [("id", "m")] (PAtom (AStr "dough")) PNone [("notes", PNone)]
  ; NNew KProcR [] (PAtom (AStr "knead")) PNone []
  ; NNew KIngR [] PNone PNone []
  ; NNew KMeasR [] (PAtom (AStr "weigh")) PNone [("properties", PList [PObj "property" [("template", PRef 0); ("value", PNone)]])]
  ; NSet 1 "process" (PRef 2); NSet 3 "process" (PRef 2); NSet 3 "material" (PRef 1); NSet 4 "material" (PRef 1) ].
Definition ex_eq : heap -> pv -> oid -> bool := fun _ _ _ => false.

Example ex_plain : plain_history ex_eq [] ex_ops.
Proof.
  unfold ex_ops. cbn [plain_history plain_data].
  repeat apply conj; try exact I; try (cbn; intuition discriminate); try (intros x M; inversion M; fail);
    try (intros f v x [] M; fail); try (intros f v x [E|[]] M; inversion E; subst; inversion M; fail).
  intros f v x [E|[]] M; inversion E; subst; clear E.
  inversion M as [|? w ? Il Ml| | |]; subst. destruct Il as [<-|[]]. inversion Ml as [| | | |? ? k w ? Iw Mw]; subst.
  destruct Iw as [E|[E|[]]]; inversion E; subst; inversion Mw; subst.
  split; [left; reflexivity | cbn; intuition discriminate].
Qed.

(** An ingredient shows its material in full, with the measurement by name, and twice the process. *)
Example ex_repr : let h := nrun ex_eq [] ex_ops in
  repr h (fun _ => "None") (fun t => t) 6 3 =
  Ok (RDict
    [ ("uids", RDict []); ("spec", RNone)
    ; ("material", RDict
        [ ("uids", RDict [("id", rtext "m")]); ("spec", RNone)
        ; ("process", RDict [ ("uids", RDict []); ("spec", RNone); ("name", rtext "knead"); ("labels", RNone); ("type", rtext "process_run")
                            ; ("output_material", rtext "<MaterialRun 'dough'>"); ("ingredients", RList [rtext "<IngredientRun 'None'>"]) ])
        ; ("name", rtext "dough"); ("labels", RNone); ("notes", RNone); ("type", rtext "material_run")
        ; ("measurements", RList [rtext "<MeasurementRun 'weigh'>"]) ])
    ; ("process", RDict [ ("uids", RDict []); ("spec", RNone); ("name", rtext "knead"); ("labels", RNone); ("type", rtext "process_run")
                        ; ("output_material", rtext "<MaterialRun 'dough'>"); ("ingredients", RList [rtext "<IngredientRun 'None'>"]) ])
    ; ("name", RNone); ("labels", RNone); ("type", rtext "ingredient_run") ]).
Proof. vm_compute. reflexivity. Qed.

Example ex_raw : exists j, raw_dumps (nrun ex_eq [] ex_ops) (PList [PRef 3; PRef 4]) = Ok j.
Proof. eexists. vm_compute. reflexivity. Qed.

(** Renaming the process changes the text; adding notes to the measurement would not. *)
Example ex_view : let h := nrun ex_eq [] ex_ops in
  same_view h (set_field h 4 "notes" (PAtom (AStr "late"))) 2.
Proof.
  cbn zeta. set (h := nrun ex_eq [] ex_ops).
  assert (F : forall x, in_full h 2 x -> x = 2).
  { intros x I. induction I as [|x e f y I IH G N M]; auto. subst x. exfalso.
    assert (E : hget h 2 = Some (mkE KProcR [] [("spec", PNone); ("output_material", PRef 1); ("ingredients", PList [PRef 3]); ("name", PAtom (AStr "knead")); ("labels", PNone)])) by (vm_compute; reflexivity).
    rewrite E in G. injection G as <-. cbn [e_kind] in N.
    assert (R : read h 2 f = fget (mkE KProcR [] [("spec", PNone); ("output_material", PRef 1); ("ingredients", PList [PRef 3]); ("name", PAtom (AStr "knead")); ("labels", PNone)]) f) by (unfold read, kind_at, fval; now rewrite E).
    rewrite R in M. unfold fget in M. cbn [e_fields dict_get] in M.
    destruct (String.eqb f "spec"); [inversion M|]. destruct (String.eqb f "output_material") eqn:E1.
    { apply String.eqb_eq in E1. apply N. right. auto. }
    destruct (String.eqb f "ingredients") eqn:E2. { apply String.eqb_eq in E2. apply N. right. auto. }
    destruct (String.eqb f "name"); [inversion M|]. destruct (String.eqb f "labels"); inversion M. }
  split.
  - intros x I. rewrite (F x I). vm_compute. reflexivity.
  - intros x e f y I G R M. rewrite (F x I) in G, M.
    assert (E : hget h 2 = Some (mkE KProcR [] [("spec", PNone); ("output_material", PRef 1); ("ingredients", PList [PRef 3]); ("name", PAtom (AStr "knead")); ("labels", PNone)])) by (vm_compute; reflexivity).
    rewrite E in G. injection G as <-. cbn [e_kind] in R.
    destruct R as [[X _]|[_ [-> | ->]]]; [discriminate| |].
    + assert (R : read h 2 "output_material" = PRef 1) by (vm_compute; reflexivity). rewrite R in M. inversion M; subst. vm_compute. auto.
    + assert (R : read h 2 "ingredients" = PList [PRef 3]) by (vm_compute; reflexivity). rewrite R in M.
      inversion M as [|? w ? Il Ml| | |]; subst. destruct Il as [<-|[]]. inversion Ml; subst. vm_compute. auto.
Qed.
