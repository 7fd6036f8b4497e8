(** C29: all_dependencies lists exactly what the writable fields refer to. *)
From Coq Require Import String List Bool Arith.
From Verif Require Import Base GraphModel TravModel DepsModel DepsSpec DepsProofs.
Import ListNotations.
Open Scope string_scope.
Open Scope list_scope.

(** For every entity of every class whose fields hold what they are documented to hold,
    all_dependencies returns, without exception, exactly the entities and links that its writable
    fields mention at any depth, each once. *)
Theorem dependencies_exact : forall h o e, hget h o = Some e -> documented e ->
  exists l, all_dependencies h o = Done l /\ NoDup l /\ forall d, In d l <-> depends_on h o d.
Proof. exact all_dependencies_exact. Qed.

(** So it is after any history of constructions and assignments, as long as the constructors are
    given the data they ask for. *)
Theorem dependencies_history : forall eq ops o e,
  (forall k u extra, In (GNew k u extra) ops -> documented (mkE k u (blank k ++ extra))) ->
  hget (grun eq [] ops) o = Some e ->
  exists l, all_dependencies (grun eq [] ops) o = Done l /\ NoDup l /\ forall d, In d l <-> depends_on (grun eq [] ops) o d.
Proof.
  intros eq ops o e H E. eapply all_dependencies_exact; eauto.
  apply (doc_history eq ops [] (fun o e E => ltac:(destruct o; discriminate)) H o e E).
Qed.

(** A material spec with a template, a process, and a property with a condition; a measurement run with links. *)
Definition att (t : string) (tpl : pv) : pv := PObj t [("name", PAtom (AStr "a")); ("template", tpl); ("notes", PNone)].
Definition ex_ops : list gop :=
  [ GNew KPropT [] [("name", PAtom (AStr "p"))]; GNew KCondT [] [("name", PAtom (AStr "c"))];
    GNew KMatT [] [("properties", PList [PTuple [PRef 0; PNone]])]; GNew KProcS [] [("parameters", PList []); ("conditions", PList [])];
    GNew KMatS [] [("name", PAtom (AStr "m"));
      ("properties", PList [PObj "property_and_conditions" [("property", att "property" (PRef 0)); ("conditions", PList [att "condition" (PRef 1); att "condition" PNone])]])];
    GSet 4 "template" (PRef 2); GSet 4 "process" (PRef 3);
    GNew KMeasR [] [("properties", PList [att "property" (PLink "s" "i"); att "property" (PRef 0)]); ("conditions", PList [att "condition" (PLink "s" "i")]); ("parameters", PList [])];
    GSet 5 "spec" (PLink "s" "j"); GNew KIngS [] [("name", PAtom (AStr "i"))]; GSet 6 "process" (PRef 3) ].
Definition ex_deps := grun (fun _ _ _ => false) [] ex_ops.

Ltac nomention := let d := fresh in let M := fresh in intros d M; inversion M.
Ltac isdoc := split; [cbn; repeat constructor; cbn; intuition discriminate|split].
Lemma att_attribute : forall t tpl, is_reference tpl -> is_attribute t (att t tpl).
Proof.
  intros t tpl R. eexists. split; [reflexivity|]. split; [cbn; repeat constructor; cbn; intuition discriminate|]. split; [cbn; tauto|].
  intros f x I. cbn in I. destruct I as [E|[E|[E|[]]]]; injection E as <- <-; split; intros F; try discriminate; auto; try congruence; nomention.
Qed.

Example dependencies_ex :
  (forall k u extra, In (GNew k u extra) ex_ops -> documented (mkE k u (blank k ++ extra))) /\
  all_dependencies ex_deps 4 = Done [PRef 0; PRef 1; PRef 3; PRef 2] /\
  all_dependencies ex_deps 5 = Done [PLink "s" "i"; PRef 0; PLink "s" "j"] /\
  all_dependencies ex_deps 2 = Done [PRef 0] /\ all_dependencies ex_deps 6 = Done [PRef 3] /\
  fval ex_deps 3 "ingredients" = PList [PRef 6] /\ all_dependencies ex_deps 3 = Done [] /\ all_dependencies ex_deps 0 = Done [].
Proof.
  split; [|repeat split; vm_compute; reflexivity].
  assert (R0 : forall o, is_reference (PRef o)) by (right; right; eauto).
  assert (RN : is_reference PNone) by now left.
  assert (RL : forall s i, is_reference (PLink s i)) by (right; left; eauto).
  intros k u extra I. cbn [ex_ops In] in I.
  repeat destruct I as [E|I]; try discriminate; try contradiction; injection E as <- <- <-; isdoc; cbn [blank app e_kind e_fields];
    try (intros f v J; cbn [In] in J; repeat destruct J as [E|J]; try contradiction; injection E as <- <-; cbn [contents_of String.eqb Ascii.eqb Bool.eqb holds]; auto; try nomention);
    try (intros f F; unfold contents_of in F;
         repeat match type of F with context [String.eqb f ?x] => let E := fresh "E" in destruct (String.eqb f x) eqn:E; [apply String.eqb_eq in E; subst f; cbn; tauto|] end;
         cbn in F; intuition discriminate).
  - eexists. split; [reflexivity|]. intros x [<-|[]]. exists (PRef 0), PNone. split; auto. split; auto. split; [discriminate|nomention].
  - eexists. split; [reflexivity|]. intros x [].
  - eexists. split; [reflexivity|]. intros x [].
  - eexists. split; [reflexivity|]. intros x [<-|[]]. eexists _, _. split; [reflexivity|]. split; [now apply att_attribute|].
    intros c [<-|[<-|[]]]; now apply att_attribute.
  - eexists. split; [reflexivity|]. intros x [<-|[<-|[]]]; exists "property"; (split; [cbn; tauto|]); now apply att_attribute.
  - eexists. split; [reflexivity|]. intros x [<-|[]]; exists "condition"; (split; [cbn; tauto|]); now apply att_attribute.
  - eexists. split; [reflexivity|]. intros x [].
Qed.

Print Assumptions dependencies_exact.
Print Assumptions dependencies_history.
