(** C47: loading any text whatever. *)
From Coq Require Import String List Bool Arith Lia ZArith.
From Verif Require Import Base BaseFacts GraphModel GraphSpec GraphProofs EqModel TravModel SerialModel SerialSpec SerialProofs SerialEntity ViewModel ViewSpec ViewProofs LoadAnySpec LoadAnyProofs.
Import ListNotations.
Open Scope string_scope.
Open Scope list_scope.
Open Scope nat_scope.

Section P.
  Variable lower : string -> string.
  Variable known : string -> bool.
  (** Whatever the constructors do with attributes that are not references. *)
  Variable construct : heap -> string -> list (string * pv) -> res (list (string * pv)).
  Notation loads := (loads lower known construct).
  Notation raw_loads := (raw_loads lower known construct).

  Lemma load_survives : forall I : heap -> Prop,
    (forall h k u fs, I h -> I (h ++ [mkE k u (blank k ++ fs)])) ->
    (forall h o f v, untied h o f -> I h -> I (fst (assign (item_eq lower) h o f v))) ->
    forall g j v g', loads g j = Ok (v, g') \/ raw_loads g j = Ok (v, g') -> (forall o, o < length g -> hget g' o = hget g o) /\ (I g -> I g').
  Proof.
    intros I H1 H2 g j v g' [E|E].
    - unfold SerialModel.loads in E. destruct (decode lower known construct true (g, []) j) as [[w st]|] eqn:D; [|discriminate]. cbn in E.
      destruct (decode_any lower known construct I H1 H2 j true (length g) (g, []) w st (le_n _) ltac:(intros _ e []) D) as [[_ K _ Sd] _].
      destruct w as [| | | | | |d|]; try discriminate. destruct (dict_get "object" d); inv E. auto.
    - unfold SerialModel.raw_loads in E. destruct (decode lower known construct false (g, []) j) as [[w st]|] eqn:D; [|discriminate]. cbn in E. inv E.
      destruct (decode_any lower known construct I H1 H2 j false (length g) (g, []) v st (le_n _) ltac:(discriminate) D) as [[_ K _ Sd] _]. auto.
  Qed.

  (** No text, however strange, changes an object that exists. *)
  Theorem loading_keeps_existing : forall g j v g', loads g j = Ok (v, g') \/ raw_loads g j = Ok (v, g') ->
    forall o e, hget g o = Some e -> hget g' o = Some e.
  Proof.
    intros g j v g' E o e He. assert (Lo := hget_lt _ _ _ He).
    destruct (load_survives (fun _ => True) ltac:(auto) ltac:(auto) _ _ _ _ E) as [K _]. now rewrite K.
  Qed.

  (** A text that loads at all makes objects whose references have the right types, *)
  Theorem loaded_references_typed : forall g j v g', loads g j = Ok (v, g') \/ raw_loads g j = Ok (v, g') ->
    references_typed g -> references_typed g'.
  Proof.
    intros g j v g' E. eapply load_survives; [| |exact E]; [apply references_new | intros; now apply references_assign].
  Qed.
  (** whose lists hold exactly the objects that refer to their owner, *)
  Theorem loaded_lists_mirror : forall g j v g', loads g j = Ok (v, g') \/ raw_loads g j = Ok (v, g') ->
    lists_mirror g -> lists_mirror g'.
  Proof.
    intros g j v g' E. eapply load_survives; [| |exact E]; [apply lists_new; exact (item_eq lower) | apply lists_assign].
  Qed.
  (** and whose processes name as output a material that names the process. *)
  Theorem loaded_outputs_agree : forall g j v g', loads g j = Ok (v, g') \/ raw_loads g j = Ok (v, g') ->
    outputs_agree g -> outputs_agree g'.
  Proof.
    intros g j v g' E. eapply load_survives; [| |exact E]; [apply outputs_new; exact (item_eq lower) | intros; now apply outputs_assign].
  Qed.

  (** Read without substituting links, materials and processes agree both ways. *)
  Theorem raw_loaded_processes_agree : forall g j v g', raw_loads g j = Ok (v, g') ->
    processes_agree g -> processes_agree g'.
  Proof.
    intros g j v g' E A.
    assert (O : outputs_agree g) by (intros mk pk m p C K F; now apply (A mk pk m p C)).
    assert (B : inputs_agree g) by (intros mk pk m p C K F; apply (A mk pk m p C); auto).
    assert (O' := loaded_outputs_agree _ _ _ _ (or_intror E) O).
    assert (B' : inputs_agree g').
    { unfold SerialModel.raw_loads in E. destruct (decode lower known construct false (g, []) j) as [[w st]|] eqn:D; [|discriminate]. cbn in E. inv E.
      destruct (decode_inputs lower known construct (fun _ => True) ltac:(auto) ltac:(auto) j _ _ _ D) as [I _]. auto. }
    intros mk pk m p C. split; [intros [K F]; eapply B'; eauto | intros [K F]; eapply O'; eauto].
  Qed.

  (** ** Sessions *)
  Variable eq : heap -> pv -> oid -> bool.
  Notation act := (act eq lower known construct).
  Notation session := (session eq lower known construct).
  Notation all_along := (all_along eq lower known construct).

  Lemma session_inv : forall (I : heap -> Prop) (P : heap -> action -> Prop), (forall h a, P h a -> I h -> I (act h a)) ->
    forall acts h, all_along P h acts -> I h -> I (session h acts).
  Proof. intros I P H. induction acts as [|a r IH]; intros h A Ih; cbn in *; auto. destruct A. apply IH; auto. Qed.
  Lemma along_true : forall acts h, all_along (fun _ _ => True) h acts.
  Proof. induction acts; cbn; auto. Qed.

  Lemma act_load : forall (I : heap -> Prop), (forall g j v g', loads g j = Ok (v, g') \/ raw_loads g j = Ok (v, g') -> I g -> I g') ->
    forall h a, I h -> match a with Do _ => True | _ => I (act h a) end.
  Proof.
    intros I H h [op|j|j] Ih; auto; cbn.
    - destruct (loads h j) as [[v g']|] eqn:E; eauto.
    - destruct (raw_loads h j) as [[v g']|] eqn:E; eauto.
  Qed.

  (** Whatever a program does -- stealing processes, rejected assignments and strange texts
      included -- references have the right types and outputs name their process. *)
  Theorem session_references : forall acts, references_typed (session [] acts) /\ outputs_agree (session [] acts).
  Proof.
    intros acts. refine (session_inv (fun h => references_typed h /\ outputs_agree h) (fun _ _ => True) _ acts [] (along_true _ _) _).
    - intros h a _ [R O]. assert (X := act_load _ (fun g j v g' E (H : references_typed g /\ outputs_agree g) => conj (loaded_references_typed g j v g' E (proj1 H)) (loaded_outputs_agree g j v g' E (proj2 H))) h a (conj R O)).
      destruct a as [op|j|j]; auto. cbn. destruct op as [k u fs|o f v]; cbn [gstep fst].
      + split; [now apply references_new | now apply (outputs_new eq)].
      + split; [now apply references_assign | now apply outputs_assign].
    - split; [intros o k f pk K; destruct o; discriminate | intros mk pk m p C K; destruct p; discriminate].
  Qed.

  (** Lists are in order as long as no assignment goes wrong in the ways of C16, whatever is loaded. *)
  Theorem session_lists : forall acts,
    all_along (when_assigning (fun h op => no_twin eq h op /\ no_reject h op)) [] acts -> lists_mirror (session [] acts).
  Proof.
    intros acts A. refine (session_inv lists_mirror _ _ acts [] A _).
    - intros h a W M. assert (X := act_load _ loaded_lists_mirror h a M). destruct a as [op|j|j]; auto. cbn in *. destruct W. now apply mirror_step.
    - intros ck cf pk lf L. split; [intros p K; destruct p; discriminate | intros x p K; destruct x; discriminate].
  Qed.

  (** Materials and processes agree as long as no assignment goes wrong in the ways of C15, whatever
      is loaded with raw_loads. *)
  Theorem session_processes : forall acts,
    all_along (fun h a => no_loads a /\ when_assigning (fun h op => not_stolen h op /\ no_reject h op) h a) [] acts -> processes_agree (session [] acts).
  Proof.
    intros acts A. refine (session_inv processes_agree _ _ acts [] A _).
    - intros h a [N W] M. destruct a as [op|j|j]; [|contradiction|].
      + cbn in *. destruct W as [W1 W2].
        assert (O : outputs_agree h) by (intros mk pk m p C K F; now apply (M mk pk m p C)).
        assert (B : inputs_agree h) by (intros mk pk m p C K F; apply (M mk pk m p C); auto).
        assert (O' := outputs_agree_step eq h op O). assert (B' := inputs_agree_step eq h op W1 W2 B).
        intros mk pk m p C. split; [intros [K F]; eapply B'; eauto | intros [K F]; eapply O'; eauto].
      + cbn. destruct (raw_loads h j) as [[v h']|] eqn:E; auto. eapply raw_loaded_processes_agree; eauto.
    - intros mk pk m p C. split; intros [K _]; [destruct m | destruct p]; discriminate.
  Qed.
End P.

Print Assumptions loading_keeps_existing.
Print Assumptions loaded_references_typed.
Print Assumptions loaded_lists_mirror.
Print Assumptions loaded_outputs_agree.
Print Assumptions raw_loaded_processes_agree.
Print Assumptions session_references.
Print Assumptions session_lists.
Print Assumptions session_processes.

(** ** Two materials of a text can claim one process *)

Definition jstr (s : string) : json := JAtom (AStr s).
Definition jlink (s i : string) : json := JObj [("type", jstr "link_by_uid"); ("scope", jstr s); ("id", jstr i)].
Definition jent (t id : string) (fs : list (string * json)) : json := JObj (("type", jstr t) :: ("uids", JObj [("id", jstr id)]) :: ("name", jstr id) :: fs).
Definition ex_construct (h : heap) (t : string) (d : list (string * pv)) : res (list (string * pv)) := Ok d.
Definition ex_known (t : string) : bool := false.
(** One process and two materials that link to it. *)
Definition ex_claims : json :=
  JObj [("context", JArr [jent "process_run" "p" []; jent "material_run" "m" [("process", jlink "id" "p")]; jent "material_run" "n" [("process", jlink "id" "p")]]);
        ("object", jlink "id" "m")].

(** [loads] accepts the text. Both materials then have the process, which names the second as its
    output. *)
Theorem loaded_claims_refuted : exists g', loads (fun s => s) ex_known ex_construct [] ex_claims = Ok (PRef 1, g')
  /\ fval g' 1 "process" = PRef 0 /\ fval g' 2 "process" = PRef 0 /\ fval g' 0 "output_material" = PRef 2 /\ ~ processes_agree g'.
Proof.
  eexists. split; [vm_compute; reflexivity|]. split; [reflexivity|]. split; [reflexivity|]. split; [reflexivity|].
  intros A. destruct (proj1 (A KMatR KProcR 1 0 (or_introl (conj eq_refl eq_refl))) (conj eq_refl eq_refl)) as [_ X]. vm_compute in X. discriminate.
Qed.
Print Assumptions loaded_claims_refuted.

(** A nested text: an ingredient with its process inside, which has a spec; the result is in order, and an
    object made before is as it was. *)
Definition ex_nested : json := jent "ingredient_run" "i" [("process", jent "process_run" "p" [("spec", jlink "id" "q")]); ("material", JNull); ("spec", JNull)].
Definition ex_before : heap := session (item_eq (fun s => s)) (fun s => s) ex_known ex_construct [] [Do (GNew KProcR [("id", "p")] [])].
Example ex_load : exists g', raw_loads (fun s => s) ex_known ex_construct ex_before ex_nested = Ok (PRef 2, g')
  /\ hget g' 0 = hget ex_before 0 /\ fval g' 2 "process" = PRef 1 /\ fval g' 1 "ingredients" = PList [PRef 2] /\ fval g' 0 "ingredients" = PList [].
Proof. eexists. split; [vm_compute; reflexivity|]. repeat split. Qed.
Example ex_session : let acts := [Do (GNew KProcR [("id", "p")] []); Load ex_claims; RawLoad ex_nested; Do (GNew KMatR [] []); Do (GSet 6 "process" (PRef 0)); Load ex_nested] in
  let g := session (item_eq (fun s => s)) (fun s => s) ex_known ex_construct [] acts in
  length g = 7 /\ fval g 0 "output_material" = PRef 6 /\ fval g 1 "output_material" = PRef 3 /\ fval g 4 "ingredients" = PList [PRef 5].
Proof. vm_compute. auto. Qed.
