(** C45: the other ways of writing objects. *)
From Coq Require Import String List Bool Arith Lia Permutation ZArith QArith.
From Verif Require Import Base BaseFacts CidModel GraphModel GraphSpec GraphProofs EqModel EqSpec EqProofs TravModel TravSpec TravProofs TravProperties SerialModel SerialSpec SerialSim SerialProofs SerialLinks SerialEntity SerialRecords FlattenProofs SubstProperties LoadProofs RoundTripProofs RoundTripProperties SerialExamples ThinModel ThinSpec ThinProofs.
Import ListNotations.
Open Scope string_scope.
Open Scope list_scope.
Open Scope nat_scope.

Section P.
  Variable lower : string -> string.
  Variable known : string -> bool.
  Variable construct : heap -> string -> list (string * pv) -> res (list (string * pv)).
  Variable uuid4 : nat -> string.

  (** thin_dumps of an entity gives uids to the reachable entities and writes one record: read by
      raw_loads, in whatever state of the program, it gives one new entity with the class, uids and
      fields of the original and links in place of the entities it refers to. *)
  Theorem thin_dumps_entity : forall h n o scope, hashable_tuples h everything (PRef o) ->
    all_well_formed lower known construct h (PRef o) -> own_uids lower h (PRef o) -> fresh_uuids uuid4 n h (PRef o) -> plain_scope scope ->
    exists h' n' j, thin_dumps lower known construct uuid4 h n (PRef o) scope = Ok (h', n', j)
      /\ set_uuids uuid4 h n (PRef o) scope = Done (h', n') /\ record_of lower known construct h' o j.
  Proof.
    intros h n o scope T W O F Sc.
    destruct (set_uuids_ready lower known construct lower uuid4 h n (PRef o) scope T W O F Sc) as (h' & n' & E & S & Hn & W' & O' & U' & Un & Uf).
    assert (Ro : reachable h' (PRef o) o) by (apply r_obj; constructor).
    destruct (W' o Ro) as (e & He & We).
    destruct (record_ok lower known construct h' None true o e He We) as (e' & Ee & Th).
    { intros f x If R M. assert (Rx := read_reach h' (PRef o) o f x Ro M). destruct (W' x Rx) as (ex & Hx & _).
      destruct (link_of_none lower h' x ex Hx (U' x ex Rx Hx)) as (s & i & r & _ & El). eauto. }
    destruct (record_json lower known construct h' None true o e e' He We Th) as (j & Ej & _).
    exists h', n', j. split; [unfold thin_dumps; rewrite E; cbn [of_outcome bind]; rewrite Ee; cbn [bind]; rewrite Ej; reflexivity|]. split; [exact E|].
    intros g Lg. destruct (record_loads lower known construct h' o e e' j He We Th Ej g Lg) as (e2 & E2 & T2). exists e2. split; auto. eapply thin_flat; eauto.
  Qed.

  (** Of any other value it writes the value with links in place of entities, and raw_loads gives
      that back and creates nothing. *)
  Theorem thin_dumps_value : forall h n v scope, (forall o, v <> PRef o) -> hashable_tuples h everything v ->
    all_well_formed lower known construct h v -> own_uids lower h v -> fresh_uuids uuid4 n h v -> plain_scope scope ->
    storable known construct h v -> coherent_numbers v ->
    exists h' n' j, thin_dumps lower known construct uuid4 h n v scope = Ok (h', n', j)
      /\ set_uuids uuid4 h n v scope = Done (h', n')
      /\ forall g, exists w, raw_loads lower known construct g j = Ok (w, g) /\ sim (as_link h') v w.
  Proof.
    intros h n v scope Nv T W O F Sc Sb Co.
    destruct (set_uuids_ready lower known construct lower uuid4 h n v scope T W O F Sc) as (h' & n' & E & S & Hn & W' & O' & U' & Un & Uf).
    assert (Sb' : storable known construct h' v) by (eapply same_storable; eauto).
    destruct (subst_value lower known construct h' None true (fun a => within (PAtom a) v)) with (v := v) (seen := @nil atom) as (w & s & Ew & Sw & _); auto.
    { intros o M. assert (R : reachable h' v o) by now apply r_obj. destruct (W' o R) as (e & He & _).
      destruct (link_of_none lower h' o e He (U' o e R He)) as (s & i & r & _ & El). eauto. }
    { intros b []. }
    destruct (encode_value lower known construct h' (to_links lower h' None true) (to_links_leaf lower h' None true) (to_links_link lower h' None true) (fun _ => Err ValueError) v Sb' w Sw) as (j & Ej & Cj).
    exists h', n', j. split; [|split; [exact E|]].
    - unfold thin_dumps. rewrite E. cbn [of_outcome bind].
      replace (match v with PRef o => do e <- substitute_links_entity lower known construct h' None true o; encode_nested [e] 1 0
               | _ => do w0 <- substitute_links lower known construct h' None true v; encode (fun _ => Err ValueError) w0 end) with (Ok j); [reflexivity|].
      unfold substitute_links. destruct v; try (exfalso; eapply Nv; reflexivity); rewrite Ew; cbn [bind]; now rewrite Ej.
    - intros g. destruct (Cj false (g, [])) as (x & Ex & Sx); [apply resolvable_false|]. exists x. split.
      + exact (f_equal (fun r => do (v, st) <- r; Ok (v, fst st)) Ex).
      + eapply sim_mono_in; [exact Sx|]. intros a b _ L. apply L12_false in L. now apply to_links_as_link in L.
  Qed.

  (** copy makes new entities only, isomorphic to those copied, and leaves these alone (but for the
      uids that entities without any are given). *)
  Theorem copy_isomorphic : forall sorted h n v scope, (forall l, Permutation (sorted l) l) ->
    hashable_tuples h everything v -> all_well_formed lower known construct h v -> own_uids lower h v ->
    fresh_uuids uuid4 n h v -> plain_scope scope -> attributes_typed h v -> mirrored h -> loose_links lower uuid4 n h v ->
    plain_names h v -> storable known construct h v -> coherent_numbers v ->
    exists h' g n' w R, copy lower known construct sorted uuid4 h n v scope = Ok (g, n', w)
      /\ set_uuids uuid4 h n (PDict [("object", v)]) scope = Done (h', n')
      /\ isomorphic h' v g w R /\ (forall o c, R o c -> hget h' c = None)
      /\ (forall q e, hget h' q = Some e -> hget g q = Some e).
  Proof.
    intros sorted h n v scope Ps T W O F Sc At Mi Ll Pn Sb Co.
    destruct (ready_after lower known construct uuid4 h n v scope) as (h1 & n1 & E1 & [_ _ _ _ _ M1 _ _] & _ & _); auto; [split; auto|].
    destruct (loads_dumps_partial lower known construct sorted uuid4 h n v scope Ps T W O F Sc At Mi Ll Pn Sb Co) as (h' & n' & j & Ed & Es & Lo).
    rewrite E1 in Es. inv Es. destruct (Lo h' (mirrored_lists _ M1)) as (w & g & R & El & Iso & New & Old).
    exists h', g, n', w, R. split; [unfold copy; rewrite Ed; cbn [bind]; rewrite El; reflexivity|]. split; [exact E1|]. split; [exact Iso|]. split.
    - intros o c Rc. apply nth_error_None. now apply (New o).
    - intros q e Hq. rewrite Old; auto. eapply hget_lt; eauto.
  Qed.

  (** complete_material_history lists one record for each entity reachable from the material, and
      no other, starting with the material's own. *)
  Theorem history_records : forall sorted h n m, (forall l, Permutation (sorted l) l) ->
    hashable_tuples h everything (PRef m) -> all_well_formed lower known construct h (PRef m) -> own_uids lower h (PRef m) ->
    fresh_uuids uuid4 n h (PRef m) -> attributes_typed h (PRef m) -> mirrored h -> loose_links lower uuid4 n h (PRef m) ->
    plain_names h (PRef m) ->
    exists h' n' os js, complete_material_history lower known construct sorted uuid4 h n m = Ok (h', n', js)
      /\ set_uuids uuid4 h n (PDict [("object", PRef m)]) "auto" = Done (h', n')
      /\ NoDup os /\ (forall o, In o os <-> reachable h' (PRef m) o) /\ hd_error os = Some m
      /\ Forall2 (record_of lower known construct h') os js.
  Proof.
    intros sorted h n m Ps T W O F At Mi Ll Pn.
    assert (Rd : ready lower known construct uuid4 h n (PRef m)) by (split; auto).
    destruct (ready_after lower known construct uuid4 h n (PRef m) "auto" Rd) as (h1 & n1 & E1 & Rd1 & S1 & U1); [repeat split; discriminate|].
    destruct (foreach_visits_partial h (PRef m) T) as (os & Eo & Nd & Ro). destruct (foreach_first h m os Eo) as (t & ->).
    assert (Ro1 : forall o, In o (m :: t) <-> reachable h1 (PRef m) o).
    { intros o. rewrite Ro. split; apply same_reach; auto. now apply same_content_sym. }
    destruct (step lower known construct sorted uuid4 Ps h n m [] Rd) as (h' & n' & r & Eb & Es & Rr). rewrite E1 in Es. inv Es.
    assert (Rest : forall l acc, (forall o, In o l -> In o (m :: t)) -> exists js, each (history_body lower known construct sorted uuid4) (h', n', acc) l = Ok (h', n', acc ++ js)
      /\ Forall2 (record_of lower known construct h') l js).
    { induction l as [|o l IH]; intros acc Hl; [exists []; cbn; rewrite app_nil_r; auto|].
      assert (Rm : reachable h' (PRef m) o) by (apply Ro1; apply Hl; now left).
      assert (Rdo := sub_ready lower known construct uuid4 h' n' (PRef m) o Rd1 Rm).
      destruct (step lower known construct sorted uuid4 Ps h' n' o acc Rdo) as (h2 & n2 & r2 & Eb2 & Es2 & Rr2).
      rewrite uids_idle in Es2; [injection Es2; intros; subst h2 n2| apply wrap_hashable; apply Rdo |].
      - destruct (IH (acc ++ [r2])) as (js & Ej & Fj); [intros; apply Hl; now right|]. exists (r2 :: js). cbn [each]. rewrite Eb2. cbn [bind]. rewrite Ej.
        split; [now rewrite <- app_assoc|]. constructor; auto.
      - intros x e Rx. apply U1. eapply sub_reach; [exact Rm|]. now apply wrap_reach. }
    destruct (Rest t [r]) as (js & Ej & Fj); [intros; now right|].
    exists h', n', (m :: t), (r :: js). split; [|split; [exact E1|split; [exact Nd|split; [exact Ro1|split; [reflexivity|constructor; auto]]]]].
    unfold complete_material_history. rewrite Eo. cbn [of_outcome bind each]. rewrite Eb. cbn [bind app]. exact Ej.
  Qed.
End P.

(** The hypotheses are met by a graph with cycles, templates, links and entities without uids; the
    results can be computed. *)
Example thin_ex : ready (fun s => s) all_known keep_all us ex_graph 0 (PRef 0)
  /\ exists h' j, thin_dumps (fun s => s) all_known keep_all us ex_graph 0 (PRef 1) "auto" = Ok (h', 2, j)
     /\ raw_loads (fun s => s) all_known keep_all [] j
        = Ok (PRef 0, [mkE KProcR [("auto", "u")] [("spec", PLink "id" "elsewhere"); ("output_material", PNone); ("ingredients", PList []);
            ("conditions", PList [PObj "condition" [("name", str "c"); ("template", PLink "id" "t"); ("value", PObj "nominal_integer" [("nominal", num 3)])]]); ("name", str "p"); ("tags", PList [])]])
     /\ exists js, complete_material_history (fun s => s) all_known keep_all (fun l => l) us ex_graph 0 0 = Ok (h', 2, js) /\ length js = 6.
Proof.
  split.
  - split; [apply hashable_tuples_check; reflexivity|apply graph_wellb_ok; reflexivity|apply own_uidsb_ok; reflexivity|apply us_fresh; reflexivity
    |apply attributesb_ok; reflexivity|apply ex_mirrored|apply looseb_ok; reflexivity|apply plainb_ok; reflexivity].
  - do 2 eexists. split; [vm_compute; reflexivity|]. split; [vm_compute; reflexivity|]. eexists. split; [vm_compute; reflexivity|reflexivity].
Qed.

(** The list is not in an order in which it can be read back as the context of a text (as its
    documentation suggests: "the context list that can be used to rehydrate an entire material
    history"): the record of the material comes before that of its process, and loading leaves the
    link between them unresolved. *)
Definition two : heap :=
  [ mkE KMatR [("id", "m")] [("name", str "m"); ("spec", PNone); ("process", PRef 1); ("measurements", PList [])]
  ; mkE KProcR [("id", "p")] [("name", str "p"); ("spec", PNone); ("output_material", PRef 0); ("ingredients", PList [])] ].
Theorem history_rehydrates_refuted : exists js m g,
  complete_material_history (fun s => s) all_known keep_all (fun l => l) us two 0 0 = Ok (two, 0, js)
  /\ loads (fun s => s) all_known keep_all [] (JObj [("context", JArr js); ("object", JObj [("id", JAtom (AStr "m")); ("scope", JAtom (AStr "id")); ("type", JAtom (AStr "link_by_uid"))])])
     = Ok (PRef m, g)
  /\ fval two 0 "process" = PRef 1 /\ fval g m "process" = PLink "id" "p" /\ fval g 1 "output_material" = PNone.
Proof. do 3 eexists. split; [vm_compute; reflexivity|]. split; [vm_compute; reflexivity|]. repeat split; reflexivity. Qed.

Print Assumptions thin_dumps_entity.
Print Assumptions thin_dumps_value.
Print Assumptions copy_isomorphic.
Print Assumptions history_records.
Print Assumptions history_rehydrates_refuted.
