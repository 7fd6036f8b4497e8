(** C24: loads after dumps. *)
From Coq Require Import String List Bool Arith Lia Permutation ZArith QArith.
From Verif Require Import Base BaseFacts CidModel GraphModel GraphSpec GraphProofs EqModel EqSpec EqProofs EqCopies EqProperties TravModel TravSpec TravProofs TravProperties SerialModel SerialSpec SerialSim SerialProofs SerialLinks SerialEntity SerialRecords FlattenProofs SubstProperties LoadProofs RoundTripProofs RoundTripEq SerialExamples.
Import ListNotations.
Open Scope string_scope.
Open Scope list_scope.
Open Scope nat_scope.

Section P.
  Variable lower : string -> string.
  Variable known : string -> bool.
  Variable construct : heap -> string -> list (string * pv) -> res (list (string * pv)).

  (** dumps gives uids to the reachable entities and writes a text; loading it, in whatever state of
      the program, gives a new object graph isomorphic to the one reachable from the object, and
      leaves the entities that exist alone.
      Missing for the full C24: values that JSON or the constructors cannot represent (tuples, a
      dictionary with a key "type": [load_type_key_refuted]; see [storable] and [well_formed]), graphs in which two
      entities share a uid ([FlattenProperties.flatten_drops_refuted]), equal numbers of different types
      ([SubstProperties.substitute_conflates_refuted]), graphs with links to entities they contain (these
      become references, as they should: see C25), and two-sided references that disagree, which
      only a rejected assignment or equal siblings bring about (C15, C16). *)
  Theorem loads_dumps_partial : forall sorted uuid4 h n obj scope, (forall l, Permutation (sorted l) l) ->
    hashable_tuples h everything obj -> all_well_formed lower known construct h obj -> own_uids lower h obj ->
    fresh_uuids uuid4 n h obj -> plain_scope scope -> attributes_typed h obj -> mirrored h -> loose_links lower uuid4 n h obj ->
    plain_names h obj -> storable known construct h obj -> coherent_numbers obj ->
    exists h' n' j, dumps lower known construct sorted uuid4 h n obj scope = Ok (h', n', j)
      /\ set_uuids uuid4 h n (PDict [("object", obj)]) scope = Done (h', n')
      /\ forall g0, lists_exist g0 -> exists obj' g R, loads lower known construct g0 j = Ok (obj', g)
           /\ isomorphic h' obj g obj' R
           /\ (forall o c, R o c -> length g0 <= c) /\ (forall q, q < length g0 -> hget g q = hget g0 q).
  Proof.
    intros sorted uuid4 h n obj scope Ps T W O F Sc At Mi Ll Pn Sb Co.
    destruct (round_trip lower known construct sorted uuid4 h n obj scope Ps T W O F Sc At Mi Ll Pn Sb Co) as (h' & n' & j & os & Ed & Es & S & Ro & N & W' & O' & U' & _ & L).
    exists h', n', j. split; auto. split; auto. intros g0 L0. destruct (L g0 L0) as (obj' & st & El & Iv & So).
    exists obj', (fst st), (LoadProofs.R os g0). split; auto. split; [|split].
    - eapply iso; eauto; [eapply same_mirrored; eauto|]. intros o f x R K Hf. rewrite (same_kind h h') in K by auto. rewrite (same_fval h h') by auto. apply Pn; auto.
      eapply same_reach; [|exact R]. now apply same_content_sym.
    - intros o c [_ ->]. unfold copy. lia.
    - apply (i_old _ _ _ _ _ _ Iv).
  Qed.

  (** Loaded next to the original, every entity equals its original, both ways. *)
  Theorem loads_dumps_equal_partial : forall sorted uuid4 h n obj scope, (forall l, Permutation (sorted l) l) ->
    hashable_tuples h everything obj -> all_well_formed lower known construct h obj -> own_uids lower h obj ->
    fresh_uuids uuid4 n h obj -> plain_scope scope -> attributes_typed h obj -> mirrored h -> loose_links lower uuid4 n h obj ->
    plain_names h obj -> storable known construct h obj -> coherent_numbers obj ->
    closed h -> layered h -> uids_ok h ->
    exists h' n' j obj' g R, dumps lower known construct sorted uuid4 h n obj scope = Ok (h', n', j)
      /\ loads lower known construct h' j = Ok (obj', g) /\ isomorphic h' obj g obj' R
      /\ forall o c, R o c -> hget g o = hget h' o /\ entity_eq lower g o c = true /\ entity_eq lower g c o = true.
  Proof.
    intros sorted uuid4 h n obj scope Ps T W O F Sc At Mi Ll Pn Sb Co Cl La Uo.
    destruct (round_trip lower known construct sorted uuid4 h n obj scope Ps T W O F Sc At Mi Ll Pn Sb Co) as (h' & n' & j & os & Ed & Es & S & Ro & N & W' & O' & U' & Un & L).
    assert (M' : mirrored h') by (eapply same_mirrored; eauto).
    assert (Pn' : plain_names h' obj).
    { intros o f x R K Hf. rewrite (same_kind h h') in K by auto. rewrite (same_fval h h') by auto. apply Pn; auto.
      eapply same_reach; [|exact R]. now apply same_content_sym. }
    assert (Cl' : closed h').
    { intros o e f v x He I M E. destruct (same_some h' h o e (same_content_sym _ _ S) He) as (e0 & He0 & _ & F0). rewrite <- F0 in I.
      apply (Cl o e0 f v x He0 I M). destruct (hget h x) as [ex|] eqn:Hx; auto. destruct (same_some h h' x ex S Hx) as (e1 & He1 & _). congruence. }
    assert (La' : layered h').
    { destruct La as [L1 L2]. split.
      - intros o f x M. rewrite (same_read h h') in M by auto. unfold attribute_template. rewrite !(same_kind h h') by auto. now apply (L1 o f x).
      - intros o f x A M. rewrite (same_read h h') in M by auto. unfold attribute_template in A. rewrite !(same_kind h h') in A by auto. now apply (L2 o f x). }
    assert (Uo' : uids_ok h').
    { destruct (set_uuids_exact_partial uuid4 h n (PDict [("object", obj)]) scope (wrap_hashable _ _ T)) as (h1 & n1 & num & E1 & _ & G1 & G2 & _).
      rewrite Es in E1. inv E1. intros o e He. destruct (same_some h1 h o e (same_content_sym _ _ S) He) as (e0 & He0 & _).
      destruct (e_uids e0) eqn:Eu.
      - (* given a uid, or not reachable *)
        destruct (in_dec Nat.eq_dec o os) as [I|I].
        + assert (R : reach h everything (PDict [("object", obj)]) o).
          { apply wrap_reach. apply (same_reach h1 h); [now apply same_content_sym|]. now apply Ro. }
          destruct (G1 o e0 He0 Eu R) as [X _]. rewrite He in X. inv X. cbn. repeat constructor. intros [].
        + rewrite (G2 o e0 He0) in He; [inv He; rewrite Eu; constructor|]. right. intros R. apply I, Ro. apply (same_reach h h1); auto. now apply wrap_reach.
      - rewrite (G2 o e0 He0) in He; [inv He; eauto|]. left. congruence. }
    destruct (L h' (mirrored_lists _ M')) as (obj' & st & El & Iv & So).
    exists h', n', j, obj', (fst st), (LoadProofs.R os h'). split; auto. split; auto. split; [eapply iso; eauto|].
    intros o c Rc. split.
    - apply (i_old _ _ _ _ _ _ Iv). destruct Rc as [Io _]. apply Ro in Io. destruct (W' o Io) as (e & He & _). eapply hget_lt; eauto.
    - eapply (equal_copies lower known construct h' obj os st obj'); eauto.
  Qed.
End P.

(** The hypotheses of both theorems are met by a graph with cycles, sharing, templates, links and
    entities without uids; the result can be computed. *)
Example loads_dumps_ex : (forall l : list (string * pv), Permutation l l) /\ hashable_tuples ex_graph everything ex_root
  /\ all_well_formed (fun s => s) all_known keep_all ex_graph ex_root /\ own_uids (fun s => s) ex_graph ex_root
  /\ fresh_uuids us 0 ex_graph ex_root /\ attributes_typed ex_graph ex_root /\ mirrored ex_graph
  /\ loose_links (fun s => s) us 0 ex_graph ex_root /\ plain_names ex_graph ex_root /\ storable all_known keep_all ex_graph ex_root
  /\ coherent_numbers ex_root /\ closed ex_graph /\ layered ex_graph /\ uids_ok ex_graph
  /\ exists h' j obj' g, dumps (fun s => s) all_known keep_all (fun l => l) us ex_graph 0 ex_root "auto" = Ok (h', 2, j)
     /\ loads (fun s => s) all_known keep_all [] j = Ok (obj', g)
     /\ obj' = PList [PRef 4; PDict [("again", PRef 2)]; PLink "id" "nowhere"] /\ length g = 6
     /\ fval g 1 "output_material" = PRef 2 /\ fval g 2 "measurements" = PList [PRef 4].
Proof.
  split; [reflexivity|]. split; [apply hashable_tuples_check; reflexivity|]. split; [apply graph_wellb_ok; reflexivity|].
  split; [apply own_uidsb_ok; reflexivity|]. split; [apply us_fresh; reflexivity|]. split; [apply attributesb_ok; reflexivity|].
  split; [apply ex_mirrored|]. split; [apply looseb_ok; reflexivity|]. split; [apply plainb_ok; reflexivity|]. split; [apply storableb_ok; reflexivity|].
  split. { intros a b Wa Wb. apply (coherentb_ok (atoms_in ex_root)); [reflexivity| |]; now apply atoms_in_ok. }
  split; [apply closed_heapb_ok; reflexivity|]. split; [apply layeredb_ok; reflexivity|]. split; [apply uids_okb_ok; reflexivity|].
  do 4 eexists. split; [vm_compute; reflexivity|]. split; [vm_compute; reflexivity|]. repeat split; reflexivity.
Qed.

(** The full C24 is false: a dictionary with a key "type" comes back as something else, or not at
    all; an entity with such a dictionary, or with a uid whose scope is called "type", cannot be written. *)
Definition only_integers (t : string) : bool := String.eqb t "nominal_integer".
Theorem load_type_key_refuted :
  (exists j, dumps (fun s => s) only_integers keep_all (fun l => l) us [] 0 (PDict [("type", str "nominal_integer"); ("nominal", num 3)]) "auto" = Ok ([], 0, j)
     /\ loads (fun s => s) only_integers keep_all [] j = Ok (PObj "nominal_integer" [("nominal", num 3)], []))
  /\ (exists j, dumps (fun s => s) only_integers keep_all (fun l => l) us [] 0 (PDict [("type", str "steel")]) "auto" = Ok ([], 0, j)
     /\ loads (fun s => s) only_integers keep_all [] j = Err TypeError)
  /\ (exists x, dumps (fun s => s) only_integers keep_all (fun l => l) us [mkE KMatT [("id", "1")] [("name", str "m"); ("tags", PDict [("type", PNone)])]] 0 (PRef 0) "auto" = Err x)
  /\ (exists x, dumps (fun s => s) only_integers keep_all (fun l => l) us [mkE KMatT [("type", "1")] [("name", str "m")]] 0 (PRef 0) "auto" = Err x).
Proof.
  split; [|split; [|split]].
  - eexists. split; [vm_compute; reflexivity|]. vm_compute. reflexivity.
  - eexists. split; [vm_compute; reflexivity|]. vm_compute. reflexivity.
  - eexists. vm_compute; reflexivity.
  - eexists. vm_compute; reflexivity.
Qed.

(** The scopes "seq" and "self" are names of parameters of CaseInsensitiveDict: an entity that was given an identifier under one of
    them with add_uid cannot be written, and one whose identifier under "seq" is empty comes back as a link, for what is written has no uids. *)
Definition one_uid (s i : string) : heap := [mkE KMatT [(s, i)] (blank KMatT ++ [("name", str "m")])].
Theorem parameter_scopes_refuted :
  dumps (fun s => s) only_integers keep_all (fun l => l) us (one_uid "seq" "7") 0 (PRef 0) "auto" = Err ValueError
  /\ dumps (fun s => s) only_integers keep_all (fun l => l) us (one_uid "self" "7") 0 (PRef 0) "auto" = Err TypeError
  /\ (exists h n j, dumps (fun s => s) only_integers keep_all (fun l => l) us (one_uid "id" "7") 0 (PRef 0) "auto" = Ok (h, n, j))
  /\ (exists h n j g, dumps (fun s => s) only_integers keep_all (fun l => l) us (one_uid "seq" "") 0 (PRef 0) "auto" = Ok (h, n, j)
       /\ loads (fun s => s) only_integers keep_all [] j = Ok (PLink "seq" "", g)).
Proof.
  split; [|split; [|split]]; [vm_compute; reflexivity..| |]; do 3 eexists; [vm_compute; reflexivity|].
  eexists. split; [vm_compute; reflexivity|]. vm_compute. reflexivity.
Qed.

Print Assumptions parameter_scopes_refuted.
Print Assumptions loads_dumps_partial.
Print Assumptions loads_dumps_equal_partial.
Print Assumptions load_type_key_refuted.
