(** C21, C22: flatten. *)
From Coq Require Import String List Bool Arith Lia Permutation Sorted.
From Verif Require Import Base BaseFacts CidModel GraphModel GraphSpec GraphProofs EqModel EqSpec EqProofs EqCopies TravModel TravSpec TravProofs TravProperties SerialModel SerialSpec SerialSim SerialEntity SerialRecords FlattenProofs SerialExamples.
Import ListNotations.
Open Scope string_scope.
Open Scope list_scope.
Open Scope nat_scope.

Section P.
  Variable lower : string -> string.
  Variable known : string -> bool.
  Variable construct : heap -> string -> list (string * pv) -> res (list (string * pv)).

  (** ** C21 *)

  (** flatten gives uids to the reachable entities and returns exactly one record for each of them:
      there is a list [os] of the reachable entities without repetition, and the records are
      theirs, in that order. No record holds an entity, and no two records share a uid.
      Missing for the full C21: graphs in which two entities share a uid (false there, see
      [flatten_drops_refuted]), values that do not survive being rebuilt (see [storable], and
      [SubstProperties.substitute_conflates_refuted]). *)
  Theorem flatten_exact_partial : forall sorted uuid4 h n obj scope, (forall l, Permutation (sorted l) l) ->
    hashable_tuples h everything obj -> all_well_formed lower known construct h obj -> own_uids (fun s => s) h obj ->
    fresh_uuids uuid4 n h obj -> plain_scope scope ->
    exists h' n' os es, flatten lower known construct sorted uuid4 h n obj (Some scope) = Ok (h', n', es)
      /\ set_uuids uuid4 h n obj scope = Done (h', n')
      /\ NoDup os /\ (forall o, In o os <-> reachable h obj o) /\ Forall2 (flat_copy h') os es
      /\ (forall e' f x, In e' es -> ~ mentions (fget e' f) x)
      /\ NoDup (concat (map e_uids es)).
  Proof.
    intros sorted uuid4 h n obj scope Ps T W O F Sc.
    destruct (set_uuids_ready lower known construct (fun s => s) uuid4 h n obj scope T W O F Sc) as (h' & n' & E & S & _ & W' & O' & U & _).
    destruct (flatten_set_ok lower known construct sorted h' obj Ps (same_hashable _ _ _ S T) W' O' U) as (os & es & Ef & N & R & Fo & _).
    exists h', n', os, es. split; [unfold flatten; rewrite E; cbn [of_outcome bind]; rewrite Ef; reflexivity|]. split; auto. split; auto. split.
    { intros o. rewrite R. split; apply same_reach; auto. now apply same_content_sym. }
    assert (Fc : Forall2 (flat_copy h') os es).
    { eapply Forall2_mono_in; [exact Fo|]. intros o e' _ _ (e & He & Th). eapply thin_flat; eauto. }
    split; auto. split.
    - intros e' f x I M. destruct (Forall2_in_r _ _ _ _ _ Fc e' I) as (o & Io & e & He & K & P & Nf & Kf & Sm & Bl).
      destruct (in_dec string_dec f (keys (e_fields e'))) as [If|If].
      + destruct (skipped (e_kind e) f) eqn:Sk.
        * apply skipped_iff in Sk. destruct (Bl f Sk) as [X|X]; rewrite X in M; inversion M; contradiction.
        * assert (B : ~ read_only (e_kind e) f) by (rewrite <- skipped_iff, Sk; discriminate). apply Kf in If.
          destruct (sim_leaf _ _ _ (PRef x) (Sm f If B)) as (a & _ & La); [now apply mentions_within | eauto |]. destruct a; exact La.
      + apply dict_get_None in If. unfold fget in M. rewrite If in M. inversion M.
    - eapply uids_apart; eauto.
      + intros o e Io He. apply R in Io. destruct (W' o Io) as (e0 & He0 & We). rewrite He in He0. inv He0.
        assert (X := wf_uids _ _ _ _ _ _ We). rewrite <- map_map in X. apply NoDup_map_inv in X. now apply NoDup_map_inv in X.
      + intros o o' s i Io Io' U1 U2. eapply O'; eauto; now apply R.
  Qed.

  (** Without a scope nothing is given a uid: the same holds if every reachable entity has one, *)
  Theorem flatten_no_scope_partial : forall sorted uuid4 h n obj, (forall l, Permutation (sorted l) l) ->
    hashable_tuples h everything obj -> all_well_formed lower known construct h obj -> own_uids (fun s => s) h obj ->
    (forall o, reachable h obj o -> exists s i, uid_of h o s i) ->
    exists os es, flatten lower known construct sorted uuid4 h n obj None = Ok (h, n, es)
      /\ NoDup os /\ (forall o, In o os <-> reachable h obj o) /\ Forall2 (flat_copy h) os es.
  Proof.
    intros sorted uuid4 h n obj Ps T W O U.
    destruct (flatten_set_ok lower known construct sorted h obj Ps T W O) as (os & es & Ef & N & R & Fo & _).
    { intros o e Ro He Eu. destruct (U o Ro) as (s & i & e0 & He0 & I). rewrite He in He0. inv He0. rewrite Eu in I. contradiction. }
    exists os, es. unfold flatten. cbn [bind]. rewrite Ef. split; auto. split; auto. split; auto.
    eapply Forall2_mono_in; [exact Fo|]. intros o e' _ _ (e & He & Th). eapply thin_flat; eauto.
  Qed.

  (** ... and otherwise the call fails. *)
  Theorem flatten_needs_uids : forall sorted uuid4 h n obj o e, (forall l, Permutation (sorted l) l) ->
    reachable h obj o -> hget h o = Some e -> e_uids e = [] ->
    exists x, flatten lower known construct sorted uuid4 h n obj None = Err x.
  Proof.
    intros sorted uuid4 h n obj o e Ps R He U. unfold flatten, flatten_set. cbn [bind].
    destruct (flatmap_terminates sorted false h obj Ps) as [(l & E)|(E & _)]; rewrite E; cbn [of_outcome bind]; eauto.
    assert (I : In o l).
    { assert (X := flatmap_done_in sorted h obj l Ps E). now apply X. }
    assert (X : forall seen, exists x, new_by_uid h seen l = Err x).
    { clear - I He U. induction l as [|y l IH]; [contradiction|]. intros seen. cbn [new_by_uid]. destruct I as [->|I].
      - rewrite He, U. eauto.
      - destruct (match hget h y with Some e0 => e_uids e0 | None => [] end) as [|p r] eqn:Ey; eauto.
        destruct (IH I ((p :: r) ++ seen)) as (x & ->). cbn. eauto. }
    destruct (X []) as (x & ->). cbn. eauto.
  Qed.

  (** ** C22 *)

  (** Every link in a record's serialised fields either was a link before, or leads to a uid of an
      earlier record.
      Missing for the full C22: as for C21 (false if entities share uids, see
      [flatten_drops_refuted]). *)
  Theorem flatten_ordered_partial : forall sorted uuid4 h n obj scope, (forall l, Permutation (sorted l) l) ->
    hashable_tuples h everything obj -> all_well_formed lower known construct h obj -> own_uids (fun s => s) h obj ->
    fresh_uuids uuid4 n h obj -> plain_scope scope -> attributes_typed h obj ->
    exists h' n' os es, flatten lower known construct sorted uuid4 h n obj (Some scope) = Ok (h', n', es)
      /\ Forall2 (flat_copy h') os es
      /\ forall os1 o os2 es1 e' es2, os = os1 ++ o :: os2 -> es = es1 ++ e' :: es2 -> length os1 = length es1 ->
           forall f s i, within (PLink s i) (fget e' f) ->
             within (PLink s i) (read h o f) \/ exists e'', In e'' es1 /\ In (s, i) (e_uids e'').
  Proof.
    intros sorted uuid4 h n obj scope Ps T W O F Sc At.
    destruct (set_uuids_ready lower known construct (fun s => s) uuid4 h n obj scope T W O F Sc) as (h' & n' & E & S & _ & W' & O' & U & _).
    destruct (flatten_set_ok lower known construct sorted h' obj Ps (same_hashable _ _ _ S T) W' O' U) as (os & es & Ef & N & R & Fo & So).
    exists h', n', os, es. split; [unfold flatten; rewrite E; cbn [of_outcome bind]; rewrite Ef; reflexivity|].
    assert (Fc : Forall2 (flat_copy h') os es).
    { eapply Forall2_mono_in; [exact Fo|]. intros o e' _ _ (e & He & Th). eapply thin_flat; eauto. }
    split; auto. intros os1 o os2 es1 e' es2 -> -> Len f s i Wl.
    assert (Fcc := Fc). apply Forall2_app_inv_l in Fcc as (x1 & x2 & F1 & F2 & Ex). assert (L1 := Forall2_len _ _ _ _ _ F1).
    inversion F2 as [|? e2 ? x3 C F3]; subst. apply app_inj_len in Ex as [-> Ex]; [|lia]. inv Ex.
    destruct C as (e & He & K & P & Nf & Kf & Sm & Bl).
    assert (Ro : reachable h' obj o) by (apply R; apply in_or_app; right; now left).
    destruct (in_dec string_dec f (keys (e_fields e2))) as [If|If].
    2: { apply dict_get_None in If. unfold fget in Wl. rewrite If in Wl. inversion Wl. }
    destruct (skipped (e_kind e) f) eqn:Sk.
    { apply skipped_iff in Sk. destruct (Bl f Sk) as [X|X]; rewrite X in Wl; inversion Wl; contradiction. }
    assert (B : ~ read_only (e_kind e) f) by (rewrite <- skipped_iff, Sk; discriminate). apply Kf in If.
    destruct (sim_leaf _ _ _ _ (Sm f If B) Wl) as (a & Wa & La); [eauto|]. rewrite (same_read h h') in Wa by auto.
    destruct a as [| |s0 i0|x| | | |]; cbn in La; try contradiction.
    - destruct La as [-> ->]. now left.
    - right. assert (M : mentions (read h' o f) x) by (rewrite (same_read h h') by auto; now apply mentions_within).
      assert (At' : attributes_typed h' obj).
      { intros o0 e0 f0 y R0 He0 If0 Nr B0 M0. destruct (same_some h' h o0 e0 (same_content_sym _ _ S) He0) as (e1 & He1 & K1 & Fd1).
        unfold attribute_template. rewrite !(same_kind h h') by auto. rewrite (same_read h h') in M0 by auto.
        eapply (At o0 e1); eauto; try rewrite ?K1, ?Fd1; auto. eapply same_reach; [|exact R0]. now apply same_content_sym. }
      destruct (reference_rank lower known construct h' obj o e f x W' At' Ro He If B M) as (k & Kx & Rk).
      assert (Rx : reachable h' obj x) by (eapply read_reach; eauto).
      assert (Ix : In x (os1 ++ o :: os2)) by (now apply R).
      destruct (Forall2_in_l _ _ _ _ _ Fc x Ix) as (ex' & Iex & ex & Hex & Kex & Pex & _).
      exists ex'. split.
      + eapply (sorted_before (fun e => rank (e_kind e))); eauto. rewrite Kex, K. unfold kind_at in Kx. rewrite Hex in Kx. now inv Kx.
      + destruct La as (ex2 & Hex2 & I). rewrite Hex in Hex2. inv Hex2. eapply Permutation_in; [symmetry|]; eauto.
  Qed.
End P.

(** The hypotheses are met by a graph with cycles, sharing, templates and entities without uids. *)
Example flatten_ex : (forall l : list (string * pv), Permutation l l) /\ hashable_tuples ex_graph everything ex_root
  /\ all_well_formed (fun s => s) all_known keep_all ex_graph ex_root /\ own_uids (fun s => s) ex_graph ex_root
  /\ fresh_uuids us 0 ex_graph ex_root /\ attributes_typed ex_graph ex_root
  /\ exists h' es, flatten (fun s => s) all_known keep_all (fun l => l) us ex_graph 0 ex_root (Some "auto") = Ok (h', 2, es)
    /\ map e_kind es = [KCondT; KProcR; KMatR; KMatR; KMeasR; KIngR]
    /\ nth_error es 5 = Some (mkE KIngR [("id", "i")] [("spec", PNone); ("material", PLink "auto" "uu"); ("process", PLink "auto" "u"); ("labels", PNone); ("name", PNone)]).
Proof.
  split; [reflexivity|]. split; [apply hashable_tuples_check; reflexivity|]. split; [apply graph_wellb_ok; reflexivity|].
  split; [apply own_uidsb_ok; reflexivity|]. split; [apply us_fresh; reflexivity|]. split; [apply attributesb_ok; reflexivity|].
  vm_compute. eexists. eexists. split; [reflexivity|]. split; reflexivity.
Qed.

(** The full C21 and C22 are false: of three templates of which the first shares a uid with the
    second and the second with the third, only the first is written, and the link by which a spec
    refers to the third leads nowhere. *)
Definition chain : heap :=
  [ mkE KMatT [("a", "1")] []; mkE KMatT [("a", "1"); ("b", "2")] []; mkE KMatT [("b", "2")] []
  ; mkE KMatS [("c", "3")] [("template", PRef 2); ("process", PNone)] ].
Theorem flatten_drops_refuted : exists h obj es, (forall o, o < 4 -> reachable h obj o)
  /\ all_well_formed (fun s => s) all_known keep_all h obj
  /\ flatten (fun s => s) all_known keep_all (fun l => l) us h 0 obj (Some "auto") = Ok (h, 0, es)
  /\ (exists e', In e' es /\ fget e' "template" = PLink "b" "2" /\ uid_of h 2 "b" "2")
  /\ forall e', In e' es -> ~ In ("b", "2") (e_uids e').
Proof.
  exists chain, (PList [PRef 0; PRef 1; PRef 2; PRef 3]). eexists. split; [|split; [|split; [|split]]].
  - intros o H. apply r_obj. destruct o as [|[|[|[|]]]]; try lia; (eapply m_list; [|constructor]); cbn; auto.
  - apply graph_wellb_ok; reflexivity.
  - vm_compute. reflexivity.
  - eexists. split; [right; left; reflexivity|]. split; [reflexivity|]. eexists. split; [reflexivity|]. now left.
  - intros e' I J. destruct I as [<-|[<-|[]]]; cbn in J; repeat destruct J as [J|J]; try discriminate; contradiction.
Qed.

Print Assumptions flatten_exact_partial.
Print Assumptions flatten_no_scope_partial.
Print Assumptions flatten_needs_uids.
Print Assumptions flatten_ordered_partial.
Print Assumptions flatten_drops_refuted.
