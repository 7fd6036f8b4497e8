(** C48: raw_loads after raw_dumps. *)
From Coq Require Import String List Bool Arith Lia Permutation ZArith.
From Verif Require Import Base BaseFacts GraphModel GraphSpec GraphProofs EqModel EqSpec TravModel TravSpec SerialModel SerialSpec SerialSim SerialProofs SerialEntity InPlaceProofs RoundTripProofs ReprSpec LoadAnySpec LoadAnyProofs LoadAnyProperties SerialExamples NestSpec NestProofs NestShare.
Import ListNotations.
Open Scope string_scope.
Open Scope list_scope.
Open Scope nat_scope.

Lemma sim_left : forall (R : oid -> oid -> Prop) v w o, sim (renamed R) v w -> mentions v o -> exists c, R o c.
Proof.
  intros R v w o Sm M. apply mentions_within in M. apply sim_flip in Sm. destruct (sim_leaf _ _ _ (PRef o) Sm M) as (a & _ & La); [eauto|].
  destruct a; cbn in La; try contradiction. eauto.
Qed.

Section P.
  Variable lower : string -> string.
  Variable known : string -> bool.
  Variable construct : heap -> string -> list (string * pv) -> res (list (string * pv)).
  Notation raw_loads := (raw_loads lower known construct).

  (** raw_dumps writes a value whose entities can be represented, changing nothing, and raw_loads, in
      whatever state of the program, makes of the text a copy of the value: exactly the entities that
      the value leads to without using the read-only sides are copied, everything that is new is such
      a copy, each copy has the class, uids and attributes of its original, and what exists is left alone. *)
  Theorem raw_round_trip : forall h v, storable known construct h v ->
    all_representable lower known construct h v -> plain_attributes h v ->
    exists j, raw_dumps h v = Ok j
      /\ forall g, lists_exist g -> exists w g' R, raw_loads g j = Ok (w, g')
           /\ sim (renamed R) v w /\ resembles h g' R
           /\ (forall o, inside h v o <-> exists c, R o c)
           /\ (forall c, (exists o, R o c) <-> length g <= c /\ c < length g')
           /\ (forall o e, hget g o = Some e -> hget g' o = Some e).
  Proof.
    intros h v St W PA. destruct (dumps_round lower known construct h 0 v W PA St) as (j & D & _). exists j. split; auto.
    intros g Lg. destruct (dumps_round lower known construct h (length g) v W PA St) as (j' & D' & B).
    rewrite D in D'. injection D' as <-. destruct (B g [] (le_n _) Lg) as (w & g' & ix & E & (K & L & N & A) & Sm).
    assert (E' : raw_loads g j = Ok (w, g')) by (exact (f_equal (fun r => do (v0, st) <- r; Ok (v0, fst st)) E)).
    pose (R := copy_in h (length g) v g'). exists w, g', R.
    assert (Sr : sim (renamed R) v w) by (eapply renamed_mono; [|exact Sm]; intros o c C; exists 6; exact C).
    assert (Re : resembles h g' R) by (now apply (copies_resemble lower known construct)).
    split; auto. split; auto. split; auto. split; [|split].
    - intros o. split; [|intros (c & C); now apply copy_inside in C].
      intros (x & M & I). destruct (sim_left _ _ _ _ Sr M) as (c & C). clear M. revert c C.
      induction I as [|z e f y I IH He Nr M]; [eauto|].
      intros c C. destruct (IH c C) as (c1 & C1). destruct (Re z c1 C1) as (e0 & e' & E0 & _ & _ & _ & _ & F).
      assert (e0 = e) by congruence. subst e0. eapply sim_left; [exact (F f Nr) | exact M].
    - intros c. split.
      + intros (o & C). assert (Cp := copy_inside _ _ _ _ _ _ C). destruct (Re o c C) as (_ & e' & _ & He' & _). split; [apply Cp | eapply hget_lt; eauto].
      + intros [Lc Uc]. destruct (A c Lc Uc) as (o & C). exists o, 6. exact C.
    - intros o e. apply (loading_keeps_existing lower known construct g j w g'). now right.
  Qed.

  (** raw_loads never joins what a text repeats: of the objects it makes, whatever the text, no two
      refer to the same object, nor does one twice. *)
  Theorem raw_loads_unshared : forall g j v g', raw_loads g j = Ok (v, g') -> unshared (length g) g'.
  Proof.
    intros g j v g' E. unfold SerialModel.raw_loads in E. destruct (decode lower known construct false (g, []) j) as [[w st]|] eqn:D; [|discriminate]. cbn in E. inv E.
    assert (Out : forall p k, length g <= p -> kind_at g p = Some k -> False).
    { intros p k L K. unfold kind_at in K. destruct (hget g p) eqn:X; [|discriminate]. apply hget_lt in X. lia. }
    destruct (decode_share lower known construct j (length g) (g, []) v st (le_n _)) with (3 := D) as [(_ & U & _) _]; auto.
    - intros p k f p' k' f' c L _ K. destruct (Out _ _ L K).
    - intros p k f c L K. destruct (Out _ _ L K).
  Qed.

  (** So an object that two distinguishable objects refer to is copied twice: objects that share it
      come back with one each. *)
  Theorem raw_round_trip_splits : forall h v j g w g' o1 o2 e1 e2 f1 f2 x, raw_dumps h v = Ok j -> lists_exist g -> raw_loads g j = Ok (w, g') ->
    storable known construct h v -> all_representable lower known construct h v -> plain_attributes h v ->
    inside h v o1 -> inside h v o2 -> hget h o1 = Some e1 -> hget h o2 = Some e2 ->
    e_kind e1 <> e_kind e2 \/ ~ Permutation (e_uids e1) (e_uids e2) ->
    reference (e_kind e1) f1 -> reference (e_kind e2) f2 -> fval h o1 f1 = PRef x -> fval h o2 f2 = PRef x ->
    exists R c1 c2 y1 y2, resembles h g' R /\ R o1 c1 /\ R o2 c2 /\ R x y1 /\ R x y2
      /\ fval g' c1 f1 = PRef y1 /\ fval g' c2 f2 = PRef y2 /\ y1 <> y2.
  Proof.
    intros h v j g w g' o1 o2 e1 e2 f1 f2 x D Lg E St W PA I1 I2 H1 H2 Df R1 R2 F1 F2.
    destruct (raw_round_trip h v St W PA) as (j0 & D0 & B). assert (j0 = j) by congruence. subst j0.
    destruct (B g Lg) as (w0 & g0 & R & E0 & Sm & Re & Cv & Nw & _). rewrite E in E0. injection E0 as <- <-.
    assert (Side : forall o e f, inside h v o -> hget h o = Some e -> reference (e_kind e) f -> fval h o f = PRef x ->
      exists c y e', R o c /\ R x y /\ fval g' c f = PRef y /\ hget g' c = Some e' /\ e_kind e' = e_kind e /\ Permutation (e_uids e') (e_uids e) /\ length g <= c).
    { intros o e f I He Rf F. apply Cv in I as (c & C). assert (Lc := proj1 (proj1 (Nw c) (ex_intro _ o C))).
      destruct (Re o c C) as (e0 & e' & He0 & He' & Ke & Pu & _ & G). rewrite He in He0. injection He0 as <-.
      assert (Kh : kind_at h o = Some (e_kind e)) by (unfold kind_at; now rewrite He).
      assert (Kg : kind_at g' c = Some (e_kind e)) by (unfold kind_at; rewrite He'; cbn; now rewrite Ke).
      specialize (G f (ref_not_ro _ _ Rf)). rewrite (read_fval h o f _ Kh Rf), (read_fval g' c f _ Kg Rf), F in G.
      destruct (fval g' c f) as [| | |y| | | |] eqn:Fc; cbn in G; try contradiction. exists c, y, e'. repeat (split; [assumption|]). assumption. }
    destruct (Side _ _ _ I1 H1 R1 F1) as (c1 & y1 & e1' & C1 & Y1 & G1 & X1 & K1 & P1 & N1). destruct (Side _ _ _ I2 H2 R2 F2) as (c2 & y2 & e2' & C2 & Y2 & G2 & X2 & K2 & P2 & N2).
    exists R, c1, c2, y1, y2. repeat (split; [assumption|]). intros Ey. subst y2.
    assert (c1 = c2).
    { apply (raw_loads_unshared _ _ _ _ E c1 (e_kind e1) f1 c2 (e_kind e2) f2 y1); auto; unfold kind_at; [rewrite X1 | rewrite X2]; cbn; congruence. }
    subst c2. rewrite X1 in X2. injection X2 as <-. destruct Df as [Df|Df]; apply Df; [congruence|].
    eapply Permutation_trans; [apply Permutation_sym; exact P1 | exact P2].
  Qed.
End P.
Print Assumptions raw_round_trip.
Print Assumptions raw_loads_unshared.
Print Assumptions raw_round_trip_splits.

(** ** A case *)
Lemma inside_below : forall h v, closed_heapb h = true -> forallb (fun o => o <? length h) (refs_in v) = true -> forall o, NestSpec.inside h v o -> o < length h.
Proof.
  intros h v C T o (x & M & I). rewrite forallb_forall in T. apply refs_in_ok, T, Nat.ltb_lt in M. induction I as [|z e f y I IH He Nr My]; auto.
  destruct (read_a_field h z f) as [E|(p & e' & He' & Ip & _)]; [rewrite E in My; inversion My|].
  assert (X := closed_heapb_ok h C p e' f _ y He' Ip My). destruct (hget h y) eqn:Hy; [eapply hget_lt; eauto | congruence].
Qed.

(** Two entities written in full that refer to one process: the material it makes and an ingredient. *)
Definition ex_nested : pv := PList [PRef 5; PDict [("again", PRef 2)]; PLink "id" "nowhere"].
Example ex_raw_round_trip : storable all_known keep_all ex_graph ex_nested
  /\ all_representable (fun s => s) all_known keep_all ex_graph ex_nested /\ plain_attributes ex_graph ex_nested
  /\ lists_exist ex_graph /\ NestSpec.inside ex_graph ex_nested 5 /\ NestSpec.inside ex_graph ex_nested 0
  /\ fval ex_graph 5 "process" = PRef 1 /\ fval ex_graph 0 "process" = PRef 1
  /\ exists j g', raw_dumps ex_graph ex_nested = Ok j
     /\ raw_loads (fun s => s) all_known keep_all ex_graph j = Ok (PList [PRef 9; PDict [("again", PRef 13)]; PLink "id" "nowhere"], g')
     /\ length g' = 14 /\ kind_at g' 9 = Some KIngR /\ kind_at g' 13 = Some KMeasR
     /\ fval g' 9 "process" = PRef 8 /\ fval g' 13 "material" = PRef 12 /\ fval g' 12 "process" = PRef 11
     /\ fval g' 11 "output_material" = PRef 12 /\ fval g' 8 "output_material" = PNone /\ fval g' 8 "ingredients" = PList [PRef 9]
     /\ fval g' 12 "measurements" = PList [PRef 13].
Proof.
  split; [apply storableb_ok; reflexivity|]. split.
  { intros o I. apply inside_below in I; [|reflexivity|reflexivity]. destruct (hget ex_graph o) as [e|] eqn:He; [|apply nth_error_None in He; lia].
    exists e. split; auto. apply wf_rep. apply well_formedb_ok; auto. assert (G : graph_wellb (fun s => s) ex_graph = true) by reflexivity.
    unfold graph_wellb in G. rewrite forallb_forall in G. specialize (G o). rewrite in_seq, He in G. apply G. lia. }
  split. { intros o e f x _ He If Nr Ro M. assert (A := attributesb_ok ex_graph (PList (map PRef (seq 0 6))) eq_refl).
           eapply (A o e f x); eauto. apply hget_lt in He. constructor. econstructor; [|constructor]. apply in_map. apply in_seq. cbn in He. lia. }
  split; [apply mirrored_lists, ex_mirrored|].
  assert (M5 : mentions ex_nested 5) by (econstructor; [now left | constructor]).
  assert (M2 : mentions ex_nested 2). { econstructor; [right; left; reflexivity|]. econstructor; [now left | constructor]. }
  split. { exists 5. split; [exact M5 | constructor]. }
  split. { exists 2. split; [exact M2|]. eapply if_field with (f := "material"); [constructor | reflexivity | | constructor].
           intros [[X _]|[[X|X] _]]; discriminate. }
  split; [reflexivity|]. split; [reflexivity|].
  do 2 eexists. split; [vm_compute; reflexivity|]. split; [vm_compute; reflexivity|]. repeat split; reflexivity.
Qed.
