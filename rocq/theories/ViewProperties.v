(** C44: references hold what their class asks for, and runs show the name, labels and template of
    their spec. *)
From Coq Require Import String List Bool Arith ZArith Lia.
From Verif Require Import Base BaseFacts GraphModel GraphSpec GraphProofs ViewModel ViewSpec ViewProofs.
Import ListNotations.
Open Scope string_scope.
Open Scope list_scope.

(** After any history of constructions and assignments, accepted and rejected ones alike, and
    whatever entity equality answers, every reference field of every object holds nothing, a link or
    an object of the class it asks for; output materials are materials, and the members of the
    ingredients and measurements lists are ingredients and measurements. *)
Theorem references_always_typed : forall eq h, reachable eq h ->
  references_typed h /\ outputs_typed h /\ members_typed h.
Proof. exact references_reachable. Qed.
Print Assumptions references_always_typed.

(** Names of runs and specs are always texts (ingredient runs aside) and labels lists of texts. *)
Theorem names_always_texts : forall eq h o k, reachable eq h -> kind_at h o = Some k -> is_object k = true ->
  (k <> KIngR -> text (read h o "name"))
  /\ (k = KIngS -> texts (read h o "labels"))
  /\ (k = KIngR -> read h o "labels" = PNone \/ texts (read h o "labels")).
Proof.
  intros eq h o k Rh K O. destruct (references_reachable eq h Rh) as [R _].
  destruct (names_reachable eq h Rh) as [N1 [N2 N3]]. repeat split.
  - intros N. rewrite (read_other h o k "name" K N). eauto.
  - intros ->. rewrite (read_other h o KIngS "labels" K) by discriminate. auto.
  - intros ->. destruct (own_or_realises h o K) as [Ow|[s Hs]].
    + rewrite (read_own _ _ _ Ow). auto.
    + destruct (read_realises eq h o s "labels" R Hs (or_intror eq_refl)) as [Ks ->]. auto.
Qed.
Print Assumptions names_always_texts.

(** An ingredient run whose spec is an object shows that object's name and labels. *)
Theorem run_shows_spec : forall eq h i s, reachable eq h -> realises h i s ->
  kind_at h s = Some KIngS /\ read h i "name" = read h s "name" /\ read h i "labels" = read h s "labels".
Proof.
  intros eq h i s Rh Hs. destruct (references_reachable eq h Rh) as [R _].
  destruct (read_realises eq h i s "name" R Hs (or_introl eq_refl)) as [Ks E1].
  destruct (read_realises eq h i s "labels" R Hs (or_intror eq_refl)) as [_ E2].
  rewrite !(read_other h s KIngS) by (auto; discriminate). auto.
Qed.
Print Assumptions run_shows_spec.

(** No operation changes the name an ingredient run shows if the run ends up without a spec object,
    and none but appending to its own labels changes its labels. *)
Theorem own_name_kept : forall eq h op i, reachable eq h -> kind_at h i = Some KIngR ->
  on_its_own (fst (nstep eq h op)) i ->
  read (fst (nstep eq h op)) i "name" = read h i "name"
  /\ ((forall v, op <> NAddLabel i v) -> read (fst (nstep eq h op)) i "labels" = read h i "labels").
Proof.
  intros eq h op i Rh K O. destruct (references_reachable eq h Rh) as [R _]. split.
  - apply own_step; auto; [now left | discriminate].
  - intros NA. apply own_step; auto. now right.
Qed.
Print Assumptions own_name_kept.

(** When an ingredient run lets go of its spec object, the name and labels the spec has at that
    moment stay with the run, whatever happens afterwards to the former spec and to everything
    else, for as long as the run gets no spec object again. *)
Theorem former_spec_remembered : forall eq h i s v ops,
  reachable eq h -> realises h i s -> (v = PNone \/ exists sc id, v = PLink sc id) ->
  let h1 := fst (nstep eq h (NSet i "spec" v)) in
  always eq (fun g => on_its_own g i) h1 ops ->
  read (nrun eq h1 ops) i "name" = read h s "name"
  /\ ((forall w, ~ In (NAddLabel i w) ops) -> read (nrun eq h1 ops) i "labels" = read h s "labels").
Proof.
  intros eq h i s v ops Rh Hs V h1 AL. destruct (references_reachable eq h Rh) as [R _].
  destruct (run_shows_spec eq h i s Rh Hs) as [Ks [E1 E2]].
  assert (R1 : references_typed h1) by now apply references_step.
  assert (O : on_its_own h1 i) by (destruct ops; cbn in AL; [auto|apply AL]).
  destruct Hs as [Ki Fs].
  destruct (own_name_kept eq h (NSet i "spec" v) i Rh Ki O) as [S1 S2].
  rewrite <- E1, <- E2, <- S1, <- S2 by discriminate. fold h1. split.
  - apply own_history; auto; [now left | discriminate].
  - intros NA. apply own_history; auto. now right.
Qed.
Print Assumptions former_spec_remembered.

(** Letting go is always possible: the assignment of None or a link is accepted. *)
Theorem spec_can_be_let_go : forall eq h i v, kind_at h i = Some KIngR ->
  (v = PNone \/ exists sc id, v = PLink sc id) ->
  snd (nstep eq h (NSet i "spec" v)) = None /\ on_its_own (fst (nstep eq h (NSet i "spec" v))) i.
Proof.
  intros eq h i v K V.
  assert (W : well_typed h i "spec" v).
  { exists KIngR, KIngS. repeat split; auto. { unfold asked_kind; cbn; tauto. } tauto. }
  assert (A : asked_kind KIngR "spec" KIngS) by (unfold asked_kind; cbn; tauto).
  assert (T : ~ two_sided KIngR "spec") by (unfold two_sided; intros [[D _]|[D _]]; discriminate).
  destruct (one_sided_accepted eq h i "spec" v _ _ K A T W) as [S1 [S2 _]]. cbn [nstep]. split; auto.
  split; [now rewrite kind_assign|]. rewrite S2. intros s. destruct V as [->|[a [b ->]]]; discriminate.
Qed.
Print Assumptions spec_can_be_let_go.

(** Assigning a name: ingredient runs have no setter, the other runs and specs take texts only, a
    rejected name changes nothing; an accepted one shows on the object and, for an ingredient spec,
    on all its runs, and nothing else shows anything different. *)
Theorem name_assignment : forall eq h o v k, reachable eq h -> kind_at h o = Some k ->
  let h' := fst (nstep eq h (NName o v)) in
  (k = KIngR -> nstep eq h (NName o v) = (h, Some AttributeError))
  /\ (is_object k = true -> k <> KIngR -> ~ text v -> nstep eq h (NName o v) = (h, Some TypeError))
  /\ (k <> KIngR -> (is_object k = true -> text v) ->
        snd (nstep eq h (NName o v)) = None
        /\ read h' o "name" = v /\ (forall i, realises h i o -> read h' i "name" = v)
        /\ forall o' f, (f = "name" -> o' <> o /\ ~ realises h o' o) -> read h' o' f = read h o' f).
Proof.
  intros eq h o v k Rh K h'. destruct (references_reachable eq h Rh) as [R _].
  assert (G : hget h o <> None) by (eapply kind_hget; eauto).
  split; [|split].
  - intros ->. cbn [nstep]. unfold set_name. now rewrite K.
  - intros O N T. cbn [nstep]. unfold set_name. rewrite K, O.
    assert (V : validate_str v = Err TypeError) by (destruct v as [|[]| | | | | | ]; auto; exfalso; apply T; unfold text; eauto).
    rewrite V. destruct k; try reflexivity; congruence.
  - intros N T.
    assert (E : nstep eq h (NName o v) = (set_field h o "name" v, None)).
    { cbn [nstep]. unfold set_name. rewrite K. destruct (is_object k) eqn:O.
      - destruct (T eq_refl) as [s ->]. cbn [validate_str]. destruct k; try reflexivity; congruence.
      - destruct k; try reflexivity; discriminate. }
    assert (Eh : h' = set_field h o "name" v) by (unfold h'; now rewrite E).
    assert (K' : kind_at h' o = Some k) by (now rewrite Eh, kind_set_field).
    assert (Fv : fval h' o "name" = v) by (rewrite Eh; now apply fval_set_same).
    rewrite E. split; [reflexivity|]. split; [now rewrite (read_other h' o k _ K' N)|]. split.
    + intros i Hs. destruct (read_realises eq h i o "name" R Hs (or_introl eq_refl)) as [Ko _].
      assert (Hs' : realises h' i o).
      { destruct Hs as [Ki Fs]. split; [now rewrite Eh, kind_set_field|]. rewrite Eh, fval_set_other; auto. right; discriminate. }
      assert (R' : references_typed h') by (unfold h'; now apply references_step).
      destruct (read_realises eq h' i o "name" R' Hs' (or_introl eq_refl)) as [_ ->]. exact Fv.
    + intros o' f D.
      assert (FF : forall y g, (g = "name" -> y <> o) -> fval h' y g = fval h y g).
      { intros y g H. rewrite Eh. apply fval_set_other. destruct (Nat.eq_dec y o) as [->|Ny]; auto. right. intros <-. now apply H. }
      unfold read. rewrite Eh, kind_set_field, <- Eh. rewrite !(FF o' "spec") by discriminate.
      assert (IK : forall w, is_kind h' KIngS w = is_kind h KIngS w) by (intros; rewrite Eh; apply is_kind_set).
      destruct (kind_at h o') as [k'|] eqn:K''.
      2:{ apply FF. intros Ef. now apply D. }
      assert (F1 : fval h' o' f = fval h o' f) by (apply FF; intros Ef; now apply D).
      destruct k'; auto. destruct (String.eqb f "name" || String.eqb f "labels")%bool; auto.
      destruct (fval h o' "spec") as [| | |s| | | | ] eqn:Fs; auto. rewrite IK. destruct (is_kind h KIngS (PRef s)); auto.
      apply FF. intros Ef ->. destruct (D Ef) as [_ D2]. apply D2. split; auto.
Qed.
Print Assumptions name_assignment.

(** What a value given as labels means. *)
Definition means_labels (v : pv) (l : list string) : Prop :=
  (v = PNone /\ l = []) \/ (exists s, v = PAtom (AStr s) /\ l = [s])
  \/ v = PList (map (fun s => PAtom (AStr s)) l) \/ v = PTuple (map (fun s => PAtom (AStr s)) l).

(** Labels can be assigned on ingredient specs only; one that means a list of texts is accepted and
    shows on the spec and on all its runs. A rejected assignment changes nothing. *)
Theorem labels_assignment : forall eq h o v, reachable eq h ->
  let h' := fst (nstep eq h (NLabels o v)) in
  (snd (nstep eq h (NLabels o v)) <> None -> h' = h)
  /\ (kind_at h o <> Some KIngS -> snd (nstep eq h (NLabels o v)) = Some AttributeError)
  /\ (forall l, kind_at h o = Some KIngS -> means_labels v l ->
        snd (nstep eq h (NLabels o v)) = None
        /\ read h' o "labels" = PList (map (fun s => PAtom (AStr s)) l)
        /\ (forall i, realises h i o -> read h' i "labels" = PList (map (fun s => PAtom (AStr s)) l))).
Proof.
  intros eq h o v Rh h'. destruct (references_reachable eq h Rh) as [R _]. split; [|split].
  - unfold h'. cbn [nstep]. unfold set_labels. destruct (kind_at h o) as [[]|]; auto.
    destruct (validate_labels v); auto. cbn [snd]. congruence.
  - intros N. cbn [nstep]. unfold set_labels. destruct (kind_at h o) as [[]|]; auto. congruence.
  - intros l K M.
    assert (V : validate_labels v = Ok (PList (map (fun s => PAtom (AStr s)) l))).
    { assert (A : forallb is_string (map (fun s => PAtom (AStr s)) l) = true) by (clear; induction l; cbn; auto).
      unfold validate_labels, means_labels in *.
      destruct M as [[-> ->]|[[s [-> ->]]|[-> | ->]]]; cbn [iterate]; try reflexivity; now rewrite A. }
    assert (E : nstep eq h (NLabels o v) = (set_field h o "labels" (PList (map (fun s => PAtom (AStr s)) l)), None))
      by (cbn [nstep]; unfold set_labels; now rewrite K, V).
    assert (Eh : h' = set_field h o "labels" (PList (map (fun s => PAtom (AStr s)) l))) by (unfold h'; now rewrite E).
    assert (K' : kind_at h' o = Some KIngS) by (now rewrite Eh, kind_set_field).
    assert (Fv : fval h' o "labels" = PList (map (fun s => PAtom (AStr s)) l)) by (rewrite Eh; apply fval_set_same; eapply kind_hget; eauto).
    rewrite E. split; [reflexivity|]. split; [now rewrite (read_other h' o _ _ K')|].
    intros i [Ki Fs].
    assert (Hs' : realises h' i o) by (split; [now rewrite Eh, kind_set_field|]; rewrite Eh, fval_set_other; auto; right; discriminate).
    assert (R' : references_typed h') by (unfold h'; now apply references_step).
    destruct (read_realises eq h' i o "labels" R' Hs' (or_intror eq_refl)) as [_ ->]. exact Fv.
Qed.
Print Assumptions labels_assignment.

(** A text appended to the labels an ingredient run shows is appended to its spec's labels. *)
Theorem label_added_to_spec : forall eq h i s x l, reachable eq h -> realises h i s ->
  read h i "labels" = PList l ->
  let h' := fst (nstep eq h (NAddLabel i (PAtom (AStr x)))) in
  snd (nstep eq h (NAddLabel i (PAtom (AStr x)))) = None
  /\ read h' s "labels" = PList (l ++ [PAtom (AStr x)])
  /\ (forall j, realises h j s -> read h' j "labels" = PList (l ++ [PAtom (AStr x)]))
  /\ forall o f, f <> "labels" -> read h' o f = read h o f.
Proof.
  intros eq h i s x l Rh Hs El h'. destruct (references_reachable eq h Rh) as [R _].
  destruct (read_realises eq h i s "labels" R Hs (or_intror eq_refl)) as [Ks E1]. rewrite El in E1.
  assert (OW : labels_owner h i = s).
  { unfold labels_owner. destruct Hs as [Ki Fs]. now rewrite Ki, Fs, (proj2 (is_kind_ref _ _ _) Ks). }
  assert (E : nstep eq h (NAddLabel i (PAtom (AStr x))) = (set_field h s "labels" (PList (l ++ [PAtom (AStr x)])), None)).
  { cbn [nstep]. unfold add_label. rewrite (proj1 Hs), OW, <- E1. reflexivity. }
  assert (Eh : h' = set_field h s "labels" (PList (l ++ [PAtom (AStr x)]))) by (unfold h'; now rewrite E).
  assert (K' : kind_at h' s = Some KIngS) by (now rewrite Eh, kind_set_field).
  assert (Fv : fval h' s "labels" = PList (l ++ [PAtom (AStr x)])) by (rewrite Eh; apply fval_set_same; eapply kind_hget; eauto).
  assert (R' : references_typed h') by (unfold h'; now apply references_step).
  rewrite E. split; [reflexivity|]. split; [now rewrite (read_other h' s _ _ K')|]. split.
  - intros j [Kj Fj].
    assert (Hj : realises h' j s) by (split; [now rewrite Eh, kind_set_field|]; rewrite Eh, fval_set_other; auto; right; discriminate).
    destruct (read_realises eq h' j s "labels" R' Hj (or_intror eq_refl)) as [_ ->]. exact Fv.
  - intros o f N. assert (FF : forall y g, g <> "labels" -> fval h' y g = fval h y g) by (intros; rewrite Eh; apply fval_set_other; auto).
    unfold read. rewrite Eh, kind_set_field, <- Eh. rewrite !(FF _ _ N), (FF o "spec") by discriminate.
    assert (IK : forall w, is_kind h' KIngS w = is_kind h KIngS w) by (intros; rewrite Eh; apply is_kind_set).
    destruct (kind_at h o) as [[]|]; auto. destruct (String.eqb f "name" || String.eqb f "labels")%bool; auto.
    destruct (fval h o "spec") as [| | |t| | | | ]; auto. rewrite IK, (FF t f N). reflexivity.
Qed.
Print Assumptions label_added_to_spec.

(** A run shows the template of its spec if the spec is an object and none otherwise; what it shows
    is none, a link or a template of the class that goes with it; ingredients have no template; the
    other specs show the one stored. *)
Theorem run_template : forall eq h o k, reachable eq h -> kind_at h o = Some k ->
  (forall s, fval h o "spec" = PRef s -> In k [KMatR; KProcR; KMeasR; KIngR] -> template_of h o = template_of h s)
  /\ ((forall s, fval h o "spec" <> PRef s) -> In k [KMatR; KProcR; KMeasR; KIngR] -> template_of h o = PNone)
  /\ (forall t, template_class k t -> admissible h t (template_of h o))
  /\ (In k [KIngR; KIngS] -> template_of h o = PNone)
  /\ (In k [KMatR; KProcR; KMeasR; KIngR; KIngS] -> forall v, nstep eq h (NSet o "template" v) = (h, Some AttributeError))
  /\ (In k [KMatS; KProcS; KMeasS] -> template_of h o = fval h o "template").
Proof.
  intros eq h o k Rh K. destruct (references_reachable eq h Rh) as [R _].
  assert (SP : forall s, fval h o "spec" = PRef s -> In k [KMatR; KProcR; KMeasR; KIngR] ->
    exists sk, kind_at h s = Some sk /\ In (k, sk) [(KMatR, KMatS); (KProcR, KProcS); (KMeasR, KMeasS); (KIngR, KIngS)]
               /\ template_of h o = spec_template h s /\ template_of h s = spec_template h s).
  { intros s Fs I.
    assert (exists sk, asked_kind k "spec" sk /\ In (k, sk) [(KMatR, KMatS); (KProcR, KProcS); (KMeasR, KMeasS); (KIngR, KIngS)]) as [sk [A I2]].
    { destruct I as [<-|[<-|[<-|[<-|[]]]]]; [exists KMatS|exists KProcS|exists KMeasS|exists KIngS]; unfold asked_kind; cbn; tauto. }
    assert (Ks : kind_at h s = Some sk).
    { destruct (R _ _ _ _ K A) as [E|[[a [b E]]|[p [E Kp]]]]; rewrite Fs in E; try discriminate. now injection E as ->. }
    exists sk. repeat split; auto.
    - unfold template_of. rewrite K. unfold is_spec. rewrite Fs.
      cbn in I2; destruct I2 as [E|[E|[E|[E|[]]]]]; injection E; intros; subst; cbn [is_kind];
        rewrite Ks; reflexivity.
    - unfold template_of. rewrite Ks. cbn in I2; destruct I2 as [E|[E|[E|[E|[]]]]]; injection E; intros; subst; reflexivity. }
  assert (NS : (forall s, fval h o "spec" <> PRef s) -> In k [KMatR; KProcR; KMeasR; KIngR] -> template_of h o = PNone).
  { intros N I. unfold template_of. rewrite K. destruct (fval h o "spec") as [| | |s| | | | ] eqn:Fs; try (now contradiction (N s));
      cbn in I; destruct I as [<-|[<-|[<-|[<-|[]]]]]; reflexivity. }
  split; [|split; [exact NS|split; [|split; [|split]]]].
  - intros s Fs I. destruct (SP s Fs I) as [sk [_ [_ [-> ->]]]]. reflexivity.
  - intros t T.
    assert (ST : forall s sk, kind_at h s = Some sk -> asked_kind sk "template" t -> admissible h t (spec_template h s)).
    { intros s sk Ks A. assert (W := R _ _ _ _ Ks A). unfold spec_template. rewrite Ks.
      unfold asked_kind in A; cbn in A. destruct sk; auto; now left. }
    unfold template_class in T; cbn in T.
    assert (In k [KMatR; KProcR; KMeasR; KIngR] \/ In k [KMatS; KProcS; KMeasS]) as [I|I].
    { cbn; repeat (destruct T as [T|T]; [injection T; intros; subst; tauto|]); contradiction. }
    + destruct (fval h o "spec") as [| | |s| | | | ] eqn:Fs;
        try (left; apply NS; [intros s' D; discriminate D|exact I]).
      destruct (SP s eq_refl I) as [sk [Ks [I2 [-> _]]]]. apply (ST s sk Ks).
      cbn in I2. unfold asked_kind; cbn.
      destruct I2 as [E|[E|[E|[E|[]]]]]; injection E; intros; subst;
        repeat (destruct T as [T|T]; [inversion T; subst; tauto|]); contradiction.
    + assert (template_of h o = spec_template h o) as -> by (unfold template_of; rewrite K; cbn in I; destruct I as [<-|[<-|[<-|[]]]]; reflexivity).
      apply (ST o k K). unfold asked_kind; cbn. cbn in I.
      destruct I as [<-|[<-|[<-|[]]]]; repeat (destruct T as [T|T]; [inversion T; subst; tauto|]); contradiction.
  - intros I. cbn in I. destruct I as [<-|[<-|[]]].
    + destruct (fval h o "spec") as [| | |s| | | | ] eqn:Fs; try (apply NS; [intros s' D; discriminate D|cbn; tauto]).
      destruct (SP s eq_refl ltac:(cbn; tauto)) as [sk [Ks [I2 [-> _]]]]. unfold spec_template. rewrite Ks.
      cbn in I2. repeat (destruct I2 as [E|I2]; [inversion E; subst; reflexivity|]). contradiction.
    + unfold template_of, spec_template. now rewrite K.
  - intros I v. cbn [nstep]. unfold assign. rewrite K. cbn in I.
    destruct I as [<-|[<-|[<-|[<-|[<-|[]]]]]]; reflexivity.
  - intros I. unfold template_of, spec_template. rewrite K. cbn in I. destruct I as [<-|[<-|[<-|[]]]]; reflexivity.
Qed.
Print Assumptions run_template.

(** The guards are met: a spec with two runs, one of which lets go of it before it is renamed. *)
Definition ex_ops : list nop :=
  [ NNew KIngS [] (PAtom (AStr "flour")) (PList [PAtom (AStr "dry")]) []
  ; NNew KIngR [] PNone PNone []; NNew KIngR [] PNone PNone []
  ; NSet 1 "spec" (PRef 0); NSet 2 "spec" (PRef 0) ].
Definition ex_heap : heap := nrun (fun _ _ _ => false) [] ex_ops.
Definition ex_later : list nop :=
  [ NName 0 (PAtom (AStr "wheat")); NName 0 (PAtom (AInt 3%Z)); NAddLabel 2 (PAtom (AStr "fine")); NSet 1 "spec" (PAtom (AInt 1%Z)) ].

Example ex_reachable : reachable (fun _ _ _ => false) ex_heap /\ realises ex_heap 1 0 /\ realises ex_heap 2 0
  /\ always (fun _ _ _ => false) (fun g => on_its_own g 1) (fst (nstep (fun _ _ _ => false) ex_heap (NSet 1 "spec" PNone))) ex_later.
Proof.
  split; [now exists ex_ops|]. split; [split; reflexivity|]. split; [split; reflexivity|].
  unfold ex_later. cbn [always].
  repeat apply conj; try (vm_compute; reflexivity); intros s; vm_compute; discriminate.
Qed.

Example ex_names :
  let h := nrun (fun _ _ _ => false) (fst (nstep (fun _ _ _ => false) ex_heap (NSet 1 "spec" PNone))) ex_later in
  read h 1 "name" = PAtom (AStr "flour") /\ read h 2 "name" = PAtom (AStr "wheat")
  /\ read h 1 "labels" = PList [PAtom (AStr "dry")]
  /\ read h 2 "labels" = PList [PAtom (AStr "dry"); PAtom (AStr "fine")].
Proof. vm_compute. auto. Qed.

Definition ex_template : list nop :=
  [ NNew KMatT [] (PAtom (AStr "t")) PNone []; NNew KMatS [] (PAtom (AStr "s")) PNone []; NNew KMatR [] (PAtom (AStr "r")) PNone []
  ; NSet 1 "template" (PRef 0); NSet 2 "spec" (PRef 1) ].
Example ex_run_template : template_of (nrun (fun _ _ _ => false) [] ex_template) 2 = PRef 0.
Proof. reflexivity. Qed.
