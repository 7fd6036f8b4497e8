(** Proofs about the builders. *)
From Coq Require Import String List Bool Arith ZArith QArith Lia.
From Verif Require Import Base BaseFacts BoundsModel GraphModel GraphSpec GraphProofs BuildModel BuildSpec.
Import ListNotations.
Open Scope string_scope.
Open Scope nat_scope.
Open Scope list_scope.

(** ** Heaps with new entities at the end *)
Lemma hget_app_l : forall h es o, o < length h -> hget (h ++ es) o = hget h o.
Proof. intros. unfold hget. now apply nth_error_app1. Qed.
Lemma hget_app_r : forall h es i, hget (h ++ es) (length h + i) = hget es i.
Proof. intros. unfold hget. rewrite nth_error_app2 by lia. f_equal. lia. Qed.
Lemma hget_some : forall h o e, hget h o = Some e -> o < length h.
Proof. intros. apply nth_error_Some. unfold hget in H. congruence. Qed.
Lemma hget_none : forall h o, length h <= o -> hget h o = None.
Proof. intros. now apply nth_error_None. Qed.

Lemma hset_app_l : forall h es o e, o < length h -> hset (h ++ es) o e = hset h o e ++ es.
Proof. induction h as [|x h IH]; intros es [|o] e L; cbn in *; try lia; auto. rewrite IH by lia. reflexivity. Qed.
Lemma hset_app_r : forall h es i e, hset (h ++ es) (length h + i) e = h ++ hset es i e.
Proof. induction h as [|x h IH]; intros; cbn; auto. now rewrite IH. Qed.

Lemma set_field_app_l : forall h es o f v, o < length h -> set_field (h ++ es) o f v = set_field h o f v ++ es.
Proof. intros. unfold set_field. rewrite hget_app_l by auto. destruct (hget h o); auto. now apply hset_app_l. Qed.
Lemma set_field_app_r : forall h es i f v, set_field (h ++ es) (length h + i) f v = h ++ set_field es i f v.
Proof. intros. unfold set_field. rewrite hget_app_r. destruct (hget es i); auto. apply hset_app_r. Qed.

Lemma kind_app_l : forall h es o, o < length h -> kind_at (h ++ es) o = kind_at h o.
Proof. intros. unfold kind_at. now rewrite hget_app_l. Qed.
Lemma kind_app_r : forall h es i, kind_at (h ++ es) (length h + i) = kind_at es i.
Proof. intros. unfold kind_at. now rewrite hget_app_r. Qed.
Lemma fval_app_l : forall h es o f, o < length h -> fval (h ++ es) o f = fval h o f.
Proof. intros. unfold fval. now rewrite hget_app_l. Qed.
Lemma fval_app_r : forall h es i f, fval (h ++ es) (length h + i) f = fval es i f.
Proof. intros. unfold fval. now rewrite hget_app_r. Qed.
Lemma kept_app : forall h es, kept h (h ++ es).
Proof. intros h es o L. now apply hget_app_l. Qed.

Lemma is_kind_app_l : forall h es k v, is_kind h k v = true -> is_kind (h ++ es) k v = true.
Proof.
  intros h es k v H. destruct v; auto. apply is_kind_ref in H. apply is_kind_ref. rewrite kind_app_l; auto. eapply kind_lt; eauto.
Qed.

(** [v] fits and, if it is an object, is an old one. *)
Definition acceptable (h : heap) (k : ekind) (v : pv) : bool :=
  match v with PNone | PLink _ _ => true | _ => is_kind h k v end.
Lemma acceptable_fits : forall h k v, acceptable h k v = true <-> fits h k v.
Proof.
  intros. unfold fits. split.
  - destruct v; cbn; try discriminate; auto; intros H; right.
    + left. eauto.
    + right. exists o. split; auto. now apply is_kind_ref.
  - intros [->|[(s & i & ->)|(o & -> & K)]]; auto. now apply is_kind_ref.
Qed.

Lemma acceptable_known : forall h es k v, known h v -> acceptable (h ++ es) k v = acceptable h k v.
Proof. intros h es k v K. destruct v; auto. cbn. rewrite kind_app_l; auto. Qed.

Lemma seq_ok : forall A B (m : act A) (f : A -> act B) h h' a, m h = (h', Ok a) -> seq m f h = f a h'.
Proof. intros A B m f h h' a H. unfold seq. now rewrite H. Qed.
Lemma seq_err : forall A B (m : act A) (f : A -> act B) h h' e, m h = (h', Err e) -> seq m f h = (h', Err e).
Proof. intros A B m f h h' e H. unfold seq. now rewrite H. Qed.

Section Steps.
  Variable eq : heap -> pv -> oid -> bool.
  Notation set_ref := (set_ref eq).

  Lemma new_ok : forall k s h es, new k (PAtom (AStr s)) (h ++ es) =
    (h ++ (es ++ [mkE k [] (blank k ++ other_fields k (PAtom (AStr s)))]), Ok (length h + length es)).
  Proof. intros. unfold new. rewrite <- app_assoc, app_length. now destruct k. Qed.
  Lemma new_first : forall k s h, new k (PAtom (AStr s)) h =
    (h ++ [mkE k [] (blank k ++ other_fields k (PAtom (AStr s)))], Ok (length h + 0)).
  Proof. intros. unfold new. rewrite Nat.add_0_r. now destruct k. Qed.
  Lemma new_run_ok : forall h es, new KIngR PNone (h ++ es) =
    (h ++ (es ++ [mkE KIngR [] (blank KIngR ++ other_fields KIngR PNone)]), Ok (length h + length es)).
  Proof. intros. unfold new. now rewrite <- app_assoc, app_length. Qed.
  Lemma new_bad : forall k n h, ~ text n -> k <> KIngR -> new k n h = (h, Err TypeError).
  Proof.
    intros k n h T K. unfold new. destruct k; try congruence; destruct n as [| a | | | | | | ]; auto; destruct a; auto; destruct T; eexists; reflexivity.
  Qed.

  Lemma plain_ok : forall h es i e f pk v, hget es i = Some e -> role_of (e_kind e) f = Some (Plain pk) ->
    acceptable (h ++ es) pk v = true -> set_ref (length h + i) f v (h ++ es) = (h ++ set_field es i f v, Ok tt).
  Proof.
    intros h es i e f pk v E R A. unfold BuildModel.set_ref, assign, kind_at. rewrite hget_app_r, E. cbn [option_map]. rewrite R.
    unfold set_plain. unfold acceptable in A. destruct v; rewrite ?A; rewrite set_field_app_r; reflexivity.
  Qed.
  Lemma plain_bad : forall h es i e f pk v, hget es i = Some e -> role_of (e_kind e) f = Some (Plain pk) ->
    acceptable (h ++ es) pk v = false -> set_ref (length h + i) f v (h ++ es) = (h ++ es, Err TypeError).
  Proof.
    intros h es i e f pk v E R A. unfold BuildModel.set_ref, assign, kind_at. rewrite hget_app_r, E. cbn [option_map]. rewrite R.
    unfold set_plain. unfold acceptable in A. destruct v; try discriminate; now rewrite ?A.
  Qed.
  Lemma ing_spec_ok : forall h es i e v, hget es i = Some e -> e_kind e = KIngR -> fget e "spec" = PNone ->
    acceptable (h ++ es) KIngS v = true -> set_ref (length h + i) "spec" v (h ++ es) = (h ++ set_field es i "spec" v, Ok tt).
  Proof.
    intros h es i e v E K N A. unfold BuildModel.set_ref, assign, kind_at. rewrite hget_app_r, E. cbn [option_map]. rewrite K. cbn [role_of String.eqb Ascii.eqb Bool.eqb].
    unfold set_ing_spec, fval. rewrite hget_app_r, E, N.
    unfold set_plain. unfold acceptable in A. destruct v; rewrite ?A; rewrite set_field_app_r; reflexivity.
  Qed.
  Lemma process_ok : forall h es i j e mk pk, hget es i = Some e -> e_kind e = mk -> couple mk pk -> fget e "process" = PNone ->
    kind_at es j = Some pk ->
    set_ref (length h + i) "process" (PRef (length h + j)) (h ++ es) =
      (h ++ set_field (set_field es j "output_material" (PRef (length h + i))) i "process" (PRef (length h + j)), Ok tt).
  Proof.
    intros h es i j e mk pk E K C N Kj. unfold BuildModel.set_ref, assign, kind_at. rewrite hget_app_r, E. cbn [option_map].
    rewrite K, (couple_role _ _ C). unfold set_process, fval. rewrite hget_app_r, E, N.
    replace (is_kind (h ++ es) pk (PRef (length h + j))) with true.
    - now rewrite !set_field_app_r.
    - symmetry. apply is_kind_ref. now rewrite kind_app_r.
  Qed.

  (** The graph after [x] has been added to the list [lf] of [v], if that is an object. *)
  Definition joined (h : heap) (x : oid) (lf : string) (v : pv) : heap :=
    match v with
    | PRef p => match fval h p lf with PList l => set_field h p lf (PList (l ++ [PRef x])) | _ => h end
    | _ => h
    end.
  Lemma joined_length : forall h x lf v, length (joined h x lf v) = length h.
  Proof. intros. unfold joined. repeat break_match; auto using set_field_length. Qed.
  Lemma joined_kind : forall h x lf v o, kind_at (joined h x lf v) o = kind_at h o.
  Proof. intros. unfold joined. repeat break_match; auto using kind_set_field. Qed.
  Lemma joined_uids : forall h x lf v o, option_map e_uids (hget (joined h x lf v) o) = option_map e_uids (hget h o).
  Proof. intros. unfold joined. repeat break_match; auto using uids_set_field. Qed.
  Lemma joined_same : forall h x lf p l, fval h p lf = PList l -> fval (joined h x lf (PRef p)) p lf = PList (l ++ [PRef x]).
  Proof.
    intros. unfold joined. rewrite H. apply fval_set_same. unfold fval in H. destruct (hget h p); [discriminate|discriminate].
  Qed.
  Lemma joined_other : forall h x lf v o f, v <> PRef o \/ f <> lf -> fval (joined h x lf v) o f = fval h o f.
  Proof. intros. unfold joined. repeat break_match; auto; apply fval_set_other; destruct H; [left|right]; congruence. Qed.
  Lemma joined_acceptable : forall h x lf v k w, acceptable (joined h x lf v) k w = acceptable h k w.
  Proof. intros. destruct w; auto. cbn. now rewrite joined_kind. Qed.

  Definition listable (h : heap) (lf : string) (v : pv) : Prop := forall p, v = PRef p -> exists l, fval h p lf = PList l.

  Lemma owned_ok : forall h es i e f pk lf v, hget es i = Some e -> role_of (e_kind e) f = Some (Owned pk lf) -> fget e f = PNone ->
    acceptable h pk v = true -> listable h lf v ->
    set_ref (length h + i) f v (h ++ es) = (joined h (length h + i) lf v ++ set_field es i f v, Ok tt).
  Proof.
    intros h es i e f pk lf v E R N A L. unfold BuildModel.set_ref, assign, kind_at. rewrite hget_app_r, E. cbn [option_map]. rewrite R.
    unfold set_owned. replace (fval (h ++ es) (length h + i) f) with PNone by (unfold fval; rewrite hget_app_r, E; now rewrite N).
    unfold acceptable in A. destruct v; try discriminate; try (now rewrite set_field_app_r).
    assert (K := A). apply is_kind_ref in K. assert (Lo := kind_lt _ _ _ K).
    rewrite (is_kind_app_l _ _ _ _ A). destruct (L o eq_refl) as [l Fl].
    assert (D : fval (set_field (h ++ es) (length h + i) f (PRef o)) o lf = PList l).
    { rewrite set_field_app_r, fval_app_l by auto. exact Fl. }
    rewrite D. unfold joined. rewrite Fl. rewrite set_field_app_r. rewrite set_field_app_l by auto. reflexivity.
  Qed.
  Lemma owned_bad : forall h es i e f pk lf v, hget es i = Some e -> role_of (e_kind e) f = Some (Owned pk lf) -> fget e f = PNone ->
    acceptable (h ++ es) pk v = false -> set_ref (length h + i) f v (h ++ es) = (h ++ es, Err TypeError).
  Proof.
    intros h es i e f pk lf v E R N A. unfold BuildModel.set_ref, assign, kind_at. rewrite hget_app_r, E. cbn [option_map]. rewrite R.
    unfold set_owned. replace (fval (h ++ es) (length h + i) f) with PNone by (unfold fval; rewrite hget_app_r, E; now rewrite N).
    unfold acceptable in A. destruct v; try discriminate; auto. now rewrite A.
  Qed.

  Lemma text_dec : forall v, {text v} + {~ text v}.
  Proof. intros v. destruct v as [| a | | | | | | ]; try (right; intros [s X]; discriminate). destruct a; try (right; intros [x X]; discriminate). left. eexists; reflexivity. Qed.

  (** ** make_node *)
  Definition node_called (h : heap) (name pname pt : pv) : res pv :=
    match pname with
    | PNone => match pt with
               | PNone => Ok name
               | PRef t => match hget h t with Some _ => Ok (read h t "name") | None => Err AttributeError end
               | _ => Err AttributeError
               end
    | _ => Ok pname
    end.
  Lemma node_called_ok : forall h name pname pt n, node_called h name pname pt = Ok n <-> process_called h name pname pt n.
  Proof.
    intros. unfold process_called, node_called. split.
    - destruct pname; try (intros [= <-]; left; split; congruence).
      destruct pt; try discriminate; [intros [= <-]; auto|]. destruct (hget h o) eqn:E; [|discriminate]. intros [= <-].
      right. right. split; auto. exists o. rewrite E. repeat split; congruence.
    - intros [[X ->]|[(-> & -> & ->)|(-> & t & -> & X & ->)]].
      + destruct pname; congruence.
      + reflexivity.
      + destruct (hget h t); congruence.
  Qed.
  Lemma node_called_act : forall h name pname pt,
    (match pname with PNone => match pt with PNone => ret name | _ => getattr pt "name" end | _ => ret pname end) h = (h, node_called h name pname pt).
  Proof.
    intros. unfold node_called. destruct pname; try reflexivity. destruct pt; try reflexivity. cbn [getattr].
    unfold kind_at. destruct (hget h o); reflexivity.
  Qed.

  Lemma make_node_ok : forall h name pname n pt mt, text name -> node_called h name pname pt = Ok n -> text n ->
    known h pt -> known h mt -> acceptable h KProcT pt = true -> acceptable h KMatT mt = true ->
    let L := length h in
    make_node eq name pname pt mt h =
      (h ++ [ mkE KProcS [] ([("template", pt); ("output_material", PRef (L + 2)); ("ingredients", PList [])] ++ other_fields KProcS n)
            ; mkE KProcR [] ([("spec", PRef (L + 0)); ("output_material", PRef (L + 3)); ("ingredients", PList [])] ++ other_fields KProcR n)
            ; mkE KMatS [] ([("template", mt); ("process", PRef (L + 0))] ++ other_fields KMatS name)
            ; mkE KMatR [] ([("spec", PRef (L + 2)); ("process", PRef (L + 1)); ("measurements", PList [])] ++ other_fields KMatR name) ],
       Ok (L + 3)).
  Proof.
    intros h name pname n pt mt [s ->] C [t ->] Kp Km Ap Am L. unfold L, make_node.
    erewrite seq_ok; [|rewrite node_called_act, C; reflexivity].
    erewrite seq_ok; [|apply new_first].
    erewrite seq_ok; [|eapply plain_ok; [reflexivity|reflexivity|rewrite acceptable_known; auto]].
    erewrite seq_ok; [|apply new_ok].
    erewrite seq_ok; [|eapply (plain_ok _ _ 1); [reflexivity|reflexivity|apply is_kind_ref; rewrite kind_app_r; reflexivity]].
    erewrite seq_ok; [|apply new_ok].
    erewrite seq_ok; [|eapply (plain_ok _ _ 2); [reflexivity|reflexivity|rewrite acceptable_known; auto]].
    erewrite seq_ok; [|eapply (process_ok _ _ 2 0); [reflexivity|reflexivity|right; split; reflexivity|reflexivity|reflexivity]].
    erewrite seq_ok; [|apply new_ok].
    erewrite seq_ok; [|eapply (plain_ok _ _ 3); [reflexivity|reflexivity|apply is_kind_ref; rewrite (kind_app_r _ _ 2); reflexivity]].
    erewrite seq_ok; [|eapply (process_ok _ _ 3 1); [reflexivity|reflexivity|left; split; reflexivity|reflexivity|reflexivity]].
    unfold ret. reflexivity.
  Qed.

  Lemma make_node_err : forall h name pname pt mt, known h pt -> known h mt ->
    ~ (exists n, text name /\ node_called h name pname pt = Ok n /\ text n /\ acceptable h KProcT pt = true /\ acceptable h KMatT mt = true) ->
    exists es e, make_node eq name pname pt mt h = (h ++ es, Err e).
  Proof.
    intros h name pname pt mt Kp Km B. unfold make_node.
    destruct (node_called h name pname pt) as [n|e] eqn:C.
    2:{ exists [], e. erewrite seq_err; [|rewrite node_called_act, C; reflexivity]. now rewrite app_nil_r. }
    erewrite seq_ok; [|rewrite node_called_act, C; reflexivity].
    destruct (text_dec n) as [[t ->]|T].
    2:{ exists [], TypeError. erewrite seq_err; [|apply new_bad; [auto|discriminate]]. now rewrite app_nil_r. }
    erewrite seq_ok; [|apply new_first].
    destruct (acceptable h KProcT pt) eqn:Ap.
    2:{ eexists _, _. erewrite seq_err; [reflexivity|eapply plain_bad; [reflexivity|reflexivity|rewrite acceptable_known; auto]]. }
    erewrite seq_ok; [|eapply plain_ok; [reflexivity|reflexivity|rewrite acceptable_known; auto]].
    erewrite seq_ok; [|apply new_ok].
    erewrite seq_ok; [|eapply (plain_ok _ _ 1); [reflexivity|reflexivity|apply is_kind_ref; rewrite kind_app_r; reflexivity]].
    destruct (text_dec name) as [[s ->]|T].
    2:{ eexists _, _. erewrite seq_err; [reflexivity|apply new_bad; [auto|discriminate]]. }
    erewrite seq_ok; [|apply new_ok].
    destruct (acceptable h KMatT mt) eqn:Am.
    2:{ eexists _, _. erewrite seq_err; [reflexivity|eapply (plain_bad _ _ 2); [reflexivity|reflexivity|rewrite acceptable_known; auto]]. }
    exfalso. apply B. exists (PAtom (AStr t)). repeat split; auto; eexists; reflexivity.
  Qed.
End Steps.

Lemma dict_set_same : forall (d : list (string * pv)) k v, dict_get k d = Some v -> dict_set k v d = d.
Proof.
  induction d as [|[k' v'] d IH]; cbn; intros k v H; [discriminate|]. destruct (String.eqb k k') eqn:E.
  - injection H as ->. reflexivity.
  - now rewrite IH.
Qed.
Lemma hset_same : forall h o e, hget h o = Some e -> hset h o e = h.
Proof. induction h as [|x h IH]; intros [|o] e H; cbn in *; try discriminate; [injection H as ->; auto|]. now rewrite IH. Qed.
Lemma set_field_same : forall h o e f v, hget h o = Some e -> dict_get f (e_fields e) = Some v -> set_field h o f v = h.
Proof. intros h o [k u fs] f v E D. unfold set_field. rewrite E. cbn in *. rewrite (dict_set_same _ _ _ D). now apply hset_same. Qed.

Lemma pv_eq_ref : forall v o, {v = PRef o} + {v <> PRef o}.
Proof. intros v o. destruct v; try (right; discriminate). destruct (Nat.eq_dec o0 o); [left|right]; congruence. Qed.

Section Edge.
  Variable eq : heap -> pv -> oid -> bool.
  Variable units : pv -> res pv.
  Variable refuses : string -> pv -> option exn.
  Notation fraction_given := (fraction_given units refuses).
  Notation absolute_given := (absolute_given units refuses).
  Notation edge_fraction := (edge_fraction units refuses).
  Notation edge_absolute := (edge_absolute units refuses).
  Notation add_edge := (add_edge eq units refuses).

  Lemma quantity_ok : forall h es i f w, refuses f w = None ->
    set_quantity refuses (length h + i) f w (h ++ es) = (h ++ set_field es i f w, Ok tt).
  Proof. intros. unfold set_quantity. rewrite H. cbn. now rewrite set_field_app_r. Qed.
  Lemma real_ok : forall q u w, real_of units q u w <-> nominal_real units q u = Ok w.
  Proof.
    intros. unfold real_of, nominal_real. destruct (units u) as [u'|e]; cbn; split.
    - intros (x & [= <-] & ->). reflexivity.
    - intros [= <-]. eauto.
    - intros (x & X & _). discriminate.
    - discriminate.
  Qed.

  Lemma fraction_ok : forall h es i e f v w, fraction_given f v w -> hget es i = Some e -> dict_get f (e_fields e) = Some PNone ->
    edge_fraction (length h + i) f v (h ++ es) = (h ++ set_field es i f w, Ok tt).
  Proof.
    intros h es i e f v w [[-> ->]|[R [(q & -> & N)|[[N1 N2] ->]]]] E D.
    - cbn. now rewrite (set_field_same _ _ _ _ _ E D).
    - cbn [BuildModel.edge_fraction]. apply real_ok in N. erewrite seq_ok; [|unfold lift; rewrite N; reflexivity]. now apply quantity_ok.
    - destruct v as [|[]| | | | | | ]; try congruence; now apply quantity_ok.
  Qed.
  Lemma fraction_cases : forall f v, (exists w, fraction_given f v w) \/ (exists e, forall r g, edge_fraction r f v g = (g, Err e)).
  Proof.
    intros f v. destruct v as [|[| |q|]| | | | | | ]; [left; exists PNone; left; auto| | |destruct (nominal_real units q (PAtom (AStr ""))) as [w|e] eqn:N|..].
    4:{ right. exists e. intros. cbn [BuildModel.edge_fraction]. erewrite seq_err; [reflexivity|]. unfold lift. now rewrite N. }
    all: try (match goal with |- context [fraction_given ?f ?v _] => destruct (refuses f v) as [e|] eqn:R end;
      [right; exists e; intros; cbn [BuildModel.edge_fraction]; unfold set_quantity; rewrite R; reflexivity
      |left; eexists; right; split; [exact R|right; split; [split; congruence|reflexivity]]]).
    destruct (refuses f w) as [e|] eqn:R.
    - right. exists e. intros. cbn [BuildModel.edge_fraction]. erewrite seq_ok; [|unfold lift; rewrite N; reflexivity]. unfold set_quantity. now rewrite R.
    - left. exists w. right. split; auto. left. exists q. split; auto. now apply real_ok.
  Qed.

  Lemma absolute_ok : forall h es i e v u w, absolute_given v u w -> hget es i = Some e -> dict_get "absolute_quantity" (e_fields e) = Some PNone ->
    edge_absolute (length h + i) v u (h ++ es) = (h ++ set_field es i "absolute_quantity" w, Ok PNone).
  Proof.
    intros h es i e v u w [(-> & -> & ->)|[R [(q & -> & U & N)|[[N1 N2] [-> ->]]]]] E D.
    - cbn. now rewrite (set_field_same _ _ _ _ _ E D).
    - apply real_ok in N. cbn [BuildModel.edge_absolute]. destruct u; try congruence; (erewrite seq_ok; [|unfold lift; rewrite N; reflexivity]);
        (erewrite seq_ok; [|apply quantity_ok; auto]); reflexivity.
    - destruct v as [|[]| | | | | | ]; try congruence; cbn [BuildModel.edge_absolute]; (erewrite seq_ok; [|apply quantity_ok; auto]); reflexivity.
  Qed.
  Lemma absolute_cases : forall v u, (exists w, absolute_given v u w) \/
    (exists e, forall r g, exists g', seq (edge_absolute r v u) (fun left => if is_none left then ret r else raise ValueError) g = (g', Err e)).
  Proof.
    intros v u. assert (U : u = PNone \/ u <> PNone) by (destruct u; auto; right; discriminate).
    destruct U as [->|U].
    - destruct v as [|[| |q|]| | | | | | ]; [left; exists PNone; left; auto| | |right; exists ValueError; intros; eexists; reflexivity|..].
      all: match goal with |- context [absolute_given ?v _ _] => destruct (refuses "absolute_quantity" v) as [e|] eqn:R end;
        [right; exists e; intros; eexists; erewrite seq_err; [reflexivity|]; cbn [BuildModel.edge_absolute]; unfold set_quantity; erewrite seq_err; [reflexivity|]; rewrite R; reflexivity
        |left; eexists; right; split; [exact R|right; split; [split; congruence|split; reflexivity]]].
    - assert (X : forall g A (k : act A), (if is_none u then k else raise ValueError) g = (g, Err ValueError)) by (intros; destruct u; try congruence; reflexivity).
      destruct v as [|[| |q|]| | | | | | ]; [right; exists ValueError; intros; eexists; cbn [BuildModel.edge_absolute]; erewrite seq_ok by reflexivity; now rewrite X| | |destruct (nominal_real units q u) as [w|e] eqn:N|..].
      4:{ right. exists e. intros. eexists. erewrite seq_err; [reflexivity|]. cbn [BuildModel.edge_absolute]. destruct u; try congruence; (erewrite seq_err; [reflexivity|]; unfold lift; now rewrite N). }
      all: try (match goal with |- context [absolute_given ?v _ _] => destruct (refuses "absolute_quantity" v) as [e|] eqn:R end;
        [right; exists e; intros; eexists; erewrite seq_err; [reflexivity|]; cbn [BuildModel.edge_absolute]; unfold set_quantity; erewrite seq_err; [reflexivity|]; rewrite R; reflexivity
        |right; exists ValueError; intros; eexists; erewrite seq_ok; [rewrite X; reflexivity|]; cbn [BuildModel.edge_absolute]; unfold set_quantity; rewrite R; reflexivity]).
      destruct (refuses "absolute_quantity" w) as [e|] eqn:R.
      + right. exists e. intros. eexists. erewrite seq_err; [reflexivity|]. cbn [BuildModel.edge_absolute].
        destruct u; try congruence; (erewrite seq_ok; [|unfold lift; rewrite N; reflexivity]); (erewrite seq_err; [reflexivity|]); unfold set_quantity; now rewrite R.
      + left. exists w. right. split; auto. left. exists q. repeat split; auto. now apply real_ok.
  Qed.

  Lemma getattr_ref : forall h o k f, kind_at h o = Some k -> role_of k f <> None -> f <> "name" -> f <> "labels" ->
    getattr (PRef o) f h = (h, Ok (fval h o f)).
  Proof.
    intros h o k f K R N1 N2. cbn [getattr]. rewrite K. apply String.eqb_neq in N1, N2. rewrite N1.
    unfold read. rewrite K, N1, N2. destruct (role_of k f); [|congruence]. now destruct k.
  Qed.
  Lemma getattr_name : forall h o k, kind_at h o = Some k -> getattr (PRef o) "name" h = (h, Ok (read h o "name")).
  Proof. intros h o k K. cbn [getattr]. now rewrite K. Qed.

  Lemma not_none : forall v, v <> PNone -> is_none v = false.
  Proof. intros v N. destruct v; auto. congruence. Qed.

  Definition edge_name (a : oid) (name : pv) : act pv := if is_none name then getattr (PRef a) "name" else ret name.
  Lemma edge_name_ok : forall h a k name n, kind_at h a = Some k -> ingredient_called h a name n -> edge_name a name h = (h, Ok n).
  Proof.
    intros h a k name n K [[N ->]|[-> ->]]; unfold edge_name.
    - destruct name; congruence || reflexivity.
    - eapply getattr_name; eauto.
  Qed.
  Lemma called_ex : forall h a name, exists n, ingredient_called h a name n.
  Proof. intros. unfold ingredient_called. destruct name; eauto; eexists; left; split; try reflexivity; discriminate. Qed.

  (** What [add_edge] does once the graph has been inspected. *)
  Definition link_and_fill (a : oid) (n isp sp op mass number volume absolute u : pv) : act oid :=
    s <- new KIngS n;; set_ref eq s "material" isp;; set_ref eq s "process" sp;;
    r <- new KIngR PNone;; set_ref eq r "spec" (PRef s);; set_ref eq r "material" (PRef a);; set_ref eq r "process" op;;
    edge_fraction r "mass_fraction" mass;; edge_fraction r "number_fraction" number;;
    edge_fraction r "volume_fraction" volume;;
    left <- edge_absolute r absolute u;;
    if is_none left then ret r else raise ValueError.

  Lemma add_edge_checked : forall h a b bs name n mass number volume absolute u,
    kind_at h a = Some KMatR -> kind_at h b = Some KMatR -> fval h b "spec" = PRef bs -> kind_at h bs = Some KMatS ->
    fval h bs "process" <> PNone -> fval h b "process" <> PNone -> fval h a "spec" <> PNone -> ingredient_called h a name n ->
    add_edge (PRef a) (PRef b) name mass number volume absolute u h =
    link_and_fill a n (fval h a "spec") (fval h bs "process") (fval h b "process") mass number volume absolute u h.
  Proof.
    intros h a b bs name n mass number volume absolute u Ka Kb Sb Kbs P1 P2 P3 C. unfold BuildModel.add_edge.
    erewrite seq_ok; [|eapply getattr_ref; eauto; discriminate]. rewrite Sb.
    cbn beta. replace (is_kind h KMatS (PRef bs)) with true by (symmetry; now apply is_kind_ref).
    erewrite seq_ok; [|eapply getattr_ref; eauto; discriminate]. erewrite seq_ok; [|eapply getattr_ref; eauto; discriminate].
    assert (E := edge_name_ok h a KMatR name n Ka C). unfold edge_name in E.
    rewrite (not_none _ P1), (not_none _ P2). cbn [orb].
    erewrite seq_ok; [|eapply getattr_ref; eauto; discriminate]. rewrite (not_none _ P3).
    erewrite seq_ok; [|exact E]. reflexivity.
  Qed.

  Lemma add_edge_unlinked : forall h a b name mass number volume absolute u,
    kind_at h a = Some KMatR -> kind_at h b = Some KMatR -> ~ (can_take h b /\ can_be_used h a) ->
    add_edge (PRef a) (PRef b) name mass number volume absolute u h = (h, Err ValueError).
  Proof.
    intros h a b name mass number volume absolute u Ka Kb N. unfold BuildModel.add_edge.
    erewrite seq_ok; [|eapply getattr_ref; eauto; discriminate]. cbn beta.
    destruct (is_kind h KMatS (fval h b "spec")) eqn:I; [|reflexivity].
    destruct (fval h b "spec") as [| | |bs| | | | ] eqn:Sb; try discriminate. apply is_kind_ref in I.
    erewrite seq_ok; [|eapply getattr_ref; eauto; discriminate]. erewrite seq_ok; [|eapply getattr_ref; eauto; discriminate].
    destruct (is_none (fval h bs "process")) eqn:X; [reflexivity|]. destruct (is_none (fval h b "process")) eqn:Y; [reflexivity|]. cbn [orb].
    erewrite seq_ok; [|eapply getattr_ref; eauto; discriminate].
    destruct (is_none (fval h a "spec")) eqn:Z; [reflexivity|].
    destruct N. split; [split; [auto|split; [intros E; now rewrite E in Y|exists bs; repeat split; auto; intros E; now rewrite E in X]]|split; [auto|intros E; now rewrite E in Z]].
  Qed.

  Definition new_spec (n isp sp : pv) : entity :=
    mkE KIngS [] ([("material", isp); ("process", sp)] ++ other_fields KIngS n).
  Definition new_run (a s : oid) (op ma vo nu ab : pv) : entity :=
    mkE KIngR [] ([("spec", PRef s); ("material", PRef a); ("process", op); ("name", PNone); ("tags", PList []); ("notes", PNone); ("file_links", PList []);
                   ("labels", PNone); ("mass_fraction", ma); ("volume_fraction", vo); ("number_fraction", nu); ("absolute_quantity", ab)]).
  Definition linked (h : heap) (a : oid) (n isp sp op ma vo nu ab : pv) : heap :=
    joined (joined h (length h + 0) "ingredients" sp) (length h + 1) "ingredients" op ++ [new_spec n isp sp; new_run a (length h + 0) op ma vo nu ab].

  Definition fill (r : oid) (mass number volume absolute u : pv) : act oid :=
    edge_fraction r "mass_fraction" mass;; edge_fraction r "number_fraction" number;;
    edge_fraction r "volume_fraction" volume;;
    left <- edge_absolute r absolute u;;
    if is_none left then ret r else raise ValueError.

  Lemma link_linked : forall h a t isp sp op mass number volume absolute u,
    kind_at h a = Some KMatR -> acceptable h KMatS isp = true -> acceptable h KProcS sp = true -> acceptable h KProcR op = true ->
    listable h "ingredients" sp -> listable h "ingredients" op ->
    link_and_fill a (PAtom (AStr t)) isp sp op mass number volume absolute u h =
    fill (length h + 1) mass number volume absolute u (linked h a (PAtom (AStr t)) isp sp op PNone PNone PNone PNone).
  Proof.
    intros h a t isp sp op mass number volume absolute u Ka Ai As Ao Ls Lo. unfold link_and_fill.
    erewrite seq_ok; [|apply new_first].
    assert (Acc : forall k v, acceptable h k v = true -> known h v).
    { intros k v Av o ->. cbn [acceptable] in Av. apply is_kind_ref in Av. eapply kind_lt; eauto. }
    erewrite seq_ok; [|eapply (plain_ok _ _ _ 0); [reflexivity|reflexivity|rewrite acceptable_known; eauto]].
    erewrite seq_ok; [|eapply (owned_ok _ _ _ 0); [reflexivity|reflexivity|reflexivity|auto|auto]].
    unfold linked. set (h1 := joined h (length h + 0) "ingredients" sp).
    assert (L1 : length h = length h1) by (symmetry; apply joined_length).
    assert (K1 : kind_at h1 a = Some KMatR) by (unfold h1; now rewrite joined_kind).
    assert (A1 : acceptable h1 KProcR op = true) by (unfold h1; now rewrite joined_acceptable).
    assert (Lo1 : listable h1 "ingredients" op).
    { intros p ->. destruct (Lo p eq_refl) as [l Fl]. exists l. unfold h1. rewrite joined_other; auto. left. intros ->.
      cbn [acceptable] in As, Ao. apply is_kind_ref in As, Ao. congruence. }
    clearbody h1. rewrite L1. clear L1.
    erewrite seq_ok; [|apply new_run_ok]. cbn [app length].
    erewrite seq_ok; [|eapply (ing_spec_ok _ _ _ 1); [reflexivity|reflexivity|reflexivity|]].
    2:{ cbn [acceptable]. apply is_kind_ref. rewrite kind_app_r. reflexivity. }
    erewrite seq_ok; [|eapply (plain_ok _ _ _ 1); [reflexivity|reflexivity|]].
    2:{ cbn [acceptable]. apply is_kind_ref. rewrite kind_app_l by (eapply kind_lt; eauto). auto. }
    erewrite seq_ok; [|eapply (owned_ok _ _ _ 1); [reflexivity|reflexivity|reflexivity|auto|auto]].
    reflexivity.
  Qed.

  Lemma fill_ok : forall h a n isp sp op mass number volume absolute u ma nu vo ab,
    fraction_given "mass_fraction" mass ma -> fraction_given "number_fraction" number nu -> fraction_given "volume_fraction" volume vo ->
    absolute_given absolute u ab ->
    fill (length h + 1) mass number volume absolute u (linked h a n isp sp op PNone PNone PNone PNone) = (linked h a n isp sp op ma vo nu ab, Ok (length h + 1)).
  Proof.
    intros h a n isp sp op mass number volume absolute u ma nu vo ab M N V A. unfold fill, linked.
    set (h2 := joined (joined h (length h + 0) "ingredients" sp) (length h + 1) "ingredients" op).
    assert (L : length h = length h2) by (unfold h2; now rewrite !joined_length). rewrite L.
    erewrite seq_ok; [|eapply (fraction_ok _ _ 1); [exact M|reflexivity|reflexivity]].
    erewrite seq_ok; [|eapply (fraction_ok _ _ 1); [exact N|reflexivity|reflexivity]].
    erewrite seq_ok; [|eapply (fraction_ok _ _ 1); [exact V|reflexivity|reflexivity]].
    erewrite seq_ok; [|eapply (absolute_ok _ _ 1); [exact A|reflexivity|reflexivity]].
    reflexivity.
  Qed.

  Lemma absolute_frame : forall h es i v u, exists es' out, edge_absolute (length h + i) v u (h ++ es) = (h ++ es', out) /\ (es' = es \/ exists w, es' = set_field es i "absolute_quantity" w).
  Proof.
    intros. assert (Q : forall w, exists es' out, set_quantity refuses (length h + i) "absolute_quantity" w (h ++ es) = (h ++ es', out) /\ (es' = es \/ exists w, es' = set_field es i "absolute_quantity" w)).
    { intros w. unfold set_quantity. destruct (refuses "absolute_quantity" w); cbn; [eauto 6|]. rewrite set_field_app_r. eauto 8. }
    assert (Q2 : forall w (x : pv), exists es' out, seq (set_quantity refuses (length h + i) "absolute_quantity" w) (fun _ => ret x) (h ++ es) = (h ++ es', out) /\ (es' = es \/ exists w, es' = set_field es i "absolute_quantity" w)).
    { intros w x. destruct (Q w) as (es' & out & E & D). unfold seq. rewrite E. destruct out; unfold ret; eauto 8. }
    assert (Q3 : forall q x (y : pv), exists es' out, seq (lift (nominal_real units q x)) (fun w => seq (set_quantity refuses (length h + i) "absolute_quantity" w) (fun _ => ret y)) (h ++ es) = (h ++ es', out) /\ (es' = es \/ exists w, es' = set_field es i "absolute_quantity" w)).
    { intros q x y. destruct (nominal_real units q x) as [w|e]; [apply Q2|]. exists es, (Err e). split; auto. }
    assert (R : forall e, exists es' (out : res pv), raise e (h ++ es) = (h ++ es', out) /\ (es' = es \/ exists w, es' = set_field es i "absolute_quantity" w))
      by (intros e; exists es, (Err e); split; auto).
    destruct v as [|[| |q|]| | | | | | ]; cbn [BuildModel.edge_absolute]; try apply Q2; [exists es, (Ok u); split; auto|].
    destruct u; try apply Q3; apply R.
  Qed.

  Lemma fill_bad : forall h a n isp sp op mass number volume absolute u,
    ~ (exists ma nu vo ab, fraction_given "mass_fraction" mass ma /\ fraction_given "number_fraction" number nu
        /\ fraction_given "volume_fraction" volume vo /\ absolute_given absolute u ab) ->
    exists ma nu vo ab e, fill (length h + 1) mass number volume absolute u (linked h a n isp sp op PNone PNone PNone PNone) = (linked h a n isp sp op ma vo nu ab, Err e).
  Proof.
    intros h a n isp sp op mass number volume absolute u B. unfold fill, linked.
    set (h2 := joined (joined h (length h + 0) "ingredients" sp) (length h + 1) "ingredients" op).
    assert (L : length h = length h2) by (unfold h2; now rewrite !joined_length). rewrite L.
    destruct (fraction_cases "mass_fraction" mass) as [[ma M]|[e M]].
    2:{ exists PNone, PNone, PNone, PNone, e. now erewrite seq_err. }
    erewrite seq_ok; [|eapply (fraction_ok _ _ 1); [exact M|reflexivity|reflexivity]].
    destruct (fraction_cases "number_fraction" number) as [[nu N]|[e N]].
    2:{ exists ma, PNone, PNone, PNone, e. now erewrite seq_err. }
    erewrite seq_ok; [|eapply (fraction_ok _ _ 1); [exact N|reflexivity|reflexivity]].
    destruct (fraction_cases "volume_fraction" volume) as [[vo V]|[e V]].
    2:{ exists ma, nu, PNone, PNone, e. now erewrite seq_err. }
    erewrite seq_ok; [|eapply (fraction_ok _ _ 1); [exact V|reflexivity|reflexivity]].
    destruct (absolute_cases absolute u) as [[ab A]|[e A]].
    { exfalso. apply B. exists ma, nu, vo, ab. auto. }
    match goal with |- context [seq _ _ (h2 ++ ?x)] => destruct (A (length h2 + 1) (h2 ++ x)) as [g' E]; destruct (absolute_frame h2 x 1 absolute u) as (es' & out & F & D) end.
    rewrite E. unfold seq in E. rewrite F in E.
    assert (G : g' = h2 ++ es') by (clear - E; destruct out as [[]|]; unfold ret, raise in E; inversion E; reflexivity). subst g'.
    destruct D as [->|[w ->]]; [exists ma, nu, vo, PNone, e|exists ma, nu, vo, w, e]; reflexivity.
  Qed.

  Lemma linked_edge : forall h a b bs n ma nu vo ab,
    kind_at h b = Some KMatR -> fval h b "spec" = PRef bs -> kind_at h bs = Some KMatS ->
    acceptable h KProcS (fval h bs "process") = true -> acceptable h KProcR (fval h b "process") = true ->
    listable h "ingredients" (fval h bs "process") -> listable h "ingredients" (fval h b "process") ->
    let g := linked h a n (fval h a "spec") (fval h bs "process") (fval h b "process") ma vo nu ab in
    edge h a b n g (length h + 1) (length h + 0)
    /\ fval g (length h + 1) "mass_fraction" = ma /\ fval g (length h + 1) "number_fraction" = nu
    /\ fval g (length h + 1) "volume_fraction" = vo /\ fval g (length h + 1) "absolute_quantity" = ab.
  Proof.
    intros h a b bs n ma nu vo ab Kb Sb Kbs As Ao Ls Lo g.
    set (sp := fval h bs "process") in *. set (op := fval h b "process") in *.
    set (h1 := joined h (length h + 0) "ingredients" sp). set (h2 := joined h1 (length h + 1) "ingredients" op).
    assert (L : length h2 = length h) by (unfold h2, h1; now rewrite !joined_length).
    assert (G : g = h2 ++ [new_spec n (fval h a "spec") sp; new_run a (length h + 0) op ma vo nu ab]) by reflexivity.
    assert (F : forall i f, fval g (length h + i) f = fval [new_spec n (fval h a "spec") sp; new_run a (length h + 0) op ma vo nu ab] i f)
      by (intros; rewrite G, <- L; apply fval_app_r).
    assert (K : forall i, kind_at g (length h + i) = kind_at [new_spec n (fval h a "spec") sp; new_run a (length h + 0) op ma vo nu ab] i)
      by (intros; rewrite G, <- L; apply kind_app_r).
    assert (Ne : forall p q, sp = PRef p -> op = PRef q -> p <> q).
    { intros p q E1 E2 ->. rewrite E1 in As. rewrite E2 in Ao. cbn [acceptable] in As, Ao. apply is_kind_ref in As, Ao. congruence. }
    assert (Lsp : forall p, sp = PRef p -> p < length h) by (intros p E; rewrite E in As; cbn [acceptable] in As; apply is_kind_ref in As; eapply kind_lt; eauto).
    assert (Lop : forall p, op = PRef p -> p < length h) by (intros p E; rewrite E in Ao; cbn [acceptable] in Ao; apply is_kind_ref in Ao; eapply kind_lt; eauto).
    split; [|rewrite !F; repeat split; reflexivity].
    constructor.
    - rewrite G, app_length, L. cbn [length]. lia.
    - rewrite !K. split; reflexivity.
    - rewrite F. reflexivity.
    - unfold read. rewrite !K. change (kind_at [new_spec n (fval h a "spec") sp; new_run a (length h + 0) op ma vo nu ab] 1) with (Some KIngR).
      change (kind_at [new_spec n (fval h a "spec") sp; new_run a (length h + 0) op ma vo nu ab] 0) with (Some KIngS). cbn [String.eqb Ascii.eqb Bool.eqb orb].
      rewrite F. change (fval [new_spec n (fval h a "spec") sp; new_run a (length h + 0) op ma vo nu ab] 1 "spec") with (PRef (length h + 0)).
      cbv iota beta. replace (is_kind g KIngS (PRef (length h + 0))) with true by (symmetry; apply is_kind_ref; rewrite K; reflexivity).
      rewrite !F. split; reflexivity.
    - rewrite !F. split; reflexivity.
    - split; [rewrite F; reflexivity|]. intros bs' E. rewrite Sb in E. injection E as <-. rewrite F. reflexivity.
    - intros p E. destruct (Lo p E) as [l Fl]. exists l. split; auto. rewrite G, fval_app_l by (rewrite L; auto). unfold h2. fold op in E. rewrite E.
      apply joined_same. unfold h1. rewrite joined_other; auto. left. intros E2. eapply Ne; eauto.
    - intros bs' q E1 E. rewrite Sb in E1. injection E1 as <-. fold sp in E. destruct (Ls q E) as [l Fl]. exists l. split; auto.
      rewrite G, fval_app_l by (rewrite L; auto). unfold h2. rewrite joined_other.
      + unfold h1. rewrite E. now apply joined_same.
      + left. intros E2. eapply Ne; eauto.
    - intros o Lo'. rewrite G. rewrite kind_app_l, hget_app_l by (rewrite L; auto). unfold h2, h1. now rewrite !joined_kind, !joined_uids.
    - intros o f Lo'. rewrite G, fval_app_l by (rewrite L; auto).
      destruct (String.eqb f "ingredients") eqn:Ef.
      + apply String.eqb_eq in Ef. subst f.
        destruct (pv_eq_ref op o) as [E|E]; [right; auto|]. destruct (pv_eq_ref sp o) as [E'|E']; [right; split; eauto|].
        left. unfold h2. rewrite joined_other by auto. unfold h1. now rewrite joined_other by auto.
      + apply String.eqb_neq in Ef. left. unfold h2. rewrite joined_other by auto. unfold h1. now rewrite joined_other by auto.
  Qed.
End Edge.

Section Measure.
  Variable eq : heap -> pv -> oid -> bool.
  Variable rejects : heap -> oid -> string -> pv -> option exn.
  Notation add_measurement := (add_measurement eq rejects).
  Notation append := (append rejects).
  Notation append_all := (append_all rejects).

  Definition measure_called (h : heap) (name t : pv) : res pv :=
    match name with
    | PNone => match t with
               | PNone => Err ValueError
               | PRef t => match hget h t with Some _ => Ok (read h t "name") | None => Err AttributeError end
               | _ => Err AttributeError
               end
    | _ => Ok name
    end.
  Lemma measure_called_ok : forall h name t n, measure_called h name t = Ok n <-> measurement_called h name t n.
  Proof.
    intros. unfold measurement_called, measure_called. split.
    - destruct name; try (intros [= <-]; left; split; congruence).
      destruct t; try discriminate. destruct (hget h o) eqn:E; [|discriminate]. intros [= <-].
      right. split; auto. exists o. rewrite E. repeat split; congruence.
    - intros [[X ->]|(-> & x & -> & X & ->)].
      + destruct name; congruence.
      + destruct (hget h x); congruence.
  Qed.
  Lemma measure_called_act : forall h name t,
    (match name with PNone => match t with PNone => raise ValueError | _ => getattr t "name" end | _ => ret name end) h = (h, measure_called h name t).
  Proof.
    intros. unfold measure_called. destruct name; try reflexivity. destruct t; try reflexivity. cbn [getattr].
    unfold kind_at. destruct (hget h o); reflexivity.
  Qed.

  Definition measurement (s m : oid) (n : pv) (ps cs qs : list pv) : entity :=
    mkE KMeasR [] [("spec", PRef s); ("material", PRef m); ("name", n); ("tags", PList []); ("notes", PNone); ("file_links", PList []);
                   ("properties", PList ps); ("conditions", PList cs); ("parameters", PList qs); ("source", PNone)].

  Definition types (t : string) (l : list pv) : list pv := filter (of_type t) l.
  Lemma list_for_cases : forall v, (exists fs, v = PObj "property" fs /\ list_for v = Some "properties")
    \/ (exists fs, v = PObj "condition" fs /\ list_for v = Some "conditions")
    \/ (exists fs, v = PObj "parameter" fs /\ list_for v = Some "parameters")
    \/ (list_for v = None /\ of_type "property" v = false /\ of_type "condition" v = false /\ of_type "parameter" v = false).
  Proof.
    intros v. destruct v; try (right; right; right; repeat split; reflexivity). cbn.
    destruct (String.eqb typ "property") eqn:E1; [apply String.eqb_eq in E1; subst; left; eauto|].
    destruct (String.eqb typ "condition") eqn:E2; [apply String.eqb_eq in E2; subst; right; left; eauto|].
    destruct (String.eqb typ "parameter") eqn:E3; [apply String.eqb_eq in E3; subst; right; right; left; eauto|].
    right. right. right. auto.
  Qed.

  Definition taken (r : oid) (x : pv) : Prop := exists lf g, list_for x = Some lf /\ rejects g r lf x = None.

  Lemma append_all_effect : forall h se s m n l done, let st d := h ++ [se; measurement s m n (types "property" d) (types "condition" d) (types "parameter" d)] in
    exists d rest, l = d ++ rest /\ Forall (taken (length h + 1)) d /\
      ((rest = [] /\ append_all (length h + 1) l (st done) = (st (done ++ d), Ok tt))
       \/ exists v rest', rest = v :: rest' /\ exists e, append_all (length h + 1) l (st done) = (st (done ++ d), Err e)
           /\ ((list_for v = None /\ e = ValueError) \/ exists lf, list_for v = Some lf /\ rejects (st (done ++ d)) (length h + 1) lf v = Some e)).
  Proof.
    intros h se s m n l. induction l as [|v l IH]; intros done st.
    - exists [], []. split; auto. split; [constructor|]. left. rewrite app_nil_r. split; reflexivity.
    - cbn [BuildModel.append_all]. destruct (list_for v) as [lf|] eqn:Lf.
      2:{ exists [], (v :: l). split; auto. split; [constructor|]. right. exists v, l. split; auto. exists ValueError. rewrite app_nil_r. split; auto. }
      destruct (rejects (st done) (length h + 1) lf v) as [e|] eqn:R.
      + exists [], (v :: l). split; auto. split; [constructor|]. right. exists v, l. split; auto. exists e. rewrite app_nil_r. split; [|right; eauto].
        erewrite seq_err; [reflexivity|]. unfold BuildModel.append, st. rewrite fval_app_r. fold (st done).
        destruct (list_for_cases v) as [(fs & -> & E)|[(fs & -> & E)|[(fs & -> & E)|(E & _)]]]; rewrite E in Lf; try discriminate; injection Lf as <-;
          match goal with |- context [fval ?es 1 ?f] => let x := eval cbn in (fval es 1 f) in change (fval es 1 f) with x end; cbv iota; now rewrite R.
      + assert (A : append (length h + 1) lf v (st done) = (st (done ++ [v]), Ok tt)).
        { unfold BuildModel.append. rewrite R. unfold st at 1. rewrite fval_app_r.
          destruct (list_for_cases v) as [(fs & -> & E)|[(fs & -> & E)|[(fs & -> & E)|(E & _)]]]; rewrite E in Lf; try discriminate; injection Lf as <-;
            match goal with |- context [fval ?es 1 ?f] => let x := eval cbn in (fval es 1 f) in change (fval es 1 f) with x end; cbv iota;
            unfold st, types; rewrite set_field_app_r, !filter_app; cbn; rewrite ?app_nil_r; reflexivity. }
        destruct (IH (done ++ [v])) as (d & rest & -> & Fd & C). exists (v :: d), rest. split; auto. split; [constructor; auto; exists lf, (st done); auto|].
        erewrite seq_ok by exact A. fold st in C. rewrite <- app_assoc in C. exact C.
  Qed.

  Lemma add_measurement_effect : forall h m name n t attrs, kind_at h m = Some KMatR -> listable h "measurements" (PRef m) ->
    measure_called h name t = Ok n -> text n -> known h t -> acceptable h KMeasT t = true ->
    exists d rest g, attrs = d ++ rest /\ Forall (taken (length h + 1)) d /\ measured h m n t d g (length h + 1) (length h + 0) /\
      ((rest = [] /\ add_measurement (PRef m) name t attrs h = (g, Ok (length h + 1)))
       \/ exists v rest', rest = v :: rest' /\ exists e, add_measurement (PRef m) name t attrs h = (g, Err e)
           /\ ((list_for v = None /\ e = ValueError) \/ exists lf, list_for v = Some lf /\ rejects g (length h + 1) lf v = Some e)).
  Proof.
    intros h m name n t attrs Km Lm C [s ->] Kt At.
    set (se := mkE KMeasS [] ([("template", t)] ++ other_fields KMeasS (PAtom (AStr s)))).
    set (h1 := joined h (length h + 1) "measurements" (PRef m)).
    assert (L1 : length h1 = length h) by apply joined_length.
    destruct (append_all_effect h1 se (length h + 0) m (PAtom (AStr s)) attrs []) as (d & rest & -> & Fd & D).
    cbn [app] in D. set (st d := h1 ++ [se; measurement (length h + 0) m (PAtom (AStr s)) (types "property" d) (types "condition" d) (types "parameter" d)]) in *.
    exists d, rest, (st d). split; auto. split; [now rewrite L1 in Fd|]. split.
    - assert (F : forall i f, fval (st d) (length h + i) f = fval [se; measurement (length h + 0) m (PAtom (AStr s)) (types "property" d) (types "condition" d) (types "parameter" d)] i f)
        by (intros; unfold st; rewrite <- L1; apply fval_app_r).
      assert (K : forall i, kind_at (st d) (length h + i) = kind_at [se; measurement (length h + 0) m (PAtom (AStr s)) (types "property" d) (types "condition" d) (types "parameter" d)] i)
        by (intros; unfold st; rewrite <- L1; apply kind_app_r).
      assert (Lt := kind_lt _ _ _ Km).
      constructor.
      + unfold st. rewrite app_length, L1. cbn [length]. lia.
      + rewrite !K. split; reflexivity.
      + rewrite !F. split; reflexivity.
      + unfold read. rewrite !K. rewrite !F. split; reflexivity.
      + rewrite F. reflexivity.
      + destruct (Lm m eq_refl) as [l Fl]. exists l. split; auto. unfold st. rewrite fval_app_l by (rewrite L1; auto). unfold h1. now apply joined_same.
      + rewrite !F. repeat split; reflexivity.
      + intros o Lo. unfold st. rewrite kind_app_l, hget_app_l by (rewrite L1; auto). unfold h1. now rewrite joined_kind, joined_uids.
      + intros o f Lo. unfold st. rewrite fval_app_l by (rewrite L1; auto). unfold h1.
        destruct (Nat.eq_dec o m) as [->|N]; [destruct (String.eqb f "measurements") eqn:E|].
        * apply String.eqb_eq in E. auto.
        * apply String.eqb_neq in E. left. apply joined_other. auto.
        * left. apply joined_other. left. congruence.
    - assert (E : add_measurement (PRef m) name t (d ++ rest) h = seq (append_all (length h + 1) (d ++ rest)) (fun _ => ret (length h + 1)) (st [])).
      { unfold BuildModel.add_measurement. erewrite seq_ok; [|rewrite measure_called_act, C; reflexivity].
        erewrite seq_ok; [|apply new_first].
        erewrite seq_ok; [|eapply (plain_ok _ _ _ 0); [reflexivity|reflexivity|rewrite acceptable_known; auto]].
        erewrite seq_ok; [|apply new_ok].
        erewrite seq_ok; [|eapply (plain_ok _ _ _ 1); [reflexivity|reflexivity|cbn [acceptable]; apply is_kind_ref; rewrite kind_app_r; reflexivity]].
        erewrite seq_ok; [|eapply (owned_ok _ _ _ 1); [reflexivity|reflexivity|reflexivity|cbn [acceptable]; now apply is_kind_ref|auto]].
        reflexivity. }
      rewrite E. rewrite L1 in D.
      destruct D as [[-> D]|(v & rest' & -> & e & D & R)].
      + left. split; auto. erewrite seq_ok by exact D. reflexivity.
      + right. exists v, rest'. split; auto. exists e. split; auto. erewrite seq_err by exact D. reflexivity.
  Qed.

  Lemma add_measurement_bad : forall h m name t attrs, known h t -> known h m ->
    ~ (exists n, measure_called h name t = Ok n /\ text n /\ acceptable h KMeasT t = true /\ acceptable h KMatR m = true) ->
    exists es e, add_measurement m name t attrs h = (h ++ es, Err e).
  Proof.
    intros h m name t attrs Kt Km B. unfold BuildModel.add_measurement.
    destruct (measure_called h name t) as [n|e] eqn:C.
    2:{ exists [], e. erewrite seq_err; [|rewrite measure_called_act, C; reflexivity]. now rewrite app_nil_r. }
    erewrite seq_ok; [|rewrite measure_called_act, C; reflexivity].
    destruct (text_dec n) as [[s ->]|T].
    2:{ exists [], TypeError. erewrite seq_err; [|apply new_bad; [auto|discriminate]]. now rewrite app_nil_r. }
    erewrite seq_ok; [|apply new_first].
    destruct (acceptable h KMeasT t) eqn:At.
    2:{ eexists _, _. erewrite seq_err; [reflexivity|eapply plain_bad; [reflexivity|reflexivity|rewrite acceptable_known; auto]]. }
    erewrite seq_ok; [|eapply (plain_ok _ _ _ 0); [reflexivity|reflexivity|rewrite acceptable_known; auto]].
    erewrite seq_ok; [|apply new_ok].
    erewrite seq_ok; [|eapply (plain_ok _ _ _ 1); [reflexivity|reflexivity|cbn [acceptable]; apply is_kind_ref; rewrite kind_app_r; reflexivity]].
    destruct (acceptable h KMatR m) eqn:Am.
    2:{ eexists _, _. erewrite seq_err; [reflexivity|eapply (owned_bad _ _ _ 1); [reflexivity|reflexivity|reflexivity|rewrite acceptable_known; auto]]. }
    exfalso. apply B. exists (PAtom (AStr s)). repeat split; auto. eexists; reflexivity.
  Qed.
End Measure.

Lemma on_last_app : forall A (f : A -> A) l x, on_last f (l ++ [x]) = l ++ [f x].
Proof. induction l as [|y l IH]; intros x; [reflexivity|]. cbn [app on_last]. rewrite IH. destruct (l ++ [x]) eqn:E; auto. destruct l; discriminate. Qed.

Section Attr.
  Variable rejects : heap -> oid -> string -> pv -> option exn.
  Variable attribute : heap -> pv -> pv -> res pv.
  Notation append := (append rejects).
  Notation add_attribute := (add_attribute rejects attribute).

  Definition one_changed (h g : heap) (o : oid) (f : string) : Prop :=
    length g = length h /\ (forall q, kind_at g q = kind_at h q) /\ (forall q, option_map e_uids (hget g q) = option_map e_uids (hget h q))
    /\ forall q x, (q, x) <> (o, f) -> fval g q x = fval h q x.
  Lemma set_one : forall h o f v, one_changed h (set_field h o f v) o f.
  Proof.
    intros. split; [apply set_field_length|]. split; [intros; apply kind_set_field|]. split; [intros; apply uids_set_field|].
    intros q x N. apply fval_set_other. destruct (Nat.eq_dec o q); auto. subst. right. congruence.
  Qed.

  Lemma append_effect : forall h o lf v, (exists l, fval h o lf = PList l /\ rejects h o lf v = None /\ append o lf v h = (set_field h o lf (PList (l ++ [v])), Ok tt))
    \/ (exists e, append o lf v h = (h, Err e) /\ ((exists l, fval h o lf = PList l /\ rejects h o lf v = Some e) \/ (forall l, fval h o lf <> PList l))).
  Proof.
    intros. unfold BuildModel.append. destruct (fval h o lf) eqn:F; try (right; eexists; split; [reflexivity|right; intros; discriminate]).
    destruct (rejects h o lf v) eqn:R; [right; eexists; split; [reflexivity|left; eauto]|left; eauto].
  Qed.

  Definition an_attribute (a : pv) : Prop := exists t fs, a = PObj t fs /\ In t ["property"; "condition"; "parameter"].

  Lemma has_list_goes : forall k t fs lf, list_for (PObj t fs) = Some lf -> has_list k lf = true -> goes_to k t lf.
  Proof.
    intros k t fs lf L H. destruct (list_for_cases (PObj t fs)) as [(x & [= -> ->] & E)|[(x & [= -> ->] & E)|[(x & [= -> ->] & E)|(E & _)]]];
      rewrite E in L; try discriminate; injection L as <-; unfold goes_to; destruct k; try discriminate; cbn; tauto.
  Qed.
  Lemma goes_has_list : forall k t fs f, goes_to k t f -> list_for (PObj t fs) = Some f /\ has_list k f = true /\ k <> KMatS.
  Proof.
    intros k t fs f G. unfold goes_to in G. cbn in G. repeat (destruct G as [G|G]; [inv G; repeat split; try reflexivity; discriminate|]). contradiction.
  Qed.

  (** What happens for each target. *)
  Lemma add_attribute_target : forall h o k template value a, kind_at h o = Some k -> attribute h template value = Ok a ->
    add_attribute (PRef o) template value h =
      match list_for a with
      | None => (h, Err ValueError)
      | Some lf =>
          match k with
          | KMatS => if String.eqb lf "properties" then seq (append o "properties" (alone a)) (fun _ => ret a) h
                     else if String.eqb lf "conditions" then
                       match fval h o "properties" with
                       | PList [] => (h, Err ValueError)
                       | PList l => (set_field h o "properties" (PList (on_last (fun p => with_condition p a) l)), Ok a)
                       | _ => (h, Err AttributeError)
                       end
                     else (h, Err ValueError)
          | _ => if has_list k lf then seq (append o lf a) (fun _ => ret a) h else (h, Err ValueError)
          end
      end.
  Proof.
    intros h o k template value a K A. unfold BuildModel.add_attribute. rewrite A, K.
    destruct (list_for_cases a) as [(x & -> & E)|[(x & -> & E)|[(x & -> & E)|(E & _)]]]; rewrite E; destruct k; try reflexivity.
  Qed.

  Lemma add_attribute_effect : forall h target template value g out, properties_shaped h ->
    add_attribute target template value h = (g, out) ->
    match out with
    | Err _ => g = h
    | Ok a => attribute h template value = Ok a /\ exists o k t fs f l l', target = PRef o /\ kind_at h o = Some k /\ a = PObj t fs
        /\ fval h o f = PList l /\ fval g o f = PList l' /\ extended k t a f l l' /\ one_changed h g o f
    end.
  Proof.
    intros h target template value g out Sh E.
    destruct (attribute h template value) as [a|e] eqn:A.
    2:{ unfold BuildModel.add_attribute in E. rewrite A in E. inv E. reflexivity. }
    destruct target as [| | |o| | | | ]; try (unfold BuildModel.add_attribute in E; rewrite A in E; inv E; reflexivity).
    destruct (kind_at h o) as [k|] eqn:K.
    2:{ unfold BuildModel.add_attribute in E. rewrite A, K in E. inv E. reflexivity. }
    rewrite (add_attribute_target h o k template value a K A) in E.
    assert (Hg := kind_hget _ _ _ K).
    assert (X : forall lf v t fs, a = PObj t fs -> seq (append o lf v) (fun _ => ret a) h = (g, out) -> (forall l, extended k t a lf l (l ++ [v])) ->
      match out with
      | Err _ => g = h
      | Ok a' => Ok a = Ok a' /\ exists o' k t fs f l l', PRef o = PRef o' /\ kind_at h o' = Some k /\ a' = PObj t fs
          /\ fval h o' f = PList l /\ fval g o' f = PList l' /\ extended k t a' f l l' /\ one_changed h g o' f
      end).
    { intros lf v t fs Ea S Ex. destruct (append_effect h o lf v) as [(l & F & R & Ap)|(e & Ap & _)].
      - erewrite seq_ok in S by exact Ap. inv S. split; auto. exists o, k, t, fs, lf, l, (l ++ [v]). repeat split; auto; try apply set_one.
        now apply fval_set_same.
      - erewrite seq_err in S by exact Ap. inv S. reflexivity. }
    destruct (list_for a) as [lf|] eqn:Lf; [|inv E; reflexivity].
    destruct (ekind_eq_dec k KMatS) as [->|N].
    - destruct (list_for_cases a) as [(x & -> & E1)|[(x & -> & E1)|[(x & -> & E1)|(E1 & _)]]]; rewrite E1 in Lf; try discriminate; injection Lf as <-; cbn [String.eqb Ascii.eqb Bool.eqb] in E.
      + apply (X _ _ _ _ eq_refl E). intros; right; left; auto.
      + destruct (fval h o "properties") as [| | | |l| | | ] eqn:F; try (inv E; reflexivity).
        destruct l as [|x0 l0]; [inv E; reflexivity|]. destruct (exists_last (l := x0 :: l0)) as (pre & p & Ep); [discriminate|].
        cbv iota in E. rewrite Ep in E, F. rewrite on_last_app in E.
        destruct (Sh o _ p K F) as (ty & q & cs & ->); [apply in_or_app; right; left; auto|]. rename E into Z.
        inv Z. split; auto. exists o, KMatS, "condition", x, "properties". do 2 eexists. repeat split; eauto; try apply set_one.
        * now apply fval_set_same.
        * right. right. repeat split. exists pre, ty, q, cs. split; reflexivity.
      + inv E. reflexivity.
    - assert (E2 : (if has_list k lf then seq (append o lf a) (fun _ => ret a) h else (h, Err ValueError)) = (g, out)) by (destruct k; congruence || exact E).
      destruct (has_list k lf) eqn:H; [|inv E2; reflexivity].
      assert (Ea : exists t fs, a = PObj t fs) by (destruct a; try discriminate; eauto). destruct Ea as (t & fs & ->).
      assert (G := has_list_goes _ _ _ _ Lf H).
      apply (X _ _ _ _ eq_refl E2). intros; left; auto.
  Qed.
End Attr.

(** ** Lists *)

Lemma lists_set : forall h o f v, has_lists h -> (exists l, v = PList l) \/ (f <> "ingredients" /\ f <> "measurements") -> has_lists (set_field h o f v).
Proof.
  intros h o f v H D q k x K I. rewrite kind_set_field in K. destruct (H q k x K I) as [l F].
  destruct (Nat.eq_dec o q) as [->|N]; [|rewrite fval_set_other; eauto].
  destruct (string_dec f x) as [->|N]; [|rewrite fval_set_other; eauto].
  destruct D as [[l' ->]|[D1 D2]]; [rewrite fval_set_same; eauto; eapply kind_hget; eauto|].
  exfalso. cbn in I. destruct I as [E|[E|[E|[]]]]; inv E; congruence.
Qed.

Lemma lists_assign : forall eq h o f v, has_lists h -> has_lists (fst (assign eq h o f v)).
Proof.
  intros eq h o f v H. unfold assign. destruct (kind_at h o) as [k|]; auto.
  destruct (role_of k f) as [[pk|pk lf|pk|]|] eqn:R; auto.
  - apply role_produce in R as [-> _]. unfold set_process.
    repeat break_match; cbn [fst]; auto; repeat (apply lists_set; [|right; split; discriminate]); auto.
  - assert (F : f <> "ingredients" /\ f <> "measurements") by (apply role_owned in R; destruct R as [R|[R|R]]; inv R; split; discriminate).
    unfold set_owned.
    match goal with |- context [match ?x with Ok _ => _ | Err _ => _ end] => set (d := x) end.
    assert (D : match d with Ok h1 => has_lists h1 | Err _ => True end).
    { unfold d. destruct (fval h o f); auto. destruct (is_kind _ _ _); auto. destruct (fval h _ lf); auto. destruct (remove _ _ _ _); auto. apply lists_set; eauto. }
    clearbody d. destruct d as [h1|e]; auto. cbv zeta. repeat break_match; cbn [fst]; auto; try (apply lists_set; [|eauto]; auto; fail).
    all: repeat (apply lists_set; [|eauto]); auto.
  - assert (F : f <> "ingredients" /\ f <> "measurements") by (destruct k; cbn in R; repeat break_if; inversion R; str_eq; subst; split; discriminate).
    unfold set_plain. repeat break_match; cbn [fst]; auto; apply lists_set; auto.
  - apply role_ing_spec in R as [-> ->]. unfold set_ing_spec, set_plain.
    repeat break_match; cbn [fst]; repeat (apply lists_set; [|right; split; discriminate]); auto.
Qed.

Lemma lists_run : forall eq ops h, has_lists h -> has_lists (grun eq h ops).
Proof.
  intros eq. induction ops as [|op ops IH]; intros h H; [exact H|]. cbn [grun]. apply IH. destruct op as [k u extra|o f v]; cbn [gstep fst].
  2:{ now apply lists_assign. }
  intros o k' f K I. rewrite kind_new in K. rewrite fval_new. cbn [e_kind] in K. destruct (Nat.eqb o (length h)); [|eauto].
  injection K as ->. exists []. apply fget_blank. cbn in I. destruct I as [E|[E|[E|[]]]]; inv E; reflexivity.
Qed.

Lemma fits_known : forall h k v, fits h k v -> known h v.
Proof. intros h k v [->|[(s & i & ->)|(o & -> & K)]] x E; try discriminate. injection E as <-. eapply kind_lt; eauto. Qed.
