(** C61: what validation still says after attributes, values, bounds and templates have been changed. *)
From Coq Require Import String List Bool Arith ZArith QArith Lia.
From Verif Require Import Base BaseFacts BoundsModel BoundsSpec BoundsProofs BoundsFullSpec VlModel VlSpec ValidationModel ValidationSpec ValidationProofs ValidFullSpec ValidFullProofs
  ShareModel ShareSpec ShareProofs.
Import ListNotations.
Open Scope list_scope.

(** Assigning a value or a template to an attribute: the verdict (C53) is about what attribute, value, template and
    bounds hold at that moment. *)
Theorem assignment_reads_now : forall same k w a y d, sound w ->
  attr_verdict k (w_level w) (read_attr w a) (ASetValue (varg_of w y)) d ->
  snd (sstep same k w (SAttrValue a y)) = match d with Reject e => Some e | _ => None end /\
  read_attr (fst (sstep same k w (SAttrValue a y))) a = match d with Reject _ => read_attr w a | _ => assigned (ASetValue (varg_of w y)) (read_attr w a) end.
Proof.
  intros same k w a y d (GB & GV) V. apply attr_verdict_iff in V.
  - pose proof (attr_result same k w (SAttrValue a y) a _ eq_refl) as R. rewrite <- V in R. destruct d.
    1,2: destruct R as (n & c & E & _ & Rd & _); rewrite E; auto. destruct R as (n & E). rewrite E. auto.
  - split; cbn [read_attr a_value a_template].
    + intros v Hv. destruct (c_value (w_attrs w a)); [|discriminate]. injection Hv as <-. apply GV.
    + intros t Ht. destruct (c_template (w_attrs w a)) as [[q|s i]|]; try discriminate. injection Ht as <-. apply GB.
  - destruct y; cbn; auto.
Qed.
Theorem template_assignment_reads_now : forall same k w a y d, sound w ->
  attr_verdict k (w_level w) (read_attr w a) (ASetTemplate (targ_of w y)) d ->
  snd (sstep same k w (SAttrTemplate a y)) = match d with Reject e => Some e | _ => None end /\
  read_attr (fst (sstep same k w (SAttrTemplate a y))) a = match d with Reject _ => read_attr w a | _ => assigned (ASetTemplate (targ_of w y)) (read_attr w a) end.
Proof.
  intros same k w a y d (GB & GV) V. apply attr_verdict_iff in V.
  - pose proof (attr_result same k w (SAttrTemplate a y) a _ eq_refl) as R. rewrite <- V in R. destruct d.
    1,2: destruct R as (n & c & E & _ & Rd & _); rewrite E; auto. destruct R as (n & E). rewrite E. auto.
  - split; cbn [read_attr a_value a_template].
    + intros v Hv. destruct (c_value (w_attrs w a)); [|discriminate]. injection Hv as <-. apply GV.
    + intros t Ht. destruct (c_template (w_attrs w a)) as [[q|s i]|]; try discriminate. injection Ht as <-. apply GB.
  - destruct y as [|[]|]; cbn; auto.
Qed.

(** At FATAL, after an assignment that was accepted value and template agree, until one of them is changed. *)
Theorem assigned_agrees_until_changed : forall same k w a x h, sound w -> w_level w = FATAL ->
  (exists v, x = SAttrValue a v) \/ (exists t, x = SAttrTemplate a t) -> snd (sstep same k w x) = None ->
  Forall (fun y => ~ changes_attr (fst (sstep same k w x)) a y) h -> agrees (srun same k (fst (sstep same k w x)) h) a.
Proof.
  intros same k w a x h G L X N F. apply agrees_read. rewrite attr_read_run; auto. apply agrees_read.
  destruct X as [(v & ->)|(t & ->)]; eapply assigned_agrees; eauto; try exact I; reflexivity.
Qed.
(** What an attribute reads and what the template of an object says changes only by operations on what they use. *)
Theorem attribute_stays : forall same k w a h, Forall (fun y => ~ changes_attr w a y) h -> read_attr (srun same k w h) a = read_attr w a.
Proof. intros; now apply attr_read_run. Qed.
Theorem rules_stay : forall same k w o h, Forall (fun y => ~ changes_rules w o y) h -> read_entries (srun same k w h) o = read_entries w o.
Proof. intros; now apply rules_read_run. Qed.

(** At FATAL, with no change to values, bounds, bounds of templates or the level: every attribute agrees with its
    template at all times. *)
Theorem settled_history_agrees : forall same k w h, sound w -> w_level w = FATAL -> (forall a, agrees w a) -> Forall settled h ->
  forall a, agrees (srun same k w h) a.
Proof. intros. now apply settled_run. Qed.

(** Every attribute in a list was put there by an operation on that list. Unless that was [+=], or the level was not
    FATAL then, the template of the object had nothing against it right after; and has nothing against it now, if neither
    the attribute nor the template has been changed since. *)
Theorem listed_was_admitted : forall same k w h o a, sound w -> Forall sound_op h -> c_list (w_objects w o) = [] ->
  In a (c_list (w_objects (srun same k w h) o)) ->
  exists pre x post, h = pre ++ x :: post /\ supplies x o a /\
    (unchecked x \/ w_level (srun same k w pre) <> FATAL \/
     passes same k (srun same k w (pre ++ [x])) o a /\
     (Forall (fun y => ~ changes_attr (srun same k w (pre ++ [x])) a y /\ ~ changes_rules (srun same k w (pre ++ [x])) o y) post ->
      passes same k (srun same k w h) o a)).
Proof.
  intros same k w h o a G F E I. destruct (enters_run same k h w o a G F E I) as (pre & x & post & -> & Su & D).
  exists pre, x, post. split; auto. split; auto. destruct D as [D|[D|D]]; auto. right. right. split; auto. intros N.
  replace (srun same k w (pre ++ x :: post)) with (srun same k (srun same k w (pre ++ [x])) post).
  - unfold passes. rewrite attr_read_run, rules_read_run; auto; eapply Forall_impl; try exact N; cbn; tauto.
  - rewrite <- srun_app, <- app_assoc. reflexivity.
Qed.

(** An operation that raises changes nothing. *)
Theorem refused_changes_nothing : forall same k w x e, snd (sstep same k w x) = Some e -> same_world w (fst (sstep same k w x)).
Proof. intros same k w x e. apply refused_same. Qed.

(** What each setter changes in the object it is used on, and that nothing else changes there. *)
Theorem setter_effects : forall same k w,
  (forall a n, read_attr (fst (sstep same k w (SAttrName a n))) a = mkAttr n (a_value (read_attr w a)) (a_template (read_attr w a))) /\
  (forall t n, read_template (fst (sstep same k w (STemplateName t n))) t = mkTmpl (t_kind (read_template w t)) (t_uid (read_template w t)) n (t_bounds (read_template w t))) /\
  (forall t b, read_template (fst (sstep same k w (STemplateBounds t b))) t = mkTmpl (t_kind (read_template w t)) (t_uid (read_template w t)) (t_name (read_template w t)) (w_bounds w b)) /\
  (forall b x, w_bounds (fst (sstep same k w (SBounds b x))) b = x) /\
  (forall v x, w_values (fst (sstep same k w (SValue v x))) v = x) /\
  (forall o t, w_objects (fst (sstep same k w (SObjectTemplate o t))) o = mkOC t (c_list (w_objects w o))) /\
  (forall t l, w_entries (fst (sstep same k w (SEntries t l))) t = l) /\
  (forall l, w_level (fst (sstep same k w (SLevel l))) = l).
Proof.
  intros same k w. repeat split; intros; unfold read_attr, read_template; cbn [ShareModel.sstep fst with_attr with_object with_template w_attrs w_values w_templates w_bounds w_objects w_entries w_level];
    rewrite ?upd_same; reflexivity.
Qed.
(** Putting attributes into a list: they are judged one after the other (C53), by the template and the attributes as they
    are now. If one is refused the list stays; otherwise it is what a Python list would be. *)
Theorem list_effects : forall same k w o l n e, sound w -> all_verdicts same k (w_level w) (read_entries w o) (map (read_attr w) l) n e ->
  forall x new,
  (x = SAssign o (AIter (Reusable l)) /\ new = l) \/ (x = SList o (OExtend (Some (Reusable l))) /\ new = c_list (w_objects w o) ++ l) \/
  (exists a, l = [a] /\ x = SList o (OAppend a) /\ new = c_list (w_objects w o) ++ l) \/
  (exists a, l = [a] /\ x = SAssign o (AScalar a) /\ new = l) \/
  (exists a i pre post, l = [a] /\ x = SList o (OInsert (Z.of_nat i) a) /\ c_list (w_objects w o) = pre ++ post /\ length pre = i /\ new = pre ++ a :: post) \/
  (exists a i pre old post, l = [a] /\ x = SList o (OSetitem (Z.of_nat i) a) /\ c_list (w_objects w o) = pre ++ old :: post /\ length pre = i /\ new = pre ++ a :: post) ->
  snd (sstep same k w x) = e /\
  w_objects (fst (sstep same k w x)) o = mkOC (c_otemplate (w_objects w o)) (match e with None => new | Some _ => c_list (w_objects w o) end) /\
  (w_log (fst (sstep same k w x)) = n + w_log w)%nat.
Proof.
  intros same k w o l n e G V x new X. pose proof (verdicts_fire same k w o l n e G V) as F.
  assert (One : forall a, l = [a] -> fire ref world (Some (list_check same k o)) a w = (match e with None => Ok a | Some e => Err e end, with_log w (n + w_log w))).
  { intros a ->. cbn [fire_all] in F. destruct (fire ref world (Some (list_check same k o)) a w) as [[y|y] s] eqn:Q; destruct e; try discriminate; injection F as ->; subst; auto. }
  assert (Same : forall c, mkOC (c_otemplate c) (c_list c) = c) by now intros [].
  destruct X as [(-> & ->)|[(-> & ->)|[(a & El & -> & ->)|[(a & El & -> & ->)|[(a & i & pre & post & El & -> & Ec & Li & ->)|(a & i & pre & old & post & El & -> & Ec & Li & ->)]]]]];
    cbn [ShareModel.sstep step validate_list].
  - unfold init. cbn [first_pass later_pass]. rewrite all_any, F. destruct e; cbn; rewrite ?upd_same, ?Same; auto.
  - unfold extend. cbn [ctypes trig list_of first_pass later_pass]. rewrite all_any, F. destruct e; cbn; rewrite ?upd_same; auto.
  - unfold append. cbn [ctypes trig list_of]. change (accepts ref unit any_instance [tt] a) with true. cbn iota. rewrite (One a El). subst l. destruct e; cbn; rewrite ?upd_same; auto.
  - unfold init. cbn [first_pass later_pass]. rewrite all_any, <- El, F. destruct e; cbn; rewrite ?upd_same, ?Same; auto.
  - unfold insert. cbn [ctypes trig list_of]. change (accepts ref unit any_instance [tt] a) with true. cbn iota. rewrite (One a El). destruct e; cbn [items]; cbn; rewrite ?upd_same; auto.
    split; auto. split; auto. rewrite Ec. f_equal. unfold insert_pos.
    destruct (Z.ltb_spec (Z.of_nat i) 0); [lia|]. rewrite app_length, Z.min_l, Nat2Z.id by lia. subst i.
    rewrite firstn_app, skipn_app, Nat.sub_diag, firstn_all, skipn_all. cbn. now rewrite app_nil_r.
  - unfold setitem. cbn [ctypes trig list_of]. change (accepts ref unit any_instance [tt] a) with true. cbn iota. rewrite (One a El). destruct e; cbn [items]; cbn; rewrite ?upd_same; auto.
    unfold norm_index. destruct (Z.ltb_spec (Z.of_nat i) 0); [lia|]. rewrite Ec, app_length. cbn [length].
    replace ((0 <=? Z.of_nat i) && (Z.of_nat i <? Z.of_nat (length pre + S (length post))))%Z%bool with true
      by (symmetry; apply andb_true_intro; split; [apply Z.leb_le|apply Z.ltb_lt]; lia).
    cbn. rewrite upd_same. split; auto. split; auto. f_equal. rewrite Nat2Z.id. subst i. clear. induction pre as [|p pre IH]; cbn; auto. now rewrite IH.
Qed.

(** ** A listed attribute is not checked again *)
Open Scope nat_scope.
Definition by_uid (x y : tref) : bool :=
  match x, y with RTmpl s, RTmpl t => String.eqb (t_uid s) (t_uid t) | _, _ => false end.
(** Attribute 0 has value 0, worth 5, and template 0 with bounds 0, from 0 to 10; object 0 has object template 0, which
    restricts template 0 to bounds 1, from 4 to 6, and lists the attribute. Value 1 is worth 9, bounds 2 go from 20 to 30.
    Object template 1 restricts template 0 to bounds 2. *)
Definition shared : world := mkW
  (fun b => match b with O => BInt 0 10 | S O => BInt 4 6 | _ => BInt 20 30 end)
  (fun v => match v with O => VNominalInteger 5 | _ => VNominalInteger 9 end)
  (fun t => mkTC AProperty "t" "n" 0) (fun a => mkAC "a" (Some 0) (Some (TObj 0)))
  (fun t => [(TObj 0, Some (match t with 0 => 1 | _ => 2 end))])
  (fun o => mkOC (Some 0) []) FATAL 0.
Definition listed : world := srun by_uid AProperty shared [SList 0 (OAppend 0)].
Definition five : list sop :=
  [SValue 0 (VNominalInteger 9);        (* the value is changed in place *)
   SAttrValue 0 (VRef 1);               (* another value, inside the bounds of the attribute's own template *)
   SBounds 1 (BInt 6 8);                (* the range in the object's template is changed in place *)
   SObjectTemplate 0 (Some 1);          (* the object gets another template *)
   SEntries 0 [(TObj 0, Some 2)]].      (* the object's template gets another range *)
Lemma small_bounds : forall lo hi, Z.leb lo hi = true -> int_checked (PyInt lo) = Ok lo -> int_checked (PyInt hi) = Ok hi -> good_bounds (BInt lo hi).
Proof. intros lo hi L A B. split; [now apply Z.leb_le|]. split; now apply (proj1 (int_checked_iff _)). Qed.
Lemma small_value : forall z, int_checked (PyInt z) = Ok z -> good_value (VNominalInteger z).
Proof. intros z. apply (proj1 (int_checked_iff z)). Qed.
Local Ltac small := first [apply small_bounds; vm_compute; reflexivity | apply small_value; vm_compute; reflexivity].
Lemma shared_sound : sound shared.
Proof. split; [intros [|[|]]; small|intros [|]; exact I]. Qed.
Lemma listed_sound : sound listed.
Proof. apply sound_run; [apply shared_sound|]. repeat constructor. Qed.
Lemma listed_passes : passes by_uid AProperty listed 0 0.
Proof.
  apply object_verdict_iff; [| |vm_compute; reflexivity].
  - intros x E. injection E as <-. intros e b [<-|[]] J. cbn in J. inversion J; subst. small.
  - intros v E. injection E as <-. exact I.
Qed.
Lemma not_passes : forall w, sound w -> object_test by_uid AProperty FATAL (read_entries w 0) (read_attr w 0) <> Accept -> ~ passes by_uid AProperty w 0 0.
Proof.
  intros w (GB & GV) N P. apply N. symmetry. apply object_verdict_iff in P; auto.
  - intros es Es e b Ie Im. unfold read_entries in Es. destruct (c_otemplate (w_objects w 0)) as [ot|]; [|discriminate]. injection Es as <-.
    apply in_map_iff in Ie as ((l & r) & <- & _). unfold read_entry in Im. cbn [fst snd] in Im. inversion Im; subst; [destruct r; [|discriminate]; match goal with H : Some _ = _ |- _ => injection H as -> end; apply GB|].
    destruct l; [|discriminate]. match goal with H : RTmpl _ = _ |- _ => injection H as -> end. apply GB.
  - intros v V. cbn [read_attr a_value] in V. destruct (c_value (w_attrs w 0)); [|discriminate]. injection V as <-. apply GV.
Qed.
Theorem listed_stays_admitted_refuted : passes by_uid AProperty listed 0 0 /\ w_level listed = FATAL /\
  forall x, In x five -> sound_op x /\ snd (sstep by_uid AProperty listed x) = None /\
    In 0 (c_list (w_objects (fst (sstep by_uid AProperty listed x)) 0)) /\ ~ passes by_uid AProperty (fst (sstep by_uid AProperty listed x)) 0 0.
Proof.
  split; [apply listed_passes|]. split; [reflexivity|]. intros x I.
  assert (So : sound_op x) by (destruct I as [<-|[<-|[<-|[<-|[<-|[]]]]]]; first [exact Logic.I | small]).
  split; auto. destruct I as [<-|[<-|[<-|[<-|[<-|[]]]]]]; (split; [vm_compute; reflexivity|]; split; [vm_compute; auto|]);
    (apply not_passes; [apply sound_step; [apply listed_sound|exact So]|vm_compute; discriminate]).
Qed.
(** And an attribute need not agree with its own template any more. *)
Theorem attribute_stays_in_bounds_refuted : agrees listed 0 /\ w_level listed = FATAL /\
  forall x, In x [SValue 0 (VNominalInteger 50); SBounds 0 (BInt 7 8); STemplateBounds 0 2] ->
    sound_op x /\ snd (sstep by_uid AProperty listed x) = None /\ ~ agrees (fst (sstep by_uid AProperty listed x)) 0.
Proof.
  assert (A : agrees listed 0).
  { intros v t Hv Ht. injection Hv as <-. injection Ht as <-. split; [small|].
    destruct (contains_fits (BInt 0 10) (VNominalInteger 5)) as [(_ & F)|(E & _)]; [small|small|exact F|vm_compute in E; discriminate]. }
  split; [exact A|]. split; [reflexivity|]. intros x J.
  assert (So : sound_op x) by (destruct J as [<-|[<-|[<-|[]]]]; first [exact Logic.I | cbn [sound_op]; small]).
  split; auto. destruct J as [<-|[<-|[<-|[]]]]; (split; [reflexivity|]); intros Q; destruct (Q _ _ eq_refl eq_refl) as (_ & B).
  - destruct (contains_fits (BInt 0 10) (VNominalInteger 50)) as [(E & _)|(_ & F)]; [small|small|vm_compute in E; discriminate|exact (F B)].
  - destruct (contains_fits (BInt 7 8) (VNominalInteger 5)) as [(E & _)|(_ & F)]; [small|small|vm_compute in E; discriminate|exact (F B)].
  - destruct (contains_fits (BInt 20 30) (VNominalInteger 5)) as [(E & _)|(_ & F)]; [small|small|vm_compute in E; discriminate|exact (F B)].
Qed.

(** ** The hypotheses are met *)
Example share_hyps : sound shared /\ w_level shared = FATAL /\ c_list (w_objects shared 0) = [] /\
  In 0 (c_list (w_objects (srun by_uid AProperty shared [SList 0 (OAppend 0); SValue 1 (VNominalInteger 7); SBounds 2 (BInt 21 22); SObjectTemplate 1 (Some 1)]) 0)) /\
  Forall (fun y => ~ changes_attr listed 0 y /\ ~ changes_rules listed 0 y) [SValue 1 (VNominalInteger 7); SBounds 2 (BInt 21 22); SObjectTemplate 1 (Some 1); SAssign 1 (AIter (Reusable [0; 1]))] /\
  Forall settled [SAttrValue 0 (VRef 1); SObjectTemplate 1 (Some 1); SAssign 1 (AIter (Reusable [0; 1]))].
Proof.
  split; [apply shared_sound|]. split; [reflexivity|]. split; [reflexivity|]. split; [vm_compute; auto|]. split.
  - assert (E1 : w_attrs listed 0 = mkAC "a" (Some 0) (Some (TObj 0))) by (vm_compute; reflexivity).
    assert (E2 : c_otemplate (w_objects listed 0) = Some 0) by (vm_compute; reflexivity).
    assert (E3 : w_entries listed 0 = [(TObj 0, Some 1)]) by (vm_compute; reflexivity).
    assert (E4 : c_bounds (w_templates listed 0) = 0) by (vm_compute; reflexivity).
    repeat (apply Forall_cons; [cbn [changes_attr changes_rules]; rewrite ?E1, ?E2; cbn [c_value c_template]; split; intros H|]); [..|apply Forall_nil]; try exact H; try discriminate H.
    + destruct H as (t & H & B). injection H as <-. rewrite E4 in B. discriminate B.
    + destruct H as (ot & e & H & J & B). injection H as <-. rewrite E3 in J. destruct J as [<-|[]]. destruct B as [B|(t & Ht & B)]; [discriminate B|].
      injection Ht as <-. rewrite E4 in B. discriminate B.
  - repeat constructor.
Qed.
(** At FATAL: 9 may not enter the list of object 0 (4 to 6), but may be assigned to the attribute once it is in there. *)
Example share_ex :
  let w := srun by_uid AProperty shared [SAttrValue 1 (VRef 1)] in
  snd (sstep by_uid AProperty w (SList 0 (OAppend 1))) = Some ValueError /\
  snd (sstep by_uid AProperty listed (SAttrValue 0 (VRef 1))) = None /\
  snd (sstep by_uid AProperty (srun by_uid AProperty shared [STemplateBounds 0 2]) (SAttrValue 0 (VRef 1))) = Some ValueError /\
  snd (sstep by_uid AProperty shared (SAssign 0 (AIter (Reusable [0; 0])))) = None.
Proof. vm_compute. repeat split. Qed.

Print Assumptions assignment_reads_now.
Print Assumptions template_assignment_reads_now.
Print Assumptions assigned_agrees_until_changed.
Print Assumptions attribute_stays.
Print Assumptions rules_stay.
Print Assumptions settled_history_agrees.
Print Assumptions listed_was_admitted.
Print Assumptions refused_changes_nothing.
Print Assumptions setter_effects.
Print Assumptions list_effects.
Print Assumptions listed_stays_admitted_refuted.
Print Assumptions attribute_stays_in_bounds_refuted.
