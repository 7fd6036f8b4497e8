From Coq Require Import String List Bool Arith Lia.
From Verif Require Import Base BaseFacts GraphModel GraphSpec GraphProofs TravModel DepsModel DepsSpec.
Import ListNotations.
Open Scope string_scope.
Open Scope list_scope.

(** An entity or a link. *)
Definition elem (v : pv) : Prop := (exists o, v = PRef o) \/ exists s i, v = PLink s i.

Lemma same_elem : forall v w, elem v -> same v w = true <-> v = w.
Proof.
  intros v w [(o & ->)|(s & i & ->)]; destruct w; cbn; split; try discriminate; intros E; try congruence.
  - apply Nat.eqb_eq in E. now subst.
  - injection E as <-. apply Nat.eqb_refl.
  - apply andb_true_iff in E as [A B]. apply String.eqb_eq in A, B. now subst.
  - injection E as <- <-. now rewrite !String.eqb_refl.
Qed.

Lemma elem_hashable : forall v, elem v -> hashable v = true.
Proof. intros v [(o & ->)|(s & i & ->)]; reflexivity. Qed.

Lemma set_add_ok : forall l v, elem v -> exists l', set_add l v = Ok l' /\ (forall d, In d l' <-> In d l \/ d = v) /\ (NoDup l -> NoDup l').
Proof.
  intros l v H. unfold set_add. rewrite elem_hashable by auto. eexists. split; [reflexivity|].
  destruct (existsb (same v) l) eqn:E.
  - apply existsb_exists in E as (w & I & S). apply same_elem in S; auto. subst w. split; auto. intros d. split; [auto|]. intros [D| ->]; auto.
  - split.
    + intros d. rewrite in_app_iff. cbn. intuition.
    + intros N. assert (X : ~ In v l). { intros I. assert (existsb (same v) l = true) by (apply existsb_exists; exists v; split; auto; now apply same_elem). congruence. }
      clear - N X. induction l as [|x l IH]; cbn; [constructor; auto; constructor|]. inversion N; subst. constructor.
      * rewrite in_app_iff. cbn. intros [I|[->|[]]]; auto. apply X. now left.
      * apply IH; auto. intros I. apply X. now right.
Qed.

Lemma set_update_ok : forall vs l, (forall v, In v vs -> elem v) ->
  exists l', set_update l vs = Ok l' /\ (forall d, In d l' <-> In d l \/ In d vs) /\ (NoDup l -> NoDup l').
Proof.
  induction vs as [|v vs IH]; intros l H; cbn [set_update].
  - exists l. split; auto. split; auto. intros d. cbn. tauto.
  - destruct (set_add_ok l v) as (l1 & -> & I1 & N1); [apply H; now left|]. cbn [bind].
    destruct (IH l1) as (l2 & -> & I2 & N2); [intros; apply H; now right|]. exists l2. split; auto. split; auto.
    intros d. rewrite I2, I1. cbn. intuition.
Qed.

(** ** What values mention *)

Lemma mentions_elem : forall d v, mentions d v -> elem d.
Proof. intros d v M. induction M; auto; subst; [left|right]; eauto. Qed.

Lemma mentions_ref : forall d v, is_reference v -> mentions d v <-> d = v /\ v <> PNone.
Proof.
  intros d v [->|[(s & i & ->)|(o & ->)]]; split.
  - intros M. inversion M.
  - intros [_ H]. congruence.
  - intros M. inversion M. subst. split; [auto|discriminate].
  - intros [-> _]. now constructor.
  - intros M. inversion M. subst. split; [auto|discriminate].
  - intros [-> _]. now constructor.
Qed.

Lemma mentions_list : forall d l, mentions d (PList l) <-> exists x, In x l /\ mentions d x.
Proof. intros. split; [intros M; inversion M; eauto|intros (x & I & M); econstructor; eauto]. Qed.
Lemma mentions_tuple : forall d l, mentions d (PTuple l) <-> exists x, In x l /\ mentions d x.
Proof. intros. split; [intros M; inversion M; eauto|intros (x & I & M); econstructor; eauto]. Qed.
Lemma mentions_obj : forall d t l, mentions d (PObj t l) <-> exists k x, In (k, x) l /\ mentions d x.
Proof. intros. split; [intros M; inversion M; eauto|intros (k & x & I & M); econstructor; eauto]. Qed.

Lemma ref_elem : forall v, is_reference v -> v <> PNone -> elem v.
Proof. intros v [->|[H|H]] N; [congruence|now right|now left]. Qed.

Lemma some_of_ref : forall v d, is_reference v -> In d (some_of v) <-> mentions d v.
Proof.
  intros v d R. rewrite mentions_ref by auto. unfold some_of. destruct R as [->|[(s & i & ->)|(o & ->)]]; cbn; split; intros H.
  - tauto. - tauto.
  - destruct H as [<-|[]]. split; auto; discriminate.
  - left. symmetry. tauto.
  - destruct H as [<-|[]]. split; auto; discriminate.
  - left. symmetry. tauto.
Qed.

Lemma some_of_elem : forall v x, is_reference v -> In x (some_of v) -> elem x.
Proof. intros v x R I. apply some_of_ref in I; auto. eapply mentions_elem; eauto. Qed.

(** An attribute mentions its template only. *)
Lemma attribute_mentions : forall t v, is_attribute t v ->
  exists w, attr v "template" = Ok w /\ is_reference w /\ forall d, mentions d v <-> mentions d w.
Proof.
  intros t v (fs & -> & N & I & H). destruct (dict_get_Some_key "template" fs I) as (w & E). exists w. cbn [attr]. rewrite E.
  apply dict_get_In in E as J. split; auto. split; [now apply (H _ _ J)|]. intros d. rewrite mentions_obj. split.
  - intros (k & x & K & M). destruct (string_dec k "template") as [->|D].
    + apply (In_dict_get "template" x fs N) in K. rewrite K in E. injection E as ->. auto.
    + destruct (H _ _ K) as [_ X]. destruct (X D _ M).
  - intros M. eauto.
Qed.

Lemma attribute_template_of : forall t v, In t ["property"; "condition"; "parameter"] -> is_attribute t v -> template_of v = attr v "template".
Proof.
  intros t v I (fs & -> & _). cbn in I. repeat destruct I as [<-|I]; try reflexivity. contradiction.
Qed.

Lemma add_templates_ok : forall l r,
  (forall x, In x l -> exists w, template_of x = Ok w /\ is_reference w) ->
  exists r', add_templates r l = Ok r' /\ (NoDup r -> NoDup r') /\
    forall d, In d r' <-> In d r \/ exists x w, In x l /\ template_of x = Ok w /\ mentions d w.
Proof.
  induction l as [|a l IH]; intros r H; cbn [add_templates].
  - exists r. split; auto. split; auto. intros d. split; auto. intros [D|(x & w & [] & _)]. auto.
  - destruct (H a) as (w & E & R); [now left|]. rewrite E. cbn [bind].
    destruct (set_update_ok (some_of w) r) as (r1 & -> & I1 & N1); [intros; eapply some_of_elem; eauto|]. cbn [bind].
    destruct (IH r1) as (r2 & -> & N2 & I2); [intros; apply H; now right|]. exists r2. split; auto. split; auto.
    intros d. rewrite I2, I1, (some_of_ref w d) by auto. split.
    + intros [[D|D]|(x & w' & J & K)]; auto; right; [exists a, w|exists x, w']; cbn; tauto.
    + intros [D|(x & w' & [<-|J] & K & M)]; auto; [rewrite E in K; injection K as <-; auto|right; eauto].
Qed.

Lemma add_attributes : forall t l r, In t ["property"; "condition"; "parameter"] -> (forall x, In x l -> is_attribute t x) ->
  exists r', add_templates r l = Ok r' /\ (NoDup r -> NoDup r') /\ forall d, In d r' <-> In d r \/ mentions d (PList l).
Proof.
  intros t l r T H. destruct (add_templates_ok l r) as (r' & E & N & I).
  - intros x X. destruct (attribute_mentions _ _ (H _ X)) as (w & W & R & _). exists w. rewrite (attribute_template_of t) by auto. auto.
  - exists r'. split; auto. split; auto. intros d. rewrite I, mentions_list. split.
    + intros [D|(x & w & X & W & M)]; auto. right. exists x. split; auto. rewrite (attribute_template_of t) in W by auto.
      destruct (attribute_mentions _ _ (H _ X)) as (w' & W' & _ & Q). rewrite W in W'. injection W' as <-. now apply Q.
    + intros [D|(x & X & M)]; auto. right. destruct (attribute_mentions _ _ (H _ X)) as (w & W & _ & Q). exists x, w.
      split; auto. rewrite (attribute_template_of t) by auto. split; auto. now apply Q.
Qed.

Lemma pac_mentions : forall v, is_property_and_conditions v ->
  exists p w cs, attr v "property" = Ok p /\ attr p "template" = Ok w /\ is_reference w /\ attr v "conditions" = Ok (PList cs) /\
    (forall c, In c cs -> is_attribute "condition" c) /\ template_of v = Ok w /\
    forall d, mentions d v <-> mentions d w \/ mentions d (PList cs).
Proof.
  intros v (p & cs & -> & P & C). destruct (attribute_mentions _ _ P) as (w & W & R & Q). exists p, w, cs. cbn [template_of].
  split; [reflexivity|]. split; auto. split; auto. split; [reflexivity|]. split; auto. split; [cbn [attr dict_get String.eqb Ascii.eqb Bool.eqb bind]; exact W|].
  intros d. rewrite mentions_obj. split.
  - intros (k & x & [E|[E|[]]] & M); injection E as <- <-; auto. left. now apply Q.
  - intros [M|M]; [exists "property", p|exists "conditions", (PList cs)]; cbn; split; auto. now apply Q.
Qed.

Lemma add_material_spec_ok : forall l r, (forall x, In x l -> is_property_and_conditions x) ->
  exists r', add_material_spec r l = Ok r' /\ (NoDup r -> NoDup r') /\ forall d, In d r' <-> In d r \/ mentions d (PList l).
Proof.
  induction l as [|a l IH]; intros r H; cbn [add_material_spec].
  - exists r. split; auto. split; auto. intros d. rewrite mentions_list. split; auto. intros [D|(x & [] & _)]. auto.
  - destruct (pac_mentions a) as (p & w & cs & -> & E2 & R & -> & C & _ & Q); [apply H; now left|]. cbn [bind]. rewrite E2. cbn [bind].
    destruct (set_update_ok (some_of w) r) as (r1 & -> & I1 & N1); [intros; eapply some_of_elem; eauto|]. cbn [bind items].
    destruct (add_attributes "condition" cs r1) as (r2 & -> & N2 & I2); [cbn; tauto|auto|]. cbn [bind].
    destruct (IH r2) as (r3 & -> & N3 & I3); [intros; apply H; now right|]. exists r3. split; auto. split; auto.
    intros d. rewrite I3, I2, I1, (some_of_ref w d) by auto. rewrite !mentions_list. split.
    + intros [[[D|D]|D]|(x & X & M)]; auto; right; [exists a|exists a|exists x]; (split; [cbn; tauto|]); auto; apply Q; auto.
      right. now apply mentions_list.
    + intros [D|(x & [<-|X] & M)]; auto; [apply Q in M as [M|M]; auto; apply mentions_list in M; auto|right; eauto].
Qed.

Lemma add_firsts_ok : forall l r, (forall x, In x l -> is_pair x) ->
  exists r', add_firsts r l = Ok r' /\ (NoDup r -> NoDup r') /\ forall d, In d r' <-> In d r \/ mentions d (PList l).
Proof.
  induction l as [|a l IH]; intros r H; cbn [add_firsts].
  - exists r. split; auto. split; auto. intros d. rewrite mentions_list. split; auto. intros [D|(x & [] & _)]. auto.
  - destruct (H a) as (t & b & A & R & T & B); [now left|].
    assert (E : first a = Ok t) by (destruct A as [-> | ->]; reflexivity).
    assert (M : forall d, mentions d a <-> d = t).
    { intros d. transitivity (mentions d t); [|rewrite mentions_ref by auto; tauto].
      destruct A as [-> | ->]; [rewrite mentions_tuple|rewrite mentions_list]; (split; [intros (x & [<-|[<-|[]]] & M); auto; now apply B in M|intros M; exists t; split; [now left|auto]]). }
    rewrite E. cbn [bind]. destruct (set_add_ok r t) as (r1 & -> & I1 & N1); [now apply ref_elem|]. cbn [bind].
    destruct (IH r1) as (r2 & -> & N2 & I2); [intros; apply H; now right|]. exists r2. split; auto. split; auto.
    intros d. rewrite I2, I1. rewrite !mentions_list. split.
    + intros [[D|D]|(x & X & Y)]; auto; right; [exists a|exists x]; (split; [cbn; tauto|]); auto. now apply M.
    + intros [D|(x & [<-|X] & Y)]; auto; [apply M in Y; auto|right; eauto].
Qed.

(** ** The methods *)

(** The method suits the class: the field it reads holds what it expects. *)
Definition fits (m : method) (k : ekind) : bool :=
  match m with
  | LAbstract => true
  | LField f => match contents_of k f with Reference => true | _ => ekind_eqb k KIngS && String.eqb f "template" end
  | LAttributes f => match contents_of k f with Attributes | PropertiesAndConditions => true | _ => false end
  | LTemplates f => match contents_of k f with TemplatesAndBounds => true | _ => false end
  | LMaterialSpec => match contents_of k "properties" with PropertiesAndConditions => true | _ => false end
  end.

Definition useful (c : contents) : bool := match c with Derived | Data => false | _ => true end.

(** The method returns all that the field [f] mentions. *)
Definition serves (m : method) (k : ekind) (f : string) : bool :=
  match m with
  | LField g => String.eqb f g && match contents_of k f with Reference => true | _ => false end
  | LAttributes g => String.eqb f g && match contents_of k f with Attributes => true | _ => false end
  | LTemplates g => String.eqb f g
  | LMaterialSpec => String.eqb f "properties"
  | LAbstract => false
  end.

Lemma fget_holds : forall e f, documented e -> useful (contents_of (e_kind e) f) = true -> holds (contents_of (e_kind e) f) (fget e f).
Proof.
  intros e f (N & H & P) U. unfold fget. destruct (dict_get f (e_fields e)) as [v|] eqn:E.
  - apply H. now apply dict_get_In.
  - apply dict_get_None in E. destruct (contents_of (e_kind e) f) eqn:C; cbn; auto; try discriminate; try (exfalso; apply E, P; rewrite C; cbn; tauto).
    now left.
Qed.

Lemma getter_useful : forall e f, useful (contents_of (e_kind e) f) = true -> getter e f = fget e f.
Proof.
  intros e f U. unfold getter. destruct (e_kind e); auto. destruct (String.eqb f "template") eqn:E; auto. apply String.eqb_eq in E. subst. discriminate.
Qed.

Lemma method_ok : forall m e, documented e -> fits m (e_kind e) = true ->
  exists l, local_dependencies m e = Ok l /\ (forall d, In d l -> elem d) /\
    (forall d, In d l -> exists f, useful (contents_of (e_kind e) f) = true /\ mentions d (fget e f)) /\
    (forall f d, serves m (e_kind e) f = true -> mentions d (fget e f) -> In d l).
Proof.
  intros m e D F. destruct m as [|f|f|f|]; cbn [fits] in F.
  - exists []. split; [reflexivity|]. split; [intros d []|]. split; [intros d []|]. discriminate.
  - destruct (contents_of (e_kind e) f) eqn:C;
      try (apply andb_true_iff in F as [K T]; apply String.eqb_eq in T; subst f; unfold local_dependencies, getter;
           destruct (e_kind e) eqn:KK; try discriminate; exists []; (split; [reflexivity|]);
           (split; [intros d []|]); (split; [intros d []|]); intros f d S; cbn [serves] in S; apply andb_true_iff in S as [S1 S2]; apply String.eqb_eq in S1; subst f; discriminate).
    assert (U : useful (contents_of (e_kind e) f) = true) by now rewrite C.
    pose proof (fget_holds e f D U) as R. rewrite C in R. cbn [holds] in R. cbn [local_dependencies]. rewrite getter_useful by auto.
    destruct (set_update_ok (some_of (fget e f)) []) as (l & -> & I & _); [intros; eapply some_of_elem; eauto|]. exists l. split; auto.
    assert (J : forall d, In d l <-> mentions d (fget e f)) by (intros d; rewrite I, some_of_ref by auto; cbn; tauto).
    split; [intros d L; apply J in L; eapply mentions_elem; eauto|]. split; [intros d L; exists f; split; auto; now apply J|].
    intros g d S M. cbn [serves] in S. apply andb_true_iff in S as [S _]. apply String.eqb_eq in S. subst g. now apply J.
  - destruct (contents_of (e_kind e) f) eqn:C; try discriminate;
      (assert (U : useful (contents_of (e_kind e) f) = true) by now rewrite C);
      pose proof (fget_holds e f D U) as R; rewrite C in R; cbn [holds] in R; cbn [local_dependencies]; rewrite getter_useful by auto.
    + destruct R as (l & E & H). rewrite E. cbn [items bind].
      destruct (add_templates_ok l []) as (r & -> & _ & I).
      { intros x X. destruct (H _ X) as (t & T & A). destruct (attribute_mentions _ _ A) as (w & W & RW & _). exists w. rewrite (attribute_template_of t) by auto. auto. }
      exists r. split; auto.
      assert (J : forall d, In d r <-> mentions d (PList l)).
      { intros d. rewrite I, mentions_list. split.
        - intros [[]|(x & w & X & W & M)]. exists x. split; auto. destruct (H _ X) as (t & T & A). rewrite (attribute_template_of t) in W by auto.
          destruct (attribute_mentions _ _ A) as (w' & W' & _ & Q). rewrite W in W'. injection W' as <-. now apply Q.
        - intros (x & X & M). right. destruct (H _ X) as (t & T & A). destruct (attribute_mentions _ _ A) as (w & W & _ & Q). exists x, w.
          split; auto. rewrite (attribute_template_of t) by auto. split; auto. now apply Q. }
      split; [intros d L; apply J in L; eapply mentions_elem; eauto|]. split; [intros d L; exists f; split; auto; rewrite E; now apply J|].
      intros g d S M. cbn [serves] in S. apply andb_true_iff in S as [S _]. apply String.eqb_eq in S. subst g. rewrite E in M. now apply J.
    + destruct R as (l & E & H). rewrite E. cbn [items bind].
      destruct (add_templates_ok l []) as (r & -> & _ & I).
      { intros x X. destruct (pac_mentions _ (H _ X)) as (p & w & cs & _ & _ & RW & _ & _ & W & _). eauto. }
      exists r. split; auto.
      assert (J : forall d, In d r -> mentions d (PList l)).
      { intros d L. apply I in L. destruct L as [[]|(x & w & X & W & M)]. apply mentions_list. exists x. split; auto.
        destruct (pac_mentions _ (H _ X)) as (p & w' & cs & _ & _ & RW & _ & _ & W' & Q). rewrite W in W'. injection W' as <-. apply Q. now left. }
      split; [intros d L; apply J in L; eapply mentions_elem; eauto|]. split; [intros d L; exists f; split; auto; rewrite E; now apply J|].
      intros g d S M. cbn [serves] in S. apply andb_true_iff in S as [S1 S2]. apply String.eqb_eq in S1. subst g. now rewrite C in S2.
  - destruct (contents_of (e_kind e) f) eqn:C; try discriminate.
    assert (U : useful (contents_of (e_kind e) f) = true) by now rewrite C.
    pose proof (fget_holds e f D U) as R. rewrite C in R. cbn [holds] in R. cbn [local_dependencies]. rewrite getter_useful by auto.
    destruct R as (l & E & H). rewrite E. cbn [items bind]. destruct (add_firsts_ok l [] H) as (r & -> & _ & I). exists r. split; auto.
    assert (J : forall d, In d r <-> mentions d (PList l)) by (intros d; rewrite I; cbn; tauto).
    split; [intros d L; apply J in L; eapply mentions_elem; eauto|]. split; [intros d L; exists f; split; auto; rewrite E; now apply J|].
    intros g d S M. cbn [serves] in S. apply String.eqb_eq in S. subst g. rewrite E in M. now apply J.
  - destruct (contents_of (e_kind e) "properties") eqn:C; try discriminate.
    assert (U : useful (contents_of (e_kind e) "properties") = true) by now rewrite C.
    pose proof (fget_holds e _ D U) as R. rewrite C in R. cbn [holds] in R. cbn [local_dependencies]. rewrite getter_useful by auto.
    destruct R as (l & E & H). rewrite E. cbn [items bind]. destruct (add_material_spec_ok l [] H) as (r & -> & _ & I). exists r. split; auto.
    assert (J : forall d, In d r <-> mentions d (PList l)) by (intros d; rewrite I; cbn; tauto).
    split; [intros d L; apply J in L; eapply mentions_elem; eauto|]. split; [intros d L; exists "properties"; split; auto; rewrite E; now apply J|].
    intros g d S M. cbn [serves] in S. apply String.eqb_eq in S. subst g. rewrite E in M. now apply J.
Qed.

(** ** The loop *)

(** The methods the loop calls, in order. *)
Fixpoint calls (n : nat) (queue : list cls) : option (list method) :=
  match queue with
  | [] => Some []
  | c :: q =>
      match n with
      | O => None
      | S n' => if issubclass c HasDependencies && negb (abstract c) then
                  match lookup (mro c) with None => None | Some m => option_map (cons m) (calls n' (rev (bases c) ++ q)) end
                else calls n' q
      end
  end.

Fixpoint run_calls (ms : list method) (e : entity) (result : list pv) : res (list pv) :=
  match ms with
  | [] => Ok result
  | m :: r => do s <- local_dependencies m e; do result' <- set_update result s; run_calls r e result'
  end.

Lemma loop_calls : forall n e q r ms, calls n q = Some ms ->
  dep_loop n e r q = match run_calls ms e r with Ok l => Done l | Err x => Raised x end.
Proof.
  induction n as [|n IH]; intros e q r ms H.
  - destruct q; [|discriminate]. injection H as <-. reflexivity.
  - destruct q as [|c q]; [injection H as <-; reflexivity|]. cbn [calls] in H. cbn [dep_loop].
    destruct (issubclass c HasDependencies && negb (abstract c)); [|now apply IH].
    destruct (lookup (mro c)) as [m|]; [|discriminate]. destruct (calls n (rev (bases c) ++ q)) as [ms'|] eqn:E; [|discriminate]. injection H as <-.
    cbn [run_calls]. destruct (local_dependencies m e) as [s|x]; cbn [bind]; auto. destruct (set_update r s) as [r'|x]; cbn [bind]; auto.
Qed.

Lemma run_calls_ok : forall e, documented e -> forall ms r, (forall m, In m ms -> fits m (e_kind e) = true) ->
  exists l, run_calls ms e r = Ok l /\ (NoDup r -> NoDup l) /\
    (forall d, In d l -> In d r \/ exists f, useful (contents_of (e_kind e) f) = true /\ mentions d (fget e f)) /\
    (forall d, In d r -> In d l) /\
    (forall m f d, In m ms -> serves m (e_kind e) f = true -> mentions d (fget e f) -> In d l).
Proof.
  intros e D. induction ms as [|m ms IH]; intros r F; cbn [run_calls].
  - exists r. repeat split; auto. intros m f d [].
  - destruct (method_ok m e D) as (s & -> & E & S1 & S2); [apply F; now left|]. cbn [bind].
    destruct (set_update_ok s r E) as (r1 & -> & I1 & N1). cbn [bind].
    destruct (IH r1) as (l & -> & N & A & B & C); [intros; apply F; now right|]. exists l. split; auto. split; auto. split; [|split].
    + intros d L. apply A in L as [L|L]; auto. apply I1 in L as [L|L]; auto.
    + intros d L. apply B, I1. auto.
    + intros m' f d [<-|M] Sv Me; eauto. apply B, I1. eauto.
Qed.

Definition calls_of (k : ekind) : list method := match calls 60 [Concrete k] with Some l => l | None => [] end.
Lemma calls_some : forall k, calls 60 [Concrete k] = Some (calls_of k).
Proof. destruct k; vm_compute; reflexivity. Qed.
Lemma calls_fit : forall k m, In m (calls_of k) -> fits m k = true.
Proof. intros k m I. assert (H : forallb (fun m => fits m k) (calls_of k) = true) by (destruct k; vm_compute; reflexivity). rewrite forallb_forall in H. auto. Qed.

Definition named : list string := ["template"; "spec"; "process"; "material"; "properties"; "conditions"; "parameters"; "measurements"; "output_material"; "ingredients"].
Lemma useful_named : forall k f, useful (contents_of k f) = true -> In f named.
Proof.
  intros k f U. unfold named. destruct k; unfold contents_of in U; cbn [In];
    repeat match type of U with context [String.eqb f ?x] => let E := fresh "E" in destruct (String.eqb f x) eqn:E; [apply String.eqb_eq in E; subst; tauto|] end; unfold useful in U; try discriminate U.
Qed.
Definition all_served (k : ekind) : bool :=
  forallb (fun f => implb (useful (contents_of k f)) (existsb (fun m => serves m k f) (calls_of k))) named.
Lemma all_served_true : forall k, all_served k = true.
Proof. destruct k; vm_compute; reflexivity. Qed.
Opaque calls_of.
Lemma calls_serve : forall k f, useful (contents_of k f) = true -> exists m, In m (calls_of k) /\ serves m k f = true.
Proof.
  intros k f U. pose proof (all_served_true k) as H. unfold all_served in H. rewrite forallb_forall in H. specialize (H f (useful_named _ _ U)).
  rewrite U in H. cbn [implb] in H. now apply existsb_exists in H.
Qed.

Lemma back_derived : forall k f, back_reference k f <-> contents_of k f = Derived.
Proof.
  intros k f. unfold back_reference. split.
  - intros H. cbn in H. repeat destruct H as [E|H]; try contradiction; injection E as <- <-; reflexivity.
  - intros H. destruct k; cbn [contents_of] in H;
      repeat match type of H with context [String.eqb f ?x] => let E := fresh "E" in destruct (String.eqb f x) eqn:E; [apply String.eqb_eq in E; subst; cbn; try discriminate; tauto|] end; discriminate.
Qed.

Theorem all_dependencies_exact : forall h o e, hget h o = Some e -> documented e ->
  exists l, all_dependencies h o = Done l /\ NoDup l /\ forall d, In d l <-> depends_on h o d.
Proof.
  intros h o e E D. unfold all_dependencies. rewrite E. rewrite (loop_calls _ _ _ _ _ (calls_some (e_kind e))).
  destruct (run_calls_ok e D (calls_of (e_kind e)) [] (calls_fit _)) as (l & -> & N & A & _ & C). exists l. split; auto. split; [apply N; constructor|].
  intros d. split.
  - intros L. apply A in L as [[]|(f & U & M)]. exists e, f, (fget e f). split; auto.
    assert (G : In (f, fget e f) (e_fields e)).
    { unfold fget in *. destruct (dict_get f (e_fields e)) eqn:G; [now apply dict_get_In|inversion M]. }
    split; auto. split; auto. rewrite back_derived. intros X. rewrite X in U. discriminate.
  - intros (e' & f & v & E' & I & B & M). rewrite E in E'. injection E' as <-.
    destruct D as (ND & H & P). pose proof (H _ _ I) as Hd. rewrite back_derived in B.
    assert (G : fget e f = v) by (unfold fget; now rewrite (In_dict_get f v _ ND I)).
    destruct (useful (contents_of (e_kind e) f)) eqn:U.
    + destruct (calls_serve _ _ U) as (m & J & S). eapply C; eauto. now rewrite G.
    + destruct (contents_of (e_kind e) f); try discriminate; [congruence|]. now apply Hd in M.
Qed.

(** ** The setters keep the fields documented *)

Definition all_documented (h : heap) : Prop := forall o e, hget h o = Some e -> documented e.

Lemma In_dict_set : forall (f : string) (v : pv) g w d, In (g, w) (dict_set f v d) -> (g = f /\ w = v) \/ In (g, w) d.
Proof.
  intros f v g w d. induction d as [|[a b] d IH]; cbn [dict_set].
  - intros [E|[]]. injection E as <- <-. auto.
  - destruct (String.eqb f a) eqn:E.
    + apply String.eqb_eq in E. subst a. intros [X|X]; [injection X as <- <-; auto|right; now right].
    + intros [X|X]; [right; now left|]. apply IH in X as [X|X]; auto. right. now right.
Qed.

Lemma doc_set_field : forall h o f v, all_documented h ->
  (forall k, kind_at h o = Some k -> holds (contents_of k f) v) -> all_documented (set_field h o f v).
Proof.
  intros h o f v A H p e E. unfold set_field in E. destruct (hget h o) as [e0|] eqn:E0; [|eauto].
  rewrite hget_hset in E. destruct (Nat.eqb o p); [|eauto]. rewrite E0 in E. injection E as <-.
  destruct (A _ _ E0) as (N & F & P). split; [|split]; cbn [e_kind e_fields].
  - now apply (NoDup_keys_set f v).
  - intros g w I. apply In_dict_set in I as [[-> ->]|I]; auto. apply H. unfold kind_at. now rewrite E0.
  - intros g G. apply (In_keys_set g f v). right. now apply P.
Qed.

Lemma role_contents : forall k f r, role_of k f = Some r -> contents_of k f = Reference.
Proof.
  intros k f r H. destruct k; cbn [role_of] in H; try discriminate; unfold contents_of;
    repeat match type of H with context [String.eqb f ?x] => let E := fresh "E" in destruct (String.eqb f x) eqn:E; [try (apply String.eqb_eq in E; subst f; reflexivity)|] end;
    try discriminate.
Qed.

Lemma ref_holds : forall c v, c = Reference -> is_reference v -> holds c v.
Proof. intros c v -> R. exact R. Qed.

Lemma is_kind_reference : forall h k v, is_kind h k v = true -> is_reference v.
Proof. intros h k v H. destruct v; try discriminate. right. right. eauto. Qed.

Lemma doc_set_plain : forall pk h o f v, all_documented h -> (forall k, kind_at h o = Some k -> contents_of k f = Reference) ->
  all_documented (fst (set_plain pk f h o v)).
Proof.
  intros pk h o f v A R.
  assert (X : is_reference v -> all_documented (set_field h o f v)) by (intros V; apply doc_set_field; auto; intros k K; apply ref_holds; auto).
  unfold set_plain. destruct v; cbn [fst]; try (destruct (is_kind h pk _) eqn:K; cbn [fst]; auto; apply X; eapply is_kind_reference; eauto).
  - apply X. now left.
  - apply X. right. left. eauto.
Qed.

Lemma fval_data : forall h o k f, all_documented h -> kind_at h o = Some k -> contents_of k f = Data -> is_data (fval h o f).
Proof.
  intros h o k f A K C. unfold fval, kind_at in *. destruct (hget h o) as [e|] eqn:E; [|discriminate]. injection K as <-.
  destruct (A _ _ E) as (_ & F & _). unfold fget. destruct (dict_get f (e_fields e)) as [v|] eqn:G.
  - apply dict_get_In, F in G. rewrite C in G. exact G.
  - intros d M. inversion M.
Qed.

Section History.
  Variable eq : heap -> pv -> oid -> bool.

  Lemma doc_assign : forall h o f v, all_documented h -> all_documented (fst (assign eq h o f v)).
  Proof.
    intros h o f v A. unfold assign. destruct (kind_at h o) as [k|] eqn:K; [|auto]. destruct (role_of k f) as [r|] eqn:R; [|auto].
    pose proof (role_contents _ _ _ R) as C. destruct r as [pk|pk lf|pk|].
    - destruct (role_produce _ _ _ R) as [-> Cp]. unfold set_process.
      set (h1 := match fval h o "process" with PRef p => _ | _ => h end).
      assert (D : forall g p w, all_documented g -> kind_at g p = Some pk -> all_documented (set_field g p "output_material" w)).
      { intros g p w G Kp. apply doc_set_field; auto. intros k' K'. rewrite Kp in K'. injection K' as <-.
        destruct (couple_proc _ _ Cp) as [_ [-> | ->]]; exact I. }
      assert (A1 : all_documented h1).
      { unfold h1. destruct (fval h o "process"); auto. destruct (is_kind h pk (PRef o0)) eqn:Kp; auto. apply D; auto. now apply is_kind_ref. }
      assert (K1 : kind_at h1 o = Some k).
      { unfold h1. destruct (fval h o "process"); auto. destruct (is_kind h pk (PRef o0)); auto. now rewrite kind_set_field. }
      assert (X : forall g w, all_documented g -> kind_at g o = Some k -> is_reference w -> all_documented (set_field g o "process" w)).
      { intros g w G Kg W. apply doc_set_field; auto. intros k' K'. rewrite Kg in K'. injection K' as <-. now apply ref_holds. }
      destruct v; cbn [fst]; auto.
      + apply X; auto. now left.
      + apply X; auto. right. left. eauto.
      + destruct (is_kind h1 pk (PRef o0)) eqn:Kp; cbn [fst]; auto. apply X; [|now rewrite kind_set_field|right; right; eauto].
        apply D; auto. now apply is_kind_ref.
    - apply role_owned in R. unfold set_owned.
      assert (D : forall g p w, all_documented g -> kind_at g p = Some pk -> all_documented (set_field g p lf w)).
      { intros g p w G Kp. apply doc_set_field; auto. intros k' K'. rewrite Kp in K'. injection K' as <-.
        destruct R as [E|[E|E]]; injection E as -> -> -> ->; exact I. }
      assert (X : forall g w, all_documented g -> kind_at g o = Some k -> is_reference w -> all_documented (set_field g o f w)).
      { intros g w G Kg W. apply doc_set_field; auto. intros k' K'. rewrite Kg in K'. injection K' as <-. now apply ref_holds. }
      match goal with |- context [match ?d with Ok _ => _ | Err _ => _ end] => destruct d as [h1|e] eqn:E end; [|auto].
      assert (A1 : all_documented h1 /\ kind_at h1 o = Some k).
      { destruct (fval h o f); try (injection E as <-; auto). destruct (is_kind h pk (PRef o0)) eqn:Kp; [|injection E as <-; auto].
        destruct (fval h o0 lf); try discriminate. destruct (remove eq h o l); [|discriminate]. injection E as <-. split; [|now rewrite kind_set_field].
        apply D; auto. now apply is_kind_ref. }
      destruct A1 as [A1 K1]. destruct v; cbn [fst]; auto.
      + apply X; auto. now left.
      + apply X; auto. right. left. eauto.
      + destruct (is_kind h1 pk (PRef o0)) eqn:Kp; cbn [fst]; auto.
        assert (A2 : all_documented (set_field h1 o f (PRef o0))) by (apply X; auto; right; right; eauto).
        destruct (fval (set_field h1 o f (PRef o0)) o0 lf); cbn [fst]; auto. apply D; auto. rewrite kind_set_field. now apply is_kind_ref.
    - apply doc_set_plain; auto. intros k' K'. rewrite K in K'. now injection K' as <-.
    - destruct (role_ing_spec _ _ R) as [-> ->]. unfold set_ing_spec. apply doc_set_plain.
      + destruct (fval h o "spec"); auto. destruct (is_kind h KIngS (PRef o0)) eqn:Ks; auto. apply is_kind_ref in Ks.
        apply doc_set_field; [apply doc_set_field; auto|]; intros k' K'; rewrite ?kind_set_field, K in K'; injection K' as <-.
        * apply (fval_data h o0 KIngS "name"); auto.
        * apply (fval_data h o0 KIngS "labels"); auto.
      + intros k' K'. destruct (fval h o "spec"); try destruct (is_kind _ _ _); rewrite ?kind_set_field in K'; rewrite K in K'; injection K' as <-; reflexivity.
  Qed.

  Lemma doc_history : forall ops h, all_documented h ->
    (forall k u extra, In (GNew k u extra) ops -> documented (mkE k u (blank k ++ extra))) -> all_documented (grun eq h ops).
  Proof.
    induction ops as [|op ops IH]; intros h A H; [exact A|]. cbn [grun]. apply IH; [|intros; apply H; now right].
    destruct op as [k u extra|o f v]; cbn [gstep fst]; [|now apply doc_assign].
    intros o e E. unfold hget in E. destruct (Nat.lt_ge_cases o (length h)) as [L|L].
    - rewrite nth_error_app1 in E by auto. eapply A; eauto.
    - rewrite nth_error_app2 in E by auto. destruct (o - length h) as [|n]; cbn in E; [injection E as <-; apply H; now left|destruct n; discriminate].
  Qed.
End History.
