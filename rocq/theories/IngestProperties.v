(** C65: the ingesters of the demo. *)
From Coq Require Import String Ascii List Bool Arith Lia Permutation.
From Verif Require Import Base BaseFacts IngestModel IngestSpec.
Import ListNotations.
Open Scope string_scope.
Open Scope list_scope.
Open Scope nat_scope.

Lemma white_iff : forall c, blank_char c = true <-> white c.
Proof.
  intros c. unfold blank_char, white. generalize (nat_of_ascii c). intros n. cbv zeta. split.
  - intros H. repeat (apply orb_true_iff in H; destruct H as [H|H]); try (apply andb_true_iff in H; destruct H as (H & H2); apply Nat.leb_le in H; apply Nat.leb_le in H2);
      try apply Nat.eqb_eq in H; cbn [In]; lia.
  - cbn [In]. intros H. repeat (destruct H as [<-|H]; [reflexivity|]). destruct H.
Qed.
Lemma white_not : forall c, blank_char c = false <-> ~ white c.
Proof. intros c. rewrite <- white_iff. destruct (blank_char c); split; intuition congruence. Qed.
Lemma sapp_assoc : forall a b c : string, ((a ++ b) ++ c = a ++ (b ++ c))%string.
Proof. induction a; intros; cbn; [reflexivity|f_equal; auto]. Qed.
Lemma sapp_nil : forall a : string, (a ++ "" = a)%string.
Proof. induction a; cbn; [reflexivity|f_equal; auto]. Qed.
Lemma all_app : forall P a b, all_chars P (a ++ b)%string <-> all_chars P a /\ all_chars P b.
Proof. intros P. induction a as [|c a IH]; intros b; cbn; [tauto|]. rewrite IH. tauto. Qed.
Lemma snoc_nonempty : forall w c, (w ++ String c "")%string <> "".
Proof. intros [|d w] c; discriminate. Qed.
Lemma split_words_from : forall s w, all_chars (fun c => ~ white c) w -> words (w ++ s) (split_from w s).
Proof.
  induction s as [|c s IH]; intros w W; cbn [split_from].
  - rewrite sapp_nil. destruct (String.eqb w "") eqn:E.
    + apply String.eqb_eq in E. subst w. apply words_none. exact I.
    + apply String.eqb_neq in E. apply (words_last "" w); [exact I|split; assumption].
  - destruct (blank_char c) eqn:B.
    + apply white_iff in B. destruct (String.eqb w "") eqn:E.
      * apply String.eqb_eq in E. subst w. cbn [append]. specialize (IH "" I). cbn [append] in IH.
        assert (X : forall a l, words a l -> words (String c a) l).
        { intros a l H. destruct H as [a H|a v H V|a v b t l H V Bb T].
          - apply words_none. split; assumption.
          - apply (words_last (String c a) v); [split; assumption|exact V].
          - apply (words_more (String c a) v b t l); [split; assumption|assumption|assumption|assumption]. }
        apply X. exact IH.
      * apply String.eqb_neq in E. apply (words_more "" w c s); [exact I|split; assumption|exact B|]. apply (IH ""). exact I.
    + apply white_not in B. replace (w ++ String c s)%string with ((w ++ String c "") ++ s)%string by (rewrite sapp_assoc; reflexivity).
      apply IH. apply all_app. split; [exact W|]. split; [exact B|exact I].
Qed.
Lemma words_split : forall s l, words s l -> forall w, all_chars (fun c => ~ white c) w ->
  (w = "" -> split_from w s = l).
Proof.
  assert (Sp : forall a s, space a -> split_from "" (a ++ s) = split_from "" s).
  { induction a as [|c a IH]; intros s H; [reflexivity|]. destruct H as (H & H2). cbn [append split_from]. rewrite (proj2 (white_iff c) H). apply IH. exact H2. }
  assert (Wd : forall v w s, all_chars (fun c => ~ white c) v -> split_from w (v ++ s) = split_from (w ++ v) s).
  { induction v as [|c v IH]; intros w s H; [rewrite sapp_nil; reflexivity|]. destruct H as (H & H2). cbn [append split_from]. rewrite (proj2 (white_not c) H).
    rewrite IH by exact H2. rewrite sapp_assoc. reflexivity. }
  intros s l H. induction H as [s H|a v H V|a v b s l H V Bb T IH]; intros w W ->.
  - rewrite <- (sapp_nil s). rewrite Sp by exact H. reflexivity.
  - rewrite Sp by exact H. destruct V as (N & V). rewrite <- (sapp_nil v) at 1. rewrite Wd by exact V. cbn [append split_from]. destruct (String.eqb v "") eqn:E; [apply String.eqb_eq in E; contradiction|reflexivity].
  - rewrite Sp by exact H. destruct V as (N & V). rewrite Wd by exact V. cbn [append split_from]. rewrite (proj2 (white_iff b) Bb). destruct (String.eqb v "") eqn:E; [apply String.eqb_eq in E; contradiction|].
    f_equal. apply IH; [exact I|reflexivity].
Qed.
(** str.split() gives the words. *)
Theorem split_words : forall s l, split s = l <-> words s l.
Proof.
  intros s l. split; [intros <-; apply (split_words_from s ""); exact I|]. intros H. apply (words_split s l H ""); [exact I|reflexivity].
Qed.
Lemma pm_iff : forall s, is_pm s = true <-> s = "+-" \/ s = "+/-".
Proof. intros s. unfold is_pm. rewrite orb_true_iff, !String.eqb_eq. reflexivity. Qed.
Lemma bind_ok : forall A B (r : res A) (f : A -> res B) b, bind r f = Ok b <-> exists a, r = Ok a /\ f a = Ok b.
Proof.
  intros A B [a|e] f b; cbn; split.
  - intros H. exists a. split; [reflexivity|exact H].
  - intros (a' & H & K). inversion H; subst. exact K.
  - discriminate.
  - intros (a' & H & _). discriminate.
Qed.
Lemma last_iff : forall (x : string) l d w, last (x :: l) d = w <-> exists k, x :: l = k ++ [w].
Proof.
  intros x l d w. split.
  - intros <-. exists (removelast (x :: l)). apply app_removelast_last. discriminate.
  - intros (k & ->). apply last_last.
Qed.

Section P.
  Variable F : Type.
  Variable to_float : string -> option F.
  Variable nonneg : F -> bool.
  Variable of_bool : bool -> F.
  Variable nonzero : F -> bool.
  Variable parse_units : string -> res string.
  Variable set_order : list string -> list string.
  Notation parse_value := (parse_value F to_float nonneg of_bool parse_units).
  Notation reads := (reads F to_float nonneg of_bool parse_units).
  Notation unit_read := (unit_read parse_units).

  Lemma unit_iff : forall w u, match parse_units w with Ok u => Ok u | Err ValueError => Ok "" | Err UndefinedUnitError => Ok "" | Err e => Err e end = Ok u <-> unit_read w u.
  Proof.
    intros w u. split.
    - destruct (parse_units w) as [v|e] eqn:E; [intros H; injection H as <-; apply unit_known; exact E|].
      destruct e; try discriminate; intros H; injection H as <-; eapply unit_unknown; try exact E; tauto.
    - intros [w' v E|w' e E [->| ->]]; rewrite E; reflexivity.
  Qed.
  Lemma float_ok : forall s x, float F to_float s = Ok x <-> to_float s = Some x.
  Proof. intros s x. unfold float. destruct (to_float s); split; intros H; inversion H; reflexivity. Qed.
  (** A field is read as this value exactly if it says so. *)
  Theorem parse_value_exact : forall d v, parse_value d = Ok v <-> reads d v.
  Proof.
    intros d v. split.
    - destruct d as [|b|x|s|l|l]; cbn [IngestModel.parse_value]; try discriminate.
      + unfold nominal. intros H. apply bind_ok in H. destruct H as (u & U & H). injection H as <-. constructor; exact U.
      + unfold nominal. intros H. apply bind_ok in H. destruct H as (u & U & H). injection H as <-. constructor; exact U.
      + pose proof (proj1 (split_words s _) eq_refl) as W. destruct (split s) as [|t0 [|t1 rest]].
        * destruct (to_float s) as [x|] eqn:X.
          -- unfold nominal. intros H. apply bind_ok in H. destruct H as (u & U & H). injection H as <-. eapply reads_text_number; [exact W|cbn; lia|exact X|exact U].
          -- intros H. injection H as <-. eapply reads_category; [exact W|cbn; lia|exact X].
        * destruct (to_float s) as [x|] eqn:X.
          -- unfold nominal. intros H. apply bind_ok in H. destruct H as (u & U & H). injection H as <-. eapply reads_text_number; [exact W|cbn; lia|exact X|exact U].
          -- intros H. injection H as <-. eapply reads_category; [exact W|cbn; lia|exact X].
        * intros H. apply bind_ok in H. destruct H as (mean & M & H). apply float_ok in M. apply bind_ok in H. destruct H as (std & Sd & H).
          apply bind_ok in H. destruct H as (u & U & H). apply unit_iff in U. destruct (is_pm t1) eqn:P.
          -- apply pm_iff in P. destruct rest as [|t2 rest]; [discriminate|]. apply bind_ok in Sd. destruct Sd as (y & Y & Sd). apply float_ok in Y. injection Sd as <-.
             change (last (t1 :: t2 :: rest) "") with (last (t2 :: rest) "") in U.
             destruct (nonneg y) eqn:N; [unfold normal in H|unfold nominal in H]; apply bind_ok in H; destruct H as (u' & U' & H); injection H as <-;
               [eapply reads_deviation|eapply reads_negative]; try eassumption; apply (proj1 (last_iff t2 rest "" _) eq_refl).
          -- injection Sd as <-. unfold nominal in H. apply bind_ok in H. destruct H as (u' & U' & H). injection H as <-.
             assert (N : t1 <> "+-" /\ t1 <> "+/-") by (split; intros ->; discriminate). destruct N as (N1 & N2).
             eapply reads_plain; try eassumption. apply (proj1 (last_iff t1 rest "" _) eq_refl).
    - intros R. destruct R as [x u U|b u U|s l x u W L X U|s l W L X|s t0 t1 l w x u u' W N1 N2 X Lw U U'|s t0 t1 t2 l w x y u u' W P X Y N Lw U U'|s t0 t1 t2 l w x y u u' W P X Y N Lw U U'];
        cbn [IngestModel.parse_value]; unfold nominal, normal.
      + rewrite U. reflexivity.
      + rewrite U. reflexivity.
      + apply split_words in W. rewrite W, X. destruct l as [|t [|]]; cbn in L; [| |lia]; rewrite U; reflexivity.
      + apply split_words in W. rewrite W, X. destruct l as [|t [|]]; cbn in L; [reflexivity|reflexivity|lia].
      + apply split_words in W. rewrite W. rewrite (proj2 (float_ok _ _) X). cbn [bind]. destruct (is_pm t1) eqn:P; [apply pm_iff in P; tauto|]. cbn [bind].
        rewrite (proj2 (last_iff t1 l "" w) Lw). rewrite (proj2 (unit_iff w u) U). cbn [bind]. rewrite U'. reflexivity.
      + apply split_words in W. rewrite W. rewrite (proj2 (float_ok _ _) X). cbn [bind]. rewrite (proj2 (pm_iff t1) P). rewrite (proj2 (float_ok _ _) Y). cbn [bind].
        change (last (t1 :: t2 :: l) "") with (last (t2 :: l) ""). rewrite (proj2 (last_iff t2 l "" w) Lw). rewrite (proj2 (unit_iff w u) U). cbn [bind]. rewrite N, U'. reflexivity.
      + apply split_words in W. rewrite W. rewrite (proj2 (float_ok _ _) X). cbn [bind]. rewrite (proj2 (pm_iff t1) P). rewrite (proj2 (float_ok _ _) Y). cbn [bind].
        change (last (t1 :: t2 :: l) "") with (last (t2 :: l) ""). rewrite (proj2 (last_iff t2 l "" w) Lw). rewrite (proj2 (unit_iff w u) U). cbn [bind]. rewrite N, U'. reflexivity.
  Qed.
  (** The order of the exceptions of a text of several words. *)
  Theorem parse_value_refused : forall s t0 t1 l, words s (t0 :: t1 :: l) ->
    (to_float t0 = None -> parse_value (DStr s) = Err ValueError)
    /\ (forall x, to_float t0 = Some x -> t1 = "+-" \/ t1 = "+/-" -> l = [] -> parse_value (DStr s) = Err IndexError)
    /\ (forall x t2 l', to_float t0 = Some x -> t1 = "+-" \/ t1 = "+/-" -> l = t2 :: l' -> to_float t2 = None -> parse_value (DStr s) = Err ValueError).
  Proof.
    intros s t0 t1 l W. apply split_words in W. cbn [IngestModel.parse_value]. rewrite W. unfold float. repeat split.
    - intros ->. reflexivity.
    - intros x -> P ->. cbn [bind]. rewrite (proj2 (pm_iff t1) P). reflexivity.
    - intros x t2 l' -> P -> E. cbn [bind]. rewrite (proj2 (pm_iff t1) P), E. reflexivity.
  Qed.
  (** A category of several words is refused, a field that is no number and no text as well. *)
  Theorem parse_value_other : forall d, (forall s, d <> DStr s) -> (forall x, d <> DNum x) -> (forall b, d <> DBool b) -> parse_value d = Err ValueError.
  Proof. intros [|b|x|s|l|l] A B C; try reflexivity; [destruct (C b eq_refl)|destruct (B x eq_refl)|destruct (A s eq_refl)]. Qed.

  Notation attrs := (attrs F to_float nonneg of_bool parse_units).
  Notation present := (present F set_order).
  Notation experiment := (experiment F to_float nonneg of_bool nonzero parse_units set_order).
  Notation ingest := (ingest_material_run F to_float nonneg of_bool nonzero parse_units set_order).
  Notation ingest_dict := (ingest_dict F to_float nonneg of_bool nonzero parse_units set_order).
  Notation attributes := (attributes F to_float nonneg of_bool parse_units).
  Notation entry := (entry F).
  Hypothesis order_perm : forall l, Permutation (set_order l) l.

  Lemma get_entry : forall k d v, get F k d = Some v <-> entry k d v.
  Proof.
    intros k d v. unfold get, IngestSpec.entry. induction d as [|(k', v') d IH]; cbn.
    - split; [discriminate|intros ([|] & b & H & _); discriminate].
    - destruct (String.eqb k k') eqn:E.
      + apply String.eqb_eq in E. subst k'. split; [intros H; injection H as <-; exists [], d; split; [reflexivity|intros []]|].
        intros ([|(a, x) l] & b & H & N); cbn in *; injection H as; subst; [reflexivity|]. destruct N. left; reflexivity.
      + apply String.eqb_neq in E. rewrite IH. split.
        * intros (a & b & -> & N). exists ((k', v') :: a), b. split; [reflexivity|]. cbn. intros [H|H]; [congruence|exact (N H)].
        * intros ([|(a, x) l] & b & H & N); cbn in *; injection H as; subst; [congruence|]. exists l, b. split; [reflexivity|]. intros K. apply N. right; exact K.
  Qed.
  Lemma mem_keys : forall k (d : list (string * dv F)), dict_mem k d = true <-> In k (map fst d).
  Proof.
    intros k d. unfold dict_mem. induction d as [|(k', v') d IH]; cbn; [split; [discriminate|intros []]|].
    destruct (String.eqb k k') eqn:E; [apply String.eqb_eq in E; subst; split; [left; reflexivity|reflexivity]|]. apply String.eqb_neq in E. rewrite IH. split; [tauto|intros [H|H]; [congruence|exact H]].
  Qed.
  Lemma attrs_ok : forall names d l, attrs names d = Ok l -> map ia_name l = names /\ forall a, In a l -> exists v, entry (ia_name a) d v /\ reads v (ia_value a).
  Proof.
    induction names as [|n names IH]; intros d l; cbn [IngestModel.attrs]; [intros H; injection H as <-; split; [reflexivity|intros a []]|].
    intros H. apply bind_ok in H. destruct H as (v & V & H). apply bind_ok in H. destruct H as (t & T & H). injection H as <-.
    destruct (get F n d) as [x|] eqn:G; [|discriminate]. apply IH in T. destruct T as (<- & T). split; [reflexivity|].
    intros a [<-|I]; [|apply T; exact I]. cbn. exists x. split; [apply get_entry; exact G|apply parse_value_exact; exact V].
  Qed.
  Lemma attrs_attributes : forall known d l, NoDup known -> attrs (present known d) d = Ok l -> attributes known d l.
  Proof.
    intros known d l N H. apply attrs_ok in H. destruct H as (E & H). exists (filter (fun n => dict_mem n d) known). split; [rewrite E; apply order_perm|].
    split; [|split; [apply NoDup_filter; exact N|exact H]]. intros n. rewrite filter_In, mem_keys. reflexivity.
  Qed.
  Notation falsy := (falsy F nonzero).
  Notation uid_read := (uid_read F nonzero).
  Notation tags_read := (tags_read F nonzero).
  Lemma truthy_iff : forall v, truthy F nonzero (Some v) = false <-> falsy v.
  Proof.
    intros v. split.
    - destruct v as [|b|x|s|l|l]; cbn; intros H; try (subst b); try (destruct l; [|discriminate]); try constructor; try exact H.
      apply negb_false_iff in H. apply String.eqb_eq in H. subst s. constructor.
    - intros [ | |x H| | | ]; cbn; try reflexivity. exact H.
  Qed.
  Lemma get_none : forall k (d : list (string * dv F)), dict_get k d = None <-> ~ In k (map fst d).
  Proof.
    intros k d. induction d as [|(k', v') d IH]; cbn; [tauto|]. destruct (String.eqb k k') eqn:E.
    - apply String.eqb_eq in E. subst. split; [discriminate|intros H; destruct H; left; reflexivity].
    - apply String.eqb_neq in E. rewrite IH. split; [intros H [K|K]; [congruence|exact (H K)]|tauto].
  Qed.
  Lemma uid_iff : forall sc k d u, uid_of F nonzero sc k d = u <-> uid_read sc k d u.
  Proof.
    intros sc k d u. unfold uid_of. split.
    - intros <-. destruct (get F k d) as [v|] eqn:G; [|apply uid_absent; apply get_none; exact G]. pose proof (proj1 (get_entry _ _ _) G) as E.
      destruct (truthy F nonzero (Some v)) eqn:T; [|eapply uid_falsy; [exact E|apply truthy_iff; exact T]]. apply uid_given; [exact E|]. intros K. apply truthy_iff in K. congruence.
    - intros [H|v E H|v E H].
      + unfold get. rewrite (proj2 (get_none _ _) H). reflexivity.
      + rewrite (proj2 (get_entry _ _ _) E). rewrite (proj2 (truthy_iff v) H). reflexivity.
      + rewrite (proj2 (get_entry _ _ _) E). destruct (truthy F nonzero (Some v)) eqn:T; [reflexivity|]. apply truthy_iff in T. contradiction.
  Qed.
  Lemma strings_iff : forall l t, strings F l = Ok t <-> l = map DStr t.
  Proof.
    induction l as [|x l IH]; intros t; cbn.
    - split; [intros H; injection H as <-; reflexivity|destruct t; [reflexivity|discriminate]].
    - destruct x; try (split; [discriminate|destruct t; discriminate]). rewrite bind_ok. split.
      + intros (u & U & H). injection H as <-. apply IH in U. subst l. reflexivity.
      + destruct t as [|a t]; [discriminate|]. cbn. intros H. injection H as -> ->. exists t. split; [apply IH; reflexivity|reflexivity].
  Qed.
  Lemma tags_iff : forall d t, tags_of F nonzero d = Ok t <-> tags_read d t.
  Proof.
    intros d t. unfold tags_of. split.
    - destruct (get F "tags" d) as [v|] eqn:G; [|intros H; injection H as <-; apply tags_absent; apply get_none; exact G]. pose proof (proj1 (get_entry _ _ _) G) as E.
      destruct (truthy F nonzero (Some v)) eqn:T; [|intros H; injection H as <-; eapply tags_falsy; [exact E|apply truthy_iff; exact T]].
      destruct v as [|b|x|s|l|l]; cbn in *; try discriminate.
      + intros H. injection H as <-. apply tags_text; [exact E|]. intros ->. discriminate.
      + intros H. apply strings_iff in H. subst l. apply tags_list; [exact E|]. intros ->. discriminate.
      + intros H. injection H as <-. apply tags_keys; [exact E|]. intros ->. discriminate.
    - intros [H|v E H|s E N|l E N|l E N].
      + unfold get. rewrite (proj2 (get_none _ _) H). reflexivity.
      + rewrite (proj2 (get_entry _ _ _) E). rewrite (proj2 (truthy_iff v) H). reflexivity.
      + rewrite (proj2 (get_entry _ _ _) E). cbn. apply String.eqb_neq in N. rewrite N. reflexivity.
      + rewrite (proj2 (get_entry _ _ _) E). destruct l as [|a l]; [congruence|]. cbn [truthy map negb]. cbn [tags_set]. apply strings_iff. reflexivity.
      + rewrite (proj2 (get_entry _ _ _) E). destruct l as [|a l]; [congruence|]. reflexivity.
  Qed.
  (** What an experiment becomes: one attribute for each known name it has, and no others. *)
  Theorem experiment_read : forall v m, experiment v = Ok m -> exists d, v = DDict d
    /\ attributes ["density"; "kinematic viscosity"] d (im_properties m) /\ attributes ["temperature"] d (im_conditions m) /\ attributes ["knob_2_setting"] d (im_parameters m)
    /\ uid_read "given_scan_id" "scan_id" d (im_uids m) /\ tags_read d (im_tags m).
  Proof.
    intros [|b|x|s|l|d] m; cbn [IngestModel.experiment]; try discriminate. intros H. apply bind_ok in H. destruct H as (ps & P & H). apply bind_ok in H. destruct H as (cs & C & H).
    apply bind_ok in H. destruct H as (qs & Q & H). apply bind_ok in H. destruct H as (t & T & H). injection H as <-. exists d. split; [reflexivity|].
    cbn [im_properties im_conditions im_parameters im_uids im_tags]. split; [apply attrs_attributes; [repeat constructor; cbn; intuition discriminate|exact P]|]. split; [apply attrs_attributes; [repeat constructor; cbn; intuition discriminate|exact C]|].
    split; [apply attrs_attributes; [repeat constructor; cbn; intuition discriminate|exact Q]|]. split; [apply uid_iff; reflexivity|apply tags_iff; exact T].
  Qed.
  (** Why an experiment is refused: its tags raise TypeError, or a known field raises what reading it alone raises. *)
  Lemma strings_err : forall l e, strings F l = Err e -> e = TypeError.
  Proof. induction l as [|v l IH]; intros e; cbn; [discriminate|]. destruct v; try (intros [= <-]; reflexivity). destruct (strings F l); cbn; [discriminate|]. intros [= <-]. apply IH. reflexivity. Qed.
  Lemma tags_err : forall d e, tags_of F nonzero d = Err e -> e = TypeError.
  Proof.
    intros d e. unfold tags_of. destruct (get F "tags" d) as [v|]; [|discriminate]. destruct (truthy F nonzero (Some v)); [|discriminate].
    destruct v; cbn [tags_set]; try discriminate; try (intros [= <-]; reflexivity). apply strings_err.
  Qed.
  Lemma attrs_err : forall names d e, (forall n, In n names -> In n (map fst d)) -> attrs names d = Err e ->
    exists n x, In n names /\ entry n d x /\ parse_value x = Err e.
  Proof.
    induction names as [|n names IH]; intros d e K; cbn [IngestModel.attrs]; [discriminate|].
    destruct (get F n d) as [x|] eqn:G.
    - destruct (IngestModel.parse_value F to_float nonneg of_bool parse_units x) as [y|e'] eqn:V; cbn [bind].
      + destruct (attrs names d) as [t|e'] eqn:T; cbn [bind]; [discriminate|]. intros [= <-]. destruct (IH d e') as (m & z & I & X & E); auto; [intros m I; apply K; right; exact I|].
        exists m, z. split; [right; exact I|auto].
      + intros [= <-]. exists n, x. split; [left; reflexivity|]. split; [apply get_entry; exact G|exact V].
    - exfalso. apply get_none in G. apply G. apply K. left. reflexivity.
  Qed.
  Theorem experiment_refused : forall v e, experiment v = Err e ->
    ((forall d, v <> DDict d) /\ e = AttributeError)
    \/ exists d, v = DDict d /\ ((e = TypeError /\ forall t, ~ tags_read d t)
         \/ exists n x, In n ["density"; "kinematic viscosity"; "temperature"; "knob_2_setting"] /\ entry n d x /\ parse_value x = Err e).
  Proof.
    assert (Pr : forall known d n, In n (present known d) -> In n known /\ In n (map fst d)).
    { intros known d n. unfold IngestModel.present. intros I. rewrite <- mem_keys, <- (filter_In (fun n => dict_mem n d)). revert I. apply Permutation_in. apply order_perm. }
    assert (A : forall known d e, attrs (present known d) d = Err e -> exists n x, In n known /\ entry n d x /\ parse_value x = Err e).
    { intros known d e H. apply attrs_err in H as (n & x & I & X); [|intros n I; apply (Pr known d n I)]. exists n, x. split; [apply (Pr known d n I)|exact X]. }
    intros v e. destruct v as [|b|x|s|l|d]; cbn [IngestModel.experiment]; try (intros [= <-]; left; split; [discriminate|reflexivity]).
    intros H. right. exists d. split; [reflexivity|].
    destruct (attrs (present known_properties d) d) as [ps|e'] eqn:P; cbn [bind] in H;
      [|injection H as <-; right; apply A in P as (n & x & I & X); exists n, x; split; [cbn in I |- *; tauto|exact X]].
    destruct (attrs (present known_conditions d) d) as [cs|e'] eqn:C; cbn [bind] in H;
      [|injection H as <-; right; apply A in C as (n & x & I & X); exists n, x; split; [cbn in I |- *; tauto|exact X]].
    destruct (attrs (present known_parameters d) d) as [qs|e'] eqn:Q; cbn [bind] in H;
      [|injection H as <-; right; apply A in Q as (n & x & I & X); exists n, x; split; [cbn in I |- *; tauto|exact X]].
    destruct (tags_of F nonzero d) as [t|e'] eqn:T; cbn [bind] in H; [discriminate|]. injection H as <-. left. split; [eapply tags_err; exact T|].
    intros t R. apply tags_iff in R. rewrite T in R. discriminate.
  Qed.
  (** An experiment is read exactly if it is a dictionary, its tags are and every known field is. *)
  Theorem experiment_succeeds : forall v, (exists m, experiment v = Ok m) <-> exists d, v = DDict d /\ (exists t, tags_read d t)
    /\ forall n x, In n ["density"; "kinematic viscosity"; "temperature"; "knob_2_setting"] -> entry n d x -> exists y, reads x y.
  Proof.
    assert (A : forall names d, (exists l, attrs names d = Ok l) <-> forall n, In n names -> exists x y, entry n d x /\ reads x y).
    { intros names d. split.
      - intros (l & H) n I. apply attrs_ok in H. destruct H as (<- & H). apply in_map_iff in I. destruct I as (a & <- & I). destruct (H a I) as (x & X & Y). eexists _, _. split; eassumption.
      - induction names as [|n names IH]; intros H; [exists []; reflexivity|]. destruct IH as (l & L); [intros m I; apply H; right; exact I|].
        destruct (H n (or_introl eq_refl)) as (x & y & X & Y). apply get_entry in X. apply parse_value_exact in Y. cbn [IngestModel.attrs]. rewrite X, Y. cbn [bind]. rewrite L. eexists; reflexivity. }
    assert (Pr : forall known d n, In n (present known d) <-> In n known /\ In n (map fst d)).
    { intros known d n. unfold IngestModel.present. rewrite <- mem_keys, <- (filter_In (fun n => dict_mem n d)). split; apply Permutation_in; [|apply Permutation_sym]; apply order_perm. }
    assert (Ex : forall n (d : list (string * dv F)), In n (map fst d) -> exists x, entry n d x).
    { intros n d I. apply mem_keys in I. unfold dict_mem in I. destruct (dict_get n d) as [x|] eqn:G; [|discriminate]. exists x. apply get_entry. exact G. }
    assert (Ek : forall n d x, entry n d x -> In n (map fst d)).
    { intros n d x (a & b & -> & _). rewrite map_app. apply in_or_app. right. left. reflexivity. }
    assert (Eu : forall n d x x', entry n d x -> entry n d x' -> x = x').
    { intros n d x x' X X'. apply get_entry in X. apply get_entry in X'. congruence. }
    assert (K : forall known d, (exists l, attrs (present known d) d = Ok l) <-> forall n x, In n known -> entry n d x -> exists y, reads x y).
    { intros known d. rewrite A. split.
      - intros H n x I X. destruct (H n) as (x' & y & X' & Y); [apply Pr; split; [exact I|eapply Ek; exact X]|]. exists y. rewrite (Eu _ _ _ _ X X'). exact Y.
      - intros H n I. apply Pr in I. destruct I as (I & J). apply Ex in J. destruct J as (x & X). destruct (H n x I X) as (y & Y). exists x, y. split; assumption. }
    intros v. split.
    - intros (m & H). destruct v as [|b|x|s|l|d]; cbn [IngestModel.experiment] in H; try discriminate. apply bind_ok in H. destruct H as (ps & P & H). apply bind_ok in H. destruct H as (cs & C & H).
      apply bind_ok in H. destruct H as (qs & Q & H). apply bind_ok in H. destruct H as (t & T & H). exists d. split; [reflexivity|]. split; [exists t; apply tags_iff; exact T|].
      intros n x I X. cbn [In] in I. destruct I as [I|[I|[I|[I|[]]]]]; subst n.
      + apply (proj1 (K known_properties d) (ex_intro _ _ P) "density" x); [left; reflexivity|exact X].
      + apply (proj1 (K known_properties d) (ex_intro _ _ P) "kinematic viscosity" x); [right; left; reflexivity|exact X].
      + apply (proj1 (K known_conditions d) (ex_intro _ _ C) "temperature" x); [left; reflexivity|exact X].
      + apply (proj1 (K known_parameters d) (ex_intro _ _ Q) "knob_2_setting" x); [left; reflexivity|exact X].
    - intros (d & -> & (t & T) & H). apply tags_iff in T. cbn [IngestModel.experiment].
      destruct (proj2 (K known_properties d)) as (ps & P); [intros n x I X; apply (H n x); [cbn in *; tauto|exact X]|].
      destruct (proj2 (K known_conditions d)) as (cs & C); [intros n x I X; apply (H n x); [cbn in *; tauto|exact X]|].
      destruct (proj2 (K known_parameters d)) as (qs & Q); [intros n x I X; apply (H n x); [cbn in *; tauto|exact X]|].
      rewrite P, C, Q, T. cbn. eexists; reflexivity.
  Qed.
  Lemma each_forall : forall A B (f : A -> res B) l ys, each f l = Ok ys <-> Forall2 (fun x y => f x = Ok y) l ys.
  Proof.
    induction l as [|x l IH]; intros ys; cbn.
    - split; [intros E; inversion E; constructor|intros H; inversion H; reflexivity].
    - split.
      + intros H. apply bind_ok in H. destruct H as (y & Y & H). apply bind_ok in H. destruct H as (zs & Z & H). injection H as <-. constructor; [exact Y|apply IH; exact Z].
      + intros H. inversion H as [|? y ? zs Y Z]; subst. rewrite Y. cbn. apply IH in Z. rewrite Z. reflexivity.
  Qed.
  Notation experiments_read := (experiments_read F).
  Lemma experiments_iff : forall d es, match get F "experiments" d with Some v => iterate F v | None => Ok [] end = Ok es <-> experiments_read d es.
  Proof.
    intros d es. split.
    - destruct (get F "experiments" d) as [v|] eqn:G; [|intros H; injection H as <-; apply exp_absent; apply get_none; exact G]. pose proof (proj1 (get_entry _ _ _) G) as E.
      destruct v as [|b|x|s|l|l]; cbn [iterate]; try discriminate; intros H; injection H as <-; [apply exp_text|apply exp_list|apply exp_keys]; exact E.
    - intros [H|l E|s E|l E]; [unfold get; rewrite (proj2 (get_none _ _) H); reflexivity| | |]; rewrite (proj2 (get_entry _ _ _) E); reflexivity.
  Qed.
  (** What a dictionary becomes: a run with a measurement for each experiment, in order. The process run is attached; the spec never is. *)
  Theorem ingest_read : forall S P d (spec : option S) (proc : option P) r, ingest (DDict d) spec proc = Ok r ->
    exists m es, r = IMat m
      /\ experiments_read d es
      /\ Forall2 (fun e x => experiment e = Ok x) es (mt_measurements m)
      /\ uid_read "given_sample_id" "sample_id" d (mt_uids m) /\ tags_read d (mt_tags m) /\ mt_process m = proc.
  Proof.
    intros S P d spec proc r. cbn [IngestModel.ingest_material_run]. unfold IngestModel.ingest_dict. intros H. apply bind_ok in H. destruct H as (m & M & H). injection H as <-.
    apply bind_ok in M. destruct M as (t & T & M). apply bind_ok in M. destruct M as (es & E & M). apply bind_ok in M. destruct M as (ms & Ms & M). injection M as <-.
    eexists _, es. split; [reflexivity|]. cbn. split; [apply experiments_iff; exact E|]. split; [apply each_forall; exact Ms|].
    split; [apply uid_iff; reflexivity|]. split; [apply tags_iff; exact T|reflexivity].
  Qed.
  (** It succeeds exactly if tags and experiments can be read. *)
  Theorem ingest_succeeds : forall S P d (spec : option S) (proc : option P), (exists r, ingest (DDict d) spec proc = Ok r) <->
    (exists t, tags_read d t) /\ exists es, experiments_read d es
      /\ Forall (fun e => exists x, experiment e = Ok x) es.
  Proof.
    intros S P d spec proc. split.
    - intros (r & H). apply ingest_read in H. destruct H as (m & es & -> & E & Fe & _ & T & _). split; [eexists; exact T|]. exists es. split; [exact E|].
      clear -Fe. induction Fe; constructor; [eexists; eassumption|assumption].
    - intros ((t & T) & es & E & Fe). apply tags_iff in T. cbn [IngestModel.ingest_material_run]. unfold IngestModel.ingest_dict. rewrite T. cbn [bind].
      assert (Ms : exists ms, each experiment es = Ok ms).
      { clear -Fe. induction Fe as [|e es (x & X) Fe (ms & IH)]; [exists []; reflexivity|]. exists (x :: ms). cbn. rewrite X. cbn. rewrite IH. reflexivity. }
      destruct Ms as (ms & Ms). rewrite (proj2 (experiments_iff d es) E). cbn [bind]. rewrite Ms. cbn. eexists; reflexivity.
  Qed.
  (** A list becomes the list of what its elements become, without the process run. *)
  Theorem ingest_list : forall S P l (spec : option S) (proc : option P) r, ingest (DList l) spec proc = Ok r <->
    exists xs, r = IList xs /\ Forall2 (fun d x => ingest d spec (@None P) = Ok x) l xs.
  Proof.
    intros S P l spec proc r. cbn [IngestModel.ingest_material_run].
    set (go := fix go (l : list (dv F)) : res (list (ingested F S P)) := match l with [] => Ok [] | x :: r => do y <- ingest x spec None; do ys <- go r; Ok (y :: ys) end).
    assert (G : forall l xs, go l = Ok xs <-> Forall2 (fun d x => ingest d spec (@None P) = Ok x) l xs).
    { clear. induction l as [|x l IH]; intros ys; cbn [go].
      - split; [intros E; inversion E; constructor|intros H; inversion H; reflexivity].
      - fold go. split.
        + intros H. apply bind_ok in H. destruct H as (y & Y & H). apply bind_ok in H. destruct H as (zs & Z & H). injection H as <-. constructor; [exact Y|apply IH; exact Z].
        + intros H. inversion H as [|? y ? zs Y Z]; subst. rewrite Y. cbn [bind]. apply IH in Z. rewrite Z. reflexivity. }
    rewrite bind_ok. split.
    - intros (xs & H & K). injection K as <-. exists xs. split; [reflexivity|apply G; exact H].
    - intros (xs & -> & H). exists xs. split; [apply G; exact H|reflexivity].
  Qed.
  (** The spec that is given is never the spec of the run: it is set as another attribute. *)
  Theorem ingest_spec_refuted : forall S P d (s : S) (proc : option P) m, ingest (DDict d) (Some s) proc = Ok (IMat m) -> mt_spec m = None /\ mt_other m = [("material_spec", s)].
  Proof.
    intros S P d s proc m. cbn [IngestModel.ingest_material_run]. unfold IngestModel.ingest_dict. intros H. apply bind_ok in H. destruct H as (m' & M & H). injection H as <-.
    apply bind_ok in M. destruct M as (t & T & M). apply bind_ok in M. destruct M as (es & E & M). apply bind_ok in M. destruct M as (ms & Ms & M). injection M as <-. split; reflexivity.
  Qed.
  (** The process run that is given with a list is attached to none of its runs. *)
  Theorem ingest_process_refuted : forall S P l (spec : option S) (proc : option P) xs, ingest (DList l) spec proc = Ok (IList xs) ->
    forall m, In (IMat m) xs -> mt_process m = None.
  Proof.
    intros S P l spec proc xs H m I. apply ingest_list in H. destruct H as (ys & E & Fl). injection E as <-.
    induction Fl as [|d x l ys D Fl IH]; [destruct I|]. destruct I as [->|I]; [|apply IH; exact I].
    destruct d as [|b|x|s|l'|d]; try discriminate.
    - apply ingest_list in D. destruct D as (? & K & _). discriminate.
    - apply ingest_read in D. destruct D as (m' & es & K & _ & _ & _ & _ & Pr). injection K as ->. exact Pr.
  Qed.

  (** ingest_table adds a measurement for each row, in order, with the columns it knows. *)
  Definition column_read (name : string) (row : list (string * F)) (u : string) (l : list (iattr F)) : Prop :=
    match dict_get name row with Some x => l = [mkIA name (VNominal x u)] | None => l = [] end.
  Theorem ingest_table_exact : forall u ms table out, parse_units "" = Ok u ->
    (ingest_table F parse_units ms table = Ok out <-> exists new, out = ms ++ new
      /\ Forall2 (fun row m => column_read "vapor pressure" row u (im_properties m) /\ column_read "temperature" row u (im_conditions m)
                               /\ im_parameters m = [] /\ im_uids m = [] /\ im_tags m = []) table new).
  Proof.
    intros u ms table out U. unfold ingest_table. rewrite bind_ok.
    assert (Cl : forall n row l, column F parse_units [n] row = Ok l <-> column_read n row u l).
    { intros n row l. unfold column, column_read. cbn [flat_map]. rewrite app_nil_r. destruct (dict_get n row) as [x|]; cbn.
      - unfold nominal. rewrite U. cbn. split; [intros H; injection H as <-; reflexivity|intros ->; reflexivity].
      - split; [intros H; injection H as <-; reflexivity|intros ->; reflexivity]. }
    assert (R : forall row m, row_measurement F parse_units row = Ok m <-> column_read "vapor pressure" row u (im_properties m) /\ column_read "temperature" row u (im_conditions m)
                               /\ im_parameters m = [] /\ im_uids m = [] /\ im_tags m = []).
    { intros row m. unfold row_measurement. rewrite bind_ok. split.
      - intros (ps & P & H). apply bind_ok in H. destruct H as (cs & C & H). injection H as <-. cbn. split; [apply Cl; exact P|]. split; [apply Cl; exact C|]. repeat split.
      - destruct m as [ps cs qs us ts]; cbn [im_properties im_conditions im_parameters im_uids im_tags]. intros (P & C & -> & -> & ->). exists ps. split; [apply Cl; exact P|]. rewrite (proj2 (Cl _ _ _) C). reflexivity. }
    split.
    - intros (new & H & K). injection K as <-. exists new. split; [reflexivity|]. apply each_forall in H. clear -H R. induction H; constructor; [apply R; assumption|assumption].
    - intros (new & -> & H). exists new. split; [|reflexivity]. apply each_forall. clear -H R. induction H; constructor; [apply R; assumption|assumption].
  Qed.
End P.

(** ** Cases *)
Definition ex_float (s : string) : option nat := if String.eqb s "1.0" then Some 10 else if String.eqb s "0.5" then Some 5 else if String.eqb s "300" then Some 3000 else None.
Definition ex_units (s : string) : res string :=
  if existsb (String.eqb s) [""; "g/cm^3"; "g / cm^3"; "cm^3"; "K"] then Ok s else Err UndefinedUnitError.
Definition ex_parse := parse_value nat ex_float (fun _ => true) (fun b => if b then 10 else 0) ex_units.
Definition ex_ingest (d : dv nat) := ingest_material_run nat ex_float (fun _ => true) (fun b => if b then 10 else 0) (fun n => negb (n =? 0)) ex_units (fun l => l) d (Some 7) (Some 8).
Example ingest_ex :
  ex_parse (DStr "1.0 +- 0.5 g/cm^3") = Ok (VNormal 10 5 "g/cm^3")
  /\ ex_parse (DStr " 300 K ") = Ok (VNominal 3000 "K")
  /\ ex_parse (DStr "low") = Ok (VCategory "low")
  /\ ex_parse (DStr "300") = Ok (VNominal 3000 "")
  /\ ex_parse (DStr "1.0 +-") = Err IndexError
  /\ ex_parse (DStr "very low") = Err ValueError
  /\ ex_parse DNone = Err ValueError
  /\ ex_ingest (DDict [("sample_id", DStr "a"); ("experiments", DList [DDict [("temperature", DStr "300 K"); ("tags", DStr "warm up"); ("colour", DStr "red")]])])
     = Ok (IMat (mkMat [("given_sample_id", DStr "a")] [] [mkIM [] [mkIA "temperature" (VNominal 3000 "K")] [] [] ["warm up"]] None (Some 8) [("material_spec", 7)])).
Proof. repeat split; vm_compute; reflexivity. Qed.
(** The unit of a text with spaces in the unit is that of its last word, even if the whole is a unit. *)
Theorem unit_with_spaces_refuted : exists (to_float : string -> option nat) parse_units,
  parse_units "g / cm^3" = Ok "g / cm^3" /\ parse_value nat to_float (fun _ => true) (fun _ => 0) parse_units (DStr "1.0 g / cm^3") = Ok (VNominal 10 "cm^3").
Proof. exists ex_float, ex_units. split; vm_compute; reflexivity. Qed.

Print Assumptions split_words.
Print Assumptions parse_value_exact.
Print Assumptions parse_value_refused.
Print Assumptions parse_value_other.
Print Assumptions experiment_read.
Print Assumptions experiment_refused.
Print Assumptions experiment_succeeds.
Print Assumptions ingest_read.
Print Assumptions ingest_succeeds.
Print Assumptions ingest_list.
Print Assumptions ingest_spec_refuted.
Print Assumptions ingest_process_refuted.
Print Assumptions ingest_table_exact.
Print Assumptions unit_with_spaces_refuted.
