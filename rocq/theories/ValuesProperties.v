(** C05 (UniformInteger), C30-C33. *)
From Coq Require Import String Ascii List Bool ZArith QArith Qabs Lia Lqa.
From Verif Require Import Base BaseFacts PyStr BoundsModel BoundsSpec BoundsProofs ValuesModel ValuesSpec ValuesProofs.
Import ListNotations.
Open Scope list_scope.

(** ** C05 *)
Theorem uniform_integer_never_inverted : forall x y s ops, init_uniform x y = Ok s ->
  match ilo (urun s ops), ihi (urun s ops) with Some l, Some h => (l <= h)%Z | _, _ => True end.
Proof.
  intros x y s ops H. apply init_uniform_ok in H as (l & h & -> & L & _). apply (urun_ok ops). exact L.
Qed.

Theorem uniform_integer_rejected_unchanged : forall x y s ops o s' e, init_uniform x y = Ok s ->
  ustep (urun s ops) o = (s', Some e) -> s' = urun s ops.
Proof.
  intros x y s ops o s' e H E. pose proof (uniform_integer_never_inverted x y s ops H) as N.
  apply (ustep_ok _ _ _ _ N) in E as [_ E]. apply E; discriminate.
Qed.

Lemma int_like_val : forall x z, int_like x = Ok z -> exists q, num_value x = Some q /\ q == inject_Z z.
Proof.
  intros [|z'|q| | |] z; unfold int_like; try discriminate.
  - intros H; inv H. eexists; split; reflexivity.
  - destruct (Zpos (Qden (Qred q)) =? 1)%Z eqn:E; [|discriminate].
    intros H; inv H. exists q. split; auto. apply Z.eqb_eq in E. injection E as E.
    rewrite <- (Qred_correct q) at 1. destruct (Qred q) as [n d]; cbn in *. subst d. reflexivity.
Qed.

(** A constructed UniformInteger has exactly the endpoints it was given. *)
Theorem uniform_integer_exact : forall x y s, init_uniform x y = Ok s -> exists l h q r,
  s = mkI (Some l) (Some h) /\ num_value x = Some q /\ num_value y = Some r /\ q == inject_Z l /\ r == inject_Z h.
Proof.
  intros x y s H. apply init_uniform_ok in H as (l & h & -> & _ & X & Y).
  apply int_like_val in X as (q & X & Q), Y as (r & Y & R). exists l, h, q, r. auto.
Qed.

Example uniform_case : init_uniform (PyInt (-3)) (PyFloat 7) = Ok (mkI (Some (-3)%Z) (Some 7%Z)) /\
  urun (mkI (Some (-3)%Z) (Some 7%Z)) [USetLo (PyInt 9); USetHi (PyFloat (1 # 2)); USetLo (PyInt 7)] =
  mkI (Some 7%Z) (Some 7%Z).
Proof. split; vm_compute; reflexivity. Qed.

(** UniformReal does become inverted: its attributes are unchecked (finding). *)
Theorem uniform_real_never_inverted_refuted : exists x y s z l h,
  init_uniform_real x y = Ok s /\ num_value (ur_lo (set_ur_lo s z)) = Some l /\
  num_value (ur_hi (set_ur_lo s z)) = Some h /\ h < l.
Proof.
  exists (PyInt 0), (PyInt 1), (mkUR (PyInt 0) (PyInt 1)), (PyInt 5), 5, 1. repeat split.
Qed.

(** ** C30 *)

(** Missing in the partial theorems: spellings with white space at an end, which can never be matched. *)
Theorem from_str_partial : forall cls s, all_trimmed cls ->
  (forall m ex, from_str cls (Some s) ex = Ok (Some m) <-> first_read cls s m) /\
  (from_str cls (Some s) true = Err ValueError <-> forall m t, In m cls -> spelling m t -> ~ reads s t) /\
  (from_str cls (Some s) false = Ok None <-> forall m t, In m cls -> spelling m t -> ~ reads s t).
Proof.
  intros cls s T. unfold from_str. split; [|split].
  - intros m ex. rewrite <- find_spec by auto. destruct (find _ cls) as [m'|].
    + destruct ex; split; congruence.
    + destruct ex; split; congruence.
  - rewrite <- find_none_spec by auto. destruct (find _ cls); split; congruence.
  - rewrite <- find_none_spec by auto. destruct (find _ cls); split; congruence.
Qed.

Theorem from_str_none : forall cls, from_str cls None false = Ok None /\ from_str cls None true = Err ValueError.
Proof. auto. Qed.

(** Every member of a class that could be defined is recovered from its own value, by from_str and
    by calling the class. *)
Theorem enum_own_value_partial : forall ms cls m, define_enum [] ms = Ok cls -> all_trimmed ms -> In m cls ->
  cls = ms /\ (forall ex, from_str cls (Some (mvalue m)) ex = Ok (Some m)) /\ enum_call cls (mvalue m) = Ok m.
Proof.
  intros ms cls m D T I. apply define_enum_sep in D as [S ->].
  2:{ intros l1 x l2 E. destruct l1; discriminate. }
  2:{ exact T. }
  cbn [app] in *. split; auto.
  apply in_split in I as (l1 & l2 & E). pose proof (S l1 m l2 E) as N.
  assert (F : find (fun m' => existsb (String.eqb (strip (lower (mvalue m)))) (matches m')) ms = Some m).
  { apply find_first. exists l1, l2. split; auto. split.
    - apply match_reads with ms; auto; [subst; apply in_elt|]. exists (mvalue m). split; [now left|apply reads_self].
    - intros y Y. exact (find_none _ _ N y Y). }
  split.
  - intros ex. unfold from_str. rewrite F. reflexivity.
  - unfold enum_call. assert (G : find (fun m' => String.eqb (mvalue m') (mvalue m)) ms = Some m).
    { apply find_first. exists l1, l2. split; auto. split; [apply String.eqb_refl|].
      intros y Y. destruct (String.eqb (mvalue y) (mvalue m)) eqn:Q; auto. apply String.eqb_eq in Q.
      pose proof (find_none _ _ N y Y) as NY. cbn beta in NY.
      assert (existsb (String.eqb (strip (lower (mvalue m)))) (matches y) = true); [|congruence].
      apply match_reads with ms; auto; [subst; apply in_or_app; auto|]. exists (mvalue y). split; [now left|].
      rewrite Q. apply reads_self. }
    now rewrite G.
Qed.

(** Values are distinct up to case. *)
Theorem enum_values_distinct_partial : forall ms cls l1 m1 l2 m2 l3, define_enum [] ms = Ok cls -> all_trimmed ms ->
  cls = l1 ++ m1 :: l2 ++ m2 :: l3 -> lower (mvalue m1) <> lower (mvalue m2).
Proof.
  intros ms cls l1 m1 l2 m2 l3 D T E L. apply define_enum_sep in D as [S ->].
  2:{ intros l x l' E'. destruct l; discriminate. }
  2:{ exact T. }
  cbn [app] in *. specialize (S (l1 ++ m1 :: l2) m2 l3). rewrite <- app_assoc in S. specialize (S E).
  assert (I : In m1 (l1 ++ m1 :: l2)) by apply in_elt.
  pose proof (find_none _ _ S m1 I) as N. cbn beta in N.
  assert (existsb (String.eqb (strip (lower (mvalue m2)))) (matches m1) = true); [|congruence].
  apply match_reads with ms; auto; [subst; apply in_elt|]. exists (mvalue m1). split; [now left|].
  destruct (reads_self (mvalue m2)) as (a & core & b & X & A & B & Y). exists a, core, b. repeat split; auto. congruence.
Qed.

(** What the duplicate check does not see (finding): a value with white space at an end is not
    recovered and may be repeated, and a synonym may repeat an earlier member. *)
Theorem enum_untrimmed_refuted : exists m cls, define_enum [] [m] = Ok cls /\
  from_str cls (Some (mvalue m)) false = Ok None.
Proof. exists (mkMember " a" []). eexists. split; vm_compute; reflexivity. Qed.
Theorem enum_untrimmed_distinct_refuted : exists m1 m2 cls, define_enum [] [m1; m2] = Ok cls /\
  lower (mvalue m1) = lower (mvalue m2).
Proof. exists (mkMember " a" []), (mkMember " A" []). eexists. split; vm_compute; reflexivity. Qed.
Theorem enum_synonym_refuted : exists m1 m2 cls t, define_enum [] [m1; m2] = Ok cls /\ m1 <> m2 /\
  spelling m1 t /\ spelling m2 t.
Proof.
  exists (mkMember "a" []), (mkMember "b" ["a"]%string). do 2 eexists. split; [vm_compute; reflexivity|].
  split; [discriminate|]. split; [now left|]. right. now left.
Qed.

Definition fruits := [mkMember "Apple" []; mkMember "Avocado" ["Alligator Pear"%string]].
Example enum_case : define_enum [] fruits = Ok fruits /\
  from_str fruits (Some "  alligator PEAR "%string) true = Ok (Some (mkMember "Avocado" ["Alligator Pear"%string])) /\
  from_str fruits (Some "pear"%string) true = Err ValueError.
Proof. repeat split; vm_compute; reflexivity. Qed.
Lemma trimmed_check : forall s, strip s = s -> trimmed s.
Proof. intros s H. rewrite <- H. destruct (strip_split s) as (a & b & _ & _ & _ & T). exact T. Qed.
Example enum_case_trimmed : all_trimmed fruits.
Proof.
  intros m t [<-|[<-|[]]] [->|I]; cbn in *; try tauto; try (apply trimmed_check; reflexivity).
  destruct I as [<-|[]]. apply trimmed_check; reflexivity.
Qed.

(** gemd/enumeration/origin.py:7-15 and sample_type.py:7-13: the shipped enumerations can be defined. *)
Definition origin := map (fun s => mkMember s []) ["measured"; "predicted"; "summary"; "specified"; "computed"; "unknown"]%string.
Definition sample_type := map (fun s => mkMember s []) ["experimental"; "production"; "virtual"; "unknown"]%string.
Example shipped_enums : define_enum [] origin = Ok origin /\ define_enum [] sample_type = Ok sample_type.
Proof. split; vm_compute; reflexivity. Qed.

(** ** C31 *)
Theorem inchi_prefix : forall old s, exists body, set_inchi old (SStr s) = (Some ("InChI" ++ body)%string, None).
Proof.
  intros old s. cbn. unfold normal_inchi.
  destruct (startswith "1s/" (lower s)) eqn:A.
  - apply startswith_iff in A as [r A]. apply lower_split in A as (a & b & -> & A & _).
    destruct a as [|c1 [|c2 [|c3 [|]]]]; try discriminate. cbn [take append].
    change (String c1 (String c2 (String c3 b))) with (String c1 (String c2 "") ++ String c3 b)%string.
    rewrite replace_at_start. cbn. eauto.
  - destruct (startswith "inchi" (lower s)) eqn:B; cbn [negb]; [|cbn; eauto].
    destruct (startswith "InChI" s) eqn:C; cbn [negb].
    + apply startswith_iff in C as [r ->]. exists r. reflexivity.
    + apply startswith_iff in B as [r B]. apply lower_split in B as (a & b & -> & B & _).
      destruct a as [|c1 [|c2 [|c3 [|c4 [|c5 [|]]]]]]; try discriminate. cbn [take append].
      change (String c1 (String c2 (String c3 (String c4 (String c5 b)))))
        with (String c1 (String c2 (String c3 (String c4 (String c5 "")))) ++ b)%string.
      rewrite replace_at_start. cbn. eauto.
Qed.

Theorem inchi_idempotent : forall old old' s t, set_inchi old (SStr s) = (Some t, None) ->
  set_inchi old' (SStr t) = (Some t, None).
Proof.
  intros old old' s t H. destruct (inchi_prefix old s) as [body E]. rewrite E in H. inv H.
  cbn. unfold normal_inchi. cbn. reflexivity.
Qed.

(** Only the prefix changes, provided the text of the prefix does not occur again in the body. *)
Theorem inchi_body_kept_partial : forall old,
  (forall one s body, lower (String one (String s "")) = "1s"%string ->
     ~ occurs (String one (String s "")) ("/" ++ body) ->
     set_inchi old (SStr (String one (String s ("/" ++ body)))) = (Some ("InChI=1S/" ++ body)%string, None)) /\
  (forall p body, lower p = "inchi"%string -> ~ occurs p body ->
     set_inchi old (SStr (p ++ body)) = (Some ("InChI" ++ body)%string, None)) /\
  (forall body, startswith "1s/" (lower body) = false -> startswith "inchi" (lower body) = false ->
     set_inchi old (SStr body) = (Some ("InChI=1S/" ++ body)%string, None)).
Proof.
  intros old. split; [|split].
  - intros one s body L N. cbn [set_inchi]. do 2 f_equal. unfold normal_inchi.
    change (String one (String s ("/" ++ body))) with (String one (String s "") ++ ("/" ++ body))%string.
    rewrite lower_app, L, (lower_app "/" body). change (lower "/") with "/"%string.
    change (startswith "1s/" ("1s" ++ "/" ++ lower body)) with (startswith "1s/" ("1s/" ++ lower body)).
    rewrite startswith_app.
    change (take 2 (String one (String s "") ++ "/" ++ body)) with (String one (String s "")).
    rewrite replace_at_start, replace_absent by auto. reflexivity.
  - intros p body L N. cbn [set_inchi]. do 2 f_equal. unfold normal_inchi. rewrite lower_app, L.
    change (startswith "1s/" ("inchi" ++ lower body)) with false. cbn iota.
    rewrite startswith_app. cbn [negb].
    destruct p as [|c1 [|c2 [|c3 [|c4 [|c5 [|]]]]]]; try discriminate.
    destruct (startswith "InChI" _) eqn:E; cbn [negb].
    + apply startswith_iff in E as [r E]. cbn in E. inv E. reflexivity.
    + change (take 5 (String c1 (String c2 (String c3 (String c4 (String c5 "")))) ++ body))
        with (String c1 (String c2 (String c3 (String c4 (String c5 ""))))).
      rewrite replace_at_start, replace_absent by auto. reflexivity.
  - intros body A B. cbn. unfold normal_inchi. rewrite A, B. reflexivity.
Qed.

(** In general the body is altered (finding): "1S/..1S.." *)
Theorem inchi_body_kept_refuted : exists body,
  set_inchi None (SStr ("1S/" ++ body)) <> (Some ("InChI=1S/" ++ body)%string, None).
Proof. exists "C5H11S1S"%string. vm_compute. discriminate. Qed.

Example inchi_case : set_inchi None (SStr "1s/CH4/h1H4") = (Some "InChI=1S/CH4/h1H4"%string, None) /\
  set_inchi None (SStr "INCHI=1S/CH4") = (Some "InChI=1S/CH4"%string, None) /\
  set_inchi None (SStr "CH4/h1H4") = (Some "InChI=1S/CH4/h1H4"%string, None).
Proof. repeat split; vm_compute; reflexivity. Qed.

(** ** C32 *)
Lemma all_elements_symbols : forall t, In t all_elements <-> In t symbols.
Proof.
  intros t. split; revert t; apply subset_incl; vm_compute; reflexivity.
Qed.

Lemma subset_false : forall a b, subset a b = false -> exists t, In t a /\ ~ In t b.
Proof.
  intros a b E. unfold subset in E. induction a as [|t l IH]; [discriminate|]. cbn [forallb] in E.
  apply andb_false_iff in E as [E|E].
  - exists t. split; [now left|]. intros N. assert (existsb (String.eqb t) b = true); [|congruence].
    apply existsb_exists. exists t. split; auto. apply String.eqb_refl.
  - destruct IH as (t' & I & F); auto. exists t'. split; auto. now right.
Qed.

Lemma set_formula_str : forall old s, set_formula old (SStr s) =
  if subset (elements s) all_elements then (Some s, None) else (old, Some ValueError).
Proof. reflexivity. Qed.

Theorem formula_accepted_iff : forall old s,
  (set_formula old (SStr s) = (Some s, None) /\ forall t, element_token s t -> In t symbols) \/
  (set_formula old (SStr s) = (old, Some ValueError) /\ exists t, element_token s t /\ ~ In t symbols).
Proof.
  intros old s. rewrite set_formula_str. destruct (subset (elements s) all_elements) eqn:E.
  - left. split; auto. intros t T. refine (proj1 (all_elements_symbols t) _).
    apply (proj1 (subset_incl _ _) E). now apply elements_In.
  - right. split; auto. apply subset_false in E as (t & I & N). exists t.
    split; [now apply elements_In|]. intros H. exact (N (proj2 (all_elements_symbols t) H)).
Qed.

Theorem formula_other_arguments : forall old,
  set_formula old SNoneV = (None, None) /\ set_formula old SNotStr = (old, Some TypeError).
Proof. auto. Qed.

(** What the check does not reject: digits, punctuation and lower-case text are ignored. *)
Theorem formula_only_symbols_refuted : exists s, set_formula None (SStr s) = (Some s, None) /\
  forall t, ~ element_token s t.
Proof.
  exists "xyz !?"%string. split; [vm_compute; reflexivity|]. intros t T. apply elements_In in T. vm_compute in T. tauto.
Qed.

Example formula_case : set_formula None (SStr "(C2H5)2NaCl3") = (Some "(C2H5)2NaCl3"%string, None) /\
  set_formula (Some "H2"%string) (SStr "C2Xx5") = (Some "H2"%string, Some ValueError).
Proof. split; vm_compute; reflexivity. Qed.

(** ** C33. Missing: arguments whose sum is NaN, which are accepted (finding). *)
Theorem probabilities_normalised_partial : forall ops, Forall no_nan ops -> normalised (prun None ops).
Proof.
  intros ops. assert (G : forall ops s, normalised s -> Forall no_nan ops -> normalised (prun s ops)).
  { clear. intros ops; induction ops as [|o r IH]; intros s N F; cbn; auto. inv F.
    apply IH; auto. destruct (set_probabilities s o) eqn:E. eapply set_probs_ok; eauto. }
  apply G. exact I.
Qed.

Theorem probabilities_rejected_unchanged : forall old a p e, set_probabilities old a = (p, Some e) -> p = old.
Proof.
  intros old [|s|d|] p e; cbn; try congruence.
  destruct (num_sum _ _); [|congruence]. destruct (off_one _); [congruence|]. destruct (validate_keys d); congruence.
Qed.

(** An accepted mapping is stored as given; a string gets probability one. *)
Theorem probabilities_stored : forall old p,
  (forall d, set_probabilities old (PrDict d) = (p, None) ->
     exists l, p = Some l /\ map snd l = map snd d /\ Forall2 (fun x y => fst x = OStr (fst y)) d l) /\
  (forall s, set_probabilities old (PrStr s) = (p, None) -> p = Some [(s, PyFloat 1)]).
Proof.
  intros old p. split.
  - intros d. cbn. destruct (num_sum _ _); [|discriminate]. destruct (off_one _); [discriminate|].
    destruct (validate_keys d) as [l|] eqn:V; [|discriminate]. intros H; inv H. exists l. split; auto.
    now apply validate_keys_total.
  - intros s H. cbn in H. congruence.
Qed.

(** Every finite mapping with string keys and total within tolerance is accepted. *)
Theorem probabilities_accepted : forall old l q, total l = Some q -> Qabs (q - 1) <= 1 # 1000000000 ->
  set_probabilities old (PrDict (map (fun kv => (OStr (fst kv), snd kv)) l)) = (Some l, None).
Proof.
  intros old l q T L. cbn [set_probabilities].
  assert (V : validate_keys (map (fun kv => (OStr (fst kv), snd kv)) l) = Ok l).
  { clear. induction l as [|[k v] l IH]; cbn; auto. now rewrite IH. }
  rewrite V, map_map. cbn [snd].
  assert (S : forall l acc a q, num_value acc = Some a -> total l = Some q ->
     exists z s, num_sum acc (map (fun x : string * pynum => snd x) l) = Ok z /\ num_value z = Some s /\ s == a + q).
  { clear. intros l; induction l as [|[k x] l IH]; intros acc a q A T; cbn in *.
    - inv T. exists acc, a. repeat split; auto. lra.
    - destruct (num_value x) as [b|] eqn:X; [|discriminate]. destruct (total l) as [t|] eqn:TT; [|discriminate]. inv T.
      assert (exists s c, num_add acc x = Ok s /\ num_value s = Some c /\ c == a + b) as (s & c & S1 & S2 & S3).
      { destruct acc as [|i|f| | |], x as [|j|g| | |]; try discriminate A; try discriminate X;
          injection A as <-; injection X as <-; cbn; do 2 eexists; (split; [reflexivity|]); (split; [reflexivity|]);
          try reflexivity. rewrite inject_Z_plus. reflexivity. }
      rewrite S1. cbn [bind]. destruct (IH s c t S2 eq_refl) as (z & r & Z1 & Z2 & Z3). exists z, r.
      repeat split; auto. lra. }
  destruct (S l (PyInt 0) 0 q eq_refl T) as (z & s & E & Z & Q). rewrite E.
  assert (O : off_one z = false).
  { assert (X : Qabs (s - 1) <= 1 # 1000000000) by (assert (Y : s - 1 == q - 1) by lra; now rewrite Y).
    destruct z; try discriminate Z; injection Z as <-; unfold off_one; rewrite negb_false_iff; now apply Qle_bool_iff. }
  now rewrite O.
Qed.

Theorem probabilities_nan_refuted : exists a p, set_probabilities None a = (p, None) /\ ~ normalised p.
Proof.
  exists (PrDict [(OStr "a", PyNaN)]), (Some [("a"%string, PyNaN)]). split; [reflexivity|].
  intros (q & T & _). discriminate.
Qed.

Example probabilities_case : set_probabilities None (PrDict [(OStr "a", PyFloat (1 # 4)); (OStr "b", PyFloat (3 # 4))])
    = (Some [("a"%string, PyFloat (1 # 4)); ("b"%string, PyFloat (3 # 4))], None) /\
  no_nan (PrDict [(OStr "a", PyFloat (1 # 4)); (OStr "b", PyFloat (3 # 4))]).
Proof.
  split; [vm_compute; reflexivity|]. cbn. split; [|intros [H _]; revert H]; intuition discriminate.
Qed.

Print Assumptions uniform_integer_never_inverted.
Print Assumptions uniform_integer_rejected_unchanged.
Print Assumptions uniform_integer_exact.
Print Assumptions uniform_real_never_inverted_refuted.
Print Assumptions from_str_partial.
Print Assumptions from_str_none.
Print Assumptions enum_own_value_partial.
Print Assumptions enum_values_distinct_partial.
Print Assumptions enum_untrimmed_refuted.
Print Assumptions enum_untrimmed_distinct_refuted.
Print Assumptions enum_synonym_refuted.
Print Assumptions inchi_prefix.
Print Assumptions inchi_idempotent.
Print Assumptions inchi_body_kept_partial.
Print Assumptions inchi_body_kept_refuted.
Print Assumptions formula_accepted_iff.
Print Assumptions formula_other_arguments.
Print Assumptions formula_only_symbols_refuted.
Print Assumptions probabilities_normalised_partial.
Print Assumptions probabilities_rejected_unchanged.
Print Assumptions probabilities_stored.
Print Assumptions probabilities_accepted.
Print Assumptions probabilities_nan_refuted.
