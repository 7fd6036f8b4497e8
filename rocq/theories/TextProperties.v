(** C52: enumerations, InChI texts and probabilities for every text and table. *)
From Coq Require Import String Ascii List Bool ZArith QArith Qabs Lia Lqa.
From Verif Require Import Base BaseFacts PyStr BoundsModel BoundsSpec ValuesModel ValuesSpec ValuesProofs TextModel TextSpec TextProofs.
Import ListNotations.
Open Scope list_scope.

(** Which classes can be written down. *)
Theorem enum_declared : forall ms, match define_enum [] ms with
  | Ok cls => declares ms cls
  | Err e => e = ValueError /\ exists ms1 m ms2 cls, ms = ms1 ++ m :: ms2 /\ declares ms1 cls /\ ~ unread cls (mvalue m)
  end.
Proof. intros ms. destruct (define_declares ms) as [(cls & -> & D)|(-> & R)]; auto. Qed.
(** Values are distinct; every member was declared and every declared value has its member. *)
Theorem enum_members : forall ms cls, define_enum [] ms = Ok cls -> NoDup (map mvalue cls) /\
  (forall m, In m cls -> In m ms) /\ (forall m, In m ms -> exists m', In m' cls /\ mvalue m' = mvalue m).
Proof.
  intros ms cls E. pose proof (enum_declared ms) as D. rewrite E in D. split; [eapply declares_nodup; eauto | now apply declares_sub].
Qed.

(** from_str on every class and text. *)
Theorem from_str_outcome : forall cls s ex, match from_str cls (Some s) ex with
  | Ok (Some m) => first_reading cls s m
  | Ok None => unread cls s /\ ex = false
  | Err e => unread cls s /\ ex = true /\ e = ValueError
  end.
Proof.
  intros cls s ex. destruct (from_str_cases cls s) as [(m & F & E)|[U E]]; rewrite E; auto. destruct ex; auto.
Qed.

(** Calling the class, on every class that can be written down: the member with exactly that value,
    whatever white space it has, else what from_str finds, else ValueError. *)
Theorem enum_call_outcome : forall ms cls s, define_enum [] ms = Ok cls -> match enum_call cls s with
  | Ok m => member_for cls s m /\ forall m', member_for cls s m' -> m' = m
  | Err e => e = ValueError /\ forall m, ~ member_for cls s m
  end.
Proof.
  intros ms cls s D. apply enum_members in D as [N _]. destruct (call_cases cls s N) as [(m & M & -> & U)|[M ->]]; auto.
Qed.

(** migrated_enum: refused exactly when a new value names no member; otherwise every old name gives the
    member of the new value of the last decoration with that name, and every other name gives what it
    gave before. Members and calls are unaffected. *)
Theorem migrated_names : forall b c0 ds, class_statement b = Ok c0 ->
  match decorate ds c0 with
  | Err e => e = ValueError /\ exists old new, In (old, new) ds /\ forall m, ~ member_for (emembers c0) new m
  | Ok c => emembers c = emembers c0 /\
      (forall ds1 old new ds2, ds = ds1 ++ (old, new) :: ds2 -> ~ In old (map fst ds2) ->
         exists m, getitem c old = Ok m /\ member_for (emembers c0) new m) /\
      (forall n, ~ In n (map fst ds) -> getitem c n = getitem c0 n)
  end.
Proof.
  intros b c0 ds B. unfold class_statement in B. destruct (define_enum [] (map snd b)) as [ms|] eqn:D; [|discriminate]. inv B.
  apply enum_members in D as [N _].
  assert (CALL : forall s, (exists m, member_for ms s m /\ enum_call ms s = Ok m) \/ ((forall m, ~ member_for ms s m) /\ enum_call ms s = Err ValueError)).
  { intros s. destruct (call_cases ms s N) as [(m & M & E & _)|[M E]]; eauto. }
  assert (G : forall ds pre, match decorate ds (mkEnum ms b pre) with
    | Err e => e = ValueError /\ exists old new, In (old, new) ds /\ forall m, ~ member_for ms new m
    | Ok c => c = mkEnum ms b (rev ds ++ pre) /\ forall old new, In (old, new) ds -> exists m, member_for ms new m /\ enum_call ms new = Ok m end).
  { clear ds. induction ds as [|[old new] ds IH]; intros pre; cbn [decorate].
    - split; auto. intros old new [].
    - unfold migrated_enum, call. cbn [emembers ebody emigrated]. destruct (CALL new) as [(m & M & E)|[M E]]; rewrite E; cbn [bind].
      + specialize (IH ((old, new) :: pre)). destruct (decorate ds _) as [c|e].
        * destruct IH as [-> IH]. split; [cbn [rev]; now rewrite <- app_assoc|]. intros o n [H|H]; [inv H; eauto | eauto].
        * destruct IH as [-> (o & n & I & X)]. split; auto. exists o, n. split; auto. now right.
      + split; auto. exists old, new. split; auto. now left. }
  specialize (G ds []). destruct (decorate ds (mkEnum ms b [])) as [c|e]; cbn [emembers]; auto. destruct G as [-> G]. cbn [emembers].
  split; auto. rewrite app_nil_r. split.
  - intros ds1 old new ds2 E X. destruct (G old new) as (m & M & C); [rewrite E; apply in_elt|]. exists m. split; auto.
    unfold getitem. cbn [emigrated]. rewrite E, rev_app_distr. cbn [rev]. rewrite <- app_assoc. cbn [app].
    assert (L : forall l r c, ~ In old (map fst l) -> lookup_from (l ++ r) c old = lookup_from r c old).
    { clear. induction l as [|[o n] l IH]; intros r c X; auto. cbn in *. destruct (String.eqb old o) eqn:Q; [apply String.eqb_eq in Q; subst; tauto | apply IH; tauto]. }
    rewrite L by (rewrite map_rev, <- in_rev; auto). cbn. now rewrite String.eqb_refl.
  - intros n X. unfold getitem. cbn [emigrated lookup_from].
    assert (L : forall l c, ~ In n (map fst l) -> lookup_from l c n = by_name c n).
    { clear. induction l as [|[o w] l IH]; intros c X; auto. cbn in *. destruct (String.eqb n o) eqn:Q; [apply String.eqb_eq in Q; subst; tauto | apply IH; tauto]. }
    rewrite L by (rewrite map_rev, <- in_rev; auto). reflexivity.
Qed.
(** A declared name gives the member with the declared value. *)
Theorem declared_names : forall b c n, class_statement b = Ok c ->
  match getitem c n with
  | Ok m => In m (emembers c) /\ exists m', In (n, m') b /\ mvalue m' = mvalue m
  | Err e => e = KeyError /\ ~ In n (map fst b)
  end.
Proof.
  intros b c n B. unfold class_statement in B. destruct (define_enum [] (map snd b)) as [ms|] eqn:D; [|discriminate]. inv B.
  apply enum_members in D as (_ & _ & A). unfold getitem. cbn [emigrated lookup_from]. unfold by_name. cbn [ebody emembers].
  destruct (find (fun p => String.eqb (fst p) n) b) as [[n' m]|] eqn:F.
  - apply find_some in F as [I E]. cbn in E. apply String.eqb_eq in E. subst n'.
    destruct (A m) as (m' & I' & E'); [apply in_map_iff; exists (n, m); auto|].
    destruct (find (fun m'0 => String.eqb (mvalue m'0) (mvalue m)) ms) as [k|] eqn:G.
    + apply find_some in G as [K Q]. apply String.eqb_eq in Q. split; auto. exists m. split; auto.
    + exfalso. pose proof (find_none _ _ G m' I') as Q. cbn in Q. rewrite E', String.eqb_refl in Q. discriminate.
  - split; auto. intros I. apply in_map_iff in I as ([n' m] & E & I). cbn in E. subst n'.
    pose proof (find_none _ _ F _ I) as Q. cbn in Q. rewrite String.eqb_refl in Q. discriminate.
Qed.
(** The documentation lets new_value be the name of the new symbol; a name that is no spelling raises
    (finding). Two members with one value that has white space at an end become one, and the second's
    synonyms are lost (finding). *)
Theorem migrated_symbol_refuted : exists b c0, class_statement b = Ok c0 /\ (exists m, getitem c0 "MASS_FRACTION" = Ok m) /\
  decorate [("OLD", "MASS_FRACTION")]%string c0 = Err ValueError.
Proof. exists [("MASS_FRACTION", mkMember "mass fraction" [])]%string. eexists. split; [vm_compute; reflexivity|]. split; [eexists|]; vm_compute; reflexivity. Qed.
Theorem alias_loses_synonyms_refuted : exists m1 m2 cls s, define_enum [] [m1; m2] = Ok cls /\ spelling m2 s /\ trimmed s /\ from_str cls (Some s) false = Ok None.
Proof.
  exists (mkMember "a " []), (mkMember "a " ["b"]%string). eexists. exists "b"%string. split; [vm_compute; reflexivity|]. split; [right; now left|].
  split; [|vm_compute; reflexivity]. split.
  - intros c r E. inv E. reflexivity.
  - intros c r E. destruct r as [|x r]; inv E; [reflexivity|]. destruct r; discriminate.
Qed.

(** InChI: what every text becomes, and when only the prefix changes. *)
Theorem inchi_outcome : forall old s t, set_inchi old (SStr s) = (Some t, None) <-> inchi_of s t.
Proof. intros old s t. rewrite inchi_exactly. cbn. split; [intros H; inv H; auto | intros ->; auto]. Qed.
Theorem inchi_arguments : forall old, set_inchi old SNoneV = (None, None) /\ set_inchi old SNotStr = (old, Some TypeError).
Proof. auto. Qed.
Lemma replace_grows : forall c o new s, (String.length (String c o) < String.length new)%nat -> occurs (String c o) s ->
  (String.length s < String.length (replace (String c o) new s))%nat.
Proof.
  intros c o new s L. assert (G : forall s t, replaced (String c o) new s t -> (String.length s <= String.length t)%nat /\ (occurs (String c o) s -> (String.length s < String.length t)%nat)).
  { intros s0 t R. induction R as [s0 N|a rest t F R [A _]]; [split; auto; contradiction|].
    assert (String.length (a ++ String c o ++ rest) < String.length (a ++ new ++ t))%nat by (rewrite !slen_app; lia). split; auto. lia. }
  intros O. apply (G s (replace (String c o) new s)); auto. now apply replaced_replace.
Qed.
Theorem inchi_body_kept_iff : forall old p body, lower p = "1s"%string ->
  (set_inchi old (SStr (p ++ "/" ++ body)) = (Some ("InChI=1S/" ++ body)%string, None) <-> ~ occurs p ("/" ++ body)).
Proof.
  intros old p body L. cbn [set_inchi]. rewrite normal_one by auto. destruct p as [|c [|d [|]]]; try discriminate. split.
  - intros H O. assert (E : replace (String c (String d "")) "InChI=1S" ("/" ++ body) = ("/" ++ body)%string) by (inv H; auto).
    pose proof (replace_grows c (String d "") "InChI=1S" ("/" ++ body)) as G. rewrite E in G. specialize (G ltac:(cbn; lia) O). lia.
  - intros N. now rewrite replace_absent.
Qed.

(** Probabilities: what every assignment does. *)
Theorem probabilities_outcome : forall old a p e, set_probabilities old a = (p, e) <-> assigned old a p e.
Proof. intros. symmetry. apply assigned_iff. Qed.

Example text_ex :
  let ms := [mkMember "a " []; mkMember "A" ["b"; " c"]; mkMember "d" ["B"]]%string in
  define_enum [] ms = Ok ms /\ from_str ms (Some " B ") false = Ok (Some (mkMember "A" ["b"; " c"])) /\
  enum_call ms "a " = Ok (mkMember "a " []) /\ enum_call ms "a  " = Ok (mkMember "A" ["b"; " c"]) /\ enum_call ms " c" = Err ValueError /\
  set_inchi None (SStr "1S/C1S") = (Some "InChI=1S/CInChI=1S", None) /\
  set_probabilities None (PrDict [(OStr "a", PyInf); (ONotStr, PyNegInf)]) = (None, Some TypeError) /\
  set_probabilities None (PrDict [(OStr "a", PyInf); (ONotStr, PyInt 1)]) = (None, Some ValueError) /\
  (do c <- class_statement [("APPLE", mkMember "Apple" []); ("PEAR", mkMember "Pear" [])]; do c' <- decorate [("POMME", "apple"); ("POIRE", "pear"); ("POMME", "PEAR")] c; getitem c' "POMME") = Ok (mkMember "Pear" []).
Proof. cbn zeta. repeat split; vm_compute; reflexivity. Qed.

Print Assumptions enum_declared.
Print Assumptions enum_members.
Print Assumptions from_str_outcome.
Print Assumptions enum_call_outcome.
Print Assumptions migrated_names.
Print Assumptions declared_names.
Print Assumptions migrated_symbol_refuted.
Print Assumptions alias_loses_synonyms_refuted.
Print Assumptions inchi_outcome.
Print Assumptions inchi_arguments.
Print Assumptions inchi_body_kept_iff.
Print Assumptions probabilities_outcome.
