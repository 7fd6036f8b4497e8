(** C56: the outcome of every assignment to, and append to, an attribute template list. *)
From Coq Require Import String List Bool QArith.
From Verif Require Import Base BaseFacts BoundsModel BoundsSpec VlModel ValidationModel ValidationSpec ValidationProofs TmplModel TmplSpec.
Import ListNotations.
Open Scope list_scope.

Lemma permitted_iff : forall k x, accepts hval hty h_instance (h_types k) x = true <-> permitted k x.
Proof.
  assert (K : forall a b, akind_eqb a b = true <-> a = b) by (intros [] []; cbn; split; congruence).
  intros k x. split.
  - destruct x; cbn; rewrite ?orb_false_r; try discriminate; try (intros; constructor; fail). intros H. constructor. now apply K.
  - intros H. destruct H as [t E|s i|l]; cbn; try reflexivity. apply K in E. now rewrite E.
Qed.
Lemma refused : forall k x, accepts hval hty h_instance (h_types k) x = false -> ~ permitted k x.
Proof. intros k x H P. apply permitted_iff in P. congruence. Qed.

Definition written_as (e : entry) : hval :=
  HSeq [match fst e with RTmpl t => HTmpl t | RLink s i => HLink s i end; match snd e with Some b => HBounds b | None => HNone end].
Lemma written_read : forall e, as_entry (written_as e) = Some e.
Proof. intros [[t|s i] [b|]]; reflexivity. Qed.
Lemma named_none : forall x, match x with HTmpl _ | HLink _ _ => False | _ => True end -> forall r, ~ named x r.
Proof. intros x H [t|s i] N; cbn in N; subst; contradiction. Qed.
Lemma homogenized : forall k x, sound x -> permitted k x -> exists r, recorded x r /\ homogenize x = match r with Ok e => Ok (written_as e) | Err e => Err e end.
Proof.
  intros k x G P. destruct x as [t|s i|b| |l|]; try (exfalso; inversion P; fail).
  - exists (Ok (RTmpl t, None)). split; [now apply rec_alone|reflexivity].
  - exists (Ok (RLink s i, None)). split; [now apply rec_alone|reflexivity].
  - destruct l as [|x [|y [|z l]]]; try (exists (Err ValueError); split; [now apply rec_length|reflexivity]).
    cbn in G. destruct G as (Gx & Gy & _).
    destruct x as [t|s i|b| |l|]; try (exists (Err TypeError); split; [apply rec_first; now apply named_none|destruct y; reflexivity]);
      (destruct y as [t'|s' i'|b'| |l'|]; try (exists (Err TypeError); split; [apply rec_second; congruence|reflexivity])).
    + pose proof (refines_contains t b' (conj Gy Gx)) as R. cbn [homogenize]. destruct (contains_bounds (t_bounds t) b').
      * exists (Ok (RTmpl t, Some b')). split; auto. apply rec_inside. now apply R.
      * exists (Err ValueError). split; auto. apply rec_outside. intros I. apply R in I. discriminate.
    + exists (Ok (RTmpl t, None)). split; auto. now apply rec_pair.
    + exists (Ok (RLink s i, Some b')). split; auto. apply rec_link.
    + exists (Ok (RLink s i, None)). split; auto. now apply rec_pair.
Qed.
Lemma triggered : forall x r, homogenize x = r -> fire hval unit (Some h_trigger) x tt = (r, tt).
Proof. intros x r H. unfold fire, h_trigger. rewrite H. now destruct r. Qed.
Lemma fired : forall k l, Forall sound l -> Forall (permitted k) l ->
  (exists es, Forall2 (fun x e => recorded x (Ok e)) l es /\ fire_all hval unit (Some h_trigger) l tt = (Ok (map written_as es), tt)) \/
  (exists l1 x l2 es e, l = l1 ++ x :: l2 /\ Forall2 (fun x e => recorded x (Ok e)) l1 es /\ recorded x (Err e) /\ fire_all hval unit (Some h_trigger) l tt = (Err e, tt)).
Proof.
  intros k l. induction l as [|x l IH]; intros G P; [left; exists []; split; [constructor|reflexivity]|].
  apply Forall_cons_iff in G as [Gx G]. apply Forall_cons_iff in P as [Px P].
  destruct (homogenized k x Gx Px) as ([e|e] & R & H); cbn [fire_all]; rewrite (triggered _ _ H).
  - destruct (IH G P) as [(es & F & ->)|(l1 & y & l2 & es & e' & -> & F & Y & ->)].
    + left. exists (e :: es). split; [constructor; auto|reflexivity].
    + right. exists (x :: l1), y, l2, (e :: es), e'. repeat split; auto.
  - right. exists [], x, l, [], e. repeat split; auto.
Qed.
Lemma made : forall k l, Forall sound l -> exists r, all_recorded k l r /\
  match fst (init hval hty unit h_instance (Reusable l) (h_types k) (Some h_trigger) tt), r with
  | Ok v, Ok es => holds v es /\ ctypes v = h_types k /\ trig v = Some h_trigger
  | Err e, Err e' => e = e'
  | _, _ => False
  end.
Proof.
  intros k l G. unfold init. cbn [first_pass later_pass]. destruct (forallb _ l) eqn:A.
  - assert (P : Forall (permitted k) l) by (apply Forall_forall; intros x I; apply permitted_iff; rewrite forallb_forall in A; auto).
    destruct (fired k l G P) as [(es & F & ->)|(l1 & x & l2 & es & e & E & F & X & ->)]; cbn.
    + exists (Ok es). split; [now apply all_good|]. repeat split. unfold holds. cbn. rewrite map_map. apply map_ext. apply written_read.
    + exists (Err e). split; auto. eapply all_refused; eauto.
  - exists (Err TypeError). split; [|reflexivity]. assert (exists x, In x l /\ accepts hval hty h_instance (h_types k) x = false) as (x & I & X).
    { clear G. induction l as [|x l IH]; [discriminate|]. cbn in A. apply andb_false_iff in A as [A|A]; [exists x; split; auto; now left|]. destruct (IH A) as (y & I & Y). exists y. split; auto. now right. }
    eapply all_wrong; eauto. now apply refused.
Qed.

(** Whatever is assigned, it stands for some entries, and they are recorded or refused as described. *)
Theorem template_list_assigned : forall k x, sound x -> exists l r, stands_for x l /\ all_recorded k l r /\
  match set_entries k x, r with
  | Ok v, Ok es => holds v es /\ ctypes v = h_types k /\ trig v = Some h_trigger
  | Err e, Err e' => e = e'
  | _, _ => False
  end.
Proof.
  intros k x G.
  assert (B : forall l, sound (HSeq l) <-> Forall sound l).
  { induction l as [|y l IH]; split; [constructor|reflexivity| |].
    - intros [Y L]. constructor; auto. now apply IH.
    - intros F. inversion F; subst. split; auto. now apply IH. }
  assert (One : forall y, sound y -> exists r, all_recorded k [y] r /\
    match fst (init hval hty unit h_instance (Reusable [y]) (h_types k) (Some h_trigger) tt), r with
    | Ok v, Ok es => holds v es /\ ctypes v = h_types k /\ trig v = Some h_trigger | Err e, Err e' => e = e' | _, _ => False end).
  { intros y Y. apply made. now constructor. }
  destruct x as [t|s i|b| |l|]; cbn [set_entries validate_list].
  - destruct (One _ G) as (r & R & M). exists [HTmpl t], r. repeat split; auto. now constructor.
  - destruct (One _ G) as (r & R & M). exists [HLink s i], r. repeat split; auto. now constructor.
  - destruct (One _ G) as (r & R & M). exists [HBounds b], r. repeat split; auto. now constructor.
  - destruct (made k []) as (r & R & M); [constructor|]. exists [], r. repeat split; auto. constructor.
  - destruct (existsb is_bounds l) eqn:E.
    + apply existsb_exists in E as ([ | |b| | | ] & I & Y); try discriminate. destruct (One (HSeq l) G) as (r & R & M). exists [HSeq l], r. repeat split; auto. eapply st_pair; eauto.
    + destruct (made k l) as (r & R & M); [now apply B|]. exists l, r. repeat split; auto. apply st_list. intros b I.
      assert (existsb is_bounds l = true) by (apply existsb_exists; exists (HBounds b); auto). congruence.
  - destruct (One _ G) as (r & R & M). exists [HOther], r. repeat split; auto. now constructor.
Qed.
Print Assumptions template_list_assigned.

(** Appending to such a list. *)
Theorem template_list_appended : forall k v x es, ctypes v = h_types k -> trig v = Some h_trigger -> holds v es -> sound x ->
  (~ permitted k x /\ step hval hty unit h_instance v (OAppend x) tt = (v, Some TypeError, tt)) \/
  (permitted k x /\ exists e, recorded x (Err e) /\ step hval hty unit h_instance v (OAppend x) tt = (v, Some e, tt)) \/
  (permitted k x /\ exists e v', recorded x (Ok e) /\ step hval hty unit h_instance v (OAppend x) tt = (v', None, tt) /\
     holds v' (es ++ [e]) /\ ctypes v' = h_types k /\ trig v' = Some h_trigger).
Proof.
  intros k v x es C T H G. cbn [step]. unfold append. rewrite C, T. destruct (accepts _ _ _ _ x) eqn:A.
  - right. apply permitted_iff in A. destruct (homogenized k x G A) as ([e|e] & R & E); rewrite (triggered _ _ E).
    + right. split; auto. exists e. eexists. repeat split; eauto. unfold holds, with_items in *. cbn [items]. rewrite !map_app, H. cbn [map]. now rewrite written_read.
    + left. split; auto. exists e. auto.
  - left. split; auto. now apply refused.
Qed.
Print Assumptions template_list_appended.

(** The rules leave no choice. *)
Lemma recorded_unique : forall x r r', recorded x r -> recorded x r' -> r = r'.
Proof.
  intros x r r' H H'. inversion H; subst; inversion H'; subst; try reflexivity; try contradiction; try (exfalso; cbn in *; congruence);
  repeat match goal with
  | N : named _ ?r |- _ => is_var r; destruct r; cbn in N; subst
  end; try discriminate; try congruence; try (exfalso; match goal with N : forall r, ~ named _ r |- _ => first [eapply (N (RTmpl _)); reflexivity|eapply (N (RLink _ _)); reflexivity] end);
  try (exfalso; match goal with N : forall b, HBounds _ <> HBounds b |- _ => eapply N; reflexivity end).
Qed.
Lemma prefix_recorded : forall l1 x l2 es es' e, Forall2 (fun x e => recorded x (Ok e)) (l1 ++ x :: l2) es -> Forall2 (fun x e => recorded x (Ok e)) l1 es' -> recorded x (Err e) -> False.
Proof.
  intros l1 x l2 es es' e F _ R. apply Forall2_app_inv_l in F as (a & b & _ & F & _). inversion F; subst. match goal with K : recorded x (Ok _) |- _ => pose proof (recorded_unique _ _ _ K R) end. discriminate.
Qed.
Lemma first_refused : forall l1 x l2 m1 y m2 es fs e f, l1 ++ x :: l2 = m1 ++ y :: m2 -> Forall2 (fun x e => recorded x (Ok e)) l1 es -> Forall2 (fun x e => recorded x (Ok e)) m1 fs ->
  recorded x (Err e) -> recorded y (Err f) -> e = f.
Proof.
  induction l1 as [|a l1 IH]; intros x l2 m1 y m2 es fs e f E F G R Q; destruct m1 as [|b m1]; cbn [app] in E; injection E as E1 E2; subst.
  - pose proof (recorded_unique _ _ _ R Q). congruence.
  - inversion G; subst. match goal with K : recorded b (Ok _) |- _ => pose proof (recorded_unique _ _ _ K R) end. discriminate.
  - inversion F; subst. match goal with K : recorded y (Ok _) |- _ => pose proof (recorded_unique _ _ _ K Q) end. discriminate.
  - inversion F; subst. inversion G; subst. eapply IH; eauto.
Qed.
Theorem template_list_unique : forall k x l l' r r', stands_for x l -> stands_for x l' -> all_recorded k l r -> all_recorded k l' r' -> l = l' /\ r = r'.
Proof.
  intros k x l l' r r' A B H H'.
  assert (E : l = l').
  { inversion A; subst; inversion B; subst; try reflexivity; try congruence; exfalso;
    match goal with N : forall b, ~ In (HBounds b) ?l, I : In (HBounds ?b) ?l |- _ => exact (N b I) | N : forall l, HSeq _ <> HSeq l |- _ => eapply N; reflexivity end. }
  split; auto. subst l'. clear A B.
  assert (W : forall y, In y l -> ~ permitted k y -> Forall (permitted k) l -> False) by (intros y I N F; rewrite Forall_forall in F; auto).
  destruct H as [y I N|es P F|l1 y l2 es e P E F R]; destruct H' as [y' I' N'|es' P' F'|m1 y' m2 fs e' P' E' F' R']; try reflexivity; try (exfalso; eapply W; eassumption).
  - f_equal. clear P P' W. revert es' F'. induction F as [|a e l es X F IH]; intros es' G; inversion G; subst; auto. f_equal; [|auto].
    match goal with K : recorded a (Ok _) |- _ => pose proof (recorded_unique _ _ _ X K) end. congruence.
  - exfalso. subst l. eapply prefix_recorded; eauto.
  - exfalso. subst l. eapply prefix_recorded; eauto.
  - f_equal. subst l. eapply first_refused; eauto.
Qed.
Print Assumptions template_list_unique.

(** Finding: the entries of a generator are lost without a word; with bounds among them it is refused. *)
Theorem template_generator_lost : forall k l,
  ((forall b, ~ In (HBounds b) l) -> exists v, set_entries_once k l = Ok v /\ holds v []) /\
  (forall b, In (HBounds b) l -> set_entries_once k l = Err TypeError).
Proof.
  intros k l. unfold set_entries_once. split.
  - intros N. destruct (existsb is_bounds l) eqn:E.
    + apply existsb_exists in E as ([ | |b| | | ] & I & Y); try discriminate. destruct (N b I).
    + eexists. split; reflexivity.
  - intros b I. assert (E : existsb is_bounds l = true) by (apply existsb_exists; exists (HBounds b); auto). rewrite E. reflexivity.
Qed.
Print Assumptions template_generator_lost.

(** ** Cases *)
Definition length_unit : uunit := mkUnit [1%Z] 1 0.
Definition t_len : tmpl := mkTmpl AProperty "l" "length" (BReal 0 10 length_unit).
Definition t_cond : tmpl := mkTmpl ACondition "c" "c" (BReal 0 1 length_unit).
Example tmpl_cases :
  map as_entry (match set_entries AProperty (HSeq [HTmpl t_len; HBounds (BReal 1 2 length_unit)]) with Ok v => items v | Err _ => [] end)
    = [Some (RTmpl t_len, Some (BReal 1 2 length_unit))] /\
  set_entries AProperty (HSeq [HTmpl t_len; HTmpl t_cond]) = Err TypeError /\
  set_entries AProperty (HSeq [HSeq [HTmpl t_len; HBounds (BReal 1 20 length_unit)]; HSeq []]) = Err ValueError /\
  set_entries AProperty (HSeq [HSeq [HTmpl t_len; HOther]; HSeq []]) = Err TypeError /\
  set_entries AProperty HOther = Err TypeError /\
  (exists v, set_entries AProperty (HSeq [HSeq [HTmpl t_cond; HNone]]) = Ok v) /\
  sound (HSeq [HTmpl t_len; HBounds (BReal 1 2 length_unit)]).
Proof.
  repeat split; try (vm_compute; reflexivity); try (vm_compute; discriminate). eexists. vm_compute. reflexivity.
Qed.
