(** Proofs for C55. *)
From Coq Require Import String List Bool ZArith QArith Qabs Lia Lqa.
From Verif Require Import ReModel ReSpec ReProofs ReProperties Base BaseFacts PyStr BoundsModel BoundsSpec BoundsProofs ValuesModel ValuesSpec ValuesProofs TextModel TextSpec TextProofs
  DictModel DictSpec DictFloat DictProofs DictFullSpec DictRound.
Import ListNotations.
Open Scope string_scope.
Open Scope list_scope.

(** ** Reading values *)
Lemma text_iff : forall v s, text v s <-> text_of v = Some s.
Proof. intros v s. split; [intros [-> | ->]; reflexivity|]. destruct v; cbn; intros [= <-]; [now left|now right]. Qed.
Lemma textual_iff : forall v, textual v <-> is_str v = true.
Proof.
  intros v. unfold textual, is_str. split; [intros [s H]; apply text_iff in H; now rewrite H|]. destruct (text_of v) as [s|] eqn:E; [|discriminate]. exists s. now apply text_iff.
Qed.
Lemma not_textual : forall v, ~ textual v <-> text_of v = None.
Proof. intros v. rewrite textual_iff. unfold is_str. destruct (text_of v); split; congruence. Qed.
Lemma number_iff : forall v, number v <-> num v <> None.
Proof.
  intros v. split; [intros [[z ->]|[[] ->]]; discriminate|]. destruct v as [|z|f| | | | | | | | |]; cbn; try congruence; intros _; [left; eauto|right; eauto].
Qed.
Lemma not_number : forall v, ~ number v <-> num v = None.
Proof. intros v. rewrite number_iff. destruct (num v); split; try congruence; intros H; exfalso; apply H; discriminate. Qed.
Lemma finite_int : forall z q, finite (DInt z) q -> q = inject_Z z.
Proof. intros z q [H|(y & H & ->)]; [discriminate|]. now injection H as ->. Qed.
Lemma finite_float : forall f q, finite (DFloat f) q -> f = Fin q.
Proof. intros z q [H|(y & H & ->)]; [|discriminate]. now injection H as ->. Qed.
Lemma finite_fun : forall v p q, finite v p -> finite v q -> p = q.
Proof. intros v p q [->|(z & -> & ->)] H; [apply finite_float in H; now injection H|now apply finite_int in H]. Qed.

Lemma tuples : forall P : dv -> Prop, (forall l, Forall P l -> P (DTuple l)) -> (forall v, (forall l, v <> DTuple l) -> P v) -> forall v, P v.
Proof.
  intros P T O. fix F 1. intros v. destruct v as [| | | | | |l| | | | |]; try (apply O; discriminate).
  apply T. revert l. fix G 1. intros [|x r]; constructor; [apply F|apply G].
Qed.
Lemma unhash : forall v, unhashable v <-> hashable v = false.
Proof.
  induction v as [l F|v N] using tuples.
  - cbn [hashable]. transitivity (exists x, In x l /\ unhashable x).
    + split; [intros H; inversion H; eauto|intros (x & I & U); econstructor; eauto].
    + induction F as [|y l Y F IH]; cbn [forallb In]; [split; [intros (x & [] & _)|discriminate]|].
      rewrite andb_false_iff, <- Y, <- IH. split; [intros (x & [->|I] & U); eauto|intros [U|(x & I & U)]; eauto].
  - destruct v; cbn [hashable]; try (exfalso; eapply N; reflexivity); (split; [intros H; inversion H; reflexivity|]);
    first [discriminate|intros _; first [apply un_list|apply un_set|apply un_dict]].
Qed.
Lemma not_unhash : forall v, ~ unhashable v <-> hashable v = true.
Proof. intros v. rewrite unhash. destruct (hashable v); split; congruence. Qed.
Lemma all_hashable : forall l, forallb hashable l = true -> Forall (fun x => ~ unhashable x) l.
Proof. intros l H. apply Forall_forall. intros x I. rewrite forallb_forall in H. apply not_unhash. auto. Qed.
Lemma some_unhashable : forall l, forallb hashable l = false -> exists x, In x l /\ unhashable x.
Proof.
  induction l as [|y l IH]; cbn [forallb]; [discriminate|]. destruct (hashable y) eqn:H; cbn [andb]; intros F.
  - destruct (IH F) as (x & I & U). exists x. split; auto. now right.
  - exists y. split; [now left|now apply unhash].
Qed.
Lemma some_false : forall (A : Type) (f : A -> bool) l, forallb f l = false -> exists x, In x l /\ f x = false.
Proof.
  intros A f. induction l as [|y l IH]; cbn [forallb]; [discriminate|]. destruct (f y) eqn:H; cbn [andb]; intros F.
  - destruct (IH F) as (x & I & U). exists x. split; auto. now right.
  - exists y. split; [now left|auto].
Qed.
Lemma instance_iff : forall c v, instance c v <-> is_a c v = true.
Proof.
  intros c v. unfold instance. split.
  - intros [s ->]. destruct c; reflexivity.
  - destruct v as [| | | | | | | | | | |c' s]; try discriminate. cbn [is_a]. intros H. apply String.eqb_eq in H. exists s. f_equal. destruct c, c'; try reflexivity; discriminate H.
Qed.
Lemma a_value_iff : forall v, a_value v <-> is_value v = true.
Proof.
  intros v. unfold a_value, is_value. rewrite existsb_exists. split.
  - intros (c & V & I). exists c. split; [exact V|now apply instance_iff].
  - intros (c & V & I). exists c. split; [exact V|now apply instance_iff].
Qed.

Section Proofs.
  Variable units : string -> res string.
  Variable check : dv -> dv -> option exn.
  Notation does := (does units check).
  Definition told (r : rule) (read : string -> dv) (v : dv) (o : res dv) : Prop :=
    match o with Ok w => does r read v (Some w) None | Err e => does r read v None (Some e) end.

  (** ** Numbers *)
  Lemma float_of_int : forall z, (Z.abs (round53 z) <? 2 ^ 1024)%Z = true -> ~ overflows (DInt z) /\ rounds_to z (inject_Z (round53 z)).
  Proof.
    intros z H. apply Z.ltb_lt in H. split; [|now apply round53_rounds]. intros (y & E & L). injection E as <-. apply round53_large in H.
    apply (Z.lt_irrefl (Z.abs z)). eapply Z.lt_le_trans; eauto.
  Qed.
  Lemma too_big : forall z, (Z.abs (round53 z) <? 2 ^ 1024)%Z = false -> overflows (DInt z).
  Proof.
    intros z H. exists z. split; auto. apply Z.ltb_ge in H. apply Z.le_ngt. intros L. apply round53_large in L. apply (Z.lt_irrefl (Z.abs (round53 z))). eapply Z.lt_le_trans; eauto.
  Qed.
  Lemma float_ok : forall f, ~ overflows (DFloat f).
  Proof. intros f (z & E & _). discriminate. Qed.

  (** What the other bound says. *)
  Definition held (w : dv) (o : option dv) : Prop := (w = DNone /\ (o = None \/ o = Some DNone)) \/ (o = Some w /\ w <> DNone /\ exists p, finite w p).
  Lemma compare_above : forall v w p q, finite v q -> finite w p -> above v w = Ok (negb (Qle_bool q p)).
  Proof. intros v w p q [->|(z & -> & ->)] [->|(y & -> & ->)]; reflexivity. Qed.
  Lemma compare_below : forall v w p q, finite v q -> finite w p -> below v w = Ok (negb (Qle_bool p q)).
  Proof. intros v w p q [->|(z & -> & ->)] [->|(y & -> & ->)]; reflexivity. Qed.
  Lemma crosses_above : forall o read v q g, finite v q -> held (read o) g ->
    exists b, match g with None | Some DNone => Ok false | Some w => above v w end = Ok b /\ (b = true <-> crosses (NotAbove o) read q).
  Proof.
    intros o read v q g F [[E G]|(-> & N & p & P)].
    - exists false. split; [destruct G as [->| ->]; reflexivity|]. split; [discriminate|]. cbn [crosses]. intros (p & P & _). rewrite E in P. destruct P as [P|(z & P & _)]; discriminate.
    - exists (negb (Qle_bool q p)). split.
      + rewrite <- (compare_above v (read o) p q F P). destruct (read o); congruence || reflexivity.
      + rewrite negb_true_iff. split.
        * intros L. exists p. split; auto. apply Qnot_le_lt. rewrite <- Qle_bool_iff. congruence.
        * intros (p' & P' & L). rewrite (finite_fun _ _ _ P P'). apply not_true_iff_false. rewrite Qle_bool_iff. now apply Qlt_not_le.
  Qed.
  Lemma crosses_below : forall o read v q g, finite v q -> held (read o) g ->
    exists b, match g with None | Some DNone => Ok false | Some w => below v w end = Ok b /\ (b = true <-> crosses (NotBelow o) read q).
  Proof.
    intros o read v q g F [[E G]|(-> & N & p & P)].
    - exists false. split; [destruct G as [->| ->]; reflexivity|]. split; [discriminate|]. cbn [crosses]. intros (p & P & _). rewrite E in P. destruct P as [P|(z & P & _)]; discriminate.
    - exists (negb (Qle_bool p q)). split.
      + rewrite <- (compare_below v (read o) p q F P). destruct (read o); congruence || reflexivity.
      + rewrite negb_true_iff. split.
        * intros L. exists p. split; auto. apply Qnot_le_lt. rewrite <- Qle_bool_iff. congruence.
        * intros (p' & P' & L). rewrite (finite_fun _ _ _ P P'). apply not_true_iff_false. rewrite Qle_bool_iff. now apply Qlt_not_le.
  Qed.
  Definition side_ok (b : side) (read : string -> dv) (bad : dv -> dv -> res bool) (g : option dv) : Prop :=
    forall v q, finite v q -> exists t, match g with None | Some DNone => Ok false | Some w => bad v w end = Ok t /\ (t = true <-> crosses b read q).

  Lemma told_real : forall b read bad g v, side_ok b read bad g ->
    told (AReal b) read v (if match v with DNone => true | _ => false end then Err ValueError else
      do f <- isfinite v; if negb f then Err ValueError else
      do b <- match g with None | Some DNone => Ok false | Some w => bad v w end;
      if (b : bool) then Err ValueError else to_float v).
  Proof.
    intros b read bad g v K. destruct v as [|z|f| | | | | | | | |]; try (apply real_other; [discriminate|now apply not_number]); try apply real_none.
    - cbn [isfinite to_float]. destruct (Z.abs (round53 z) <? 2 ^ 1024)%Z eqn:L.
      + apply float_of_int in L. destruct L as [NO R]. assert (F : finite (DInt z) (inject_Z z)) by (right; eauto).
        destruct (K _ _ F) as (t & -> & T). cbn [bind negb]. destruct t.
        * eapply real_cross; eauto. now apply T.
        * eapply real_stored; eauto; [intros C; apply T in C; discriminate|]. right. eauto.
      + apply real_large. now apply too_big.
    - destruct f as [q| | |]; try (apply real_special; unfold special; auto; fail). cbn [isfinite to_float].
      assert (F : finite (DFloat (Fin q)) q) by (left; eauto). destruct (K _ _ F) as (t & -> & T). cbn [bind negb]. destruct t.
      * eapply real_cross; eauto using float_ok. now apply T.
      * eapply real_stored; eauto using float_ok; [intros C; apply T in C; discriminate|]. left. eauto.
  Qed.

  (** Whole numbers. *)
  Lemma whole_float : forall q, Z.eqb (Zpos (Qden (Qred q))) 1 = true -> q == inject_Z (Qnum (Qred q)).
  Proof. intros q H. apply Z.eqb_eq in H. rewrite <- (Qred_correct q) at 1. destruct (Qred q) as [n d]. cbn in *. injection H as ->. reflexivity. Qed.
  Lemma broken_float : forall q z, Z.eqb (Zpos (Qden (Qred q))) 1 = false -> ~ q == inject_Z z.
  Proof.
    intros q z H E. apply Qred_complete in E. apply Z.eqb_neq in H. apply H. rewrite E. unfold Qred, inject_Z.
    destruct (Z.ggcd z 1) as [g [a b]] eqn:G. pose proof (Z.ggcd_correct_divisors z 1) as D. pose proof (Z.ggcd_gcd z 1) as C. rewrite G in D, C. cbn in C. rewrite Z.gcd_1_r in C. subst g. destruct D as [_ D]. cbn [snd]. cbn. cbn in D. destruct b; [discriminate|lia|discriminate].
  Qed.
  Lemma exact_is_float : forall z, is_float (inject_Z z) <-> int_checked (PyInt z) = Ok z.
  Proof.
    intros z. split; [apply int_checked_back|]. intros H. apply (int_checked_float (DInt z) z I H).
  Qed.
  Lemma told_whole : forall b read bad g v, real_float v -> side_ok b read bad g ->
    told (AWhole b) read v (do z <- match v with DNone => Err ValueError | _ => match num v with Some x => int_checked x | None => Err TypeError end end;
      do b <- match g with None | Some DNone => Ok false | Some w => bad v w end;
      if (b : bool) then Err ValueError else Ok (DInt z)).
  Proof.
    intros b read bad g v R K. destruct v as [|z|f| | | | | | | | |]; try (apply whole_other; [discriminate|now apply not_number]); try apply whole_none.
    - assert (F : finite (DInt z) (inject_Z z)) by (right; eauto). cbn [num].
      destruct (int_checked (PyInt z)) as [y|e] eqn:C.
      + assert (y = z) by (cbn [int_checked] in C; destruct (_ <? _)%Z; [|discriminate]; destruct (float_exact z); [|discriminate]; now injection C). subst y.
        destruct (K _ _ F) as (t & -> & T). cbn [bind]. destruct t.
        * eapply whole_cross; eauto; [reflexivity|now apply exact_is_float|now apply T].
        * eapply whole_stored; eauto; [reflexivity|now apply exact_is_float|]. intros X; apply T in X; discriminate.
      + cbn [bind told]. pose proof C as C'. cbn [int_checked] in C. destruct (Z.abs z <? 2 ^ 1024 - 2 ^ 970)%Z eqn:L.
        * destruct (float_exact z); [discriminate|]. injection C as <-. eapply whole_broken; eauto.
          -- intros (y & E & G). injection E as <-. apply Z.ltb_lt in L. apply (Z.lt_irrefl (Z.abs z)). eapply Z.lt_le_trans; eauto.
          -- intros y Y E. apply (proj1 (inject_Z_injective _ _)) in E. subst y. apply exact_is_float in Y. congruence.
        * injection C as <-. apply whole_large. exists z. split; auto. now apply Z.ltb_ge.
    - destruct f as [q| | |]; try (apply whole_special; unfold special; auto; fail). cbn [num int_checked].
      assert (F : finite (DFloat (Fin q)) q) by (left; eauto).
      destruct (Z.eqb (Zpos (Qden (Qred q))) 1) eqn:D.
      + destruct (float_is_int q R D) as [Q Y]. destruct (K _ _ F) as (t & -> & T). cbn [bind]. destruct t.
        * eapply whole_cross; eauto. now apply T.
        * eapply whole_stored; eauto. intros X; apply T in X; discriminate.
      + eapply whole_broken; eauto using float_ok. intros z _. now apply broken_float.
  Qed.
  Lemma told_integer : forall read v, told AnInteger read v (integral v).
  Proof.
    intros read v. unfold integral. destruct (num v) as [x|] eqn:N; [|apply integer_other; now apply not_number].
    destruct v as [|z|f| | | | | | | | |]; try discriminate.
    - injection N as <-. cbn. eapply integer_stored; [right; eauto|reflexivity].
    - destruct f as [q| | |]; injection N as <-; cbn [int_like bind]; [|apply integer_nan|apply integer_inf; auto|apply integer_inf; auto].
      destruct (Z.eqb (Zpos (Qden (Qred q))) 1) eqn:D; cbn [bind].
      + eapply integer_stored; [left; eauto|now apply whole_float].
      + eapply integer_broken; [left; eauto|]. intros z. now apply broken_float.
  Qed.
  Lemma integral_stored : forall v w, integral v = Ok w -> exists z q, w = DInt z /\ finite v q /\ q == inject_Z z.
  Proof.
    intros v w H. pose proof (told_integer (fun _ => DNone) v) as T. rewrite H in T. cbn in T. inversion T; subst; eauto.
  Qed.
  Lemma crosses_eq : forall b read p q, p == q -> crosses b read p <-> crosses b read q.
  Proof. intros [o|o] read p q E; cbn [crosses]; split; intros (x & F & L); exists x; (split; [auto|]); lra. Qed.
  Lemma told_range : forall b read bad g v, side_ok b read bad g ->
    told (ARange b) read v (do w <- integral v;
      do b <- match g with None | Some DNone => Ok false | Some h => bad v h end;
      if (b : bool) then Err ValueError else Ok w).
  Proof.
    intros b read bad g v K. pose proof (told_integer read v) as T. destruct (integral v) as [w|e] eqn:E; cbn [bind told] in *.
    - destruct (integral_stored v w E) as (z & q & -> & F & Q). destruct (K _ _ F) as (t & -> & C). cbn [bind]. destruct t.
      + eapply range_cross; eauto. apply (crosses_eq b read q); auto. now apply C.
      + eapply range_stored; eauto. intros X. apply (crosses_eq b read q) in X; auto. apply C in X. discriminate.
    - now apply range_refused.
  Qed.
  Lemma told_number : forall read v, told ANumber read v (match num v with Some _ => to_float v | None => Err AssertionError end).
  Proof.
    intros read v. destruct (num v) as [x|] eqn:N; [|apply number_other; now apply not_number].
    assert (NN : number v) by (apply number_iff; congruence). destruct v as [|z|f| | | | | | | | |]; try discriminate.
    - cbn [to_float]. destruct (Z.abs (round53 z) <? 2 ^ 1024)%Z eqn:L.
      + apply float_of_int in L. destruct L as [NO R]. eapply number_stored; eauto. right. eauto.
      + apply number_large. now apply too_big.
    - apply number_stored; auto using float_ok. left. eauto.
  Qed.

  (** ** Units, texts and collections *)
  Lemma told_unit : forall read v, told AUnit read v (parse units v).
  Proof.
    intros read v. destruct v as [| | |s|s| |l| | | | |]; cbn [parse hashable]; try (apply unit_none);
      try (apply unit_unhashable; constructor); try apply unit_stored;
      try (apply unit_other; [discriminate|now apply not_textual|discriminate|now apply not_unhash]).
    - destruct (units s) as [t|e] eqn:U; cbn [bind]; [eapply unit_text; eauto; now left|eapply unit_wrong; eauto; now left].
    - destruct (units s) as [t|e] eqn:U; cbn [bind]; [eapply unit_text; eauto; now right|eapply unit_wrong; eauto; now right].
    - destruct (forallb hashable l) eqn:H.
      + apply unit_other; [discriminate|now apply not_textual|discriminate|now apply not_unhash].
      + apply unit_unhashable. now apply unhash.
  Qed.
  Lemma told_texts : forall k read s v, exists st, does Texts read v st (snd (set_texts k s v)) /\
    fst (set_texts k s v) = match st with Some w => put ("_" ++ k)%string w s | None => s end.
  Proof.
    assert (G : forall (read : string -> dv) v l, (sequence v l /\ Forall (fun x => ~ unhashable x) l) \/ v = DSet l ->
       does Texts read v (Some (DSet l)) (if forallb is_str l then None else Some ValueError)).
    { intros read v l H. destruct (forallb is_str l) eqn:E.
      - apply texts_stored; auto. apply Forall_forall. intros x X. apply textual_iff. rewrite forallb_forall in E. auto.
      - apply some_false in E. destruct E as (x & X & E). eapply texts_wrong; eauto. rewrite textual_iff. congruence. }
    intros k read s v. destruct v as [| | | | |l|l|l| | | |]; cbn [set_texts].
    all: try (exists None; split; [apply texts_other; [discriminate|intros l' [H|H]; discriminate|discriminate]|reflexivity]).
    - exists (Some (DSet [])). split; [apply texts_none|reflexivity].
    - destruct (forallb hashable l) eqn:H.
      + exists (Some (DSet l)). split; [|reflexivity]. apply G. left. split; [now left|now apply all_hashable].
      + apply some_unhashable in H. destruct H as (x & X & U). exists None. split; [|reflexivity]. eapply texts_unhashable; eauto. now left.
    - destruct (forallb hashable l) eqn:H.
      + exists (Some (DSet l)). split; [|reflexivity]. apply G. left. split; [now right|now apply all_hashable].
      + apply some_unhashable in H. destruct H as (x & X & U). exists None. split; [|reflexivity]. eapply texts_unhashable; eauto. now right.
    - exists (Some (DSet l)). split; [|reflexivity]. apply G. now right.
  Qed.
  Lemma told_text : forall read v, told AText read v (optional_str v).
  Proof.
    intros read v. unfold optional_str. destruct (is_str v) eqn:E.
    - destruct v; try discriminate; (apply text_stored; right; now apply textual_iff).
    - destruct v; try discriminate; try (apply text_stored; left; reflexivity); (apply text_other; [discriminate|]; rewrite textual_iff; congruence).
  Qed.

  Lemma sum_values_cases : forall l acc, (exists xs, Forall2 (fun p x => num (snd p) = Some x) l xs /\ sum_values acc l = num_sum acc xs)
    \/ (exists p, In p l /\ ~ number (snd p)).
  Proof.
    induction l as [|[k v] l IH]; intros acc; [left; exists []; split; [constructor|reflexivity]|]. cbn [sum_values].
    destruct (num v) as [x|] eqn:N; [|right; exists (k, v); split; [now left|]; now apply not_number].
    destruct (num_add acc x) as [t|e] eqn:A; cbn [bind].
    - destruct (IH t) as [(xs & F & E)|(p & I & P)]; [left|right; exists p; split; [now right|auto]]. exists (x :: xs). split; [now constructor|]. cbn [num_sum]. now rewrite A.
    - destruct (IH (PyInt 0)) as [(xs & F & _)|(p & I & P)]; [left|right; exists p; split; [now right|auto]]. exists (x :: xs). split; [now constructor|]. cbn [num_sum]. now rewrite A.
  Qed.
  Lemma sum_values_number : forall l acc p, In p l -> ~ number (snd p) -> acc <> PyNone -> sum_values acc l = Err TypeError.
  Proof.
    induction l as [|[k v] l IH]; intros acc p I N A; [contradiction|]. cbn [sum_values]. destruct (num v) as [x|] eqn:E; auto.
    destruct I as [<-|I]; [apply not_number in N; cbn in N; congruence|].
    assert (X : exists t, num_add acc x = Ok t /\ t <> PyNone).
    { destruct v as [|z|f| | | | | | | | |]; try discriminate; [|destruct f]; injection E as <-; destruct acc; cbn; try congruence; eexists; split; try reflexivity; discriminate. }
    destruct X as (t & -> & T). cbn [bind]. eapply IH; eauto.
  Qed.
  Lemma num_not_none : forall v, num v <> Some PyNone.
  Proof. intros v. destruct v as [|z|f| | | | | | | | |]; try discriminate. destruct f; discriminate. Qed.
  Lemma told_probabilities : forall read v, told Probabilities read v (probabilities v).
  Proof.
    intros read v. destruct v as [| | |s|s| | | |l| | |]; cbn [probabilities]; try apply prob_none;
      try (apply prob_other; [discriminate|now apply not_textual|discriminate]); try (apply prob_text; apply textual_iff; reflexivity).
    destruct (sum_values_cases l (PyInt 0)) as [(xs & F & E)|(p & I & P)].
    2:{ rewrite (sum_values_number l (PyInt 0) p I P) by discriminate. cbn [bind]. eapply prob_number; eauto. }
    assert (NN : ~ In PyNone xs). { clear E. intros I. induction F as [|q x l xs Q F IH]; [contradiction|]. destruct I as [->|I]; auto. now apply num_not_none in Q. }
    destruct (num_sum_ok xs (PyInt 0)) as [t T]; auto; [discriminate|]. rewrite E, T. cbn [bind].
    assert (S' : sum_is xs (as_float t)) by (apply sum_zero; eapply num_sum_is; eauto; discriminate).
    assert (TN : t <> PyNone). { intros ->. cbn in S'. inversion S'. }
    destruct (off_one t) eqn:O.
    - eapply prob_off; eauto. intros N. apply off_one_iff in N; auto. congruence.
    - apply off_one_iff in O; auto. destruct (forallb (fun p => is_str (fst p)) l) eqn:K.
      + eapply prob_stored; eauto. apply Forall_forall. intros p I. rewrite forallb_forall in K. apply textual_iff. auto.
      + apply some_false in K. destruct K as (p & I & K). eapply prob_key; eauto. rewrite textual_iff. congruence.
  Qed.

  Lemma told_item : forall v, item v (pair_of v).
  Proof.
    intros v. destruct v as [| | |s| |l|l| | | | |]; cbn [pair_of]; try (apply it_other; [intros l' [H|H]; discriminate|discriminate]).
    - destruct s as [|a [|b [|c s]]]; try (apply it_text; cbn; lia). apply it_chars.
    - destruct l as [|k [|x [|y l]]]; try (eapply it_length; [left; reflexivity|cbn; lia]). destruct (hashable k) eqn:H.
      + eapply it_pair; [now left|now apply not_unhash].
      + eapply it_key; [left; reflexivity|now apply unhash].
    - destruct l as [|k [|x [|y l]]]; try (eapply it_length; [right; reflexivity|cbn; lia]). destruct (hashable k) eqn:H.
      + eapply it_pair; [now right|now apply not_unhash].
      + eapply it_key; [right; reflexivity|now apply unhash].
  Qed.
  Lemma told_items : forall l, match pairs_of l with
    | Ok ps => Forall2 (fun v p => item v (Ok p)) l ps
    | Err e => exists l1 v l2 ps, l = l1 ++ v :: l2 /\ Forall2 (fun v p => item v (Ok p)) l1 ps /\ item v (Err e)
    end.
  Proof.
    induction l as [|v l IH]; cbn [pairs_of]; [constructor|]. pose proof (told_item v) as T. destruct (pair_of v) as [p|e]; cbn [bind].
    - destruct (pairs_of l) as [ps|e]; cbn [bind]; [now constructor|]. destruct IH as (l1 & w & l2 & ps & -> & F & I). exists (v :: l1), w, l2, (p :: ps). repeat split; auto.
    - exists [], v, l, []. repeat split; auto.
  Qed.
  Lemma same_key_iff : forall a b, same_key a b <-> same_text a b = true.
  Proof.
    intros a b. unfold same_key, same_text. split.
    - intros (s & A & B). apply text_iff in A, B. rewrite A, B. apply String.eqb_refl.
    - destruct (text_of a) as [s|] eqn:A; [|discriminate]. destruct (text_of b) as [t|] eqn:B; [|discriminate]. intros E. apply String.eqb_eq in E. subst t. exists s. split; now apply text_iff.
  Qed.
  Lemma told_table : forall ps, table_of ps (keep_last ps).
  Proof.
    unfold table_of. induction ps as [|[k v] ps IH]; intros p; cbn [keep_last].
    - split; [contradiction|]. intros ([|] & l2 & E & _); discriminate.
    - assert (X : (exists l1 l2, (k, v) :: ps = l1 ++ p :: l2 /\ forall q, In q l2 -> ~ same_key (fst p) (fst q)) <->
               (p = (k, v) /\ forall q, In q ps -> ~ same_key k (fst q)) \/ In p (keep_last ps)).
      { rewrite IH. split.
        - intros ([|q l1] & l2 & E & N); injection E as E1 E2; subst; [left; auto|right; eauto].
        - intros [[-> N]|(l1 & l2 & -> & N)]; [exists [], ps; auto|exists ((k, v) :: l1), l2; auto]. }
      rewrite X. destruct (existsb (fun p => same_text k (fst p)) ps) eqn:E.
      + split; [auto|]. intros [[-> N]|H]; auto. exfalso. apply existsb_exists in E. destruct E as (q & I & Q). apply same_key_iff in Q. exact (N q I Q).
      + cbn [In]. split; (intros [H|H]; [left|now right]); [|destruct H as [-> _]; auto]. split; auto. intros q I Q. apply same_key_iff in Q.
        assert (existsb (fun p => same_text k (fst p)) ps = true) by (apply existsb_exists; eauto). congruence.
  Qed.
  Lemma told_quantities : forall read v, told Quantities read v (quantities v).
  Proof.
    intros read v. destruct v as [| | | | |l| | | | | |]; cbn [quantities]; try (apply quant_other; discriminate); [apply quant_none| |apply quant_dict].
    pose proof (told_items l) as T. destruct (pairs_of l) as [ps|e]; cbn [bind].
    - eapply quant_list; eauto using told_table.
    - destruct T as (l1 & w & l2 & ps & -> & F & I). eapply quant_item; eauto.
  Qed.

  Lemma elements_in : forall s x, In x (elements s) <-> exists w, In w (re_findall element_re None 0 (list_ascii_of_string s)) /\ x = string_of_list_ascii w.
  Proof.
    intros s x. rewrite <- elements_are_found. split.
    - intros I. exists (list_ascii_of_string x). split; [now apply in_map|]. now rewrite string_of_list_ascii_of_string.
    - intros (w & I & ->). apply in_map_iff in I. destruct I as (y & <- & I). now rewrite string_of_list_ascii_of_string.
  Qed.
  Lemma told_formula : forall read v, told AFormula read v (formula v).
  Proof.
    intros read v. unfold formula. destruct (text_of v) as [s|] eqn:T.
    - assert (X : told AFormula read v (if subset (elements s) all_elements then Ok v else Err ValueError)); [|destruct v; try discriminate; exact X].
      apply text_iff in T. destruct (subset (elements s) all_elements) eqn:B.
      + eapply formula_stored; eauto. intros w I. unfold subset in B. rewrite forallb_forall in B. specialize (B (string_of_list_ascii w)).
        apply existsb_exists in B; [|apply elements_in; eauto]. destruct B as (y & Y & E). apply String.eqb_eq in E. congruence.
      + unfold subset in B. apply some_false in B. destruct B as (x & X & B). apply elements_in in X. destruct X as (w & W & ->). eapply formula_wrong; eauto.
        intros I. enough (existsb (String.eqb (string_of_list_ascii w)) all_elements = true) by congruence. apply existsb_exists. eexists; split; [exact I|apply String.eqb_refl].
    - destruct v; try discriminate; try apply formula_none; (apply formula_other; [discriminate|now apply not_textual]).
  Qed.
  Lemma told_inchi : forall read v, told AnInChI read v (inchi v).
  Proof.
    intros read v. unfold inchi. destruct (text_of v) as [s|] eqn:T.
    - assert (X : told AnInChI read v (Ok (if startswith "InChI" s then v else DStr (normal_inchi s)))); [|destruct v; try discriminate; exact X].
      apply text_iff in T. destruct (startswith "InChI" s) eqn:B.
      + apply startswith_iff in B. destruct B as [r ->]. eapply inchi_kept; eauto.
      + eapply inchi_stored; eauto; [|now apply inchi_exactly]. intros r ->. rewrite startswith_app in B. discriminate.
    - destruct v; try discriminate; try apply inchi_none; (apply inchi_other; [discriminate|now apply not_textual]).
  Qed.

  (** ** Attributes *)
  Lemma told_value : forall read g v, g = Some (read "template") \/ (g = None /\ read "template" = DNone) ->
    told AValue read v (match v with
      | DNone => Ok DNone
      | _ => if is_value v then
               match g with
               | None | Some DNone => Ok v
               | Some t => match check t v with Some e => Err e | None => Ok v end
               end
             else Err TypeError
      end).
  Proof.
    intros read g v G. destruct (is_value v) eqn:V.
    - assert (X : told AValue read v (match g with None | Some DNone => Ok v | Some t => match check t v with Some e => Err e | None => Ok v end end)); [|destruct v; try discriminate; exact X].
      apply a_value_iff in V. destruct G as [->|[-> N]]; [|apply value_stored; auto].
      destruct (read "template") eqn:R; try (apply value_stored; auto; fail); rewrite <- R;
      (destruct (check (read "template") v) as [e|] eqn:C; [eapply value_refused; eauto; rewrite R; discriminate|apply value_stored; auto]).
    - destruct v; try apply value_none; (apply value_other; [discriminate|rewrite a_value_iff; congruence]).
  Qed.
  Lemma tkind_eqb_eq : forall a b, tkind_eqb a b = true -> a = b.
  Proof. intros [] []; cbn; congruence. Qed.
  Lemma told_template : forall k read g v, g = Some (read "value") \/ (g = None /\ read "value" = DNone) ->
    told (ATemplate k) read v (match v with
      | DNone => Ok DNone
      | DEntity k' n => if tkind_eqb k k' then
                          match g with
                          | None | Some DNone => Ok v
                          | Some w => match check v w with Some e => Err e | None => Ok v end
                          end
                        else Err TypeError
      | _ => if is_a LinkByUID v then Ok v else Err TypeError
      end).
  Proof.
    intros k read g v G. assert (L : is_a LinkByUID v = false -> ~ instance LinkByUID v) by (rewrite instance_iff; congruence).
    destruct v as [| | | | | | | | | |k' n|c s]; try (apply template_other; [discriminate|apply L; reflexivity|discriminate]); try apply template_none.
    - destruct (tkind_eqb k k') eqn:K.
      + apply tkind_eqb_eq in K. subst k'. destruct G as [->|[-> N]]; [|apply template_stored; auto].
        destruct (read "value") eqn:R; try (apply template_stored; auto; fail); rewrite <- R;
        (destruct (check (DEntity k n) (read "value")) as [e|] eqn:C; [eapply template_refused; eauto; rewrite R; discriminate|apply template_stored; auto]).
      + apply template_other; [discriminate|apply L; reflexivity|]. intros m E. injection E as E _. subst. destruct k; discriminate.
    - destruct (is_a LinkByUID (DObj c s)) eqn:E; [apply template_link; now apply instance_iff|apply template_other; [discriminate|auto|discriminate]].
  Qed.
  Lemma told_origin : forall read v, told AnOrigin read v (origin v).
  Proof.
    intros read v. unfold origin. destruct (text_of v) as [s|] eqn:T.
    - assert (X : told AnOrigin read v (do m <- from_str origins (Some s) true; match m with Some m => Ok (DEnum (mvalue m)) | None => Err ValueError end)); [|destruct v; try discriminate; exact X].
      apply text_iff in T. assert (TR : forall o, In o (map mvalue origins) -> trimmed o).
      { intros o I. assert (E : strip o = o) by (cbn in I; repeat (destruct I as [<-|I]; [reflexivity|]); contradiction).
        destruct (strip_split o) as (a & b & _ & _ & _ & TT). now rewrite E in TT. }
      assert (MS : forall m, In m origins -> msynonyms m = [] /\ In (mvalue m) ["measured"; "predicted"; "summary"; "specified"; "computed"; "unknown"]).
      { intros m I. cbn in I. repeat (destruct I as [<-|I]; [split; [reflexivity|cbn; auto 8]|]); contradiction. }
      destruct (from_str_cases origins s) as [(m & F & E)|(U & E)]; rewrite E; cbn [bind].
      + destruct F as (l1 & l2 & O & (t & S' & _ & R) & _). assert (I : In m origins) by (rewrite O; apply in_elt). destruct (MS m I) as [N V].
        destruct S' as [->|S']; [|rewrite N in S'; contradiction]. eapply origin_stored; eauto.
      + eapply origin_unread; eauto. intros o I R. assert (J : In (mkMember o []) origins) by (cbn in I |- *; repeat (destruct I as [<-|I]; [auto 8|]); contradiction).
        apply (U _ J). exists o. split; [now left|]. split; auto.
    - destruct v; try discriminate; try apply origin_none; (apply origin_other; [discriminate|now apply not_textual]).
  Qed.
  Lemma told_list : forall c read v, told (ListOf c) read v (valid_list c v).
  Proof.
    intros c read v.
    assert (G : forall l, listed v l -> told (ListOf c) read v (if forallb (is_a c) l then Ok (DList l) else Err TypeError)).
    { intros l L. destruct (forallb (is_a c) l) eqn:E.
      - apply list_stored; auto. apply Forall_forall. intros x I. rewrite forallb_forall in E. apply instance_iff. auto.
      - apply some_false in E. destruct E as (x & I & E). eapply list_wrong; eauto. rewrite instance_iff. congruence. }
    destruct v; cbn [valid_list items]; try (apply G; apply li_one; discriminate).
    - apply (G []). constructor.
    - apply G. apply li_sequence. now left.
    - apply G. apply li_sequence. now right.
    - apply G. apply li_set.
    - apply G. apply li_dict.
  Qed.
  Lemma told_instance : forall read v, told (Instance AProperty) read v (property v).
  Proof.
    intros read v. unfold property. destruct (is_a AProperty v) eqn:E; [apply instance_stored; now apply instance_iff|apply instance_other; rewrite instance_iff; congruence].
  Qed.

  (** ** Objects *)
  Notation setter := (setter units check).
  Notation setattr := (setattr units check).
  Notation getattr := (getattr units check).
  Definition slot (c : cls) (j : string) : string := match setter c j with Some _ => ("_" ++ j)%string | None => j end.
  Definition numeric (c : cls) (j : string) : bool := match rule_of c j with AReal _ | AWhole _ | AnInteger | ARange _ => true | _ => false end.
  (** The fields in [done] have been set; [read] says what they hold. *)
  Definition Inv (c : cls) (done : list string) (s : vars) (read : string -> dv) : Prop :=
    forall j, In j (fields c) ->
      (In j done -> get (slot c j) s = Some (read j) /\ (numeric c j = true -> exists p, finite (read j) p)) /\
      (~ In j done -> read j = DNone /\ (get (slot c j) s = None \/ get (slot c j) s = Some DNone)).
  Lemma in_fields : forall c (P : string -> Prop), Forall P (fields c) -> forall j, In j (fields c) -> P j.
  Proof. intros c P F j I. rewrite Forall_forall in F. auto. Qed.
  Lemma slot_eqb : forall c j k, In j (fields c) -> In k (fields c) -> String.eqb (slot c j) (slot c k) = String.eqb j k.
  Proof.
    intros c j k J K. destruct c; cbn [fields In] in J, K; repeat (destruct J as [<-|J]); try contradiction; repeat (destruct K as [<-|K]); try contradiction; reflexivity.
  Qed.
  Lemma held_other : forall c done s read j, Inv c done s read -> In j (fields c) -> numeric c j = true -> held (read j) (get (slot c j) s).
  Proof.
    intros c done s read j I J N. destruct (I j J) as [A B]. destruct (in_dec string_dec j done) as [D|D].
    - destruct (A D) as [G F]. right. split; auto. split; auto. destruct (F N) as (p & [->|(z & -> & _)]); discriminate.
    - left. split; [apply B; auto|]. apply B. auto.
  Qed.
  Lemma side_above : forall c done s read o, Inv c done s read -> In o (fields c) -> numeric c o = true -> side_ok (NotAbove o) read above (get (slot c o) s).
  Proof. intros c done s read o I J N v q F. apply crosses_above; auto. eapply held_other; eauto. Qed.
  Lemma side_below : forall c done s read o, Inv c done s read -> In o (fields c) -> numeric c o = true -> side_ok (NotBelow o) read below (get (slot c o) s).
  Proof. intros c done s read o I J N v q F. apply crosses_below; auto. eapply held_other; eauto. Qed.
  Definition effect (c : cls) (k : string) (read : string -> dv) (s : vars) (v : dv) : Prop :=
    exists st, does (rule_of c k) read v st (snd (setattr c k s v)) /\ fst (setattr c k s v) = match st with Some w => put (slot c k) w s | None => s end.
  Lemma effect_checked : forall c k read s v f, setattr c k s v = checked k f s v -> slot c k = ("_" ++ k)%string -> told (rule_of c k) read v (f v) -> effect c k read s v.
  Proof.
    intros c k read s v f E L T. unfold effect. rewrite E, L. unfold checked. destruct (f v) as [w|e]; [exists (Some w)|exists None]; split; auto.
  Qed.
  Lemma effect_free : forall c k read s v, setattr c k s v = (put k v s, None) -> slot c k = k -> rule_of c k = Anything -> effect c k read s v.
  Proof. intros c k read s v E L R. unfold effect. rewrite E, L, R. exists (Some v). split; [apply anything|reflexivity]. Qed.
  Lemma effect_texts : forall c k read s v, setattr c k s v = set_texts k s v -> slot c k = ("_" ++ k)%string -> rule_of c k = Texts -> effect c k read s v.
  Proof. intros c k read s v E L R. unfold effect. rewrite E, L, R. apply told_texts. Qed.

  Ltac chk := eapply effect_checked; [reflexivity|reflexivity|cbn [rule_of attribute_rule]].
  Lemma effects : forall c done k s v read, Inv c done s read -> In k (fields c) -> real_float v ->
    (c = UniformInteger -> k = "upper_bound" -> In "lower_bound" done) -> effect c k read s v.
  Proof.
    intros c done k s v read I K R U. 
    assert (T : forall d, d = AProperty \/ d = ACondition \/ d = AParameter -> Inv d done s read -> get "_template" s = Some (read "template") \/ (get "_template" s = None /\ read "template" = DNone)).
    { intros d D J. assert (X : In "template" (fields d)) by (destruct D as [->|[->| ->]]; cbn; auto 8). destruct (J _ X) as [A B]. destruct (in_dec string_dec "template" done) as [Y|Y].
      - left. destruct (A Y) as [G _]. destruct D as [->|[->| ->]]; exact G.
      - destruct (B Y) as [E [G|G]]; [right|left]; rewrite ?E; destruct D as [->|[->| ->]]; auto. }
    assert (V : forall d, d = AProperty \/ d = ACondition \/ d = AParameter -> Inv d done s read -> get "_value" s = Some (read "value") \/ (get "_value" s = None /\ read "value" = DNone)).
    { intros d D J. assert (X : In "value" (fields d)) by (destruct D as [->|[->| ->]]; cbn; auto 8). destruct (J _ X) as [A B]. destruct (in_dec string_dec "value" done) as [Y|Y].
      - left. destruct (A Y) as [G _]. destruct D as [->|[->| ->]]; exact G.
      - destruct (B Y) as [E [G|G]]; [right|left]; rewrite ?E; destruct D as [->|[->| ->]]; auto. }
    destruct c; cbn [fields In] in K; repeat (destruct K as [<-|K]); try contradiction; try (apply effect_free; reflexivity); try (apply effect_texts; reflexivity).
    all: try (chk; first [apply told_unit|apply told_text|apply told_integer|apply told_probabilities|apply told_quantities|apply told_formula|apply told_inchi|apply told_origin|apply told_list|apply told_instance]).
    - chk. apply told_real. apply (side_above RealBounds done s read "upper_bound"); cbn; auto.
    - chk. apply told_real. apply (side_below RealBounds done s read "lower_bound"); cbn; auto.
    - chk. apply told_whole; auto. apply (side_above IntegerBounds done s read "upper_bound"); cbn; auto.
    - chk. apply told_whole; auto. apply (side_below IntegerBounds done s read "lower_bound"); cbn; auto.
    - apply (effect_checked UniformInteger "lower_bound" read s v (fun v => do w <- integral v; do b <- match get "_upper_bound" s with None | Some DNone => Ok false | Some h => above v h end; if (b : bool) then Err ValueError else Ok w)); [reflexivity|reflexivity|].
      apply (told_range (NotAbove "upper_bound")); auto. apply (side_above UniformInteger done s read "upper_bound"); cbn; auto.
    - assert (L : In "lower_bound" done) by auto. destruct (I "lower_bound") as [A _]; [cbn; auto|]. destruct (A L) as [G F]. destruct (F eq_refl) as (p & P). change (slot UniformInteger "lower_bound") with "_lower_bound" in G.
      apply (effect_checked UniformInteger "upper_bound" read s v (fun v => do w <- integral v; do b <- match get "_lower_bound" s with None | Some DNone => Err TypeError | Some l => below v l end; if (b : bool) then Err ValueError else Ok w)); [reflexivity|reflexivity|].
      pose proof (told_range (NotBelow "lower_bound") read below (get "_lower_bound" s) v) as X. rewrite G in *. 
      assert (S' : side_ok (NotBelow "lower_bound") read below (Some (read "lower_bound"))) by (rewrite <- G; apply (side_below UniformInteger done s read "lower_bound"); cbn; auto).
      specialize (X S'). destruct P as [P|(z & P & _)]; rewrite P in *; exact X.
    - chk. apply told_value. eapply T; [|exact I]; auto.
    - chk. apply told_template. eapply V; [|exact I]; auto.
    - chk. apply told_value. eapply T; [|exact I]; auto.
    - chk. apply told_template. eapply V; [|exact I]; auto.
    - chk. apply told_value. eapply T; [|exact I]; auto.
    - chk. apply told_template. eapply V; [|exact I]; auto.
  Qed.

  Definition upd (read : string -> dv) (k : string) (w : dv) : string -> dv := fun g => if String.eqb g k then w else read g.
  Lemma stored_numeric : forall c k read v w e, does (rule_of c k) read v (Some w) e -> numeric c k = true -> exists p, finite w p.
  Proof.
    intros c k read v w e D N. unfold numeric in N. destruct (rule_of c k); try discriminate; inversion D; subst.
    - match goal with H : as_float_of _ _ |- _ => destruct H as [(f & -> & ->)|(z & p & -> & -> & _)] end; [eauto|]. exists p. now left.
    - exists (inject_Z z). right. eauto.
    - exists (inject_Z z). right. eauto.
    - exists (inject_Z z). right. eauto.
  Qed.
  Lemma inv_put : forall c done s read k w, Inv c done s read -> In k (fields c) -> (numeric c k = true -> exists p, finite w p) ->
    Inv c (k :: done) (put (slot c k) w s) (upd read k w).
  Proof.
    intros c done s read k w I K N j J. rewrite get_put, (slot_eqb c j k J K). unfold upd. destruct (I j J) as [A B]. destruct (String.eqb_spec j k) as [->|E].
    - split; [auto|]. intros X. exfalso. apply X. now left.
    - split; [intros [X|X]; [congruence|auto]|]. intros X. apply B. intros Y. apply X. now right.
  Qed.
  Lemma inv_same : forall c done s read k, Inv c done s read -> In k done -> Inv c (k :: done) s read.
  Proof. intros c done s read k I K j J. destruct (I j J) as [A B]. split; [intros [<-|X]; auto|]. intros X. apply B. intros Y. apply X. now right. Qed.
  Lemma inv_reset : forall c done s read k, Inv c done s read -> In k (fields c) -> ~ In k done -> Inv c done (put (slot c k) DNone s) read.
  Proof.
    intros c done s read k I K N j J. rewrite get_put, (slot_eqb c j k J K). destruct (I j J) as [A B]. destruct (String.eqb_spec j k) as [->|E]; split; auto.
    - intros X. contradiction.
    - intros X. split; [now apply B|auto].
  Qed.
  Lemma getattr_slot : forall c j s w, getattr c j s = Ok w -> get (slot c j) s = Some w.
  Proof.
    intros c j s w H. unfold getattr, slot in *. destruct (setter c j).
    - destruct (get ("_" ++ j)%string s) as [x|]; [|discriminate]. destruct c, x; congruence.
    - destruct (get j s); congruence.
  Qed.
  Lemma inv_reads : forall c done s read j, Inv c done s read -> In j (fields c) -> In j done -> getattr c j s = Ok (read j).
  Proof.
    intros c done s read j I J D. destruct (I j J) as [A _]. destruct (A D) as [G F]. unfold getattr, slot, numeric in *.
    destruct c; cbn [fields In] in J; repeat (destruct J as [<-|J]); try contradiction; cbn in *; rewrite G; try reflexivity.
    all: destruct (F eq_refl) as (p & [->|(z & -> & _)]); reflexivity.
  Qed.
  Lemma params : forall c j, In j (fields c) <-> In j (map fst (sig c)).
  Proof. intros c j. destruct c; cbn; tauto. Qed.
  Lemma shape_inv : forall c s read, shape units c s -> (forall j, In j (fields c) -> getattr c j s = Ok (read j)) -> Inv c (fields c) s read.
  Proof.
    intros c s read H R j J. split; [|contradiction]. intros _. specialize (R j J). split; [now apply getattr_slot|]. intros N. apply getattr_slot in R. unfold numeric, slot in *.
    destruct c; cbn [fields In] in J; repeat (destruct J as [<-|J]); try contradiction; try discriminate N; cbn [shape] in H; cbn in R.
    - destruct H as (u & lo & hi & -> & _). cbn in R. injection R as <-. exists lo. now left.
    - destruct H as (u & lo & hi & -> & _). cbn in R. injection R as <-. exists hi. now left.
    - destruct H as (lo & hi & -> & _). cbn in R. injection R as <-. exists (inject_Z lo). right. eauto.
    - destruct H as (lo & hi & -> & _). cbn in R. injection R as <-. exists (inject_Z hi). right. eauto.
    - destruct H as (lo & ->). cbn in R. injection R as <-. exists (inject_Z lo). right. eauto.
    - destruct H as (lo & hi & -> & _). cbn in R. injection R as <-. exists (inject_Z lo). right. eauto.
    - destruct H as (lo & hi & -> & _). cbn in R. injection R as <-. exists (inject_Z hi). right. eauto.
  Qed.
  Lemma shape_reads : forall c s j, shape units c s -> In j (fields c) -> exists w, getattr c j s = Ok w.
  Proof.
    intros c s j H J. destruct c; cbn [fields In] in J; repeat (destruct J as [<-|J]); try contradiction; cbn [shape] in H;
      repeat match goal with H : exists x, _ |- _ => destruct H as [? H] end; try subst s; try (destruct H as [-> _]); eexists; reflexivity.
  Qed.
  (** The outcome of an assignment. *)
  Lemma assigns : forall c s k v read, shape units c s -> In k (fields c) -> real_float v -> (forall j, In j (fields c) -> getattr c j s = Ok (read j)) ->
    exists st, does (rule_of c k) read v st (snd (setattr c k s v)) /\
      forall j, In j (fields c) -> getattr c j (fst (setattr c k s v)) = Ok (match st with Some w => upd read k w j | None => read j end).
  Proof.
    intros c s k v read H K R G. pose proof (shape_inv c s read H G) as I. destruct (effects c (fields c) k s v read I K R) as (st & D & E); [intros -> _; cbn; auto|].
    exists st. split; auto. rewrite E. destruct st as [w|]; auto. intros j J.
    apply (inv_reads c (k :: fields c)); [apply inv_put; auto; intros N; eapply stored_numeric; eauto|auto|now right].
  Qed.

  (** ** Constructors *)
  Notation exec := (exec units check).
  Notation run_body := (run_body units check).
  Notation call := (call units check).
  Notation builds := (builds units check).
  Fixpoint plain (c : cls) (done : list string) (b : list stmt) : bool :=
    match b with
    | [] => true
    | Reset k :: r => existsb (fun j => String.eqb k (slot c j) && negb (mem j done)) (fields c) && plain c done r
    | Assign k :: r => mem k (fields c) && negb (match c, k with UniformInteger, "upper_bound" => negb (mem "lower_bound" done) | NominalReal, "nominal" => true | _, _ => false end) && plain c (k :: done) r
    | _ :: _ => false
    end.
  Fixpoint names (b : list stmt) : list string := match b with [] => [] | Assign k :: r => k :: names r | _ :: r => names r end.
  Lemma runs : forall c args b done s read, (forall k, real_float (arg k args)) -> Inv c done s read -> plain c done b = true ->
    match run_body c args b s with
    | Ok s' => exists read', builds c (fun k => arg k args) (names b) read (Ok read') /\ Inv c (rev (names b) ++ done) s' read'
    | Err e => builds c (fun k => arg k args) (names b) read (Err e)
    end.
  Proof.
    intros c args. induction b as [|st b IH]; intros done s read R I P; cbn [run_body DictModel.run_body names plain] in *; [exists read; split; [apply built|exact I]|].
    destruct st as [k|k|k|k|a b']; try discriminate.
    - cbn [DictModel.exec bind]. apply andb_true_iff in P as [P1 P2]. apply existsb_exists in P1. destruct P1 as (j & J & E). apply andb_true_iff in E as [E N]. apply String.eqb_eq in E. subst k.
      apply negb_true_iff in N. apply (IH done (put (slot c j) DNone s) read); auto. apply inv_reset; auto. intros X. apply mem_In in X. congruence.
    - apply andb_true_iff in P as [P1 P2]. apply andb_true_iff in P1 as [P1 P3]. apply mem_In in P1.
      assert (M : rule_when_made c k = rule_of c k). { destruct c; try reflexivity. cbn [fields In] in P1. destruct P1 as [<-|[<-|[]]]; [reflexivity|]. discriminate P3. }
      destruct (effects c done k s (arg k args) read I P1 (R k)) as (st & D & E).
      { intros -> ->. apply mem_In. cbn in P3. now rewrite !negb_involutive in P3. }
      cbn [DictModel.exec]. destruct (setattr c k s (arg k args)) as [s' e] eqn:A. cbn [fst snd] in D, E. destruct e as [e|]; cbn [bind].
      + eapply build_refused. rewrite M. exact D.
      + destruct st as [w|]; [|exfalso; inversion D].
        assert (I' : Inv c (k :: done) s' (upd read k w)) by (subst s'; apply inv_put; auto; intros N; eapply stored_numeric; eauto).
        specialize (IH (k :: done) s' (upd read k w) R I' P2). destruct (run_body c args b s') as [s2|e].
        * destruct IH as (read' & B & J). exists read'. split; [eapply build_set; [rewrite M; exact D|exact B]|]. cbn [rev]. rewrite <- app_assoc. exact J.
        * eapply build_set; [rewrite M; exact D|exact IH].
  Qed.

  Lemma run_app : forall c args b1 b2 s, run_body c args (b1 ++ b2) s = do s' <- run_body c args b1 s; run_body c args b2 s'.
  Proof. intros c args. induction b1 as [|st b1 IH]; intros b2 s; [reflexivity|]. cbn [app DictModel.run_body]. destruct (exec c args s st); cbn [bind]; auto. Qed.
  Lemma builds_app : forall c a l1 l2 read o, builds c a l1 read (Ok o) -> forall r, builds c a l2 o r -> builds c a (l1 ++ l2) read r.
  Proof.
    intros c a l1 l2 read o B. remember (Ok o) as q eqn:Q. revert o Q. induction B as [read|f fs read w o' D B IH|]; intros o Q r HH; [injection Q as <-; exact HH| |discriminate].
    cbn [app]. eapply build_set; eauto.
  Qed.
  Lemma builds_err : forall c a l1 l2 read e, builds c a l1 read (Err e) -> builds c a (l1 ++ l2) read (Err e).
  Proof.
    intros c a l1 l2 read e B. remember (Err e) as q eqn:Q. revert e Q. induction B as [read|f fs read w o' D B IH|f fs read st e' D]; intros e Q; [discriminate| |].
    - cbn [app]. eapply build_set; eauto.
    - injection Q as <-. cbn [app]. eapply build_refused; eauto.
  Qed.
  Lemma builds_ext : forall c a a' l read o, (forall f, In f l -> a f = a' f) -> builds c a l read o -> builds c a' l read o.
  Proof.
    intros c a a' l read o E B. induction B as [read|f fs read w o' D B IH|f fs read st e' D]; [apply built| |].
    - eapply build_set; [rewrite <- E by (now left); exact D|]. apply IH. intros g G. apply E. now right.
    - eapply build_refused. rewrite <- E by (now left). exact D.
  Qed.
  Lemma le_iff : forall v w, match py_le v w with
    | Ok true => at_most v w
    | Ok false => comparable v w /\ ~ at_most v w
    | Err e => e = TypeError /\ ~ comparable v w
    end.
  Proof.
    intros v w. unfold py_le. destruct (num v) as [x|] eqn:V.
    - assert (NV : number v) by (apply number_iff; congruence).
      assert (TV : text_of v = None) by (destruct v; try discriminate; reflexivity). destruct (num w) as [y|] eqn:W.
      + assert (NW : number w) by (apply number_iff; congruence). assert (C : comparable v w) by (left; auto).
        assert (X : forall p q, finite v p -> finite w q -> match Ok (Qle_bool p q) with Ok true => at_most v w | Ok false => comparable v w /\ ~ at_most v w | Err e => e = TypeError /\ ~ comparable v w end).
        { intros p q P Q. destruct (Qle_bool p q) eqn:L; [eapply am_finite; eauto; now apply Qle_bool_iff|]. split; auto. intros H.
          inversion H as [? ? p' q' P' Q' L'|? N1 N2|? N1 N2|? ? s t S1 T1 _]; subst.
          - rewrite (finite_fun _ _ _ P P'), (finite_fun _ _ _ Q Q') in L. apply Qle_bool_iff in L'. congruence.
          - destruct Q as [Q|(z & Q & _)]; discriminate.
          - destruct P as [P|(z & P & _)]; discriminate.
          - apply text_iff in S1. congruence. }
        assert (NaN1 : v = DFloat NaN -> ~ at_most v w).
        { intros -> H. inversion H as [? ? p' q' P' Q' L'|? N1 N2|? N1 N2|? ? s t S1 T1 _]; subst; try congruence; [destruct P' as [P'|(z & P' & _)]; discriminate|destruct S1; discriminate]. }
        assert (NaN2 : w = DFloat NaN -> ~ at_most v w).
        { intros -> H. inversion H as [? ? p' q' P' Q' L'|? N1 N2|? N1 N2|? ? s t S1 T1 _]; subst; try congruence; [destruct Q' as [Q'|(z & Q' & _)]; discriminate|destruct T1; discriminate]. }
        assert (I1 : v = DFloat Inf -> w <> DFloat Inf -> ~ at_most v w).
        { intros -> NE H. inversion H as [? ? p' q' P' Q' L'|? N1 N2|? N1 N2|? ? s t S1 T1 _]; subst; try congruence; [destruct P' as [P'|(z & P' & _)]; discriminate|destruct S1; discriminate]. }
        assert (I2 : w = DFloat NegInf -> v <> DFloat NegInf -> ~ at_most v w).
        { intros -> NE H. inversion H as [? ? p' q' P' Q' L'|? N1 N2|? N1 N2|? ? s t S1 T1 _]; subst; try congruence; [destruct Q' as [Q'|(z & Q' & _)]; discriminate|destruct T1; discriminate]. }
        destruct v as [|z|[p| | |]| | | | | | | | |]; try discriminate; injection V as <-; destruct w as [|z'|[q| | |]| | | | | | | | |]; try discriminate; injection W as <-; cbn [pynum_le num_value];
          try (apply X; first [left; reflexivity|right; eexists; split; reflexivity]);
          try (apply am_inf; [assumption|discriminate]); try (apply am_neg; [assumption|discriminate]);
          (split; [assumption|]); first [apply NaN1; reflexivity|apply NaN2; reflexivity|apply I1; [reflexivity|discriminate]|apply I2; [reflexivity|discriminate]].
      + rewrite TV. split; auto. intros [[_ N]|[T _]]; [apply number_iff in N; congruence|]. apply not_textual in TV. contradiction.
    - assert (NV : ~ number v) by (now apply not_number). destruct (text_of v) as [s|] eqn:TV.
      + destruct (text_of w) as [t|] eqn:TW.
        * assert (C : comparable v w) by (right; split; eexists; apply text_iff; eassumption). destruct (String.compare s t) eqn:L.
          -- eapply am_text; [apply text_iff; eauto|apply text_iff; eauto|congruence].
          -- eapply am_text; [apply text_iff; eauto|apply text_iff; eauto|congruence].
          -- split; auto. intros H. inversion H as [? ? p' q' P' Q' L'|? N1 N2|? N1 N2|? ? s' t' S1 T1 L']; subst.
             ++ apply NV. destruct P' as [->|(z & -> & _)]; [right|left]; eauto.
             ++ contradiction.
             ++ apply NV. right; eauto.
             ++ apply text_iff in S1, T1. congruence.
        * split; auto. intros [[N _]|[_ T]]; [contradiction|]. apply not_textual in TW. contradiction.
      + split; auto. intros [[N _]|[T _]]; [contradiction|]. apply not_textual in TV. contradiction.
  Qed.
  Definition same_outcome (c : cls) (m : res vars) (o : res (string -> dv)) : Prop :=
    match m, o with
    | Ok s, Ok read => forall j, In j (fields c) -> getattr c j s = Ok (read j)
    | Err e, Err e' => e = e'
    | _, _ => False
    end.
  Lemma inv_start : forall c, Inv c [] [] (fun _ => DNone).
  Proof. intros c j J. split; [contradiction|]. auto. Qed.
  Lemma constructed : forall c args, (forall k, real_float (arg k args)) ->
    exists o, constructs units check c (fun k => arg k args) o /\ same_outcome c (run_body c args (body c) []) o.
  Proof.
    intros c args R.
    assert (Plain : c <> NominalReal -> c <> UniformReal -> exists o, constructs units check c (fun k => arg k args) o /\ same_outcome c (run_body c args (body c) []) o).
    { intros N1 N2. assert (P : plain c [] (body c) = true) by (destruct c; try congruence; reflexivity). assert (F : names (body c) = fields c) by (destruct c; try congruence; reflexivity).
      pose proof (runs c args (body c) [] [] _ R (inv_start c) P) as H. rewrite F in H. destruct (run_body c args (body c) []) as [s|e].
      - destruct H as (read & B & I). exists (Ok read). split; [apply made_ok; auto; intros; contradiction|]. intros j J. eapply inv_reads; eauto. apply in_or_app. left. now apply in_rev in J.
      - exists (Err e). split; [now apply made_err|reflexivity]. }
    destruct c; try (apply Plain; discriminate); clear Plain.
    - change (body NominalReal) with ([Reset "_units"; Assign "units"] ++ [AssertNumber "nominal"; AssignFloat "nominal"]). rewrite run_app.
      pose proof (runs NominalReal args [Reset "_units"; Assign "units"] [] [] _ R (inv_start _) eq_refl) as H. destruct (run_body NominalReal args [Reset "_units"; Assign "units"] []) as [s|e]; cbn [bind].
      + destruct H as (read & B & I). pose proof (told_number read (arg "nominal" args)) as T. cbn [DictModel.run_body DictModel.exec].
        destruct (num (arg "nominal" args)); cbn [bind] in *; [destruct (to_float (arg "nominal" args)) as [f|e]; cbn [bind told] in *|].
        * assert (B' : builds NominalReal (fun k => arg k args) (fields NominalReal) (fun _ => DNone) (Ok (upd read "nominal" f))).
          { eapply (builds_app _ _ ["units"] ["nominal"]); [exact B|]. eapply build_set; [exact T|]. apply built. }
          exists (Ok (upd read "nominal" f)). split; [apply made_ok; [exact B'|discriminate]|].
          cbn [same_outcome]. change (DictModel.setattr units check NominalReal "nominal" s f) with (put "nominal" f s, @None exn). cbn [bind]. intros j J.
          apply (inv_reads NominalReal ["nominal"; "units"]); auto; [|cbn in J |- *; tauto].
          change "nominal" with (slot NominalReal "nominal") at 2. apply (inv_put NominalReal ["units"]); [exact I|cbn; auto|discriminate].
        * exists (Err e). split; [|reflexivity]. apply made_err. eapply (builds_app _ _ ["units"] ["nominal"]); [exact B|]. eapply build_refused. exact T.
        * exists (Err AssertionError). split; [|reflexivity]. apply made_err. eapply (builds_app _ _ ["units"] ["nominal"]); [exact B|]. eapply build_refused. exact T.
      + exists (Err e). split; [|reflexivity]. apply made_err. now apply (builds_err _ _ ["units"] ["nominal"]).
    - change (body UniformReal) with ([Reset "_units"; Assign "units"; Assign "lower_bound"; Assign "upper_bound"] ++ [AssertOrdered "lower_bound" "upper_bound"]). rewrite run_app.
      pose proof (runs UniformReal args [Reset "_units"; Assign "units"; Assign "lower_bound"; Assign "upper_bound"] [] [] _ R (inv_start _) eq_refl) as H.
      destruct (run_body UniformReal args [Reset "_units"; Assign "units"; Assign "lower_bound"; Assign "upper_bound"] []) as [s|e]; cbn [bind].
      + destruct H as (read & B & I). cbn [DictModel.run_body DictModel.exec]. pose proof (le_iff (arg "lower_bound" args) (arg "upper_bound" args)) as L.
        destruct (py_le (arg "lower_bound" args) (arg "upper_bound" args)) as [[]|e]; cbn [bind].
        * exists (Ok read). split; [apply made_ok; auto|]. intros j J. eapply inv_reads; eauto. cbn in J |- *. tauto.
        * exists (Err AssertionError). split; [|reflexivity]. destruct L. eapply made_unordered; eauto.
        * destruct L as [-> L]. exists (Err TypeError). split; [|reflexivity]. eapply made_incomparable; eauto.
      + exists (Err e). split; [|reflexivity]. now apply made_err.
  Qed.

  (** Arguments. *)
  Lemma get_some : forall (d : vars) k v, NoDup (map fst d) -> (get k d = Some v <-> In (k, v) d).
  Proof.
    induction d as [|[k' v'] d IH]; intros k v N; cbn [get In map fst] in *; [split; [discriminate|contradiction]|]. inversion N as [|? ? N1 N2]; subst. destruct (String.eqb_spec k k') as [->|E].
    - split; [intros [= ->]; auto|]. intros [H|H]; [now injection H as ->|]. exfalso. apply N1. change k' with (fst (k', v)). now apply in_map.
    - rewrite IH by auto. split; auto. intros [H|H]; auto. injection H as -> _. congruence.
  Qed.
  Lemma get_none : forall (d : vars) k, get k d = None <-> ~ In k (map fst d).
  Proof.
    induction d as [|[k' v'] d IH]; intros k; cbn [get In map fst]; [tauto|]. destruct (String.eqb_spec k k') as [->|E]; [split; [discriminate|tauto]|]. rewrite IH. split; [intros H [X|X]; congruence|tauto].
  Qed.
  Lemma bind_ok : forall sg kw args, bind_args sg kw = Ok args -> forall k d, In k (map fst sg) -> NoDup (map fst sg) -> In (k, d) sg ->
    get k args = match get k kw with Some v => Some v | None => d end.
  Proof.
    induction sg as [|[k0 d0] sg IH]; intros kw args B k d K N I; [contradiction|]. cbn [bind_args] in B. cbn [map fst] in N. inversion N as [|? ? N1 N2]; subst.
    assert (X : exists v rest, args = (k0, v) :: rest /\ bind_args sg kw = Ok rest /\ Some v = match get k0 kw with Some v => Some v | None => d0 end).
    { destruct (get k0 kw) as [v|]; [|destruct d0 as [v|]; [|discriminate]]; (destruct (bind_args sg kw) as [rest|]; [|discriminate]); injection B as <-; eauto. }
    destruct X as (v & rest & -> & B' & V). cbn [get]. destruct (String.eqb_spec k k0) as [->|E].
    - destruct I as [I|I]; [now injection I as ->|]. exfalso. apply N1. change k0 with (fst (k0, d)). now apply in_map.
    - destruct I as [I|I]; [injection I as -> _; congruence|]. eapply IH; eauto. change k with (fst (k, d)). now apply in_map.
  Qed.
  Lemma bind_err : forall sg kw, (exists args, bind_args sg kw = Ok args /\ forall k, In (k, None) sg -> get k kw <> None) \/ (bind_args sg kw = Err TypeError /\ exists k, In (k, None) sg /\ get k kw = None).
  Proof.
    induction sg as [|[k0 d0] sg IH]; intros kw; cbn [bind_args In]; [left; eexists; split; [reflexivity|contradiction]|].
    destruct (IH kw) as [(args & -> & N)|(-> & k & K & G)].
    - destruct (get k0 kw) as [v|] eqn:G; [|destruct d0 as [v|]]; cbn [bind].
      + left. eexists. split; [reflexivity|]. intros k [E|K]; [injection E as <- _; congruence|auto].
      + left. eexists. split; [reflexivity|]. intros k [E|K]; [discriminate|auto].
      + right. split; auto. exists k0. auto.
    - right. split; [destruct (get k0 kw); [|destruct d0]; reflexivity|]. exists k. auto.
  Qed.
  Lemma sig_nodup : forall c, NoDup (map fst (sig c)).
  Proof. intros c. destruct c; cbn; repeat (constructor; [cbn; intuition discriminate|]); constructor. Qed.
  Lemma sig_required : forall c k, In (k, None) (sig c) <-> In k (required c).
  Proof. intros c k. destruct c; cbn; split; intros H; repeat (destruct H as [H|H]); try contradiction; try discriminate; try (injection H as <-); subst; auto 8. Qed.
  Lemma sig_default : forall c k, In k (fields c) -> ~ In k (required c) -> In (k, Some (default c k)) (sig c).
  Proof. intros c k K N. destruct c; cbn in K, N |- *; repeat (destruct K as [<-|K]); try contradiction; cbn; auto 8; exfalso; apply N; auto 8. Qed.
  Lemma called : forall c kw, NoDup (map fst kw) -> Forall (fun p => real_float (snd p)) kw ->
    (~ fits c kw -> call c kw = Err TypeError) /\
    (forall a, fits c kw -> arguments c kw a -> exists o, constructs units check c a o /\ same_outcome c (call c kw) o).
  Proof.
    intros c kw N R. unfold call, DictModel.call.
    assert (K : forallb (fun p => mem (fst p) (map fst (sig c))) kw = true <-> forall f, In f (map fst kw) -> In f (fields c)).
    { rewrite forallb_forall. split.
      - intros H f F. apply in_map_iff in F. destruct F as (p & <- & P). apply params. apply mem_In. auto.
      - intros H p P. apply mem_In. apply params. apply H. now apply in_map. }
    split.
    - intros NF. destruct (forallb _ kw) eqn:F; auto. destruct (bind_err (sig c) kw) as [(args & B & G)|(B & _)]; rewrite B; [|reflexivity].
      exfalso. apply NF. split; [now apply K|]. intros f Q. apply sig_required in Q. specialize (G f Q). destruct (in_dec string_dec f (map fst kw)); auto. apply get_none in n. contradiction.
    - intros a [F1 F2] A. rewrite (proj2 K F1). destruct (bind_err (sig c) kw) as [(args & B & G)|(B & k & Q & G)]; [|exfalso; apply sig_required in Q; apply F2 in Q; apply get_none in G; contradiction].
      rewrite B. cbn [bind]. assert (RA : forall k, real_float (arg k args)) by (intros k; eapply arg_real; eauto using sig_real).
      assert (E : forall f, In f (fields c) -> arg f args = a f).
      { intros f F. unfold arg. assert (P : In f (map fst (sig c))) by now apply params. destruct (A f F) as [I|[I D]].
        - apply in_map_iff in P. destruct P as ([f' d] & Q & P). cbn in Q. subst f'. rewrite (bind_ok _ _ _ B f d); auto using sig_nodup; [|change f with (fst (f, d)); now apply in_map].
          apply get_some in I; auto. now rewrite I.
        - rewrite (bind_ok _ _ _ B f (Some (default c f))); auto using sig_nodup.
          + apply get_none in I. rewrite I. auto.
          + apply sig_default; auto. }
      destruct (constructed c args RA) as (o & C & S'). exists o. split; auto.
      assert (EB : forall r, builds c (fun k => arg k args) (fields c) (fun _ => DNone) r -> builds c a (fields c) (fun _ => DNone) r) by (intros r; apply builds_ext; auto).
      assert (U : c = UniformReal -> arg "lower_bound" args = a "lower_bound" /\ arg "upper_bound" args = a "upper_bound") by (intros ->; split; apply E; cbn; auto).
      inversion C as [e H|read H O|read Q H O|read Q H O1 O2]; subst o.
      + apply made_err; auto.
      + apply made_ok; auto. intros Q. destruct (U Q) as [<- <-]. auto.
      + destruct (U Q) as [U1 U2]. rewrite U1, U2 in *. eapply made_incomparable; eauto.
      + destruct (U Q) as [U1 U2]. rewrite U1, U2 in *. eapply made_unordered; eauto.
  Qed.
End Proofs.
