(** C66: the cake and measurement demos. *)
From Coq Require Import String Ascii List Bool Arith ZArith QArith Lia Lqa Field.
From Verif Require Import Base BaseFacts CakeModel CakeSpec.
Import ListNotations.
Open Scope string_scope.
Open Scope list_scope.
Open Scope nat_scope.

(** The scopes are those of the last change. *)
Theorem scopes_last : forall l d t,
  (let s := fold_left (fun s c => change_scope (fst c) (snd c) s) l scopes0 in demo_scope s = d /\ template_scope s = t) <-> scopes_after l d t.
Proof.
  intros l d t. cbv zeta. split.
  - intros (<- & <-). destruct (rev l) as [|(d, t) r] eqn:E.
    + apply (f_equal (@rev _)) in E. rewrite rev_involutive in E. subst l. constructor.
    + apply (f_equal (@rev _)) in E. rewrite rev_involutive in E. cbn in E. subst l. rewrite fold_left_app. cbn [fold_left fst snd change_scope demo_scope template_scope].
      destruct t; constructor.
  - intros [|l' d'|l' d' t']; [split; reflexivity| |]; rewrite fold_left_app; split; reflexivity.
Qed.

Lemma bind_ok : forall A B (r : res A) (f : A -> res B) b, bind r f = Ok b <-> exists a, r = Ok a /\ f a = Ok b.
Proof.
  intros A B [a|e] f b; cbn; split.
  - intros H. exists a. split; [reflexivity|exact H].
  - intros (a' & H & K). inversion H; subst. exact K.
  - discriminate.
  - intros (a' & H & _). discriminate.
Qed.
Lemma has_in : forall x l, has x l = true <-> In x l.
Proof.
  intros x l. unfold has. rewrite existsb_exists. split; [intros (y & I & E); apply String.eqb_eq in E; subst y; exact I|]. intros I. exists x. split; [exact I|apply String.eqb_refl].
Qed.
Lemma has_not : forall x l, has x l = false <-> ~ In x l.
Proof. intros x l. rewrite <- has_in. destruct (has x l); split; intuition congruence. Qed.

Section Cake.
  Variable rand : nat -> Q.
  Variable pick : nat -> nat -> nat.
  Variable key : string.
  Variable cake_process : nat.
  Hypothesis pick_in : forall n k, 0 < k -> pick n k < k.
  Notation randomize := (randomize rand pick key cake_process).
  Notation randomize_all := (randomize_all rand pick key cake_process).

  Lemma choose_in : forall n l, l <> [] -> In (choose pick n l) l.
  Proof. intros n l N. unfold choose. apply nth_In. apply pick_in. destruct l; [congruence|cbn; lia]. Qed.
  Lemma quantity_iff : forall q f (g : Q -> string -> rquant -> Prop) old new, (forall x u, g x u (f x u)) -> quantity q f old = Ok new -> fuzzed g q old new.
  Proof.
    intros [q|] f g old new G; cbn; [|intros H; injection H as <-; reflexivity]. unfold nominal_of. destruct (sq_nominal q) as [x|]; cbn; [|discriminate].
    intros H. injection H as <-. eexists x, _. split; [reflexivity|]. split; [reflexivity|apply G].
  Qed.
  Lemma quantity_ok : forall q f old, (exists new, quantity q f old = Ok new) <-> forall q', q = Some q' -> sq_nominal q' <> None.
  Proof.
    intros [q|] f old; cbn; [|split; [discriminate|eexists; reflexivity]]. unfold nominal_of. destruct (sq_nominal q) as [x|] eqn:E; cbn; split.
    - intros _ q' H. injection H as <-. congruence.
    - eexists; reflexivity.
    - intros (new & H). discriminate.
    - intros H. destruct (H q eq_refl E).
  Qed.
  Definition out_name (h : runs) (r : crun) : string := match cr_output r with Some o => cr_name (h o) | None => "" end.
  Lemma noted_of : forall s r, noted (cs_notes s) (cr_notes r)
    (match cs_notes s with Some t => if String.eqb t "" then cr_notes r else Some ("The spec says """ ++ t ++ """")%string | None => cr_notes r end).
  Proof.
    intros s r. destruct (cs_notes s) as [t|]; [|constructor]. destruct (String.eqb t "") eqn:E; [apply String.eqb_eq in E; subst t; constructor|].
    apply String.eqb_neq in E. constructor. exact E.
  Qed.
  Lemma sapp1 : forall t n, t = "Procuring" -> (t ++ " " ++ n = "Procuring " ++ n)%string.
  Proof. intros t n ->. reflexivity. Qed.
  (** One object. *)
  Lemma randomize_one : forall i h n h' n', randomize i (h, n) = Ok (h', n') ->
    (forall j, j <> i -> h' j = h j) /\ n' = n + (if needs_draw (h i) then 1 else 0)
    /\ (cr_kind (h i) = COther /\ h' = h \/ cr_kind (h i) <> COther /\ marked key (h i) (h' i) /\ particular (rand n) (out_name h (h i)) (cr_source (h cake_process)) (h i) (h' i)).
  Proof.
    intros i h n h' n' H. unfold CakeModel.randomize in H. unfold needs_draw, particular.
    assert (Pi : forall h r, put h i r i = r) by (intros; unfold put; rewrite Nat.eqb_refl; reflexivity).
    assert (Pj : forall h r j, j <> i -> put h i r j = h j) by (intros hh r j N; unfold put; apply Nat.eqb_neq in N; rewrite N; reflexivity).
    destruct (cr_kind (h i)) eqn:K.
    - apply bind_ok in H. destruct H as (u & U & H). destruct (cs_uid (cr_spec (h i))) as [u'|] eqn:Eu; [|discriminate]. injection U as ->.
      change (existsb (String.eqb "raw material") (cs_tags (cr_spec (h i)))) with (has "raw material" (cs_tags (cr_spec (h i)))).
      destruct (has "raw material" (cs_tags (cr_spec (h i)))) eqn:R; injection H as <- <-.
      + split; [apply Pj|]. split; [lia|]. right. split; [discriminate|]. rewrite Pi. split.
        * unfold marked. cbn. rewrite Eu, K. split; [eexists; split; reflexivity|]. split; [reflexivity|]. split; [apply noted_of|]. repeat split.
        * cbn [cr_name cr_source]. split; [|split; [reflexivity|repeat split]]. apply has_in in R. destruct (has "produce" (cs_tags (cr_spec (h i)))) eqn:P.
          -- apply has_in in P. apply supplied_produce; [exact R|exact P|]. apply (choose_in n producers). discriminate.
          -- apply has_not in P. apply supplied_dry; [exact R|exact P|]. apply (choose_in n drygoods). discriminate.
      + split; [apply Pj|]. split; [lia|]. right. split; [discriminate|]. rewrite Pi. split.
        * unfold marked. cbn. rewrite Eu, K. split; [eexists; split; reflexivity|]. split; [reflexivity|]. split; [apply noted_of|]. repeat split.
        * cbn [cr_name cr_source]. split; [|split; [reflexivity|repeat split]]. apply supplied_made. apply has_not. exact R.
    - apply bind_ok in H. destruct H as (u & U & H). destruct (cs_uid (cr_spec (h i))) as [u'|] eqn:Eu; [|discriminate]. injection U as ->.
      destruct (cs_template (cr_spec (h i))) as [t|] eqn:T; [|discriminate]. destruct (String.eqb t "Procuring") eqn:P.
      + apply String.eqb_eq in P. destruct (cr_output (h i)) as [o|] eqn:O; [|discriminate]. injection H as <- <-.
        split; [apply Pj|]. split; [lia|]. right. split; [discriminate|]. rewrite Pi. split.
        * unfold marked. cbn. rewrite Eu, K, O. split; [eexists; split; reflexivity|]. split; [reflexivity|]. split; [apply noted_of|]. repeat split.
        * split; [repeat split|]. left. split; [rewrite P; reflexivity|]. split; [discriminate|]. split; [unfold out_name; rewrite O; apply sapp1; exact P|reflexivity].
      + apply String.eqb_neq in P. injection H as <- <-. split; [apply Pj|]. split; [lia|]. right. split; [discriminate|]. rewrite Pi. split.
        * unfold marked. cbn. rewrite Eu, K. split; [eexists; split; reflexivity|]. split; [reflexivity|]. split; [apply noted_of|]. repeat split.
        * split; [repeat split|]. right. split; [exists t; split; [reflexivity|exact P]|]. split; reflexivity.
    - apply bind_ok in H. destruct H as (u & U & H). destruct (cs_uid (cr_spec (h i))) as [u'|] eqn:Eu; [|discriminate]. injection U as ->.
      apply bind_ok in H. destruct H as (a & A & H). apply bind_ok in H. destruct H as (v & V & H). apply bind_ok in H. destruct H as (m & M & H). apply bind_ok in H. destruct H as (x & X & H).
      injection H as <- <-. split; [apply Pj|]. split; [lia|]. right. split; [discriminate|]. rewrite Pi. split.
      + unfold marked. cbn. rewrite Eu, K. split; [eexists; split; reflexivity|]. split; [reflexivity|]. split; [apply noted_of|]. repeat split.
      + cbn [cr_name cr_source cr_absolute cr_volume cr_mass cr_number]. split; [reflexivity|]. split; [reflexivity|].
        assert (Sc : forall y w, normal_about (rand n) y w (scaled (fuzz_of (rand n)) y w)).
        { intros y w. eexists _, _. split; [reflexivity|]. unfold fuzz_of. split; lra. }
        split; [eapply quantity_iff; [|exact A]; exact Sc|]. split; [eapply quantity_iff; [|exact V]|split; [eapply quantity_iff; [|exact M]|eapply quantity_iff; [|exact X]; exact Sc]].
        * intros y w. eexists _, _. split; [reflexivity|]. unfold fuzz_of. split; lra.
        * intros y w. eexists _, _. split; [reflexivity|]. unfold fuzz_of. split; lra.
    - injection H as <- <-. split; [reflexivity|]. split; [lia|]. left. split; reflexivity.
  Qed.
  Lemma randomize_one_ok : forall i h n, (exists st, randomize i (h, n) = Ok st) <-> ready (h i).
  Proof.
    intros i h n. unfold CakeModel.randomize, ready. destruct (cr_kind (h i)) eqn:K.
    - destruct (cs_uid (cr_spec (h i))) as [u|]; cbn [bind].
      + split; [intros _; right; split; [congruence|split; discriminate]|]. intros _. destruct (has "raw material" (cs_tags (cr_spec (h i)))); eexists; reflexivity.
      + split; [intros (st & H); discriminate|]. intros [H|(H & _)]; congruence.
    - destruct (cs_uid (cr_spec (h i))) as [u|]; cbn [bind].
      + destruct (cs_template (cr_spec (h i))) as [t|].
        * destruct (String.eqb t "Procuring") eqn:P.
          -- apply String.eqb_eq in P. subst t. destruct (cr_output (h i)) as [o|].
             ++ split; [intros _; right; split; [congruence|split; [intros _; split; congruence|discriminate]]|]. intros _. eexists; reflexivity.
             ++ split; [intros (st & H); discriminate|]. intros [H|(_ & H & _)]; [discriminate|]. destruct (H eq_refl) as (_ & H'). destruct (H' eq_refl eq_refl).
          -- apply String.eqb_neq in P. split; [intros _; right; split; [congruence|split; [intros _; split; congruence|discriminate]]|]. intros _. eexists; reflexivity.
        * split; [intros (st & H); discriminate|]. intros [H|(_ & H & _)]; [discriminate|]. destruct (H eq_refl) as (H' & _). congruence.
      + split; [intros (st & H); discriminate|]. intros [H|(H & _)]; congruence.
    - destruct (cs_uid (cr_spec (h i))) as [u|]; cbn [bind].
      + split.
        * intros (st & H). apply bind_ok in H. destruct H as (a & A & H). apply bind_ok in H. destruct H as (v & V & H). apply bind_ok in H. destruct H as (m & M & H). apply bind_ok in H. destruct H as (x & X & H).
          right. split; [congruence|]. split; [discriminate|]. intros _ q [I|[I|[I|[I|[]]]]].
          -- exact (proj1 (quantity_ok _ _ _) (ex_intro _ _ A) q I).
          -- exact (proj1 (quantity_ok _ _ _) (ex_intro _ _ V) q I).
          -- exact (proj1 (quantity_ok _ _ _) (ex_intro _ _ M) q I).
          -- exact (proj1 (quantity_ok _ _ _) (ex_intro _ _ X) q I).
        * intros [H|(_ & _ & H)]; [discriminate|]. specialize (H eq_refl).
          destruct (proj2 (quantity_ok (cs_absolute (cr_spec (h i))) (scaled (fuzz_of (rand n))) (cr_absolute (h i)))) as (a & ->); [intros q E; apply H; rewrite <- E; cbn; tauto|].
          destruct (proj2 (quantity_ok (cs_volume (cr_spec (h i))) (shifted (fuzz_of (rand n))) (cr_volume (h i)))) as (v & ->); [intros q E; apply H; rewrite <- E; cbn; tauto|].
          destruct (proj2 (quantity_ok (cs_mass (cr_spec (h i))) (spread (fuzz_of (rand n))) (cr_mass (h i)))) as (m & ->); [intros q E; apply H; rewrite <- E; cbn; tauto|].
          destruct (proj2 (quantity_ok (cs_number (cr_spec (h i))) (scaled (fuzz_of (rand n))) (cr_number (h i)))) as (x & ->); [intros q E; apply H; rewrite <- E; cbn; tauto|].
          eexists; reflexivity.
      + split; [intros (st & H); discriminate|]. intros [H|(H & _)]; congruence.
    - split; [intros _; left; reflexivity|]. intros _. eexists; reflexivity.
  Qed.
  Lemma randomize_app : forall a b st, randomize_all (a ++ b) st = bind (randomize_all a st) (randomize_all b).
  Proof. induction a as [|i a IH]; intros b st; cbn; [reflexivity|]. destruct (randomize i st) as [st'|e]; cbn; [apply IH|reflexivity]. Qed.
  Lemma untouched : forall l h n h' n', randomize_all l (h, n) = Ok (h', n') -> forall j, ~ In j l -> h' j = h j.
  Proof.
    induction l as [|i l IH]; intros h n h' n' H j N; cbn in H; [injection H as <- <-; reflexivity|].
    apply bind_ok in H. destruct H as ((h1, n1) & H1 & H2). apply randomize_one in H1. destruct H1 as (O & _). rewrite (IH _ _ _ _ H2 j); [|intros I; apply N; right; exact I].
    apply O. intros ->. apply N. left; reflexivity.
  Qed.
  Lemma source_kept : forall l h n h' n', cs_template (cr_spec (h cake_process)) <> Some "Procuring" -> randomize_all l (h, n) = Ok (h', n') ->
    cr_source (h' cake_process) = cr_source (h cake_process) /\ cs_template (cr_spec (h' cake_process)) <> Some "Procuring".
  Proof.
    induction l as [|i l IH]; intros h n h' n' N H; cbn in H; [injection H as <- <-; split; [reflexivity|exact N]|].
    apply bind_ok in H. destruct H as ((h1, n1) & H1 & H2). apply randomize_one in H1. destruct H1 as (O & _ & D).
    assert (X : cr_source (h1 cake_process) = cr_source (h cake_process) /\ cr_spec (h1 cake_process) = cr_spec (h cake_process)).
    { destruct (Nat.eq_dec cake_process i) as [E|E]; [subst i|rewrite O by exact E; split; reflexivity]. destruct D as [(_ & ->)|(K & M & P)]; [split; reflexivity|].
      destruct M as (_ & _ & _ & _ & Sp & _). split; [|exact Sp]. unfold particular in P. destruct (cr_kind (h cake_process)).
      - destruct P as (_ & P & _). exact P.
      - destruct P as (_ & [(P & _)|(_ & _ & P)]); [contradiction|exact P].
      - destruct P as (_ & P & _). exact P.
      - congruence. }
    destruct X as (X & Y). destruct (IH h1 n1 h' n') as (A & B); [rewrite Y; exact N|exact H2|]. split; [rewrite A; exact X|exact B].
  Qed.
  Lemma draws : forall l h n h' n', NoDup l -> randomize_all l (h, n) = Ok (h', n') -> n' = n + length (filter (fun i => needs_draw (h i)) l).
  Proof.
    induction l as [|i l IH]; intros h n h' n' N H; cbn in H; [injection H as <- <-; cbn; lia|].
    apply bind_ok in H. destruct H as ((h1, n1) & H1 & H2). apply randomize_one in H1. destruct H1 as (O & E & _). inversion N as [|? ? Ni N']; subst.
    rewrite (IH _ _ _ _ N' H2). cbn [filter]. replace (filter (fun j => needs_draw (h1 j)) l) with (filter (fun j => needs_draw (h j)) l).
    - destruct (needs_draw (h i)); cbn [length]; lia.
    - apply filter_ext_in. intros j I. rewrite O; [reflexivity|]. intros ->. exact (Ni I).
  Qed.
  (** Every object of the traversal gets its particulars once, whatever the order, and nothing else changes. *)
  Theorem cake_particulars : forall l h n h' n', NoDup l -> cs_template (cr_spec (h cake_process)) <> Some "Procuring" -> randomize_all l (h, n) = Ok (h', n') ->
    (forall j, ~ In j l -> h' j = h j) /\ (forall j, cr_kind (h j) = COther -> h' j = h j)
    /\ forall a i b, l = a ++ i :: b -> cr_kind (h i) <> COther ->
         marked key (h i) (h' i)
         /\ exists output, (forall o, cr_output (h i) = Some o -> In o a -> output = cr_name (h' o)) /\ (forall o, cr_output (h i) = Some o -> ~ In o a -> output = cr_name (h o))
            /\ particular (rand (n + length (filter (fun j => needs_draw (h j)) a))) output (cr_source (h cake_process)) (h i) (h' i).
  Proof.
    intros l h n h' n' N T H.
    assert (Main : forall a i b, l = a ++ i :: b -> exists h1 n1 h2 n2, randomize_all a (h, n) = Ok (h1, n1) /\ randomize i (h1, n1) = Ok (h2, n2) /\ h2 i = h' i /\ h1 i = h i
       /\ (forall o, In o a -> h1 o = h' o) /\ (forall o, ~ In o a -> h1 o = h o)).
    { intros a i b E. subst l. rewrite randomize_app in H. apply bind_ok in H. destruct H as ((h1, n1) & H1 & H). cbn in H. apply bind_ok in H. destruct H as ((h2, n2) & H2 & H3).
      exists h1, n1, h2, n2. split; [exact H1|]. split; [exact H2|]. apply NoDup_remove in N. destruct N as (Na & Ni).
      assert (Ia : ~ In i a) by (intros I; apply Ni; apply in_or_app; left; exact I). assert (Ib : ~ In i b) by (intros I; apply Ni; apply in_or_app; right; exact I).
      split; [symmetry; apply (untouched _ _ _ _ _ H3); exact Ib|]. split; [apply (untouched _ _ _ _ _ H1); exact Ia|]. split.
      - intros o I. assert (Io : ~ In o b). { clear -Na I. induction a as [|x a IH]; [destruct I|]. cbn in Na. inversion Na as [|? ? Nx Na']; subst. destruct I as [->|I]; [intros J; apply Nx; apply in_or_app; right; exact J|apply IH; assumption]. }
        rewrite (untouched _ _ _ _ _ H3 o Io). symmetry. apply randomize_one in H2. apply H2. intros ->. exact (Ia I).
      - intros o I. apply (untouched _ _ _ _ _ H1). exact I. }
    split; [apply (untouched _ _ _ _ _ H)|]. split.
    - intros j K. destruct (in_dec Nat.eq_dec j l) as [I|I]; [|apply (untouched _ _ _ _ _ H); exact I]. apply in_split in I. destruct I as (a & b & E).
      destruct (Main a j b E) as (h1 & n1 & h2 & n2 & _ & R & E2 & E1 & _). apply randomize_one in R. destruct R as (_ & _ & [(_ & ->)|(K' & _)]); [congruence|]. rewrite E1 in K'. contradiction.
    - intros a i b E K. destruct (Main a i b E) as (h1 & n1 & h2 & n2 & Ra & R & E2 & E1 & Oa & On). apply randomize_one in R. destruct R as (_ & _ & [(K' & _)|(_ & M & P)]); [rewrite E1 in K'; contradiction|].
      rewrite E1, E2 in *. split; [exact M|]. exists (out_name h1 (h i)). split; [|split].
      + intros o O I. unfold out_name. rewrite O. rewrite (Oa o I). reflexivity.
      + intros o O I. unfold out_name. rewrite O. rewrite (On o I). reflexivity.
      + destruct (source_kept _ _ _ _ _ T Ra) as (Sr & _). rewrite Sr in P. rewrite (draws a h n h1 n1) in P; [exact P| |exact Ra].
        subst l. clear -N. induction a as [|x a IH]; [constructor|]. cbn in N. inversion N as [|? ? Nx N']; subst. constructor; [intros I; apply Nx; apply in_or_app; left; exact I|apply IH; exact N'].
  Qed.
  (** It succeeds exactly if every run has what its particulars are made of. *)
  Theorem cake_succeeds : forall l h n, NoDup l -> ((exists st, randomize_all l (h, n) = Ok st) <-> forall i, In i l -> ready (h i)).
  Proof.
    induction l as [|i l IH]; intros h n N; cbn [CakeModel.randomize_all In]; [split; [intros _ i []|intros _; eexists; reflexivity]|]. inversion N as [|? ? Ni N']; subst.
    assert (Rd : forall h1 n1, randomize i (h, n) = Ok (h1, n1) -> ((forall j, In j l -> ready (h1 j)) <-> (forall j, In j l -> ready (h j)))).
    { intros h1 n1 H. apply randomize_one in H. destruct H as (O & _). split; intros K j I; specialize (K j I); rewrite O in *; try assumption; intros ->; exact (Ni I). }
    split.
    - intros (st & H). apply bind_ok in H. destruct H as ((h1, n1) & H1 & H2). intros j [<-|I]; [apply (randomize_one_ok i h n); eexists; exact H1|].
      apply (proj1 (Rd h1 n1 H1)); [|exact I]. apply (IH h1 n1 N'). eexists; exact H2.
    - intros H. destruct (proj2 (randomize_one_ok i h n) (H i (or_introl eq_refl))) as ((h1, n1) & H1). rewrite H1. cbn [bind]. apply (IH h1 n1 N'). apply (proj2 (Rd h1 n1 H1)). intros j I. apply H. right; exact I.
  Qed.
End Cake.

(** ** The numbers *)
Section Numbers.
  Open Scope Q_scope.
  Lemma mul_bounds : forall x r, 0 <= x -> 0 <= r -> r < 1 -> 0 <= x * r /\ x * r <= x.
  Proof. intros x r X R R1. split; [apply Qmult_le_0_compat; assumption|]. setoid_replace x with (x * 1) at 2 by ring. rewrite (Qmult_comm x r), (Qmult_comm x 1). apply Qmult_le_compat_r; lra. Qed.
  (** The quantity of a run is within five percent of that of its spec, a mass fraction within ten; a fraction up to 10/11 stays one. *)
  Theorem quantities_near : forall r x u v, 0 <= r -> r < 1 -> 0 <= x ->
    (normal_about r x u v -> exists m s, v = RNormal m s u /\ x - x / 20 <= m /\ m <= x + x / 20 /\ s == x / 20)
    /\ (uniform_about r x u v -> exists a b, v = RUniform a b u /\ x - x / 10 <= a /\ a <= b /\ b <= x + x / 10 /\ (x <= 10 # 11 -> 0 <= a /\ b <= 1))
    /\ (normal_above r x u v -> exists m s, v = RNormal m s u /\ x + (45 # 10000) <= m /\ m < x + (55 # 10000) /\ s == 5 # 1000).
  Proof.
    intros r x u v R R1 X. destruct (mul_bounds x r X R R1) as (A & B). assert (D20 : x / 20 == x * (1 # 20)) by (unfold Qdiv; reflexivity). assert (D10 : x / 10 == x * (1 # 10)) by (unfold Qdiv; reflexivity). repeat split.
    - intros (m & s & -> & M & Sd). exists m, s. rewrite D20. repeat split; try lra.
    - intros (a & b & -> & M & Sd). exists a, b. rewrite D10. repeat split; lra.
    - intros (m & s & -> & M & Sd). exists m, s. repeat split; lra.
  Qed.
  (** The volume fractions of the runs always add up to more than those of the specs. *)
  Fixpoint total (l : list Q) : Q := match l with [] => 0 | x :: r => x + total r end.
  Theorem volume_fractions_refuted : forall l : list (Q * Q * rquant), l <> nil ->
    (forall r x v, In (r, x, v) l -> 0 <= r /\ normal_above r x "" v) ->
    total (map (fun p => snd (fst p)) l) < total (map (fun p => match snd p with RNormal m _ _ => m | RUniform _ _ _ => 0 end) l).
  Proof.
    assert (H : forall l : list (Q * Q * rquant), (forall r x v, In (r, x, v) l -> 0 <= r /\ normal_above r x "" v) ->
      total (map (fun p => snd (fst p)) l) + inject_Z (Z.of_nat (length l)) * (45 # 10000) <= total (map (fun p => match snd p with RNormal m _ _ => m | RUniform _ _ _ => 0 end) l)).
    { induction l as [|((r, x), v) l IH]; intros H; [vm_compute; discriminate|]. specialize (IH (fun r x v I => H r x v (or_intror I))). destruct (H r x v (or_introl eq_refl)) as (R & m & s & -> & M & _).
      cbn [map total fst snd length]. rewrite Nat2Z.inj_succ. unfold Z.succ. rewrite inject_Z_plus. change (inject_Z 1) with 1. lra. }
    intros l N K. specialize (H l K). destruct l as [|p l]; [congruence|]. cbn [length] in H. rewrite Nat2Z.inj_succ in H. unfold Z.succ in H. rewrite inject_Z_plus in H. change (inject_Z 1) with 1 in H.
    assert (0 <= inject_Z (Z.of_nat (length l))) by (change 0 with (inject_Z 0); rewrite <- Zle_Qle; lia). lra.
  Qed.
  (** A flexural test has the values of the formulas and one percent of them as deviation; it fails exactly without deflection. *)
  Theorem flexural_exact : forall i d tags, 
    (d == 0 -> make_flexural i d tags = Err ZeroDivisionError)
    /\ (~ d == 0 -> exists m, make_flexural i d tags = Ok m /\ fx_id m = i /\ fx_tags m = ["3_pt_bend"; "mechanical"; "flex"] ++ tags /\ fx_deflection m = d
         /\ percent (fx_stress m) bend_stress /\ percent (fx_strain m) (bend_strain d) /\ percent (fx_modulus m) (bend_modulus d)).
  Proof.
    intros i d tags. unfold make_flexural, divide.
    change (Qeq_bool (2 * thickness * thickness * width) 0) with false. change (Qeq_bool (span * span) 0) with false. cbn [bind].
    assert (E : 6 * d * thickness / (span * span) == d * (3 # 512)) by (unfold thickness, span; field).
    split.
    - intros Z. assert (Z' : 6 * d * thickness / (span * span) == 0) by (rewrite E, Z; reflexivity). apply Qeq_eq_bool in Z'. rewrite Z'. reflexivity.
    - intros Z. destruct (Qeq_bool (6 * d * thickness / (span * span)) 0) eqn:B.
      + apply Qeq_bool_eq in B. rewrite E in B. destruct Z. lra.
      + eexists. split; [reflexivity|]. cbn [fx_id fx_tags fx_stress fx_strain fx_modulus fx_deflection]. split; [reflexivity|]. split; [reflexivity|]. split; [reflexivity|].
        unfold percent, bend_stress, bend_strain, bend_modulus, applied_force, span, thickness, width. cbn [fst snd].
        repeat split; field; repeat split; try exact Z; discriminate.
  Qed.
End Numbers.
(** n measurements, each of its own draws. *)
Theorem demo_measurements : forall letter rand k i tags,
  (forall l, make_demo letter rand k i tags = Ok l -> length l = k /\ forall j m, nth_error l j = Some m -> make_flexural (random_id letter (9 * (i + j))) (rand (9 * (i + j) + 8)) tags = Ok m)
  /\ ((exists l, make_demo letter rand k i tags = Ok l) <-> forall j, j < k -> ~ (rand (9 * (i + j) + 8)%nat == 0)%Q).
Proof.
  intros letter rand. induction k as [|k IH]; intros i tags; cbn [make_demo].
  - split; [intros l H; injection H as <-; split; [reflexivity|intros [|j]; discriminate]|]. split; [intros _ j L; lia|intros _; eexists; reflexivity].
  - destruct (IH (S i) tags) as (A & B). destruct (flexural_exact (random_id letter (9 * i)) (rand (9 * i + 8)) tags) as (Z & NZ). split.
    + intros l H. apply bind_ok in H. destruct H as (m & M & H). apply bind_ok in H. destruct H as (l' & L & H). injection H as <-. destruct (A l' L) as (Len & N). split; [cbn; lia|].
      intros [|j] m' E; cbn in E; [injection E as <-; rewrite Nat.add_0_r; exact M|]. apply N in E. replace (i + S j) with (S i + j) by lia. exact E.
    + split.
      * intros (l & H). apply bind_ok in H. destruct H as (m & M & H). apply bind_ok in H. destruct H as (l' & L & H). intros [|j] Lt; [rewrite Nat.add_0_r; intros K; rewrite (Z K) in M; discriminate|].
        replace (i + S j) with (S i + j) by lia. apply (proj1 B); [eexists; exact L|lia].
      * intros H. assert (H0 := H 0 (Nat.lt_0_succ k)). rewrite Nat.add_0_r in H0. destruct (NZ H0) as (m & M & _). rewrite M. cbn [bind].
        destruct (proj2 B) as (l & L); [intros j Lt; replace (S i + j) with (i + S j) by lia; apply H; lia|]. rewrite L. eexists; reflexivity.
Qed.

(** ** Names *)
Lemma prefix_iff : forall p s, prefix_of p s = true <-> exists b, s = (p ++ b)%string.
Proof.
  induction p as [|a p IH]; intros s; cbn; [split; [exists s; reflexivity|reflexivity]|]. destruct s as [|b s]; [split; [discriminate|intros (r & H); discriminate]|].
  rewrite andb_true_iff, IH. split.
  - intros (E & r & ->). apply Ascii.eqb_eq in E. subst b. exists r. reflexivity.
  - intros (r & H). injection H as -> ->. split; [apply Ascii.eqb_refl|exists r; reflexivity].
Qed.
Lemma inside_iff : forall p s, inside p s = true <-> occurs p s.
Proof.
  intros p. unfold occurs. induction s as [|c s IH]; cbn [inside]; rewrite orb_true_iff, prefix_iff.
  - split; [intros [(b & H)|H]; [exists "", b; exact H|discriminate]|]. intros ([|] & b & H); [left; exists b; exact H|discriminate].
  - rewrite IH. split.
    + intros [(b & H)|(a & b & ->)]; [exists "", b; exact H|exists (String c a), b; reflexivity].
    + intros ([|c' a] & b & H); [left; exists b; exact H|]. cbn in H. injection H as -> ->. right. exists a, b. reflexivity.
Qed.
Lemma inside_not : forall p s, inside p s = false <-> ~ occurs p s.
Proof. intros p s. rewrite <- inside_iff. destruct (inside p s); split; intuition congruence. Qed.
Lemma first_app : forall A (name : A -> string) part a b r, first_with name part a None -> first_with name part b r -> first_with name part (a ++ b) r.
Proof.
  intros A name part a b [x|] H K; cbn in *.
  - destruct K as (c & d & -> & O & K). exists (a ++ c), d. split; [rewrite app_assoc; reflexivity|]. split; [exact O|]. intros y I. apply in_app_or in I. destruct I; [apply H|apply K]; assumption.
  - intros y I. apply in_app_or in I. destruct I; [apply H|apply K]; assumption.
Qed.
Lemma first_app_l : forall A (name : A -> string) part a b x, first_with name part a (Some x) -> first_with name part (a ++ b) (Some x).
Proof. intros A name part a b x (c & d & -> & O & K). exists c, (d ++ b). split; [rewrite <- app_assoc; reflexivity|]. split; assumption. Qed.
(** In a finite history the search finds the first material with the part in its name, if there is one. *)
Theorem find_name_first : forall name_of ingredients m l part, preorder ingredients m l ->
  exists depth r, first_with name_of part l r /\ forall fuel, depth <= fuel -> find_name name_of ingredients fuel part m = Some (Ok r).
Proof.
  intros name_of ingredients m l part H.
  set (go := fun f => fix go (l : list (option nat)) : option (res (option nat)) :=
    match l with [] => Some (Ok None) | None :: _ => Some (Err AttributeError) | Some x :: r => match find_name name_of ingredients f part x with Some (Ok None) => go r | y => y end end).
  pattern m, l, H. apply (preorder_mind ingredients) with
    (P := fun m l _ => exists depth r, first_with name_of part l r /\ forall fuel, depth <= fuel -> find_name name_of ingredients fuel part m = Some (Ok r))
    (P0 := fun ms l _ => exists depth r, first_with name_of part l r /\ forall fuel, depth <= fuel -> go fuel (map Some ms) = Some (Ok r)).
  - intros m' ms ls E _ (depth & r & Fr & G). destruct (inside part (name_of m')) eqn:I.
    + exists 1, (Some m'). split; [exists [], ls; split; [reflexivity|]; split; [apply inside_iff; exact I|intros y []]|]. intros [|f] L; [lia|]. cbn [find_name]. rewrite I. reflexivity.
    + exists (S depth), r. split; [apply (first_app _ _ _ [m'] ls); [|exact Fr]; intros y [<-|[]]; apply inside_not; exact I|].
      intros [|f] L; [lia|]. cbn [find_name]. rewrite I, E. apply (G f). lia.
  - exists 0, None. split; [intros y []|]. intros fuel _. reflexivity.
  - intros x ms a b _ (d1 & r1 & F1 & G1) _ (d2 & r2 & F2 & G2). exists (max d1 d2). destruct r1 as [y|].
    + exists (Some y). split; [apply first_app_l; exact F1|]. intros fuel L. cbn [map go]. rewrite (G1 fuel) by lia. reflexivity.
    + exists r2. split; [apply first_app; assumption|]. intros fuel L. cbn [map go]. rewrite (G1 fuel) by lia. apply (G2 fuel). lia.
  - exact H.
Qed.
(** Two depths that are enough give the same answer. *)
Theorem find_name_depth : forall name_of ingredients part f g m a b,
  find_name name_of ingredients f part m = Some a -> find_name name_of ingredients g part m = Some b -> a = b.
Proof.
  intros name_of ingredients part.
  assert (Up : forall f m a, find_name name_of ingredients f part m = Some a -> forall g, f <= g -> find_name name_of ingredients g part m = Some a).
  { induction f as [|f IH]; intros m a H g L; [discriminate|]. destruct g as [|g]; [lia|]. cbn [find_name] in *. destruct (inside part (name_of m)); [exact H|]. destruct (ingredients m) as [l|]; [|exact H].
    induction l as [|[x|] l IHl]; [exact H| |exact H]. destruct (find_name name_of ingredients f part x) as [y|] eqn:E; [|discriminate].
    rewrite (IH x y E g) by lia. destruct y as [[z|]|e]; [exact H|apply IHl; exact H|exact H]. }
  intros f g m a b A B. destruct (Nat.le_ge_cases f g) as [L|L]; [rewrite (Up f m a A g L) in B|rewrite (Up g m b B f L) in A]; congruence.
Qed.
Theorem next_named_first : forall part l,
  (forall m, next_named part l = Ok m <-> exists n, first_with fst part l (Some (n, m)))
  /\ (next_named part l = Err StopIteration <-> first_with (@fst string (option nat)) part l None) /\ forall e, next_named part l = Err e -> e = StopIteration.
Proof.
  intros part. induction l as [|(n, m) l (A & B & C)]; cbn [next_named].
  - split; [|split]; [intros m; split; [discriminate|intros (n & [|] & b & H & _); discriminate]|split; [intros _ y []|reflexivity]|intros e H; injection H as <-; reflexivity].
  - destruct (inside part n) eqn:I.
    + apply inside_iff in I. split; [|split].
      * intros m'. split; [intros H; injection H as <-; exists n, [], l; split; [reflexivity|split; [exact I|intros y []]]|].
        intros (n' & [|p a] & b & H & O & K); [injection H as <- <-; intros; subst; reflexivity|]. cbn in H. injection H as <- ->. destruct (K (n, m) (or_introl eq_refl) I).
      * split; [discriminate|]. intros H. destruct (H (n, m) (or_introl eq_refl) I).
      * discriminate.
    + apply inside_not in I. assert (N : first_with (@fst string (option nat)) part [(n, m)] None) by (intros y [<-|[]]; exact I). split; [|split; [|exact C]].
      * intros m'. rewrite A. split; [intros (n' & H); exists n'; apply (first_app _ _ _ [(n, m)] l); assumption|].
        intros (n' & [|p a] & b & H & O & K); [injection H as <- <- <-; destruct (I O)|]. cbn in H. injection H as <- ->. exists n', a, b. split; [reflexivity|]. split; [exact O|]. intros y J. apply K. right; exact J.
      * rewrite B. split; [intros H; apply (first_app _ _ _ [(n, m)] l); assumption|]. intros H y J. apply H. right; exact J.
Qed.

(** ** Uids *)
Lemma sapp_cancel_r : forall a b c : string, (a ++ c = b ++ c)%string -> a = b.
Proof.
  assert (L : forall a b : string, String.length (a ++ b) = String.length a + String.length b) by (induction a; intros; cbn; [reflexivity|f_equal; auto]).
  induction a as [|x a IH]; intros [|y b] c H; cbn in H; [reflexivity| | |].
  - apply (f_equal String.length) in H. cbn in H. rewrite L in H. lia.
  - apply (f_equal String.length) in H. cbn in H. rewrite L in H. lia.
  - injection H as -> H. f_equal. eapply IH; exact H.
Qed.
Lemma sapp_tail : forall a b c d : string, String.length c = String.length d -> (a ++ c = b ++ d)%string -> c = d.
Proof.
  assert (L : forall a b : string, String.length (a ++ b) = String.length a + String.length b) by (induction a; intros; cbn; [reflexivity|f_equal; auto]).
  induction a as [|x a IH]; intros [|y b] c d E H; cbn in H; [exact H| | |].
  - apply (f_equal String.length) in H. cbn in H. rewrite L in H. lia.
  - apply (f_equal String.length) in H. cbn in H. rewrite L in H. lia.
  - injection H as -> H. eapply IH; [exact E|exact H].
Qed.
(** Runs of one cake share a uid exactly if their specs do; those of cakes with different keys never do. *)
Theorem run_uids : forall u v k k',
  ((u ++ "-" ++ k = v ++ "-" ++ k)%string <-> u = v) /\ (String.length k = String.length k' -> k <> k' -> (u ++ "-" ++ k)%string <> (v ++ "-" ++ k')%string).
Proof.
  intros u v k k'. split; [split; [apply sapp_cancel_r|intros ->; reflexivity]|]. intros L N H. apply N. apply sapp_tail in H; [injection H as H; exact H|cbn; congruence].
Qed.
(** The uids of the eight measurements differ exactly if cake and frosting, and salt and sugar, do. *)
Theorem measurement_uids : forall cake frosting baked flour salt sugar k,
  NoDup (cake_measurement_uids cake frosting baked flour salt sugar k) <-> cake <> frosting /\ salt <> sugar.
Proof.
  intros. unfold cake_measurement_uids, measurement_uid. cbn [map fst snd].
  assert (E : forall p a b, (p ++ "--" ++ a ++ "-" ++ k = p ++ "--" ++ b ++ "-" ++ k)%string -> a = b).
  { intros p a b. induction p as [|c p IH]; cbn; intros H; [injection H as H; eapply sapp_cancel_r; exact H|injection H as H; apply IH; exact H]. }
  split.
  - intros N. split; intros ->; repeat match goal with H : NoDup (_ :: _) |- _ => inversion H; clear H; subst end; cbn [In] in *; tauto.
  - intros (A & B). repeat constructor; cbn [In]; intros H; repeat (destruct H as [H|H]; [first [discriminate H|apply E in H; congruence]|]); exact H.
Qed.

(** ** Cases *)
Definition ex_spec (u n : string) (tags : list string) (t : option string) (v : option squant) : cspec := mkCS (Some u) n tags (Some "see box") t None v None None.
Definition ex_run (k : ckind) (s : cspec) (o : option nat) (src : option source) : crun := mkCR k s (cs_name s) None [] None o src None None None None.
Definition ex_runs : runs := fun i =>
  match i with
  | 0 => ex_run CMaterial (ex_spec "cake" "Cake" [] None None) None None
  | 1 => ex_run CProcess (ex_spec "icing-cake" "Icing Cake" [] (Some "Icing") None) (Some 0) (Some (mkSource "gwash" "2015-03-14"))
  | 2 => ex_run CIngredient (ex_spec "flour--icing" "flour" [] None (Some (mkSQ (Some (1 # 2)%Q) ""))) None None
  | 3 => ex_run CMaterial (ex_spec "flour" "Flour" ["raw material"] None None) None None
  | _ => ex_run CProcess (ex_spec "procuring-flour" "Procuring Flour" [] (Some "Procuring") None) (Some 3) None
  end.
Definition ex_after := randomize_all (fun _ => 1 # 2)%Q (fun _ _ => 1) "key" 1 [0; 1; 2; 3; 4] (ex_runs, 0).
Example cake_ex : match ex_after with
  | Ok (h, n) => n = 2 /\ cr_name (h 3) = "A1 Flour" /\ cr_name (h 4) = "Procuring A1 Flour" /\ cr_uid (h 4) = Some "procuring-flour-key"
                 /\ cr_notes (h 0) = Some "The spec says ""see box""" /\ cr_source (h 1) = Some (mkSource "gwash" "2015-03-14")
                 /\ (forall i, In i [0; 1; 2; 3; 4] -> ready (ex_runs i)) /\ cs_template (cr_spec (ex_runs 1)) <> Some "Procuring"
  | Err _ => False
  end.
Proof.
  vm_compute. repeat split; try reflexivity; try discriminate.
  intros i [<-|[<-|[<-|[<-|[<-|[]]]]]]; right; repeat split; try discriminate. intros _ q [H|[H|[H|[H|[]]]]]; try discriminate H. injection H as <-. discriminate.
Qed.
(** The order of the traversal shows: of the same runs, visited in another order, the process keeps the name without supplier. *)
Theorem procuring_name_refuted : exists l l' st st', Permutation.Permutation l l'
  /\ randomize_all (fun _ => 1 # 2)%Q (fun _ _ => 1) "key" 1 l (ex_runs, 0) = Ok st /\ randomize_all (fun _ => 1 # 2)%Q (fun _ _ => 1) "key" 1 l' (ex_runs, 0) = Ok st'
  /\ cr_name (fst st 4) = "Procuring A1 Flour" /\ cr_name (fst st' 4) = "Procuring Flour".
Proof. exists [3; 4], [4; 3]. eexists _, _. split; [apply Permutation.perm_swap|]. split; [reflexivity|]. split; [reflexivity|]. split; reflexivity. Qed.
(** A mass fraction near one can become more than one. *)
Theorem mass_fraction_refuted : exists r x a b, (0 <= r /\ r < 1 /\ 0 <= x /\ x <= 1 /\ 1 < b)%Q /\ uniform_about r x "" (RUniform a b "").
Proof. exists (9 # 10)%Q, (95 # 100)%Q. eexists _, _. split; [|exists ((95 # 100) * (9 # 10) + (95 # 100) * (9 # 10) * (1 # 10))%Q, ((95 # 100) + (95 # 100) * (9 # 10) * (1 # 10))%Q; repeat split; reflexivity]. repeat split; vm_compute; congruence. Qed.
Example find_ex : preorder (fun m => if m =? 0 then Some [Some 1; Some 2] else Some []) 0 [0; 1; 2].
Proof. apply (preorder_node _ 0 [1; 2] [1; 2]); [reflexivity|]. apply (preorders_cons _ 1 [2] [1] [2]); [apply (preorder_node _ 1 [] []); [reflexivity|constructor]|].
  apply (preorders_cons _ 2 [] [2] []); [apply (preorder_node _ 2 [] []); [reflexivity|constructor]|constructor]. Qed.

Print Assumptions scopes_last.
Print Assumptions cake_particulars.
Print Assumptions cake_succeeds.
Print Assumptions quantities_near.
Print Assumptions volume_fractions_refuted.
Print Assumptions flexural_exact.
Print Assumptions demo_measurements.
Print Assumptions find_name_first.
Print Assumptions find_name_depth.
Print Assumptions next_named_first.
Print Assumptions run_uids.
Print Assumptions measurement_uids.
Print Assumptions procuring_name_refuted.
Print Assumptions mass_fraction_refuted.
