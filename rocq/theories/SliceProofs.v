(** Proofs for C43. *)
From Coq Require Import List Bool ZArith Lia ZifyBool.
From Verif Require Import Base BaseFacts VlModel VlSpec VlProofs SliceModel SliceSpec.
Import ListNotations.
Open Scope list_scope.

Lemma adjust_end : forall n k x, (0 <= n)%Z -> adjust n k x = end_at n k x.
Proof. intros n k x H. unfold adjust, end_at. destruct (x <? 0)%Z eqn:E, (k <? 0)%Z eqn:F; repeat match goal with |- context [if ?b then _ else _] => destruct b eqn:? end; lia. Qed.

Lemma indices_ok : forall n s, (0 <= n)%Z -> step_of s <> 0%Z -> indices n s = Ok (first_of n s, stop_of n s, step_of s).
Proof.
  intros n s H K. unfold indices, first_of, stop_of, step_of in *. destruct (sl_step s) as [k|].
  - destruct (k =? 0)%Z eqn:E; [lia|]. f_equal. f_equal. f_equal; [destruct (sl_start s)|destruct (sl_stop s)]; rewrite ?adjust_end by lia; auto.
  - cbn [Z.eqb]. f_equal. f_equal. f_equal; [destruct (sl_start s)|destruct (sl_stop s)]; rewrite ?adjust_end by lia; auto.
Qed.
Lemma indices_zero : forall n s, step_of s = 0%Z -> indices n s = Err ValueError.
Proof. intros n s K. unfold indices, step_of in *. destruct (sl_step s) as [k|]; [|lia]. subst. reflexivity. Qed.

Lemma first_range : forall n s, (0 <= n)%Z ->
  if (step_of s <? 0)%Z then (-1 <= first_of n s <= n - 1)%Z else (0 <= first_of n s <= n)%Z.
Proof.
  intros n s H. unfold first_of, end_at. destruct (step_of s <? 0)%Z; destruct (sl_start s); try lia;
  destruct (_ <? 0)%Z; lia.
Qed.
Lemma stop_range : forall n s, (0 <= n)%Z ->
  if (step_of s <? 0)%Z then (-1 <= stop_of n s <= n - 1)%Z else (0 <= stop_of n s <= n)%Z.
Proof.
  intros n s H. unfold stop_of, end_at. destruct (step_of s <? 0)%Z; destruct (sl_stop s); try lia;
  destruct (_ <? 0)%Z; lia.
Qed.

Lemma slice_length_spec : forall i j k m, k <> 0%Z ->
  (Z.of_nat m < slice_length i j k <-> (if k <? 0 then j < i + Z.of_nat m * k else i + Z.of_nat m * k < j))%Z.
Proof.
  intros i j k m K. unfold slice_length. destruct (k <? 0)%Z eqn:E.
  - destruct (j <? i)%Z eqn:F.
    + set (a := (i - j - 1)%Z). set (b := (- k)%Z). assert (B : (0 < b)%Z) by lia.
      pose proof (Z.mul_div_le a b B). pose proof (Z.mul_succ_div_gt a b B).
      split; intros H1.
      * assert (b * Z.of_nat m <= b * (a / b))%Z by (apply Z.mul_le_mono_nonneg_l; lia). nia.
      * destruct (Z.lt_ge_cases (Z.of_nat m) (a / b + 1)) as [L|L]; auto.
        assert (b * (a / b + 1) <= b * Z.of_nat m)%Z by (apply Z.mul_le_mono_nonneg_l; lia). nia.
    + split; [lia|nia].
  - destruct (i <? j)%Z eqn:F.
    + set (a := (j - i - 1)%Z). assert (B : (0 < k)%Z) by lia.
      pose proof (Z.mul_div_le a k B). pose proof (Z.mul_succ_div_gt a k B).
      split; intros H1.
      * assert (k * Z.of_nat m <= k * (a / k))%Z by (apply Z.mul_le_mono_nonneg_l; lia). nia.
      * destruct (Z.lt_ge_cases (Z.of_nat m) (a / k + 1)) as [L|L]; auto.
        assert (k * (a / k + 1) <= k * Z.of_nat m)%Z by (apply Z.mul_le_mono_nonneg_l; lia). nia.
    + split; [lia|nia].
Qed.

Lemma nth_seq : forall n k m, nth_error (seq k n) m = if m <? n then Some (k + m) else None.
Proof.
  intros n; induction n as [|n IH]; intros k m; cbn [seq].
  - destruct m; reflexivity.
  - destruct m as [|m]; cbn [nth_error]; [cbn; f_equal; lia|]. rewrite IH.
    change (S m <? S n) with (m <? n). destruct (m <? n); auto. f_equal. lia.
Qed.

Lemma positions_selected : forall n s m p, (0 <= n)%Z -> step_of s <> 0%Z ->
  (nth_error (positions (first_of n s) (stop_of n s) (step_of s)) m = Some p <-> selected n s m p).
Proof.
  intros n s m p H K. unfold positions, selected. rewrite nth_error_map, nth_seq.
  pose proof (first_range n s H) as F. pose proof (stop_range n s H) as G.
  pose proof (slice_length_spec (first_of n s) (stop_of n s) (step_of s) m K) as L.
  destruct (m <? Z.to_nat (slice_length (first_of n s) (stop_of n s) (step_of s))) eqn:E; cbn [option_map].
  - apply Nat.ltb_lt in E. assert (L' : (Z.of_nat m < slice_length (first_of n s) (stop_of n s) (step_of s))%Z) by lia.
    apply L in L'. replace (0 + m) with m by lia. destruct (step_of s <? 0)%Z eqn:N.
    + split; [intros X; injection X as <-; split; lia|]. intros (X & _). f_equal. lia.
    + split; [intros X; injection X as <-; split; nia|]. intros (X & _). f_equal. lia.
  - split; [discriminate|]. intros (X & Y). apply Nat.ltb_ge in E.
    assert (L' : (Z.of_nat m < slice_length (first_of n s) (stop_of n s) (step_of s))%Z).
    { apply L. destruct (step_of s <? 0)%Z; lia. }
    lia.
Qed.

Lemma selected_range : forall n s m p, (0 <= n)%Z -> selected n s m p -> (Z.of_nat p < n)%Z.
Proof.
  intros n s m p H (X & Y). pose proof (first_range n s H) as F. pose proof (stop_range n s H) as G.
  destruct (step_of s <? 0)%Z eqn:N; [|lia]. nia.
Qed.

Lemma selected_inj : forall n s m m' p, step_of s <> 0%Z -> selected n s m p -> selected n s m' p -> m = m'.
Proof. intros n s m m' p K (X & _) (X' & _). nia. Qed.

Lemma positions_nodup : forall n s, (0 <= n)%Z -> step_of s <> 0%Z -> NoDup (positions (first_of n s) (stop_of n s) (step_of s)).
Proof.
  intros n s H K. apply NoDup_nth_error. intros a b L E.
  destruct (nth_error (positions (first_of n s) (stop_of n s) (step_of s)) a) as [p|] eqn:Na;
  [|apply nth_error_None in Na; lia]. symmetry in E.
  apply positions_selected in Na; auto. apply positions_selected in E; auto. eapply selected_inj; eauto.
Qed.

Section SliceProofs.
  Variables A ty S : Type.
  Variable instance_of : A -> ty -> bool.
  Variable members : A -> option (list A).
  Variable eqb : A -> A -> bool.

  Lemma set_nth_length : forall n (x : A) l, length (set_nth A n x l) = length l.
  Proof. intros n x l; revert n; induction l as [|a l IH]; intros [|n]; cbn; auto. Qed.
  Lemma set_nth_at : forall n (x : A) l p, nth_error (set_nth A n x l) p = if Nat.eqb p n then (if p <? length l then Some x else None) else nth_error l p.
  Proof.
    intros n x l; revert n; induction l as [|a l IH]; intros n p.
    - replace (set_nth A n x []) with (@nil A) by (destruct n; reflexivity). destruct (Nat.eqb p n); destruct p; reflexivity.
    - destruct n as [|n]; destruct p as [|p]; cbn [set_nth nth_error length Nat.eqb]; auto. apply IH.
  Qed.
  Lemma set_all_length : forall ps ys l, length (set_all A ps ys l) = length l.
  Proof. intros ps; induction ps as [|p ps IH]; intros [|y ys] l; cbn; auto. now rewrite IH, set_nth_length. Qed.
  Lemma set_all_out : forall ps ys l p, ~ In p ps -> nth_error (set_all A ps ys l) p = nth_error l p.
  Proof.
    intros ps; induction ps as [|q ps IH]; intros [|y ys] l p N; cbn [set_all]; auto.
    rewrite IH by (intros X; apply N; now right). rewrite set_nth_at.
    destruct (Nat.eqb p q) eqn:E; auto. apply Nat.eqb_eq in E. subst. exfalso. apply N. now left.
  Qed.
  Lemma set_all_in : forall ps ys l m p, NoDup ps -> length ps = length ys -> (forall q, In q ps -> q < length l) ->
    nth_error ps m = Some p -> nth_error (set_all A ps ys l) p = nth_error ys m.
  Proof.
    intros ps; induction ps as [|q ps IH]; intros [|y ys] l m p D L R E; cbn [length] in L; try lia; [destruct m; discriminate|].
    inversion D; subst. destruct m as [|m]; cbn [nth_error set_all] in *.
    - injection E as ->. rewrite set_all_out by auto. rewrite set_nth_at, Nat.eqb_refl.
      assert (p < length l) by (apply R; now left). destruct (p <? length l) eqn:F; auto. apply Nat.ltb_ge in F. lia.
    - apply IH; auto. intros r I. rewrite set_nth_length. apply R. now right.
  Qed.

  Lemma nth_error_ext : forall l l' : list A, (forall p, nth_error l p = nth_error l' p) -> l = l'.
  Proof.
    intros l; induction l as [|a l IH]; intros [|b l'] H; auto; try (specialize (H 0); discriminate).
    pose proof (H 0) as X. injection X as ->. f_equal. apply IH. intros p. exact (H (Datatypes.S p)).
  Qed.

  Lemma app_lengths : forall (l : list A) i j, i <= j -> j <= length l ->
    l = firstn i l ++ firstn (j - i) (skipn i l) ++ skipn j l.
  Proof.
    intros l i j L1 L2. rewrite <- (firstn_skipn i l) at 1. f_equal.
    rewrite <- (firstn_skipn (j - i) (skipn i l)) at 1. f_equal.
    revert i j L1 L2. induction l as [|a l IH]; intros i j L1 L2; [now rewrite !skipn_nil|].
    destruct j as [|j]; [replace i with 0 by lia; reflexivity|]. destruct i as [|i]; [reflexivity|].
    cbn [skipn]. replace (Datatypes.S j - Datatypes.S i) with (j - i) by lia. cbn [length] in L2. apply IH; lia.
  Qed.

  Lemma list_set_slice_ok : forall l s y l', list_set_slice A members l s y = Ok l' <->
    exists ys, members y = Some ys /\ spliced A l s ys l'.
  Proof.
    intros l s y l'. unfold list_set_slice.
    assert (N : (0 <= Z.of_nat (length l))%Z) by lia.
    destruct (Z.eq_dec (step_of s) 0) as [K|K].
    { rewrite indices_zero by auto. split; [discriminate|]. intros (ys & _ & H). inversion H; subst; lia. }
    rewrite indices_ok by auto.
    pose proof (first_range (Z.of_nat (length l)) s N) as F. pose proof (stop_range (Z.of_nat (length l)) s N) as G.
    destruct (members y) as [ys|]; [|split; [discriminate|intros (? & ? & _); discriminate]].
    destruct (step_of s =? 1)%Z eqn:E.
    - apply Z.eqb_eq in E. assert (E' : (step_of s <? 0)%Z = false) by lia. rewrite E' in F, G.
      set (i := first_of (Z.of_nat (length l)) s) in *. set (j := stop_of (Z.of_nat (length l)) s) in *.
      split.
      + intros H. injection H as <-. exists ys. split; auto.
        assert (L1 : Z.to_nat i <= Nat.max (Z.to_nat i) (Z.to_nat j)) by lia.
        assert (L2 : Nat.max (Z.to_nat i) (Z.to_nat j) <= length l) by lia.
        pose proof (app_lengths l _ _ L1 L2) as X.
        apply (splice A l s ys _ (firstn (Nat.max (Z.to_nat i) (Z.to_nat j) - Z.to_nat i) (skipn (Z.to_nat i) l)) _ E X).
        * rewrite firstn_length. fold i. lia.
        * rewrite app_length, !firstn_length, skipn_length. fold i j. lia.
      + intros (ys' & H & Sp). injection H as <-. inversion Sp as [pre mid post _ L P1 P2|]; [|lia].
        fold i j in P1, P2. f_equal.
        assert (Ei : Z.to_nat i = length pre) by lia.
        assert (Ej : Nat.max (Z.to_nat i) (Z.to_nat j) = length (pre ++ mid)) by lia.
        rewrite Ei, <- Ei, Ej, Ei. rewrite L at 1. rewrite firstn_app, firstn_all, Nat.sub_diag, firstn_O, app_nil_r.
        f_equal. f_equal. rewrite L, app_assoc, skipn_app, skipn_all, Nat.sub_diag. reflexivity.
    - apply Z.eqb_neq in E. set (ps := positions _ _ _).
      assert (Ps : forall m p, nth_error ps m = Some p <-> selected (Z.of_nat (length l)) s m p) by (intros; now apply positions_selected).
      assert (D : NoDup ps) by now apply positions_nodup.
      assert (R : forall q, In q ps -> q < length l).
      { intros q I. apply In_nth_error in I as (m & I). apply Ps in I. apply selected_range in I; lia. }
      assert (Out : forall p, (forall m, ~ selected (Z.of_nat (length l)) s m p) <-> ~ In p ps).
      { intros p. split; [intros X I|intros X m I]; [apply In_nth_error in I as (m & I); apply Ps in I; eapply X; eauto|apply X, nth_error_In with m, Ps; auto]. }
      assert (Le : forall m, (exists p, selected (Z.of_nat (length l)) s m p) <-> m < length ps).
      { intros m. split.
        - intros (p & X). apply Ps in X. apply nth_error_Some. congruence.
        - intros X. destruct (nth_error ps m) as [p|] eqn:Y; [exists p; now apply Ps|apply nth_error_None in Y; lia]. }
      destruct (Nat.eqb (length ys) (length ps)) eqn:Q.
      + apply Nat.eqb_eq in Q. split.
        * intros H. injection H as <-. exists ys. split; auto. apply spread; auto.
          -- apply set_all_length.
          -- intros m. rewrite Le. lia.
          -- intros m p X. apply Ps in X. now apply set_all_in.
          -- intros p X. apply set_all_out. now apply Out.
        * intros (ys' & H & Sp). injection H as <-. inversion Sp as [|l0 _ _ B1 B2 B3 B4]; [lia|subst l0]. f_equal.
          apply nth_error_ext. intros p. destruct (in_dec Nat.eq_dec p ps) as [I|I].
          -- apply In_nth_error in I as (m & I). rewrite (set_all_in _ _ _ m) by auto. symmetry. apply B3. now apply Ps.
          -- rewrite set_all_out by auto. symmetry. apply B4. now apply Out.
      + apply Nat.eqb_neq in Q. split; [discriminate|]. intros (ys' & H & Sp). injection H as <-.
        inversion Sp as [|l0 _ _ B1 B2 B3 B4]; [lia|]. exfalso.
        destruct (Nat.lt_trichotomy (length ys) (length ps)) as [T|[T|T]]; [|lia|].
        * apply Le, B2 in T. lia.
        * apply B2, Le in T. lia.
  Qed.

  Lemma list_set_slice_err : forall l s y e, list_set_slice A members l s y = Err e ->
    (e = ValueError /\ step_of s = 0%Z) \/ (e = TypeError /\ members y = None) \/
    (e = ValueError /\ step_of s <> 1%Z /\ exists ys, members y = Some ys /\
      ~ forall m, (exists p, selected (Z.of_nat (length l)) s m p) <-> m < length ys).
  Proof.
    intros l s y e. unfold list_set_slice.
    assert (N : (0 <= Z.of_nat (length l))%Z) by lia.
    destruct (Z.eq_dec (step_of s) 0) as [K|K].
    { rewrite indices_zero by auto. intros H. injection H as <-. auto. }
    rewrite indices_ok by auto. destruct (members y) as [ys|]; [|intros H; injection H as <-; auto].
    destruct (step_of s =? 1)%Z eqn:E; [discriminate|]. set (ps := positions _ _ _).
    destruct (Nat.eqb (length ys) (length ps)) eqn:Q; [discriminate|]. apply Nat.eqb_neq in Q.
    intros H. injection H as <-. right. right. split; auto. split; [lia|]. exists ys. split; auto.
    intros X. destruct (Nat.lt_trichotomy (length ys) (length ps)) as [T|[T|T]]; [|lia|].
    - assert (Z1 : exists p, selected (Z.of_nat (length l)) s (length ys) p); [|apply X in Z1; lia].
      destruct (nth_error ps (length ys)) as [p|] eqn:Y; [exists p; now apply positions_selected|apply nth_error_None in Y; lia].
    - apply X in T as (p & T). apply positions_selected in T; auto.
      fold ps in T. assert (H : nth_error ps (length ps) <> None) by congruence. apply nth_error_Some in H. lia.
  Qed.

  Lemma drop_all_kept : forall ps l k, kept A (fun p => In p ps) k l (drop_all A k ps l).
  Proof.
    intros ps l; induction l as [|x l IH]; intros k; cbn [drop_all]; [constructor|].
    destruct (existsb (Nat.eqb k) ps) eqn:E.
    - apply kept_out; auto. apply existsb_exists in E as (q & I & Q). apply Nat.eqb_eq in Q. now subst.
    - apply kept_in; auto. intros I. assert (existsb (Nat.eqb k) ps = true); [|congruence].
      apply existsb_exists. exists k. split; auto. apply Nat.eqb_refl.
  Qed.
  Lemma kept_ext : forall (P Q : nat -> Prop) k (l l' : list A), (forall p, P p <-> Q p) -> kept A P k l l' -> kept A Q k l l'.
  Proof. intros P Q k l l' H K; induction K; [constructor|apply kept_out; auto; now apply H|apply kept_in; auto; rewrite <- H; auto]. Qed.
  Lemma kept_unique : forall (P : nat -> Prop) k (l l1 l2 : list A), kept A P k l l1 -> kept A P k l l2 -> l1 = l2.
  Proof. intros P k l l1 l2 K; revert l2; induction K; intros l2 K2; inversion K2; subst; try contradiction; auto. f_equal. auto. Qed.

  Lemma list_del_slice_ok : forall l s l', list_del_slice A l s = Ok l' <->
    step_of s <> 0%Z /\ kept A (fun p => exists m, selected (Z.of_nat (length l)) s m p) 0 l l'.
  Proof.
    intros l s l'. unfold list_del_slice. assert (N : (0 <= Z.of_nat (length l))%Z) by lia.
    destruct (Z.eq_dec (step_of s) 0) as [K|K].
    { rewrite indices_zero by auto. split; [discriminate|tauto]. }
    rewrite indices_ok by auto. set (ps := positions _ _ _).
    assert (X : kept A (fun p => exists m, selected (Z.of_nat (length l)) s m p) 0 l (drop_all A 0 ps l)).
    { refine (kept_ext _ _ _ _ _ _ (drop_all_kept ps l 0)). intros p. split.
      - intros I. apply In_nth_error in I as (m & I). exists m. now apply positions_selected.
      - intros (m & I). apply nth_error_In with m. now apply positions_selected. }
    split.
    - intros H. injection H as <-. auto.
    - intros (_ & H). f_equal. eapply kept_unique; eauto.
  Qed.
  Lemma list_del_slice_err : forall l s e, list_del_slice A l s = Err e -> e = ValueError /\ step_of s = 0%Z.
  Proof.
    intros l s e. unfold list_del_slice. destruct (Z.eq_dec (step_of s) 0) as [K|K].
    - rewrite indices_zero by auto. intros H. injection H as <-. auto.
    - rewrite indices_ok by (auto; lia). discriminate.
  Qed.

  Lemma spliced_in : forall l s ys l' x, spliced A l s ys l' -> In x l' -> In x l \/ In x ys.
  Proof.
    intros l s ys l' x Sp I. destruct Sp as [pre mid post E L P1 P2|l' E K Le B2 B3 B4].
    - subst l. apply in_app_or in I as [I|I]; [left; apply in_or_app; auto|]. apply in_app_or in I as [I|I]; auto.
      left. apply in_or_app; right; apply in_or_app; auto.
    - apply In_nth_error in I as (p & I).
      assert (N : (0 <= Z.of_nat (length l))%Z) by lia.
      destruct (in_dec Nat.eq_dec p (positions (first_of (Z.of_nat (length l)) s) (stop_of (Z.of_nat (length l)) s) (step_of s))) as [J|J].
      + apply In_nth_error in J as (m & J). apply positions_selected in J; auto.
        rewrite (B3 _ _ J) in I. right. now apply nth_error_In with m.
      + left. apply nth_error_In with p. rewrite <- B4; auto. intros m X. apply J, nth_error_In with m. now apply positions_selected.
  Qed.
  Lemma kept_incl : forall P k (l l' : list A) x, kept A P k l l' -> In x l' -> In x l.
  Proof. intros P k l l' x K; induction K; cbn; tauto. Qed.
  Lemma remove_first_ok : forall x l l', remove_first A eqb x l = Some l' <->
    exists pre a post, l = pre ++ a :: post /\ eqb a x = true /\ Forall (fun b => eqb b x = false) pre /\ l' = pre ++ post.
  Proof.
    intros x l; induction l as [|a l IH]; intros l'; cbn [remove_first].
    - split; [discriminate|]. intros ([|? ?] & ? & ? & H & _); discriminate.
    - destruct (eqb a x) eqn:E.
      + split.
        * intros H. injection H as <-. exists [], a, l. auto.
        * intros ([|b pre] & c & post & H & E1 & F & ->); cbn in H; injection H; intros; subst; auto. inversion F; congruence.
      + destruct (remove_first A eqb x l) as [r|] eqn:R.
        * split.
          -- intros H. injection H as <-. destruct (proj1 (IH r) eq_refl) as (pre & c & post & -> & E1 & F & ->).
             exists (a :: pre), c, post. repeat split; auto.
          -- intros ([|b pre] & c & post & H & E1 & F & ->); cbn in H; injection H; intros; subst; [congruence|].
             cbn. f_equal. f_equal. inversion F; subst. assert (Some r = Some (pre ++ post)) by (apply IH; exists pre, c, post; auto). congruence.
        * split; [discriminate|]. intros ([|b pre] & c & post & H & E1 & F & ->); cbn in H; injection H; intros; subst; [congruence|].
          inversion F; subst. assert (None = Some (pre ++ post)) by (apply IH; exists pre, c, post; auto). discriminate.
  Qed.
  Lemma remove_first_none : forall x l, remove_first A eqb x l = None <-> Forall (fun b => eqb b x = false) l.
  Proof.
    intros x l; induction l as [|a l IH]; cbn [remove_first]; [split; auto|].
    destruct (eqb a x) eqn:E; [split; [discriminate|intros F; inversion F; congruence]|].
    destruct (remove_first A eqb x l); [split; [discriminate|]|split; auto].
    - intros F. inversion F; subst. assert (Some l0 = None) by now apply IH. discriminate.
    - intros _. constructor; auto. now apply IH.
  Qed.

  Lemma xstep_err : forall v o st v' e st', xstep A ty S instance_of members eqb v o st = (v', Some e, st') -> v' = v.
  Proof.
    intros v o st v' e st'. destruct o as [o|s x|s|i|x|k]; cbn [xstep].
    - apply step_err_unchanged.
    - unfold set_slice. destruct (accepts _ _ _ _ x); [|intros H; inv H; auto].
      destruct (fire _ _ _ _ _) as [[y|e'] s1]; [|intros H; inv H; auto].
      destruct (list_set_slice _ _ _ _ _); intros H; inv H; auto.
    - unfold del_slice. destruct (list_del_slice _ _ _); intros H; inv H; auto.
    - intros H. exact (step_err_unchanged A ty S instance_of v (ODelitem _) st v' e st' H).
    - unfold remove. destruct (remove_first _ _ _ _); intros H; inv H; auto.
    - unfold imul. intros H; inv H.
  Qed.

  Lemma xstep_config : forall v o st v' r st', xstep A ty S instance_of members eqb v o st = (v', r, st') -> ctypes v' = ctypes v /\ trig v' = trig v.
  Proof.
    intros v o st v' e st'. destruct o as [o|s x|s|i|x|k]; cbn [xstep].
    - apply step_config.
    - unfold set_slice. destruct (accepts _ _ _ _ x); [|intros H; inv H; auto].
      destruct (fire _ _ _ _ _) as [[y|e'] s1]; [|intros H; inv H; auto].
      destruct (list_set_slice _ _ _ _ _); intros H; inv H; auto.
    - unfold del_slice. destruct (list_del_slice _ _ _); intros H; inv H; auto.
    - intros H. exact (step_config A ty S instance_of v (ODelitem _) st v' e st' H).
    - unfold remove. destruct (remove_first _ _ _ _); intros H; inv H; auto.
    - unfold imul. intros H; inv H; auto.
  Qed.

  Lemma xstep_ok_list : forall v o st v' r st',
    closed_trigger A ty S instance_of (ctypes v) (trig v) -> closed_members A ty instance_of members (ctypes v) ->
    xguarded A ty instance_of (ctypes v) o ->
    ok_list A ty S instance_of v -> xstep A ty S instance_of members eqb v o st = (v', r, st') -> ok_list A ty S instance_of v'.
  Proof.
    intros v o st v' r st' C M G O. unfold ok_list in *. destruct o as [o|s x|s|i|x|k]; cbn [xstep].
    - intros H. exact (step_ok_list A ty S instance_of v o st v' r st' C G O H).
    - unfold set_slice. destruct (accepts _ _ _ _ x) eqn:AC; [|intros H; inv H; auto].
      destruct (fire _ _ _ _ _) as [[y|e'] s1] eqn:F; [|intros H; inv H; auto].
      destruct (list_set_slice _ _ _ _ _) as [l|e'] eqn:L; intros H; inv H; auto. cbn [ctypes items with_items].
      apply list_set_slice_ok in L as (ys & Y & Sp). apply accepts_permitted in AC. apply fire_ok in F.
      pose proof (stored_permitted _ _ _ _ _ _ _ _ _ _ C AC F) as P. pose proof (M _ _ P Y) as Q.
      rewrite Forall_forall in *. intros z I. destruct (spliced_in _ _ _ _ _ Sp I); auto.
    - unfold del_slice. destruct (list_del_slice _ _ _) as [l|e'] eqn:L; intros H; inv H; auto. cbn [ctypes items with_items].
      apply list_del_slice_ok in L as (_ & L). rewrite Forall_forall in *. intros z I. apply O. eapply kept_incl; eauto.
    - intros H. exact (step_ok_list A ty S instance_of v (ODelitem _) st v' r st' C I O H).
    - unfold remove. destruct (remove_first _ _ _ _) as [l|] eqn:L; intros H; inv H; auto. cbn [ctypes items with_items].
      apply remove_first_ok in L as (pre & a & post & E & _ & _ & ->). rewrite E in O. apply Forall_app in O as (O1 & O2).
      inversion O2; subst. now apply Forall_app.
    - unfold imul. intros H; inv H. cbn [ctypes items with_items]. unfold repeat_list. rewrite Forall_forall in *.
      intros z I. apply in_concat in I as (l & I & J). apply repeat_spec in I. subst. auto.
  Qed.

  Lemma xrun_ok_list : forall ops v st,
    closed_trigger A ty S instance_of (ctypes v) (trig v) -> closed_members A ty instance_of members (ctypes v) ->
    Forall (xguarded A ty instance_of (ctypes v)) ops ->
    ok_list A ty S instance_of v -> ok_list A ty S instance_of (fst (xrun A ty S instance_of members eqb v ops st))
    /\ ctypes (fst (xrun A ty S instance_of members eqb v ops st)) = ctypes v.
  Proof.
    intros ops; induction ops as [|o r IH]; intros v st C M G O; cbn [xrun]; auto.
    inversion G as [|? ? G1 G2]; subst. destruct (xstep A ty S instance_of members eqb v o st) as [[v1 e1] s1] eqn:E.
    pose proof (xstep_config _ _ _ _ _ _ E) as [E1 E2].
    pose proof (xstep_ok_list _ _ _ _ _ _ C M G1 O E) as O1.
    destruct (IH v1 s1) as [X Y]; rewrite ?E1, ?E2; auto. split; auto. congruence.
  Qed.
End SliceProofs.
