From Coq Require Import List Bool Arith Lia.
From Verif Require Import BumpModel BumpSpec.
Import ListNotations.

Lemma nth_nil0 : forall i, nth i (@nil nat) 0 = 0.
Proof. now destruct i. Qed.

Lemma strip_nth : forall l i, nth i (strip l) 0 = nth i l 0.
Proof.
  induction l as [|x l IH]; intros i; cbn [strip]; auto. destruct (strip l) as [|y s] eqn:E.
  - destruct (x =? 0) eqn:Z.
    + apply Nat.eqb_eq in Z. subst. rewrite nth_nil0. destruct i; cbn [nth]; auto. now rewrite <- IH, nth_nil0.
    + destruct i as [|i]; auto. exact (IH i).
  - destruct i as [|i]; auto. exact (IH i).
Qed.

Lemma strip_idem : forall l, strip (strip l) = strip l.
Proof.
  induction l as [|x l IH]; cbn [strip]; auto. destruct (strip l) as [|y s] eqn:E.
  - destruct (x =? 0) eqn:Z; auto. cbn. now rewrite Z.
  - cbn [strip]. cbn [strip] in IH. now rewrite IH.
Qed.

(** A stripped list that is all zeros is empty. *)
Lemma strip_zero : forall l, strip l = l -> (forall i, nth i l 0 = 0) -> l = [].
Proof.
  induction l as [|x l IH]; intros Hs Z; auto. exfalso. cbn [strip] in Hs. destruct (strip l) as [|y s] eqn:E.
  - pose proof (Z 0) as X. cbn in X. subst x. cbn in Hs. discriminate.
  - injection Hs as Hs. assert (X : l = []); [|rewrite X in Hs; discriminate]. apply IH; [exact Hs|]. intros i. apply (Z (S i)).
Qed.

Lemma strip_tail : forall x l, strip (x :: l) = x :: l -> strip l = l.
Proof.
  intros x l S. cbn [strip] in S. destruct (strip l) as [|y s] eqn:E.
  - destruct (x =? 0); [discriminate|]. injection S as <-. auto.
  - now injection S as <-.
Qed.

Lemma cmp_list_spec : forall x y, strip x = x -> strip y = y ->
  match cmp_list x y with
  | Eq => forall i, nth i x 0 = nth i y 0
  | Lt => exists i, nth i x 0 < nth i y 0 /\ forall j, j < i -> nth j x 0 = nth j y 0
  | Gt => exists i, nth i y 0 < nth i x 0 /\ forall j, j < i -> nth j y 0 = nth j x 0
  end.
Proof.
  assert (Pos : forall l, strip l = l -> l <> [] -> exists i, 0 < nth i l 0 /\ forall j, j < i -> nth j l 0 = 0).
  { induction l as [|x l IH]; intros Hs N; [congruence|]. destruct x as [|x].
    - destruct l as [|y l]; [discriminate|]. destruct IH as (i & P & Q); [eapply strip_tail; eauto|discriminate|].
      exists (S i). split; auto. intros [|j] L; auto. apply Q. lia.
    - exists 0. split; [cbn; lia|]. intros j L. lia. }
  induction x as [|a x IH]; intros [|b y] Sx Sy; cbn [cmp_list].
  - auto.
  - destruct (Pos _ Sy) as (i & P & Q); [discriminate|]. exists i. rewrite nth_nil0. split; auto. intros j L. rewrite nth_nil0. symmetry. auto.
  - destruct (Pos _ Sx) as (i & P & Q); [discriminate|]. exists i. rewrite nth_nil0. split; auto. intros j L. rewrite nth_nil0. symmetry. auto.
  - destruct (a ?= b) eqn:C.
    + apply Nat.compare_eq in C. subst b. specialize (IH y (strip_tail _ _ Sx) (strip_tail _ _ Sy)). destruct (cmp_list x y).
      * intros [|i]; cbn; auto.
      * destruct IH as (i & P & Q). exists (S i). split; auto. intros [|j] L; auto. apply Q. lia.
      * destruct IH as (i & P & Q). exists (S i). split; auto. intros [|j] L; auto. apply Q. lia.
    + apply Nat.compare_lt_iff in C. exists 0. split; auto. intros j L. lia.
    + apply Nat.compare_gt_iff in C. exists 0. split; auto. intros j L. lia.
Qed.

Lemma cmp_release : forall v w, match cmp_list (strip (release v)) (strip (release w)) with
  | Eq => same_release v w | Lt => smaller_release v w | Gt => smaller_release w v end.
Proof.
  intros v w. pose proof (cmp_list_spec _ _ (strip_idem (release v)) (strip_idem (release w))) as H.
  destruct (cmp_list _ _).
  - intros i. unfold part. rewrite <- (strip_nth (release v)), <- (strip_nth (release w)). auto.
  - destruct H as (i & P & Q). exists i. unfold part. rewrite !strip_nth in P. split; auto. intros j L. specialize (Q j L). now rewrite !strip_nth in Q.
  - destruct H as (i & P & Q). exists i. unfold part. rewrite !strip_nth in P. split; auto. intros j L. specialize (Q j L). now rewrite !strip_nth in Q.
Qed.

Lemma cmp_stage : forall v w, match cmp_ext cmp_pre (pre_key v) (pre_key w) with
  | Eq => stage v = stage w | Lt => pair_lt (stage v) (stage w) | Gt => pair_lt (stage w) (stage v) end.
Proof.
  intros v w. unfold pre_key, stage.
  destruct (pre v) as [[k n]|], (pre w) as [[k' m]|].
  - destruct k, k'; cbn [cmp_ext cmp_pre fst snd kind_rank Nat.compare]; try (apply pl_fst; lia); unfold cmp_pre; cbn [fst snd kind_rank Nat.compare]; try (apply pl_fst; lia);
      destruct (n ?= m) eqn:C; [apply Nat.compare_eq in C; subst; reflexivity|apply Nat.compare_lt_iff in C; apply pl_snd; auto|apply Nat.compare_gt_iff in C; apply pl_snd; auto|..];
      try (apply Nat.compare_eq in C; subst; reflexivity); try (apply Nat.compare_lt_iff in C; apply pl_snd; assumption); apply Nat.compare_gt_iff in C; apply pl_snd; assumption.
  - destruct k, (post w), (dev w); cbn [cmp_ext]; apply pl_fst; lia.
  - destruct k', (post v), (dev v); cbn [cmp_ext]; apply pl_fst; lia.
  - destruct (post v), (dev v), (post w), (dev w); cbn [cmp_ext]; try reflexivity; apply pl_fst; lia.
Qed.

Lemma cmp_post : forall v w, match cmp_ext Nat.compare (post_key v) (post_key w) with
  | Eq => post_rank v = post_rank w | Lt => post_rank v < post_rank w | Gt => post_rank w < post_rank v end.
Proof.
  intros v w. unfold post_key, post_rank. destruct (post v) as [n|], (post w) as [m|]; cbn [cmp_ext]; try lia.
  destruct (n ?= m) eqn:C; [apply Nat.compare_eq in C|apply Nat.compare_lt_iff in C|apply Nat.compare_gt_iff in C]; lia.
Qed.

Lemma cmp_dev : forall v w, match cmp_ext Nat.compare (dev_key v) (dev_key w) with
  | Eq => dev v = dev w | Lt => dev_before v w | Gt => dev_before w v end.
Proof.
  intros v w. unfold dev_key, dev_before. destruct (dev v) as [n|], (dev w) as [m|]; cbn [cmp_ext]; auto.
  destruct (n ?= m) eqn:C; [apply Nat.compare_eq in C|apply Nat.compare_lt_iff in C|apply Nat.compare_gt_iff in C]; auto; now subst.
Qed.

Lemma stage_pre : forall v w, stage v = stage w -> post_rank v = post_rank w -> dev v = dev w -> pre v = pre w /\ post v = post w.
Proof.
  intros v w S P D. assert (Po : post v = post w) by (unfold post_rank in P; destruct (post v), (post w); congruence).
  split; auto. unfold stage in S. rewrite Po, D in S.
  destruct (pre v) as [[[] n]|], (pre w) as [[[] m]|]; try destruct (post w), (dev w); congruence.
Qed.

Lemma same_sym : forall v w, same_release v w -> same_release w v.
Proof. intros v w H i. symmetry. apply H. Qed.

Lemma cmp_spec : forall v w, match cmp v w with Eq => same_version v w | Lt => before v w | Gt => before w v end.
Proof.
  intros v w. unfold cmp. pose proof (cmp_release v w) as R. destruct (cmp_list _ _); try (now apply b_release).
  pose proof (same_sym _ _ R) as R'. pose proof (cmp_stage v w) as S. destruct (cmp_ext cmp_pre _ _); try (now apply b_stage).
  pose proof (cmp_post v w) as P. destruct (cmp_ext Nat.compare (post_key v) _); try (now apply b_post).
  pose proof (cmp_dev v w) as D. destruct (cmp_ext Nat.compare (dev_key v) _); try (now apply b_dev).
  destruct (stage_pre v w S P D). repeat split; auto.
Qed.

(** ** The order is strict *)
Lemma smaller_asym : forall v w, smaller_release v w -> smaller_release w v -> False.
Proof.
  intros v w (i & P & Q) (j & P' & Q'). destruct (Nat.lt_trichotomy i j) as [L|[->|L]].
  - specialize (Q' i L). lia. - lia. - specialize (Q j L). lia.
Qed.
Lemma smaller_same : forall v w, smaller_release v w -> same_release v w -> False.
Proof. intros v w (i & P & _) S. specialize (S i). lia. Qed.
Lemma pair_lt_asym : forall x y, pair_lt x y -> pair_lt y x -> False.
Proof. intros x y H H'. inversion H; subst; inversion H'; subst; lia. Qed.
Lemma pair_lt_irrefl : forall x, pair_lt x x -> False.
Proof. intros x H. inversion H; lia. Qed.
Lemma dev_asym : forall v w, dev_before v w -> dev_before w v -> False.
Proof. intros v w. unfold dev_before. destruct (dev v), (dev w); try tauto; lia. Qed.

Lemma before_asym : forall v w, before v w -> before w v -> False.
Proof.
  intros v w H H'. destruct H as [R|R S|R S P|R S P D], H' as [R'|R' S'|R' S' P'|R' S' P' D'];
    try (eapply smaller_asym; eassumption); try (eapply smaller_same; [eassumption|auto using same_sym]; fail);
    try (eapply pair_lt_asym; eassumption); try (eapply dev_asym; eassumption); try lia;
    try (rewrite S in S'; eapply pair_lt_irrefl; eassumption); try (rewrite S' in S; eapply pair_lt_irrefl; eassumption).
Qed.
Lemma same_before : forall v w, same_version v w -> ~ before v w /\ ~ before w v.
Proof.
  intros v w (R & Pr & Po & De).
  assert (S : stage v = stage w) by (unfold stage; now rewrite Pr, Po, De). assert (P : post_rank v = post_rank w) by (unfold post_rank; now rewrite Po).
  split; intros H; destruct H as [R'|R' S'|R' S' P'|R' S' P' D']; try (eapply smaller_same; [eassumption|auto using same_sym]; fail);
    try (rewrite S in S'; eapply pair_lt_irrefl; eassumption); try lia; unfold dev_before in D'; rewrite De in D'; destruct (dev w); try tauto; lia.
Qed.

Lemma cmp_iff : forall v w, (cmp v w = Gt <-> before w v) /\ (cmp v w = Lt <-> before v w) /\ (cmp v w = Eq <-> same_version v w).
Proof.
  intros v w. pose proof (cmp_spec v w) as H. destruct (cmp v w).
  - destruct (same_before _ _ H). split; [|split]; split; intros X; try discriminate; auto; contradiction.
  - split; [|split]; split; intros X; try discriminate; auto; try (exfalso; eapply before_asym; eassumption). destruct (same_before _ _ X); contradiction.
  - split; [|split]; split; intros X; try discriminate; auto; try (exfalso; eapply before_asym; eassumption). destruct (same_before _ _ X); contradiction.
Qed.
