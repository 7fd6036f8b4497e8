(** C39: the release gate. *)
From Coq Require Import List Bool Arith Lia.
From Verif Require Import BumpModel BumpSpec BumpProofs.
Import ListNotations.

(** Success exactly when the new version comes after the old one. *)
Theorem gate_passes_iff_increased : forall new old, exit_code new old = 0 <-> before old new.
Proof.
  intros new old. rewrite <- (proj1 (cmp_iff new old)). unfold exit_code.
  destruct (cmp new old), (major new =? major old), (minor new =? minor old), (micro new =? micro old); cbn; split; congruence.
Qed.
Print Assumptions gate_passes_iff_increased.

(** 4 exactly when the version is the same (trailing zeros do not count). *)
Theorem gate_unchanged : forall new old, exit_code new old = 4 <-> same_version new old.
Proof.
  intros new old. rewrite <- (proj2 (proj2 (cmp_iff new old))). unfold exit_code.
  destruct (cmp new old), (major new =? major old), (minor new =? minor old), (micro new =? micro old); cbn; split; congruence.
Qed.
Print Assumptions gate_unchanged.

(** 1, 2, 3 exactly when the version decreased and major, minor or micro is the first of the three to differ; and
    then it is that number that decreased. *)
Theorem gate_decreased : forall new old i, i < 3 ->
  (exit_code new old = S i <-> before new old /\ first_difference new old i).
Proof.
  intros new old i I. rewrite <- (proj1 (proj2 (cmp_iff new old))). unfold exit_code, first_difference, part.
  fold (major new) (major old).
  change (nth 0 (release new) 0) with (major new).
  split.
  - intros H. destruct (cmp new old) eqn:C; try discriminate; [cbn in H; injection H as H; lia|]. split; auto. split; auto.
    destruct (major new =? major old) eqn:A; cbn [negb] in H; [|injection H as <-; apply Nat.eqb_neq in A; split; [exact A|intros j L; lia]].
    apply Nat.eqb_eq in A.
    destruct (minor new =? minor old) eqn:B; cbn [negb] in H; [|injection H as <-; apply Nat.eqb_neq in B; split; [exact B|intros j L; assert (j = 0) as -> by lia; exact A]].
    apply Nat.eqb_eq in B.
    destruct (micro new =? micro old) eqn:D; cbn [negb] in H; [injection H as H; lia|]. injection H as <-. apply Nat.eqb_neq in D. split; [exact D|].
    intros j L. assert (j = 0 \/ j = 1) as [-> | ->] by lia; auto.
  - intros (C & _ & N & E). rewrite C. destruct i as [|[|[|i]]]; [| | |lia].
    + apply Nat.eqb_neq in N. unfold major. now rewrite N.
    + apply Nat.eqb_neq in N. pose proof (E 0 (le_n 1)) as A. apply Nat.eqb_eq in A. unfold major, minor. now rewrite A, N.
    + apply Nat.eqb_neq in N. pose proof (E 0 ltac:(lia)) as A. pose proof (E 1 ltac:(lia)) as B. apply Nat.eqb_eq in A, B.
      unfold major, minor, micro. now rewrite A, B, N.
Qed.
Print Assumptions gate_decreased.

Theorem gate_code_names_the_decrease : forall new old i, i < 3 -> exit_code new old = S i -> part new i < part old i.
Proof.
  intros new old i I H. apply gate_decreased in H as (B & _ & N & E); auto.
  destruct B as [(k & P & Q)|R _|R _ _|R _ _ _]; try (exfalso; apply N, R).
  destruct (Nat.lt_trichotomy i k) as [L|[->|L]]; auto.
  - exfalso. apply N. auto.
  - specialize (E k L). lia.
Qed.
Print Assumptions gate_code_names_the_decrease.

(** 5 exactly when it decreased in something else: a fourth number, or the stage of the release. *)
Theorem gate_other_decrease : forall new old,
  exit_code new old = 5 <-> before new old /\ (forall i, i < 3 -> part new i = part old i).
Proof.
  intros new old. rewrite <- (proj1 (proj2 (cmp_iff new old))). unfold exit_code, part. split.
  - destruct (cmp new old); try discriminate. destruct (major new =? major old) eqn:A; try discriminate.
    destruct (minor new =? minor old) eqn:B; try discriminate. destruct (micro new =? micro old) eqn:D; try discriminate.
    apply Nat.eqb_eq in A, B, D. intros _. split; auto. intros i L. assert (i = 0 \/ i = 1 \/ i = 2) as [-> | [-> | ->]] by lia; auto.
  - intros (-> & E). pose proof (E 0 ltac:(lia)) as A. pose proof (E 1 ltac:(lia)) as B. pose proof (E 2 ltac:(lia)) as D.
    apply Nat.eqb_eq in A, B, D. unfold major, minor, micro. now rewrite A, B, D.
Qed.
Print Assumptions gate_other_decrease.

(** There is no other outcome, and exactly one of after, same, before holds. *)
Theorem gate_codes : forall new old, In (exit_code new old) [0; 1; 2; 3; 4; 5].
Proof.
  intros new old. unfold exit_code.
  destruct (cmp new old), (major new =? major old), (minor new =? minor old), (micro new =? micro old); cbn; auto 10.
Qed.
Theorem version_order_total : forall v w, (before v w \/ same_version v w \/ before w v) /\ ~ (before v w /\ before w v).
Proof.
  intros v w. pose proof (cmp_spec v w) as H. split; [destruct (cmp v w); auto|]. intros (A & B). eapply before_asym; eauto.
Qed.
Print Assumptions version_order_total.

Definition V l := mkV l None None None.
Example gate_ex :
  exit_code (V [2;0;0]) (V [1;9;9]) = 0 /\ exit_code (V [1;0]) (V [1;0;0;0]) = 4 /\ exit_code (V [1;2]) (V [2;0;0]) = 1
  /\ exit_code (V [1;2;9]) (V [1;10;0]) = 2 /\ exit_code (V [1;2;3]) (V [1;2;4]) = 3 /\ exit_code (V [1;2;3;1]) (V [1;2;3;2]) = 5
  /\ exit_code (mkV [1;2;3] (Some (Candidate, 1)) None None) (V [1;2;3]) = 5
  /\ exit_code (mkV [1;2;3] None None (Some 4)) (mkV [1;2;3] (Some (Alpha, 0)) None None) = 5
  /\ exit_code (mkV [1;2;3] None (Some 0) (Some 4)) (V [1;2;3]) = 0.
Proof. vm_compute. repeat split. Qed.

Print Assumptions gate_codes.
