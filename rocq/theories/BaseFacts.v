(** Facts about the insertion-ordered dictionaries of [Base]. *)
From Coq Require Import String Ascii List Bool Arith Lia Permutation.
From Verif Require Import Base.
Import ListNotations.
Open Scope string_scope.
Open Scope list_scope.

Ltac break_if :=
  match goal with
  | |- context [if ?b then _ else _] => destruct b eqn:?
  | H : context [if ?b then _ else _] |- _ => destruct b eqn:?
  end.

Ltac break_match :=
  match goal with
  | |- context [match ?b with _ => _ end] => destruct b eqn:?
  | H : context [match ?b with _ => _ end] |- _ => destruct b eqn:?
  end.

Ltac inv H := inversion H; subst; clear H.

Ltac str_eq :=
  repeat match goal with
  | H : String.eqb _ _ = true |- _ => apply String.eqb_eq in H; subst
  | H : String.eqb _ _ = false |- _ => apply String.eqb_neq in H
  end.

Section DictFacts.
  Context {V : Type}.
  Implicit Types (d : list (string * V)).

  Lemma dict_get_In : forall k v d, dict_get k d = Some v -> In (k, v) d.
  Proof.
    intros k v d; induction d as [|[k' v'] r IH]; cbn; [discriminate|].
    destruct (String.eqb k k') eqn:E; intros H; str_eq.
    - injection H as ->; now left.
    - right; auto.
  Qed.

  Lemma dict_get_None : forall k d, dict_get k d = None <-> ~ In k (keys d).
  Proof.
    intros k d; induction d as [|[k' v'] r IH]; cbn; [tauto|].
    destruct (String.eqb k k') eqn:E; str_eq.
    - split; [discriminate | intros H; exfalso; apply H; now left].
    - rewrite IH; split; intros H; [intros [<-|?]; tauto | tauto].
  Qed.

  Lemma dict_get_Some_key : forall k d, In k (keys d) -> exists v, dict_get k d = Some v.
  Proof.
    intros k d H; destruct (dict_get k d) eqn:E; eauto.
    apply dict_get_None in E; contradiction.
  Qed.

  Lemma In_dict_get : forall k v d, NoDup (keys d) -> In (k, v) d -> dict_get k d = Some v.
  Proof.
    intros k v d; induction d as [|[k' v'] r IH]; cbn; [tauto|].
    intros N; inv N. intros [E|I].
    - injection E as -> ->. now rewrite String.eqb_refl.
    - destruct (String.eqb k k') eqn:E; str_eq; auto.
      exfalso; apply H1. change k' with (fst (k', v)). now apply in_map.
  Qed.

  Lemma dict_get_set_same : forall k v d, dict_get k (dict_set k v d) = Some v.
  Proof.
    intros k v d; induction d as [|[k' v'] r IH]; cbn.
    - now rewrite String.eqb_refl.
    - destruct (String.eqb k k') eqn:E; cbn; rewrite E; auto.
  Qed.

  Lemma dict_get_set_other : forall k k' v d, k <> k' -> dict_get k (dict_set k' v d) = dict_get k d.
  Proof.
    intros k k' v d N; induction d as [|[k2 v2] r IH]; cbn.
    - apply String.eqb_neq in N; now rewrite N.
    - destruct (String.eqb k' k2) eqn:E; cbn; destruct (String.eqb k k2) eqn:E2; auto; str_eq; congruence.
  Qed.

  Lemma dict_set_new : forall k v d, ~ In k (keys d) -> dict_set k v d = d ++ [(k, v)].
  Proof.
    intros k v d; induction d as [|[k' v'] r IH]; cbn; auto.
    intros H. destruct (String.eqb k k') eqn:E; str_eq.
    - exfalso; apply H; now left.
    - rewrite IH; tauto.
  Qed.

  Lemma keys_set_old : forall k v d, In k (keys d) -> keys (dict_set k v d) = keys d.
  Proof.
    intros k v d; induction d as [|[k' v'] r IH]; cbn; [tauto|].
    intros H. destruct (String.eqb k k') eqn:E; str_eq; cbn; auto.
    destruct H as [->|H]; [congruence|]. f_equal; auto.
  Qed.

  Lemma keys_set : forall k v d,
    keys (dict_set k v d) = if dict_mem k d then keys d else keys d ++ [k].
  Proof.
    intros k v d. unfold dict_mem. destruct (dict_get k d) eqn:E.
    - apply keys_set_old. apply dict_get_In in E. change k with (fst (k, v0)). now apply in_map.
    - apply dict_get_None in E. rewrite dict_set_new by auto. unfold keys. now rewrite map_app.
  Qed.

  Lemma In_keys_set : forall k k' v d, In k (keys (dict_set k' v d)) <-> k = k' \/ In k (keys d).
  Proof.
    intros k k' v d. rewrite keys_set. unfold dict_mem. destruct (dict_get k' d) eqn:E.
    - split; [tauto|]. intros [->|]; auto. apply dict_get_In in E.
      change k' with (fst (k', v0)); now apply in_map.
    - rewrite in_app_iff; cbn. intuition.
  Qed.

  Lemma NoDup_keys_set : forall k v d, NoDup (keys d) -> NoDup (keys (dict_set k v d)).
  Proof.
    intros k v d N. rewrite keys_set. unfold dict_mem. destruct (dict_get k d) eqn:E; auto.
    apply dict_get_None in E. apply NoDup_rev in N.
    rewrite <- (rev_involutive (keys d ++ [k])). apply NoDup_rev. rewrite rev_app_distr; cbn.
    constructor; auto. now rewrite <- in_rev.
  Qed.

  Lemma dict_del_not_in : forall k d, ~ In k (keys d) -> dict_del k d = d.
  Proof.
    intros k d; induction d as [|[k' v'] r IH]; cbn; auto.
    intros H. destruct (String.eqb k k') eqn:E; str_eq; [exfalso; apply H; now left|].
    f_equal; apply IH; tauto.
  Qed.

  Lemma In_dict_del : forall x k d, In x (dict_del k d) -> In x d.
  Proof.
    intros x k d; induction d as [|[k' v'] r IH]; cbn; auto.
    destruct (String.eqb k k'); cbn; tauto.
  Qed.

  Lemma In_keys_del : forall x k d, In x (keys (dict_del k d)) -> In x (keys d).
  Proof.
    intros x k d H. unfold keys in *. apply in_map_iff in H as [p [<- H]].
    apply in_map. eapply In_dict_del; eauto.
  Qed.

  Lemma NoDup_keys_del : forall k d, NoDup (keys d) -> NoDup (keys (dict_del k d)).
  Proof.
    intros k d; induction d as [|[k' v'] r IH]; cbn; auto.
    intros N; inv N. destruct (String.eqb k k'); auto. cbn. constructor; auto.
    intros C; apply H1. eapply In_keys_del; eauto.
  Qed.

  Lemma dict_get_del_same : forall k d, NoDup (keys d) -> dict_get k (dict_del k d) = None.
  Proof.
    intros k d; induction d as [|[k' v'] r IH]; cbn; auto.
    intros N; inv N. destruct (String.eqb k k') eqn:E; str_eq.
    - now apply dict_get_None.
    - cbn. apply String.eqb_neq in E. rewrite E; auto.
  Qed.

  Lemma dict_get_del_other : forall k k' d, k <> k' -> dict_get k (dict_del k' d) = dict_get k d.
  Proof.
    intros k k' d N; induction d as [|[k2 v2] r IH]; cbn; auto.
    destruct (String.eqb k' k2) eqn:E; str_eq; cbn.
    - apply String.eqb_neq in N; now rewrite N.
    - destruct (String.eqb k k2); auto.
  Qed.

  Lemma dict_update_app : forall a b d, dict_update (a ++ b) d = dict_update b (dict_update a d).
  Proof. intros; unfold dict_update; apply fold_left_app. Qed.

  Lemma NoDup_keys_update : forall items d, NoDup (keys d) -> NoDup (keys (dict_update items d)).
  Proof.
    intros items; induction items as [|[k v] r IH]; cbn; auto.
    intros d N; apply IH; now apply NoDup_keys_set.
  Qed.
End DictFacts.
