(** C69: two-sided references assigned by several threads. *)
From Coq Require Import List Bool Arith Lia.
From Verif Require Import WeaveModel WeaveSpec.
Import ListNotations.

Lemma upd_same : forall A (f : nat -> A) t x, upd f t x t = x. Proof. intros. unfold upd. rewrite Nat.eqb_refl. reflexivity. Qed.
Lemma upd_other : forall A (f : nat -> A) t x u, u <> t -> upd f t x u = f u. Proof. intros A f t x u N. unfold upd. apply Nat.eqb_neq in N. rewrite N. reflexivity. Qed.
Notation cnt l x := (count_occ Nat.eq_dec l x).
Lemma nth_parts : forall (l : list nat) i y, nth_error l i = Some y -> l = firstn i l ++ y :: skipn (S i) l.
Proof.
  induction l as [|z l IH]; intros [|i] y H; cbn in H; try discriminate; [injection H as <-; reflexivity|]. cbn [firstn app]. f_equal. exact (IH i y H).
Qed.
Lemma cnt_delete : forall l i y, nth_error l i = Some y -> forall x, cnt l x = cnt (delete i l) x + if y =? x then 1 else 0.
Proof.
  intros l i y H x. rewrite (nth_parts l i y H) at 1. unfold delete. rewrite !count_occ_app. cbn [count_occ]. destruct (Nat.eq_dec y x) as [->|N]; [rewrite Nat.eqb_refl; lia|]. apply Nat.eqb_neq in N. rewrite N. lia.
Qed.
Lemma cnt_snoc : forall l y x, cnt (l ++ [y]) x = cnt l x + if y =? x then 1 else 0.
Proof. intros l y x. rewrite count_occ_app. cbn. destruct (Nat.eq_dec y x) as [->|N]; [rewrite Nat.eqb_refl; lia|]. apply Nat.eqb_neq in N. rewrite N. lia. Qed.
Lemma la_app : forall l e x b, last_assigned (l ++ [e]) x b = last_assigned [e] x (last_assigned l x b).
Proof. induction l as [|[[y v|y v] []] l IH]; intros e x b; [reflexivity| | | |]; cbn [app last_assigned] in *; apply IH. Qed.
Lemma lp_app : forall l e x b, last_produced (l ++ [e]) x b = last_produced [e] x (last_produced l x b).
Proof. induction l as [|[[y v|y v] []] l IH]; intros e x b; [reflexivity| | | |]; cbn [app last_produced] in *; apply IH. Qed.

Ltac slim := cbn [goto next_op set_parent set_kids set_proc set_out say parent kids proc out m_thread m_log at_ todo] in *.
Ltac places t m :=
  unfold step; destruct (m_thread m t) as [pl td] eqn:Et; cbn [at_ todo];
  destruct pl as [|x0 v0 p0 i0|x0 v0|x0 p0|x0 v0 p0|x0 p0|x0 v0];
  [destruct td as [|[x0 v0|x0 v0] r0]; [|destruct (parent m x0) as [p0|] eqn:Ep|destruct (proc m x0) as [p0|] eqn:Ep; [|destruct v0 as [p0|]; cbn [claim]]]
  |destruct (nth_error (kids m p0) i0) as [y0|] eqn:En; [destruct (y0 =? x0) eqn:Ey; [apply Nat.eqb_eq in Ey; subst y0|]|]
  |destruct v0 as [p0|]
  | |destruct v0 as [p1|]; cbn [claim]
  | | ].

Lemma step_other : forall t m w, w <> t -> m_thread (step t m) w = m_thread m w.
Proof. intros t m w N. places t m; slim; rewrite ?upd_other by exact N; reflexivity. Qed.
Lemma run_snoc : forall s t m, run (s ++ [t]) m = step t (run s m).
Proof. intros. unfold run. rewrite fold_left_app. reflexivity. Qed.
Lemma always_snoc : forall P s t m, always P m (s ++ [t]) -> always P m s /\ P (run s m) t.
Proof.
  intros P. induction s as [|a s IH]; intros t m A; cbn [app] in A; inversion A as [|? ? ? H A']; subst; [split; [constructor|exact H]|]. destruct (IH _ _ A') as (X & Y). split; [constructor; assumption|exact Y].
Qed.

Definition child_at (pl : place) : option nat := match pl with Removing x _ _ _ | Storing x _ | Appending x _ => Some x | _ => None end.
Definition mat_at (pl : place) : option nat := match pl with Clearing x _ _ | Claiming x _ | Keeping x _ => Some x | _ => None end.
Definition settled (m : machine) (x : nat) : Prop := forall p, cnt (kids m p) x = match parent m x with Some q => if q =? p then 1 else 0 | None => 0 end.
Definition gone (m : machine) (x : nat) : Prop := forall p, cnt (kids m p) x = 0.
Lemma settled_right : forall m x, settled m x <-> listed_right m x.
Proof.
  intros m x. split.
  - intros S p. specialize (S p). split.
    + intros E. rewrite E, Nat.eqb_refl in S. assert (I : In x (kids m p)) by (apply (count_occ_In Nat.eq_dec); lia). apply in_split in I. destruct I as (a & b & I). rewrite I in S. rewrite count_occ_app in S. cbn in S.
      destruct (Nat.eq_dec x x); [|congruence]. exists a, b. split; [exact I|]. split; apply (count_occ_not_In Nat.eq_dec); lia.
    + intros N. apply (count_occ_not_In Nat.eq_dec). rewrite S. destruct (parent m x) as [q|]; [|reflexivity]. destruct (Nat.eqb_spec q p); [congruence|reflexivity].
  - intros R p. destruct (R p) as (A & B). destruct (parent m x) as [q|]; [|apply (count_occ_not_In Nat.eq_dec); apply B; discriminate].
    destruct (Nat.eqb_spec q p) as [->|N]; [|apply (count_occ_not_In Nat.eq_dec); apply B; congruence]. destruct (A eq_refl) as (a & b & -> & Na & Nb). rewrite count_occ_app. cbn. destruct (Nat.eq_dec x x); [|congruence].
    apply (count_occ_not_In Nat.eq_dec) in Na, Nb. lia.
Qed.

Section Weave.
  Context (progs : nat -> list op) (own ownm : nat -> nat) (Ch : children_apart progs own) (Ma : materials_apart progs ownm).
  Context (pa : nat -> option nat) (ki : nat -> list nat) (pr ou : nat -> option nat).
  Notation m0 := (start pa ki pr ou progs).

  (** *** Which thread works on what *)
  Definition placed (m : machine) : Prop := forall t, (forall o, In o (todo (m_thread m t)) -> In o (progs t)) /\ (forall x, child_at (at_ (m_thread m t)) = Some x -> own x = t).
  Definition mplaced (m : machine) : Prop := forall t, (forall o, In o (todo (m_thread m t)) -> In o (progs t)) /\ (forall x, mat_at (at_ (m_thread m t)) = Some x -> ownm x = t).
  Lemma placed_step : forall t m, placed m -> placed (step t m).
  Proof.
    intros t m P u. destruct (Nat.eq_dec u t) as [->|N]; [|rewrite step_other by exact N; apply P]. specialize (P t). revert P.
    places t m; slim; rewrite ?upd_same; slim; rewrite ?upd_same; slim; rewrite ?Et; slim; intros (A & B); cbn [child_at] in *;
      (split; [first [exact A|intros o I; apply A; right; exact I]|first [exact B|intros x' [= <-]; first [apply B; reflexivity|eapply Ch; apply A; left; reflexivity]]]).
  Qed.
  Lemma mplaced_step : forall t m, mplaced m -> mplaced (step t m).
  Proof.
    intros t m P u. destruct (Nat.eq_dec u t) as [->|N]; [|rewrite step_other by exact N; apply P]. specialize (P t). revert P.
    places t m; slim; rewrite ?upd_same; slim; rewrite ?upd_same; slim; rewrite ?Et; slim; intros (A & B); cbn [mat_at] in *;
      (split; [first [exact A|intros o I; apply A; right; exact I]|first [exact B|intros x' [= <-]; first [apply B; reflexivity|eapply Ma; apply A; left; reflexivity]]]).
  Qed.
  Lemma placed_run : forall s, placed (run s m0).
  Proof. induction s as [|t s IH] using rev_ind; [|rewrite run_snoc; apply placed_step; exact IH]. intros t. split; [intros o I; exact I|]. discriminate. Qed.
  Lemma mplaced_run : forall s, mplaced (run s m0).
  Proof. induction s as [|t s IH] using rev_ind; [|rewrite run_snoc; apply mplaced_step; exact IH]. intros t. split; [intros o I; exact I|]. discriminate. Qed.

  (** *** What ends is what was asked for, in that order *)
  Definition pending (pl : place) : list op := match pl with Removing x v _ _ | Storing x v => [Assign x v] | Appending x p => [Assign x (Some p)] | Clearing x v _ | Keeping x v => [Produce x v] | Claiming x p => [Produce x (Some p)] | Between => [] end.
  Definition all_of (f : list op -> list op) (m : machine) (t : nat) : list op := f (map fst (m_log m)) ++ f (pending (at_ (m_thread m t))) ++ f (todo (m_thread m t)).
  Lemma to_child_app : forall x a b, to_child x (a ++ b) = to_child x a ++ to_child x b. Proof. intros. apply filter_app. Qed.
  Lemma to_material_app : forall x a b, to_material x (a ++ b) = to_material x a ++ to_material x b. Proof. intros. apply filter_app. Qed.
  Lemma all_of_own : forall (f : list op -> list op) t m, (forall a b, f (a ++ b) = f a ++ f b) -> all_of f (step t m) t = all_of f m t.
  Proof.
    intros f t m F. assert (C : forall o l, f (o :: l) = f [o] ++ f l) by (intros o l; exact (F [o] l)). assert (Z : f [] = []) by (pose proof (F [] []) as X; cbn in X; destruct (f []) as [|a l]; [reflexivity|apply (f_equal (@length _)) in X; rewrite app_length in X; cbn in X; lia]).
    unfold all_of. places t m; slim; rewrite ?upd_same; slim; rewrite ?upd_same; slim; rewrite ?Et; slim; cbn [pending]; rewrite ?map_app, ?F; cbn [map fst]; rewrite ?Z; cbn [app]; rewrite ?app_nil_r, <- ?app_assoc; try reflexivity; rewrite (C _ r0); reflexivity.
  Qed.
  Lemma log_other : forall (f : list op -> list op) t m, (forall a b, f (a ++ b) = f a ++ f b) -> (forall o, In o (pending (at_ (m_thread m t))) -> f [o] = []) -> f (map fst (m_log (step t m))) = f (map fst (m_log m)).
  Proof.
    intros f t m F. places t m; slim; cbn [pending]; intros N; try reflexivity; rewrite map_app, F; cbn [map fst]; rewrite N by (left; reflexivity); apply app_nil_r.
  Qed.
  Theorem child_history : forall s x, let m := run s m0 in ~ on_child m (own x) x -> to_child x (map fst (m_log m)) ++ to_child x (todo (m_thread m (own x))) = to_child x (progs (own x)).
  Proof.
    intros s x. assert (G : all_of (to_child x) (run s m0) (own x) = to_child x (progs (own x))).
    { induction s as [|t s IH] using rev_ind; [reflexivity|]. rewrite run_snoc. destruct (Nat.eq_dec (own x) t) as [<-|N]; [rewrite all_of_own by apply to_child_app; exact IH|].
      rewrite <- IH. unfold all_of. rewrite step_other by exact N. rewrite log_other; [reflexivity|apply to_child_app|]. intros o I. destruct (placed_run s t) as (_ & P). unfold to_child. cbn [filter].
      destruct (at_ (m_thread (run s m0) t)) as [|y v p i|y v|y p|y v p|y p|y v]; cbn in I; try (destruct I as [<-|[]]); try destruct I; try reflexivity; specialize (P y eq_refl); (destruct (Nat.eqb_spec y x); [congruence|reflexivity]). }
    intros m N. rewrite <- G. fold m. unfold all_of. f_equal. unfold on_child in N. unfold to_child at 2. destruct (at_ (m_thread m (own x))) as [|y v p i|y v|y p|y v p|y p|y v]; cbn; try reflexivity; (destruct (Nat.eqb_spec y x); [contradiction|reflexivity]).
  Qed.
  Theorem material_history : forall s x, let m := run s m0 in ~ on_material m (ownm x) x -> to_material x (map fst (m_log m)) ++ to_material x (todo (m_thread m (ownm x))) = to_material x (progs (ownm x)).
  Proof.
    intros s x. assert (G : all_of (to_material x) (run s m0) (ownm x) = to_material x (progs (ownm x))).
    { induction s as [|t s IH] using rev_ind; [reflexivity|]. rewrite run_snoc. destruct (Nat.eq_dec (ownm x) t) as [<-|N]; [rewrite all_of_own by apply to_material_app; exact IH|].
      rewrite <- IH. unfold all_of. rewrite step_other by exact N. rewrite log_other; [reflexivity|apply to_material_app|]. intros o I. destruct (mplaced_run s t) as (_ & P). unfold to_material. cbn [filter].
      destruct (at_ (m_thread (run s m0) t)) as [|y v p i|y v|y p|y v p|y p|y v]; cbn in I; try (destruct I as [<-|[]]); try destruct I; try reflexivity; specialize (P y eq_refl); (destruct (Nat.eqb_spec y x); [congruence|reflexivity]). }
    intros m N. rewrite <- G. fold m. unfold all_of. f_equal. unfold on_material in N. unfold to_material at 2. destruct (at_ (m_thread m (ownm x))) as [|y v p i|y v|y p|y v p|y p|y v]; cbn; try reflexivity; (destruct (Nat.eqb_spec y x); [contradiction|reflexivity]).
  Qed.

  (** *** Children *)
  Definition starts (m : machine) (t x : nat) : Prop := at_ (m_thread m t) = Between /\ exists v r, todo (m_thread m t) = Assign x v :: r.
  Lemma child_frame : forall t m x, child_at (at_ (m_thread m t)) <> Some x -> ~ starts m t x ->
    parent (step t m) x = parent m x /\ (forall p, cnt (kids (step t m) p) x = cnt (kids m p) x) /\ (forall b, last_assigned (m_log (step t m)) x b = last_assigned (m_log m) x b)
    /\ child_at (at_ (m_thread (step t m) t)) <> Some x.
  Proof.
    intros t m x. unfold starts. places t m; slim; cbn [child_at]; intros N M; rewrite ?upd_same; slim; rewrite ?Et; cbn [at_ child_at];
      try (assert (Nx : x <> x0) by congruence); try (destruct M; split; [reflexivity|eexists _, _]; fail);
      repeat split; try reflexivity; try discriminate; try (apply upd_other; exact Nx); try (intros b; rewrite la_app; cbn [last_assigned]; first [reflexivity|destruct (Nat.eqb_spec x0 x); [congruence|reflexivity]]); try congruence.
    - intros [= ->]. apply M. split; [reflexivity|]. eexists _, _. reflexivity.
    - intros [= ->]. apply M. split; [reflexivity|]. eexists _, _. reflexivity.
    - intros p. destruct (Nat.eq_dec p p0) as [->|Np]; [rewrite upd_same|rewrite upd_other by exact Np; reflexivity]. rewrite (cnt_delete _ _ _ En x). destruct (Nat.eqb_spec x0 x); [congruence|lia].
    - intros p. destruct (Nat.eq_dec p p0) as [->|Np]; [rewrite upd_same|rewrite upd_other by exact Np; reflexivity]. rewrite cnt_snoc. destruct (Nat.eqb_spec x0 x); [congruence|lia].
  Qed.
  Definition child_ok (m : machine) (x : nat) : Prop :=
    let pl := at_ (m_thread m (own x)) in
    (child_at pl <> Some x -> settled m x /\ parent m x = last_assigned (m_log m) x (pa x))
    /\ (forall v p i, pl = Removing x v p i -> settled m x /\ parent m x = last_assigned (m_log m) x (pa x) /\ parent m x = Some p)
    /\ (forall v, pl = Storing x v -> gone m x)
    /\ (forall p, pl = Appending x p -> gone m x /\ parent m x = Some p).
  Lemma child_step : forall t m, placed m -> (forall x, child_ok m x) -> forall x, child_ok (step t m) x.
  Proof.
    intros t m P K x. destruct (P t) as (P1 & P2). specialize (K x).
    assert (D : (child_at (at_ (m_thread m t)) = Some x \/ starts m t x) \/ (child_at (at_ (m_thread m t)) <> Some x /\ ~ starts m t x)).
    { unfold starts. destruct (at_ (m_thread m t)) as [|y v p i|y v|y p| | | ]; cbn [child_at]; try (destruct (Nat.eq_dec y x) as [->|N]; [left; left; reflexivity|right; split; [congruence|intros (H & _); discriminate]]); try (right; split; [discriminate|intros (H & _); discriminate]).
      destruct (todo (m_thread m t)) as [|[y v|y v] r]; [right; split; [discriminate|intros (_ & ? & ? & H); discriminate]| |right; split; [discriminate|intros (_ & ? & ? & H); discriminate]].
      destruct (Nat.eq_dec y x) as [->|N]; [left; right; split; [reflexivity|eexists _, _; reflexivity]|right; split; [discriminate|intros (_ & ? & ? & H); congruence]]. }
    destruct D as [D|(D1 & D2)].
    - assert (O : own x = t) by (destruct D as [D|(_ & v & r & D)]; [apply P2; exact D|eapply Ch; apply P1; rewrite D; left; reflexivity]).
      unfold child_ok in *. rewrite O in *. clear P1 P2. revert D K. unfold starts. places t m; slim; cbn [child_at]; intros D (K1 & K2 & K3 & K4);
        (destruct D as [D|(D & v' & r' & D')]; [try discriminate D; try (injection D as <-)|try discriminate D; try discriminate D'; try (injection D' as <- <- <-)]);
        rewrite ?upd_same; slim; rewrite ?Et; cbn [at_ child_at].
      + destruct K1 as (S & L); [discriminate|]. split; [congruence|]. split; [intros v p i [= <- <- <-]; split; [exact S|split; [exact L|exact Ep]]|]. split; discriminate.
      + destruct K1 as (S & L); [discriminate|]. split; [congruence|]. split; [discriminate|]. split; [|discriminate]. intros v _ p. pose proof (S p) as Sp. rewrite Ep in Sp. exact Sp.
      + destruct (K2 _ _ _ eq_refl) as (S & L & E). split; [congruence|]. split; [discriminate|]. split; [|discriminate]. intros v _ p. slim. pose proof (S p) as Sp. rewrite E in Sp. destruct (Nat.eq_dec p p0) as [->|Np].
        * rewrite upd_same. rewrite Nat.eqb_refl in Sp. pose proof (cnt_delete _ _ _ En x0) as X. rewrite Nat.eqb_refl in X. lia.
        * rewrite upd_other by exact Np. destruct (Nat.eqb_spec p0 p); [congruence|exact Sp].
      + destruct (K2 _ _ _ eq_refl) as (S & L & E). split; [congruence|]. split; [|split; discriminate]. intros v p i [= <- <- <-]. split; [exact S|]. split; assumption.
      + destruct (K2 _ _ _ eq_refl) as (S & L & E). split; [|repeat split; discriminate]. intros _. split; [exact S|]. rewrite la_app. exact L.
      + split; [congruence|]. split; [discriminate|]. split; [discriminate|]. intros p [= <-]. split; [exact (K3 _ eq_refl)|]. slim. rewrite ?upd_same. reflexivity.
      + pose proof (K3 _ eq_refl) as G. split; [|repeat split; discriminate]. intros _. split.
        * intros p. slim. rewrite ?upd_same. apply G.
        * slim. rewrite ?upd_same, la_app. cbn. rewrite Nat.eqb_refl. reflexivity.
      + destruct (K4 _ eq_refl) as (G & E). split; [|repeat split; discriminate]. intros _. split.
        * intros p. slim. rewrite E. specialize (G p). destruct (Nat.eq_dec p p0) as [->|Np]; [rewrite upd_same, cnt_snoc, !Nat.eqb_refl; lia|rewrite upd_other by exact Np]. destruct (Nat.eqb_spec p0 p); [congruence|exact G].
        * slim. rewrite la_app. cbn. rewrite Nat.eqb_refl. exact E.
    - destruct (child_frame t m x D1 D2) as (F1 & F2 & F3 & F4).
      assert (Sf : settled m x -> settled (step t m) x) by (intros S p; rewrite F1, F2; apply S). assert (Gf : gone m x -> gone (step t m) x) by (intros S p; rewrite F2; apply S).
      unfold child_ok in *. destruct (Nat.eq_dec (own x) t) as [O|O].
      + rewrite O in *. destruct K as (K1 & _). destruct (K1 D1) as (S & L). split; [intros _; split; [apply Sf; exact S|rewrite F1, F3; exact L]|].
        repeat split; intros; match goal with H : at_ _ = _ |- _ => rewrite H in F4; destruct F4; reflexivity end.
      + rewrite step_other by exact O. rewrite F1, F3. destruct K as (K1 & K2 & K3 & K4). split; [intros H; destruct (K1 H); split; [apply Sf|]; assumption|]. split; [intros v p i H; destruct (K2 v p i H) as (X & Y & Z); split; [apply Sf; exact X|split; assumption]|].
        split; [intros v H; apply Gf; eapply K3; exact H|]. intros p H. destruct (K4 p H). split; [apply Gf|]; assumption.
  Qed.
  Context (Right : forall x, listed_right m0 x).
  Lemma child_run : forall s x, child_ok (run s m0) x.
  Proof.
    induction s as [|t s IH] using rev_ind; intros x.
    - split; [intros _; split; [apply settled_right; apply Right|reflexivity]|]. repeat split; discriminate.
    - rewrite run_snoc. apply child_step; [apply placed_run|exact IH].
  Qed.
  (** Whatever the schedule, a child that is not just being assigned to has the parent assigned last, and is in its list, once, and in no other. *)
  Theorem children_agree : forall s x, let m := run s m0 in ~ on_child m (own x) x -> listed_right m x /\ parent m x = last_assigned (m_log m) x (pa x).
  Proof.
    intros s x m N. destruct (child_run s x) as (K & _). destruct K as (S & L); [intros H; apply N; unfold on_child; fold m in H; destruct (at_ (m_thread m (own x))); cbn in H; congruence|]. split; [apply settled_right; exact S|exact L].
  Qed.

  (** If no two threads search one list at the same time, no assignment fails. *)
  Definition search_ok (m : machine) : Prop := (forall t x v p i, at_ (m_thread m t) = Removing x v p i -> i <= length (kids m p) /\ ~ In x (firstn i (kids m p))) /\ (forall o b, In (o, b) (m_log m) -> b = true).
  Lemma firstn_snoc_in : forall (l : list nat) i y x, nth_error l i = Some y -> In x (firstn (S i) l) -> In x (firstn i l) \/ x = y.
  Proof.
    induction l as [|z l IH]; intros [|i] y x H I; cbn in H; try discriminate.
    - injection H as <-. cbn in I. destruct I as [->|[]]. right; reflexivity.
    - cbn [firstn] in I. destruct I as [->|I]; [left; left; reflexivity|]. destruct (IH i y x H I) as [J| ->]; [left; right; exact J|right; reflexivity].
  Qed.
  Lemma search_step : forall t m, searches_apart m t -> placed m -> (forall x, child_ok m x) -> search_ok m -> search_ok (step t m).
  Proof.
    intros t m A P K (S & L). pose proof (S t) as St. pose proof (A : forall p, searching m t p -> forall u, u <> t -> ~ searching m u p) as A'. unfold searching in A' at 1.
    assert (Kt : forall x v p i, at_ (m_thread m t) = Removing x v p i -> In x (kids m p)).
    { intros x v p i H. destruct (P t) as (_ & P2). assert (O : own x = t) by (apply P2; rewrite H; reflexivity). destruct (K x) as (_ & K2 & _). rewrite O in K2. destruct (K2 _ _ _ H) as (X & _ & Y). specialize (X p). rewrite Y, Nat.eqb_refl in X. apply (count_occ_In Nat.eq_dec). lia. }
    assert (Same : forall m' pl, (forall p, kids m' p = kids m p) -> m_log m' = m_log m -> m_thread m' = upd (m_thread m) t pl -> (forall x v p i, at_ pl = Removing x v p i -> i <= length (kids m p) /\ ~ In x (firstn i (kids m p))) -> search_ok m').
    { intros m' pl Ek El Eth H. split; [|rewrite El; exact L]. intros u x v p i. rewrite Eth, Ek. destruct (Nat.eq_dec u t) as [->|N]; [rewrite upd_same; apply H|rewrite upd_other by exact N; apply S]. }
    assert (Say : forall m' e, search_ok m' -> snd e = true -> search_ok (mkM (parent m') (kids m') (proc m') (out m') (m_thread m') (m_log m' ++ [e]))).
    { intros m' e (X & Y) E. split; [exact X|]. intros o b I. apply in_app_or in I. destruct I as [I|[I|[]]]; [eapply Y; exact I|]. subst e. exact E. }
    revert St A' Kt. places t m; cbn [at_]; intros St A' Kt.
    all: try (eapply Same; [reflexivity|reflexivity|slim; reflexivity|slim; discriminate]; fail).
    all: try (apply Say; [|reflexivity]; eapply Same; [reflexivity|reflexivity|slim; reflexivity|slim; discriminate]; fail).
    - split; assumption.
    - split; [|exact L]. slim. intros u x v p i. destruct (Nat.eq_dec u t) as [->|N]; [rewrite upd_same; slim; intros [= <- <- <- <-]; split; [lia|intros []]|rewrite !upd_other by exact N; apply S].
    - split; [|exact L]. slim. intros u x v p i. destruct (Nat.eq_dec u t) as [->|N]; [rewrite upd_same; discriminate|rewrite !upd_other by exact N; apply S].
    - split; [|exact L]. slim. intros u x v p i. destruct (Nat.eq_dec u t) as [->|N]; [rewrite upd_same; discriminate|rewrite !upd_other by exact N; apply S].
    - split; [|exact L]. slim. intros u x v p i. destruct (Nat.eq_dec u t) as [->|N]; [rewrite upd_same; discriminate|rewrite !upd_other by exact N; apply S].
    - split; [|exact L]. slim. intros u x v p i. destruct (Nat.eq_dec u t) as [->|N]; [rewrite upd_same; discriminate|rewrite !upd_other by exact N; apply S].
    - split; [|exact L]. slim. intros u x v p i. destruct (Nat.eq_dec u t) as [->|N]; [rewrite upd_same; discriminate|rewrite upd_other by exact N]. intros H.
      destruct (Nat.eq_dec p p0) as [->|Np]; [|rewrite upd_other by exact Np; eapply S; exact H]. destruct (A' p0 eq_refl u N). unfold searching. rewrite H. reflexivity.
    - eapply Same; [reflexivity|reflexivity|slim; reflexivity|]. slim. intros x v p i [= <- <- <- <-]. destruct (St _ _ _ _ eq_refl) as (S1 & S2). split; [apply nth_error_Some; congruence|]. intros I. destruct (firstn_snoc_in _ _ _ _ En I) as [J| ->]; [contradiction|]. rewrite Nat.eqb_refl in Ey. discriminate.
    - destruct (St _ _ _ _ eq_refl) as (S1 & S2). apply nth_error_None in En. rewrite firstn_all2 in S2 by exact En. destruct S2. eapply Kt. reflexivity.
    - apply Say; [|reflexivity]. split; [|exact L]. slim. intros u x v p i. destruct (Nat.eq_dec u t) as [->|N]; [rewrite upd_same; discriminate|rewrite upd_other by exact N]. intros H. destruct (S _ _ _ _ _ H) as (S1 & S2).
      destruct (Nat.eq_dec p p0) as [->|Np]; [|rewrite upd_other by exact Np; split; assumption]. rewrite upd_same, app_length, firstn_app. replace (i - length (kids m p0)) with 0 by lia. cbn [firstn]. rewrite app_nil_r. split; [lia|exact S2].
  Qed.
  Theorem assignments_succeed : forall s, always searches_apart m0 s -> forall o ok, In (o, ok) (m_log (run s m0)) -> ok = true.
  Proof.
    intros s A. assert (G : search_ok (run s m0)); [|exact (proj2 G)]. induction s as [|t s IH] using rev_ind; [split; [discriminate|intros o b []]|]. apply always_snoc in A. destruct A as (A & B). rewrite run_snoc. apply search_step; [exact B|apply placed_run|intros x; apply child_run|apply IH; exact A].
  Qed.

  (** *** Materials *)
  Definition begins (m : machine) (t x : nat) : Prop := at_ (m_thread m t) = Between /\ exists v r, todo (m_thread m t) = Produce x v :: r.
  Lemma mat_frame : forall t m x, mat_at (at_ (m_thread m t)) <> Some x -> ~ begins m t x ->
    proc (step t m) x = proc m x /\ (forall p, out (step t m) p = Some x -> out m p = Some x) /\ (forall b, last_produced (m_log (step t m)) x b = last_produced (m_log m) x b) /\ mat_at (at_ (m_thread (step t m) t)) <> Some x.
  Proof.
    intros t m x. unfold begins. places t m; slim; cbn [mat_at]; intros N M; rewrite ?upd_same; slim; rewrite ?Et; cbn [at_ mat_at];
      try (assert (Nx : x <> x0) by congruence);
      repeat split; try reflexivity; try discriminate; try (intros p H; exact H); try (apply upd_other; exact Nx); try (intros b; rewrite lp_app; cbn [last_produced]; first [reflexivity|destruct (Nat.eqb_spec x0 x); [congruence|reflexivity]]); try congruence;
      try (intros [= ->]; apply M; split; [reflexivity|]; eexists _, _; reflexivity);
      (intros p; destruct (Nat.eq_dec p p0) as [->|Np]; [rewrite upd_same; congruence|rewrite upd_other by exact Np; auto]).
  Qed.
  Definition mat_ok (m : machine) (x : nat) : Prop :=
    let pl := at_ (m_thread m (ownm x)) in let back := forall p, out m p = Some x -> proc m x = Some p in let last := proc m x = last_produced (m_log m) x (pr x) in
    (mat_at pl <> Some x -> back /\ last)
    /\ (forall v p, pl = Clearing x v p -> back /\ proc m x = Some p)
    /\ (forall p, pl = Claiming x p -> forall q, out m q <> Some x)
    /\ (forall v, pl = Keeping x v -> forall q, out m q = Some x -> v = Some q).
  Lemma mat_step : forall t m, mplaced m -> (forall x, mat_ok m x) -> forall x, mat_ok (step t m) x.
  Proof.
    intros t m P K x. destruct (P t) as (P1 & P2). specialize (K x).
    assert (D : (mat_at (at_ (m_thread m t)) = Some x \/ begins m t x) \/ (mat_at (at_ (m_thread m t)) <> Some x /\ ~ begins m t x)).
    { unfold begins. destruct (at_ (m_thread m t)) as [| | | |y v p|y p|y v]; cbn [mat_at]; try (destruct (Nat.eq_dec y x) as [->|N]; [left; left; reflexivity|right; split; [congruence|intros (H & _); discriminate]]); try (right; split; [discriminate|intros (H & _); discriminate]).
      destruct (todo (m_thread m t)) as [|[y v|y v] r]; [right; split; [discriminate|intros (_ & ? & ? & H); discriminate]|right; split; [discriminate|intros (_ & ? & ? & H); discriminate]|].
      destruct (Nat.eq_dec y x) as [->|N]; [left; right; split; [reflexivity|eexists _, _; reflexivity]|right; split; [discriminate|intros (_ & ? & ? & H); congruence]]. }
    destruct D as [D|(D1 & D2)].
    - assert (O : ownm x = t) by (destruct D as [D|(_ & v & r & D)]; [apply P2; exact D|eapply Ma; apply P1; rewrite D; left; reflexivity]).
      unfold mat_ok in *. rewrite O in *. clear P1 P2. revert D K. unfold begins. places t m; slim; cbn [mat_at]; intros D (K1 & K2 & K3 & K4);
        (destruct D as [D|(D & v' & r' & D')]; [try discriminate D; try (injection D as <-)|try discriminate D; try discriminate D'; try (injection D' as <- <- <-)]);
        rewrite ?upd_same; slim; rewrite ?Et; cbn [at_ mat_at].
      + destruct K1 as (S & L); [discriminate|]. split; [congruence|]. split; [intros v p [= <- <-]; split; [exact S|exact Ep]|]. split; discriminate.
      + destruct K1 as (S & L); [discriminate|]. split; [congruence|]. split; [discriminate|]. split; [|discriminate]. intros p _ q H. apply S in H. congruence.
      + destruct K1 as (S & L); [discriminate|]. split; [congruence|]. split; [discriminate|]. split; [discriminate|]. intros v _ q H. apply S in H. congruence.
      + destruct (K2 _ _ eq_refl) as (S & E). split; [congruence|]. split; [discriminate|]. split; [|discriminate]. intros p _ q. destruct (Nat.eq_dec q p0) as [->|Nq]; [rewrite upd_same; discriminate|rewrite upd_other by exact Nq]. intros H. apply S in H. congruence.
      + destruct (K2 _ _ eq_refl) as (S & E). split; [congruence|]. split; [discriminate|]. split; [discriminate|]. intros v _ q. destruct (Nat.eq_dec q p0) as [->|Nq]; [rewrite upd_same; discriminate|rewrite upd_other by exact Nq]. intros H. apply S in H. congruence.
      + pose proof (K3 _ eq_refl) as N. split; [congruence|]. split; [discriminate|]. split; [discriminate|]. intros v [= <-] q. destruct (Nat.eq_dec q p0) as [->|Nq]; [reflexivity|rewrite upd_other by exact Nq]. intros H. destruct (N _ H).
      + pose proof (K4 _ eq_refl) as N. split; [|repeat split; discriminate]. intros _. split; [intros p H; rewrite ?upd_same; apply N; exact H|]. rewrite ?upd_same, lp_app. cbn. rewrite Nat.eqb_refl. reflexivity.
    - destruct (mat_frame t m x D1 D2) as (F1 & F2 & F3 & F4). unfold mat_ok in *. destruct (Nat.eq_dec (ownm x) t) as [O|O].
      + rewrite O in *. destruct K as (K1 & _). destruct (K1 D1) as (S & L). split; [intros _; split; [intros p H; rewrite F1; apply S; apply F2; exact H|rewrite F1, F3; exact L]|].
        repeat split; intros; match goal with H : at_ _ = _ |- _ => rewrite H in F4; destruct F4; reflexivity end.
      + rewrite step_other by exact O. rewrite F1, F3. destruct K as (K1 & K2 & K3 & K4). split; [intros H; destruct (K1 H); split; [|assumption]; auto|]. split; [intros v p H; destruct (K2 v p H) as (X & Y); split; [|exact Y]; auto|].
        split; [intros p H q H'; apply F2 in H'; exact (K3 p H q H')|]. intros v H q H'. apply F2 in H'. eapply K4; eassumption.
  Qed.
  Context (Back : forall p, points_right m0 p).
  (** Whatever the schedule, a material that is not just being assigned to has the process assigned last, and no other process points to it. *)
  Theorem materials_agree : forall s x, let m := run s m0 in ~ on_material m (ownm x) x ->
    (forall p, out m p = Some x -> proc m x = Some p) /\ proc m x = last_produced (m_log m) x (pr x).
  Proof.
    intros s x. assert (G : forall x, mat_ok (run s m0) x).
    { induction s as [|t s IH] using rev_ind; [|rewrite run_snoc; apply mat_step; [apply mplaced_run|exact IH]].
      intros y. split; [intros _; split; [intros p H; exact (Back p y H)|reflexivity]|]. repeat split; discriminate. }
    intros m N. destruct (G x) as (K & _). apply K. intros H. apply N. unfold on_material. fold m in H. destruct (at_ (m_thread m (ownm x))); cbn in H; congruence.
  Qed.
End Weave.

(** Whatever has happened, a thread that is let run ends its program. *)
Lemma run_app : forall a b m, run (a ++ b) m = run b (run a m). Proof. intros. unfold run. apply fold_left_app. Qed.
Lemma setter_ends : forall m t, exists n, m_thread (run (repeat t n) m) t = mkT Between (todo (m_thread m t)).
Proof.
  assert (S1 : forall m m' t n, step t m = m' -> todo (m_thread m' t) = todo (m_thread m t) -> m_thread (run (repeat t n) m') t = mkT Between (todo (m_thread m' t)) -> exists n, m_thread (run (repeat t n) m) t = mkT Between (todo (m_thread m t))) by (intros m m' t n <- E H; exists (S n); rewrite <- E; exact H).
  assert (K : forall m t x v, at_ (m_thread m t) = Keeping x v -> exists n, m_thread (run (repeat t n) m) t = mkT Between (todo (m_thread m t))) by (intros m t x v E; exists 1; cbn; unfold step; rewrite E; slim; apply upd_same).
  assert (A : forall m t x p, at_ (m_thread m t) = Appending x p -> exists n, m_thread (run (repeat t n) m) t = mkT Between (todo (m_thread m t))) by (intros m t x p E; exists 1; cbn; unfold step; rewrite E; slim; apply upd_same).
  assert (C : forall m t x p, at_ (m_thread m t) = Claiming x p -> exists n, m_thread (run (repeat t n) m) t = mkT Between (todo (m_thread m t))).
  { intros m t x p E. destruct (K (step t m) t x (Some p)) as (n & H); [unfold step; rewrite E; slim; rewrite upd_same; reflexivity|]. refine (S1 m _ t n eq_refl _ H). unfold step; rewrite E; slim; rewrite upd_same; reflexivity. }
  assert (B : forall m t x v, at_ (m_thread m t) = Storing x v -> exists n, m_thread (run (repeat t n) m) t = mkT Between (todo (m_thread m t))).
  { intros m t x [p|] E; [|exists 1; cbn; unfold step; rewrite E; slim; apply upd_same]. destruct (A (step t m) t x p) as (n & H); [unfold step; rewrite E; slim; rewrite upd_same; reflexivity|]. refine (S1 m _ t n eq_refl _ H). unfold step; rewrite E; slim; rewrite upd_same; reflexivity. }
  assert (R : forall k m t x v p i, length (kids m p) - i = k -> at_ (m_thread m t) = Removing x v p i -> exists n, m_thread (run (repeat t n) m) t = mkT Between (todo (m_thread m t))).
  { induction k as [|k IH]; intros m t x v p i L E; (destruct (nth_error (kids m p) i) as [y|] eqn:En; [|exists 1; cbn; unfold step; rewrite E, En; slim; apply upd_same]);
      (assert (I : i < length (kids m p)) by (apply nth_error_Some; congruence)); [lia|]. destruct (y =? x) eqn:Ey.
    - destruct (B (step t m) t x v) as (n & H); [unfold step; rewrite E, En, Ey; slim; rewrite upd_same; reflexivity|]. refine (S1 m _ t n eq_refl _ H). unfold step; rewrite E, En, Ey; slim; rewrite upd_same; reflexivity.
    - destruct (IH (step t m) t x v p (S i)) as (n & H); [unfold step; rewrite E, En, Ey; slim; lia|unfold step; rewrite E, En, Ey; slim; rewrite upd_same; reflexivity|]. refine (S1 m _ t n eq_refl _ H). unfold step; rewrite E, En, Ey; slim; rewrite upd_same; reflexivity. }
  intros m t. destruct (at_ (m_thread m t)) as [|x v p i|x v|x p|x v p|x p|x v] eqn:E.
  - exists 0. cbn. destruct (m_thread m t); cbn in *; congruence.
  - eapply R; [reflexivity|exact E].
  - eapply B; exact E.
  - eapply A; exact E.
  - destruct v as [q|]; [destruct (C (step t m) t x q) as (n & H)|destruct (K (step t m) t x None) as (n & H)]; try (unfold step; rewrite E; slim; rewrite upd_same; reflexivity); (refine (S1 m _ t n eq_refl _ H); unfold step; rewrite E; slim; rewrite upd_same; reflexivity).
  - eapply C; exact E.
  - eapply K; exact E.
Qed.
Theorem threads_end : forall m t, exists n, m_thread (run (repeat t n) m) t = mkT Between [].
Proof.
  intros m t. remember (todo (m_thread m t)) as l eqn:El. revert m El. induction l as [|o l IH]; intros m El; destruct (setter_ends m t) as (n & H); rewrite <- El in H; [exists n; exact H|].
  destruct (IH (step t (run (repeat t n) m))) as (k & H'); [unfold step; rewrite H; cbn [at_ todo]; destruct o; slim; rewrite upd_same; slim; rewrite upd_same; reflexivity|].
  exists (n + S k). rewrite repeat_app, run_app. exact H'.
Qed.

(** ** Findings *)
Definition two (a b : list op) : nat -> list op := fun t => match t with 0 => a | 1 => b | _ => [] end.
Definition go (t n : nat) : list nat := repeat t n.
Definition empty : nat -> option nat := fun _ => None.
(** One child, two threads: it is listed by two parents, though both assignments went well. *)
Theorem child_listed_twice_refuted : exists progs s, let m := run s (start empty (fun _ => []) empty empty progs) in
  (forall t, m_thread m t = mkT Between []) /\ m_log m = [(Assign 0 (Some 0), true); (Assign 0 (Some 1), true)] /\ kids m 0 = [0] /\ kids m 1 = [0] /\ parent m 0 = Some 1.
Proof. exists (two [Assign 0 (Some 0)] [Assign 0 (Some 1)]), [0; 1; 0; 1; 0; 1]. cbv zeta. split; [intros [|[|t]]; vm_compute; reflexivity|]. repeat split; vm_compute; reflexivity. Qed.
(** Two children of one parent are taken away by two threads: one assignment raises ValueError, for an item that was in the list all the time. *)
Theorem removal_fails_refuted : exists progs s, let m := run s (start (fun x => if x <? 2 then Some 0 else None) (fun p => if p =? 0 then [0; 1] else []) empty empty progs) in
  children_apart progs (fun x => x) /\ (forall t, m_thread m t = mkT Between []) /\ m_log m = [(Assign 0 None, true); (Assign 1 None, false)] /\ kids m 0 = [1].
Proof.
  exists (two [Assign 0 None] [Assign 1 None]), [1; 1; 0; 0; 0; 1]. cbv zeta. split; [|split; [intros [|[|t]]; vm_compute; reflexivity|split; vm_compute; reflexivity]].
  intros [|[|t]] x v I; cbn in I; [destruct I as [[= <- <-]|[]]; reflexivity|destruct I as [[= <- <-]|[]]; reflexivity|destruct I].
Qed.
(** One material leaves a process while another takes it over: the process forgets its new material. In either order on their own it would not. *)
Theorem output_lost_refuted : exists progs s, let m0 := start empty (fun _ => []) (fun x => if x =? 0 then Some 0 else None) (fun p => if p =? 0 then Some 0 else None) progs in let m := run s m0 in
  materials_apart progs (fun x => x) /\ (forall t, m_thread m t = mkT Between []) /\ m_log m = [(Produce 1 (Some 0), true); (Produce 0 None, true)] /\ proc m 1 = Some 0 /\ proc m 0 = None /\ out m 0 = None
  /\ out (run (go 0 3 ++ go 1 3) m0) 0 = Some 1.
Proof.
  exists (two [Produce 0 None] [Produce 1 (Some 0)]), [0; 1; 1; 1; 0; 0]. cbv zeta. split; [|split; [intros [|[|t]]; vm_compute; reflexivity|repeat split; vm_compute; reflexivity]].
  intros [|[|t]] x v I; cbn in I; [destruct I as [[= <- <-]|[]]; reflexivity|destruct I as [[= <- <-]|[]]; reflexivity|destruct I].
Qed.

(** ** A case *)
Definition ex_pa : nat -> option nat := fun x => if x <? 2 then Some 0 else None.
Definition ex_ki : nat -> list nat := fun p => if p =? 0 then [0; 1] else [].
Definition ex_progs := two [Assign 0 (Some 1); Produce 2 (Some 5)] [Assign 1 (Some 1); Produce 3 (Some 6); Produce 3 None].
Example ex_right : forall x, listed_right (start ex_pa ex_ki empty empty ex_progs) x.
Proof.
  intros x p. cbn [parent kids start]. unfold ex_pa, ex_ki. split.
  - destruct (x <? 2) eqn:E; [|discriminate]. intros [= <-]. cbn. destruct x as [|[|x]]; [exists [], [1]|exists [0], []|discriminate]; cbn; repeat split; intuition discriminate.
  - destruct p as [|p]; [|intros _ []]. cbn. intros H [<-|[<-|[]]]; apply H; reflexivity.
Qed.
Example ex_apart : children_apart ex_progs (fun x => x) /\ materials_apart ex_progs (fun x => x - 2) /\ (forall p, points_right (start ex_pa ex_ki empty empty ex_progs) p).
Proof.
  split; [|split]; [| |intros p x; discriminate].
  - intros [|[|t]] x v I; cbn in I; [destruct I as [[= <- <-]|[I|[]]]; [reflexivity|discriminate]|destruct I as [[= <- <-]|[I|[I|[]]]]; [reflexivity|discriminate|discriminate]|destruct I].
  - intros [|[|t]] x v I; cbn in I; [destruct I as [I|[[= <- <-]|[]]]; [discriminate|reflexivity]|destruct I as [I|[[= <- <-]|[[= <- <-]|[]]]]; [discriminate|reflexivity|reflexivity]|destruct I].
Qed.
Definition ex_run := [0; 0; 0; 1; 1; 1; 0; 1; 0; 0; 1; 0; 1; 1; 1; 1; 1].
Example ex_end : let m := run ex_run (start ex_pa ex_ki empty empty ex_progs) in (forall t, m_thread m t = mkT Between []) /\ kids m 0 = [] /\ kids m 1 = [0; 1] /\ out m 5 = Some 2 /\ out m 6 = None.
Proof. cbv zeta. split; [intros [|[|t]]; vm_compute; reflexivity|]. repeat split; vm_compute; reflexivity. Qed.
Definition searchb (m : machine) (t : nat) : option nat := match at_ (m_thread m t) with Removing _ _ p _ => Some p | _ => None end.
Fixpoint check (m : machine) (s : list nat) : bool :=
  match s with [] => true | t :: r => (t <? 2) && match searchb m 0, searchb m 1 with Some p, Some q => negb (p =? q) | _, _ => true end && check (step t m) r end.
Lemma check_ok : forall s m, (forall u, 2 <= u -> m_thread m u = mkT Between []) -> check m s = true -> always searches_apart m s.
Proof.
  induction s as [|t s IH]; intros m R H; [constructor|]. cbn [check] in H. apply andb_prop in H. destruct H as (H & H3). apply andb_prop in H. destruct H as (H1 & H2). apply Nat.ltb_lt in H1. constructor.
  - intros p St u N Su. assert (Lu : u < 2) by (destruct (le_lt_dec 2 u) as [L|L]; [unfold searching in Su; rewrite (R u L) in Su; destruct Su|exact L]).
    assert (B : forall t, searching m t p -> searchb m t = Some p) by (intros w W; unfold searching, searchb in *; destruct (at_ (m_thread m w)); try destruct W; reflexivity).
    assert (B0 : searchb m 0 = Some p) by (destruct t as [|[|t]]; [apply B; exact St|destruct u as [|[|u]]; [apply B; exact Su|congruence|lia]|lia]).
    assert (B1 : searchb m 1 = Some p) by (destruct t as [|[|t]]; [destruct u as [|[|u]]; [congruence|apply B; exact Su|lia]|apply B; exact St|lia]).
    rewrite B0, B1, Nat.eqb_refl in H2. discriminate.
  - apply IH; [|exact H3]. intros u L. rewrite step_other by lia. apply R. exact L.
Qed.
Example ex_searches : always searches_apart (start ex_pa ex_ki empty empty ex_progs) ex_run.
Proof. apply check_ok; [intros [|[|u]] L; [lia|lia|reflexivity]|vm_compute; reflexivity]. Qed.

Print Assumptions child_history.
Print Assumptions material_history.
Print Assumptions threads_end.
Print Assumptions children_agree.
Print Assumptions assignments_succeed.
Print Assumptions materials_agree.
Print Assumptions child_listed_twice_refuted.
Print Assumptions removal_fails_refuted.
Print Assumptions output_lost_refuted.
