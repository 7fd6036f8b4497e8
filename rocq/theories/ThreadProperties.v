(** C67: validation levels in several threads. *)
From Coq Require Import List Bool Arith Lia.
From Verif Require Import ThreadModel ThreadSpec.
Import ListNotations.

(** ** A program on its own, as a function *)
Fixpoint ev_s (s : stmt) (l : level) {struct s} : list level * level :=
  match s with
  | SCheck => ([l], l)
  | SSet x => ([], x)
  | SBlock x b => (fst ((fix go (b : list stmt) (l : level) : list level * level :=
                      match b with [] => ([], l) | s :: r => (fst (ev_s s l) ++ fst (go r (snd (ev_s s l))), snd (go r (snd (ev_s s l)))) end) b x), l)
  end.
Fixpoint ev (b : list stmt) (l : level) : list level * level :=
  match b with [] => ([], l) | s :: r => (fst (ev_s s l) ++ fst (ev r (snd (ev_s s l))), snd (ev r (snd (ev_s s l)))) end.
Lemma ev_block : forall x b r l, ev (SBlock x b :: r) l = (fst (ev b x) ++ fst (ev r l), snd (ev r l)).
Proof. intros. cbn [ev]. assert (E : ev_s (SBlock x b) l = (fst (ev b x), l)) by reflexivity. rewrite E. reflexivity. Qed.
Fixpoint size_s (s : stmt) : nat := match s with SBlock _ b => S (fold_right (fun s n => size_s s + n) 0 b) | _ => 1 end.
Definition size (b : list stmt) : nat := fold_right (fun s n => size_s s + n) 0 b.
Lemma size_pos : forall s, 0 < size_s s. Proof. destruct s; cbn; lia. Qed.
Lemma ev_alone : forall b l, alone b l (fst (ev b l)) (snd (ev b l)).
Proof.
  intros b. remember (size b) as n eqn:E. assert (L : size b <= n) by lia. clear E. revert b L. induction n as [|n IH]; intros [|s r] L l.
  - constructor.
  - cbn [size fold_right] in L. pose proof (size_pos s). lia.
  - constructor.
  - cbn [size fold_right] in L. fold (size r) in L. pose proof (size_pos s). destruct s as [|x|x b].
    + cbn [ev ev_s fst snd app]. apply alone_check. apply IH. lia.
    + cbn [ev ev_s fst snd app]. apply alone_set. apply IH. lia.
    + rewrite ev_block. cbn [fst snd]. cbn [size_s] in L. fold (size b) in L. eapply alone_block; apply IH; lia.
Qed.

Lemma ev_scoped : forall p l, scoped p -> snd (ev p l) = l.
Proof.
  induction p as [|[|x|x b] r IH]; intros l Sc; [reflexivity| | |].
  - cbn. apply IH. intros y I. apply (Sc y). right; exact I.
  - destruct (Sc x). left; reflexivity.
  - rewrite ev_block. cbn. apply IH. intros y I. apply (Sc y). right; exact I.
Qed.

(** ** What a thread will still see, and the level it will leave, if nobody interferes *)
Fixpoint unwind (s : list (level * list stmt)) : list level := match s with [] => [] | (old, r) :: s => fst (ev r old) ++ unwind s end.
Fixpoint settle (s : list (level * list stmt)) (l : level) : level := match s with [] => l | (old, r) :: s => settle s (snd (ev r old)) end.
Definition full (th : thread) : list (level * list stmt) := match t_entering th with Some (old, (_, _, r)) => (old, r) :: t_stack th | None => t_stack th end.
Definition fut (th : thread) (l : level) : list level :=
  match t_entering th with Some (_, (x, b, _)) => fst (ev b x) ++ unwind (full th) | None => fst (ev (t_now th) l) ++ unwind (full th) end.
Definition leaves (th : thread) (l : level) : level :=
  match t_entering th with Some (_, (x, b, _)) => settle (full th) (snd (ev b x)) | None => settle (full th) (snd (ev (t_now th) l)) end.

Lemma upd_same : forall A (f : nat -> A) t x, upd f t x t = x. Proof. intros. unfold upd. rewrite Nat.eqb_refl. reflexivity. Qed.
Lemma upd_other : forall A (f : nat -> A) t x u, u <> t -> upd f t x u = f u. Proof. intros A f t x u N. unfold upd. apply Nat.eqb_neq in N. rewrite N. reflexivity. Qed.
Lemma step_other : forall t m u, u <> t -> m_thread (step t m) u = m_thread m u /\ m_seen (step t m) u = m_seen m u.
Proof.
  intros t m u N. unfold step. destruct (t_entering (m_thread m t)) as [(old, ((l, b), r))|]; [cbn; rewrite upd_other by exact N; split; reflexivity|].
  destruct (t_now (m_thread m t)) as [|[|l|l b] r]; [destruct (t_stack (m_thread m t)) as [|(old, r) s]; [split; reflexivity|]| | |]; cbn; rewrite ?upd_other by exact N; split; reflexivity.
Qed.
Ltac cases t m := let E := fresh "E" in let N := fresh "N" in let K := fresh "K" in
  unfold step; destruct (m_thread m t) as [en now st] eqn:E; cbn [t_entering t_now t_stack];
  destruct en as [(old, ((l, b), r))|]; [|destruct now as [|[|l|l b] r]; [destruct st as [|(old, r) s]| | |]].
Lemma step_self : forall t m,
  m_seen (step t m) t ++ fut (m_thread (step t m) t) (m_level (step t m)) = m_seen m t ++ fut (m_thread m t) (m_level m)
  /\ leaves (m_thread (step t m) t) (m_level (step t m)) = leaves (m_thread m t) (m_level m).
Proof.
  intros t m. cases t m; cbn [m_level m_thread m_seen]; rewrite ?upd_same, ?E; unfold fut, leaves, full; cbn [t_entering t_now t_stack unwind settle]; try (split; reflexivity).
  - rewrite <- app_assoc. split; reflexivity.
  - rewrite ev_block. cbn [fst snd]. rewrite <- app_assoc. split; reflexivity.
Qed.
Lemma run_snoc : forall s t m, run (s ++ [t]) m = step t (run s m).
Proof. intros. unfold run. rewrite fold_left_app. reflexivity. Qed.
Lemma fut_done : forall m t, finished m t -> fut (m_thread m t) (m_level m) = [] /\ leaves (m_thread m t) (m_level m) = m_level m.
Proof. intros m t F. rewrite F. split; reflexivity. Qed.

(** If one thread only changes the level, it sees and leaves what it would on its own, whatever the schedule. *)
Theorem one_writer : forall progs l0 t sched, (forall u, u <> t -> only_checks (progs u)) ->
  let m := run sched (init l0 progs) in finished m t -> alone (progs t) l0 (m_seen m t) (m_level m).
Proof.
  intros progs l0 t sched O. cbv zeta.
  assert (I : let m := run sched (init l0 progs) in (forall u, u <> t -> exists p, only_checks p /\ m_thread m u = start p)
     /\ m_seen m t ++ fut (m_thread m t) (m_level m) = fst (ev (progs t) l0) /\ leaves (m_thread m t) (m_level m) = snd (ev (progs t) l0)).
  { induction sched as [|v s IH] using rev_ind.
    - cbn. split; [intros u N; exists (progs u); split; [apply O; exact N|reflexivity]|]. unfold fut, leaves, full. cbn. rewrite app_nil_r. split; reflexivity.
    - cbv zeta in *. rewrite run_snoc. set (m := run s (init l0 progs)) in *. destruct IH as (A & B & C). destruct (Nat.eq_dec v t) as [->|N].
      + destruct (step_self t m) as (X & Y). rewrite X, Y. split; [|split; assumption]. intros u N. destruct (step_other t m u N) as (-> & _). apply A. exact N.
      + destruct (step_other v m t) as (X & Y); [congruence|]. rewrite X, Y. destruct (A v N) as (p & P & Ep).
        assert (Lv : m_level (step v m) = m_level m /\ exists p', only_checks p' /\ m_thread (step v m) v = start p').
        { unfold step. rewrite Ep. cbn. destruct p as [|s0 p]; [split; [reflexivity|exists []; split; [exact P|exact Ep]]|].
          rewrite (P s0 (or_introl eq_refl)). cbn. rewrite upd_same. split; [reflexivity|]. exists p. split; [|reflexivity]. intros x I. apply P. right; exact I. }
        destruct Lv as (-> & p' & P' & Ep'). split; [|split; assumption]. intros u Nu. destruct (Nat.eq_dec u v) as [->|Nv]; [exists p'; split; assumption|]. destruct (step_other v m u Nv) as (-> & _). apply A. exact Nu. }
  cbv zeta in I. destruct I as (_ & B & C). intros F. destruct (fut_done _ _ F) as (X & Y). rewrite X, app_nil_r in B. rewrite Y in C. rewrite B, C. apply ev_alone.
Qed.

(** ** Whatever the schedule, the level is the first one or one that somebody asked for *)
Section Known.
  Variable Q : level -> Prop.
  Definition within (p : list stmt) : Prop := forall l, asks p l -> Q l.
  Definition thread_ok (th : thread) : Prop :=
    within (t_now th) /\ (forall old r, In (old, r) (t_stack th) -> Q old /\ within r) /\ (forall old l b r, t_entering th = Some (old, (l, b, r)) -> Q old /\ Q l /\ within b /\ within r).
  Definition machine_ok (m : machine) : Prop := Q (m_level m) /\ (forall t, thread_ok (m_thread m t)) /\ forall t l, In l (m_seen m t) -> Q l.
  Lemma within_tail : forall s r, within (s :: r) -> within r. Proof. intros s r H l A. apply H. apply asks_later. exact A. Qed.
  Lemma step_ok : forall t m, machine_ok m -> machine_ok (step t m).
  Proof.
    intros t m (L & T & S).
    assert (Up : forall l th, Q l -> thread_ok th -> machine_ok (mkM l (upd (m_thread m) t th) (m_seen m))).
    { intros l th Ql K. split; [exact Ql|]. split; [|exact S]. intros u. cbn. unfold upd. destruct (u =? t); [exact K|apply T]. }
    pose proof (T t) as K. cases t m; destruct K as (K1 & K2 & K3); cbn [t_now t_stack t_entering] in *.
    - destruct (K3 _ _ _ _ eq_refl) as (A & B & C & D). apply Up; [exact B|]. split; [exact C|]. split; [|discriminate]. intros o q [H|H]; [injection H as <- <-; split; assumption|apply K2; exact H].
    - split; [exact L|]. split; [exact T|exact S].
    - destruct (K2 old r (or_introl eq_refl)) as (A & B). apply Up; [exact A|]. split; [exact B|]. split; [|discriminate]. intros o q H. apply K2. right; exact H.
    - split; [exact L|]. split.
      + intros u. cbn. unfold upd. destruct (u =? t); [|apply T]. split; [eapply within_tail; exact K1|]. split; [exact K2|discriminate].
      + intros u l. cbn. unfold upd. destruct (u =? t); [|apply S]. intros I. apply in_app_or in I. destruct I as [I|[<-|[]]]; [eapply S; exact I|exact L].
    - apply Up; [apply K1; constructor|]. split; [eapply within_tail; exact K1|]. split; [exact K2|discriminate].
    - apply Up; [exact L|]. split; [intros x A; inversion A|]. split; [exact K2|]. intros o x c q H. cbn in H. injection H as <- <- <- <-. split; [exact L|]. split; [apply K1; constructor|]. split; [intros x A; apply K1; apply asks_body; exact A|eapply within_tail; exact K1].
  Qed.
End Known.
Theorem levels_known : forall progs l0 sched,
  let m := run sched (init l0 progs) in let known l := l = l0 \/ exists t, asks (progs t) l in
  known (m_level m) /\ forall t l, In l (m_seen m t) -> known l.
Proof.
  intros progs l0 sched. cbv zeta. set (known := fun l => l = l0 \/ exists t, asks (progs t) l).
  assert (K : machine_ok known (run sched (init l0 progs))).
  { induction sched as [|t s IH] using rev_ind; [|rewrite run_snoc; apply step_ok; exact IH].
    split; [left; reflexivity|]. split; [|intros t l []]. intros t. split; [intros l A; right; exists t; exact A|]. split; [intros old r []|discriminate]. }
  destruct K as (A & _ & B). split; [exact A|exact B].
Qed.
(** So no check is laxer than the laxest level in use. *)
Theorem never_laxer : forall progs l0 sched k, k <= rank l0 -> (forall t l, asks (progs t) l -> k <= rank l) ->
  let m := run sched (init l0 progs) in k <= rank (m_level m) /\ forall t l, In l (m_seen m t) -> k <= rank l.
Proof.
  intros progs l0 sched k K A. cbv zeta. destruct (levels_known progs l0 sched) as (B & C). split; [destruct B as [->|(t & B)]; [exact K|eapply A; exact B]|].
  intros t l I. destruct (C t l I) as [->|(u & X)]; [exact K|eapply A; exact X].
Qed.
Theorem one_level : forall progs l0 sched, (forall t l, asks (progs t) l -> l = l0) ->
  let m := run sched (init l0 progs) in m_level m = l0 /\ forall t l, In l (m_seen m t) -> l = l0.
Proof.
  intros progs l0 sched A. cbv zeta. destruct (levels_known progs l0 sched) as (B & C). split; [destruct B as [->|(t & B)]; [reflexivity|eapply A; exact B]|].
  intros t l I. destruct (C t l I) as [->|(u & X)]; [reflexivity|eapply A; exact X].
Qed.

(** ** Blocks of different threads *)
Lemma in_block_full : forall m t, in_block m t <-> full (m_thread m t) <> [].
Proof.
  intros m t. unfold in_block, full. destruct (t_entering (m_thread m t)) as [(old, ((l, b), r))|]; split.
  - discriminate.
  - intros _. left; discriminate.
  - intros [H|H]; [congruence|exact H].
  - intros H. right. exact H.
Qed.
Lemma out_block : forall m t, ~ in_block m t <-> full (m_thread m t) = [].
Proof. intros m t. rewrite in_block_full. destruct (full (m_thread m t)); split; intros H; try reflexivity; try congruence. destruct H. discriminate. Qed.
Lemma out_thread : forall m t, ~ in_block m t -> m_thread m t = start (t_now (m_thread m t)).
Proof.
  intros m t H. apply out_block in H. unfold full in H. destruct (m_thread m t) as [en now st]. cbn in *. destruct en as [(old, ((l, b), r))|]; [discriminate|]. rewrite H. reflexivity.
Qed.
Definition bottom (l0 : level) (th : thread) : Prop := exists p r, full th = p ++ [(l0, r)] /\ scoped r.
(** The thread that steps keeps what it will restore in the end, leaves with it, or enters with the level there is. *)
Lemma bottom_in : forall l0 t m, in_block m t -> bottom l0 (m_thread m t) ->
  (in_block (step t m) t /\ bottom l0 (m_thread (step t m) t)) \/ (~ in_block (step t m) t /\ m_level (step t m) = l0 /\ scoped (t_now (m_thread (step t m) t))).
Proof.
  intros l0 t m I (p & q & B & Sq). rewrite in_block_full in I. rewrite out_block, in_block_full. unfold bottom. revert I B. cases t m; cbn [m_level m_thread m_seen]; rewrite ?upd_same, ?E; unfold full; cbn [t_entering t_now t_stack]; intros I B.
  - left. split; [discriminate|]. exists p, q. split; assumption.
  - congruence.
  - destruct p as [|(o, x) p]; cbn in B.
    + injection B as -> -> ->. right. split; [reflexivity|]. split; [reflexivity|exact Sq].
    + injection B as -> -> ->. left. split; [destruct p; discriminate|]. exists p, q. split; [reflexivity|exact Sq].
  - left. split; [exact I|]. exists p, q. split; assumption.
  - left. split; [exact I|]. exists p, q. split; assumption.
  - left. split; [discriminate|]. exists ((m_level m, r) :: p), q. split; [cbn; rewrite B; reflexivity|exact Sq].
Qed.
Lemma bottom_out : forall l0 t m, ~ in_block m t -> scoped (t_now (m_thread m t)) -> m_level m = l0 ->
  (in_block (step t m) t /\ bottom l0 (m_thread (step t m) t)) \/ (~ in_block (step t m) t /\ m_level (step t m) = l0 /\ scoped (t_now (m_thread (step t m) t))).
Proof.
  intros l0 t m I Sc L. rewrite out_block in *. rewrite in_block_full. unfold bottom. revert I Sc. cases t m; cbn [m_level m_thread m_seen]; rewrite ?upd_same, ?E; unfold full; cbn [t_entering t_now t_stack]; intros I Sc; try discriminate.
  - right. split; [reflexivity|]. split; [exact L|exact Sc].
  - right. split; [exact I|]. split; [exact L|]. intros x J. apply (Sc x). right; exact J.
  - destruct (Sc l). left; reflexivity.
  - left. split; [discriminate|]. exists [], r. subst st. split; [cbn; rewrite L; reflexivity|]. intros x J. apply (Sc x). right; exact J.
Qed.
Lemma scoped_step : forall t m, ~ in_block m t -> scoped (t_now (m_thread m t)) -> (in_block (step t m) t /\ exists l0, bottom l0 (m_thread (step t m) t)) \/ (~ in_block (step t m) t /\ scoped (t_now (m_thread (step t m) t))).
Proof. intros t m O Sc. destruct (bottom_out (m_level m) t m O Sc eq_refl) as [(A & B)|(A & _ & B)]; [left; split; [exact A|eexists; exact B]|right; split; assumption]. Qed.

(** In blocks that never run at the same time every thread sees what it would on its own, and the level is restored. *)
Theorem exclusive_blocks : forall progs l0 sched, (forall t, scoped (progs t)) -> always alone_in_block (init l0 progs) sched ->
  let m := run sched (init l0 progs) in
  ((forall t, ~ in_block m t) -> m_level m = l0) /\ forall t, finished m t -> alone (progs t) l0 (m_seen m t) l0.
Proof.
  intros progs l0 sched Sc. set (Inv := fun m => 
    ((forall t, ~ in_block m t) -> m_level m = l0)
    /\ forall t, (~ in_block m t -> scoped (t_now (m_thread m t)) /\ m_seen m t ++ fut (m_thread m t) l0 = fst (ev (progs t) l0))
              /\ (in_block m t -> bottom l0 (m_thread m t) /\ ((forall u, u <> t -> ~ in_block m u) -> m_seen m t ++ fut (m_thread m t) (m_level m) = fst (ev (progs t) l0)))).
  assert (I0 : Inv (init l0 progs)).
  { split; [reflexivity|]. intros t. split; [intros _; split; [apply Sc|]; unfold fut, full; cbn; rewrite app_nil_r; reflexivity|]. intros [H|H]; destruct H; reflexivity. }
  assert (D : forall m t, in_block m t \/ ~ in_block m t).
  { intros m t. rewrite in_block_full. destruct (full (m_thread m t)); [right; intros H; apply H; reflexivity|left; discriminate]. }
  assert (St : forall m t, alone_in_block m t -> Inv m -> Inv (step t m)).
  { intros m t X (L & I). destruct (I t) as (It & It'). destruct (step_self t m) as (Sf & _).
    assert (Ot : forall u, u <> t -> ~ in_block (step t m) u).
    { intros u N. rewrite out_block. destruct (step_other t m u N) as (-> & _). rewrite <- out_block. apply X. exact N. }
    assert (Case : (in_block (step t m) t /\ bottom l0 (m_thread (step t m) t)) \/ (~ in_block (step t m) t /\ m_level (step t m) = l0 /\ scoped (t_now (m_thread (step t m) t)))).
    { destruct (D m t) as [B|B]; [apply bottom_in; [exact B|apply It'; exact B]|]. destruct (It B) as (Sx & _). apply bottom_out; [exact B|exact Sx|]. apply L. intros u. destruct (Nat.eq_dec u t) as [->|N]; [exact B|apply X; exact N]. }
    assert (Val : m_seen m t ++ fut (m_thread m t) (m_level m) = fst (ev (progs t) l0)).
    { destruct (D m t) as [B|B]; [apply It'; [exact B|]; exact X|]. replace (m_level m) with l0; [apply It; exact B|]. symmetry. apply L. intros u. destruct (Nat.eq_dec u t) as [->|N]; [exact B|apply X; exact N]. }
    split.
    - intros H. destruct Case as [(C & _)|(_ & C & _)]; [destruct (H t C)|exact C].
    - intros u. destruct (Nat.eq_dec u t) as [->|N].
      + split.
        * intros O. destruct Case as [(C & _)|(_ & C & Sx)]; [contradiction|]. split; [exact Sx|]. rewrite <- Val, <- Sf, C. reflexivity.
        * intros B. destruct Case as [(_ & C)|(C & _)]; [|contradiction]. split; [exact C|]. intros _. rewrite Sf. exact Val.
      + split; [|intros B; destruct (Ot u N B)]. intros _. destruct (step_other t m u N) as (-> & ->). destruct (I u) as (Iu & _). apply Iu. apply X. exact N. }
  assert (G : forall s m, Inv m -> always alone_in_block m s -> Inv (run s m)).
  { induction s as [|t s IH]; intros m I A; [exact I|]. inversion A; subst. cbn. apply IH; [apply St; assumption|assumption]. }
  intros A. cbv zeta. destruct (G sched _ I0 A) as (L & I). split; [exact L|]. intros t F. destruct (I t) as (It & _). assert (O : ~ in_block (run sched (init l0 progs)) t) by (apply out_block; rewrite F; reflexivity).
  destruct (It O) as (_ & V). rewrite F in V. unfold fut, full in V. cbn in V. rewrite app_nil_r in V. rewrite V. rewrite <- (ev_scoped (progs t) l0 (Sc t)) at 3. apply ev_alone.
Qed.

(** For the level to be restored it is enough that the first to enter is the last to leave. *)
Theorem restored_first_in_last_out : forall progs l0 sched, (forall t, scoped (progs t)) -> first_in_last_out None (init l0 progs) sched ->
  let m := run sched (init l0 progs) in (forall t, ~ in_block m t) -> m_level m = l0.
Proof.
  intros progs l0 sched Sc. set (Inv := fun o m => 
    (forall t, ~ in_block m t -> scoped (t_now (m_thread m t))) /\ (forall t, in_block m t -> exists l, bottom l (m_thread m t))
    /\ match o with None => m_level m = l0 /\ forall t, ~ in_block m t | Some o => in_block m o /\ bottom l0 (m_thread m o) end).
  assert (D : forall m t, in_block m t \/ ~ in_block m t).
  { intros m t. rewrite in_block_full. destruct (full (m_thread m t)); [right; intros H; apply H; reflexivity|left; discriminate]. }
  assert (Gen : forall m t, (forall t, ~ in_block m t -> scoped (t_now (m_thread m t))) -> (forall t, in_block m t -> exists l, bottom l (m_thread m t)) ->
     (forall u, ~ in_block (step t m) u -> scoped (t_now (m_thread (step t m) u))) /\ (forall u, in_block (step t m) u -> exists l, bottom l (m_thread (step t m) u))).
  { intros m t A B.
    assert (T : (in_block (step t m) t /\ exists l, bottom l (m_thread (step t m) t)) \/ (~ in_block (step t m) t /\ scoped (t_now (m_thread (step t m) t)))).
    { destruct (D m t) as [I|I]; [|apply scoped_step; [exact I|apply A; exact I]]. destruct (B t I) as (l & Bl). destruct (bottom_in l t m I Bl) as [(X & Y)|(X & _ & Y)]; [left; split; [exact X|exists l; exact Y]|right; split; assumption]. }
    split; intros u H; destruct (Nat.eq_dec u t) as [->|N].
    - destruct T as [(X & _)|(_ & X)]; [contradiction|exact X].
    - rewrite out_block in H. destruct (step_other t m u N) as (E & _). rewrite E in *. apply A. apply out_block. exact H.
    - destruct T as [(_ & X)|(X & _)]; [exact X|contradiction].
    - rewrite in_block_full in H. destruct (step_other t m u N) as (E & _). rewrite E in *. apply B. apply in_block_full. exact H. }
  assert (Ot : forall m t u, u <> t -> (in_block (step t m) u <-> in_block m u)) by (intros m t u N; rewrite !in_block_full; destruct (step_other t m u N) as (-> & _); reflexivity).
  assert (G : forall s m o, Inv o m -> first_in_last_out o m s -> exists o', Inv o' (run s m)).
  { induction s as [|t s IH]; intros m o I Fl; [exists o; exact I|]. cbn [run fold_left]. fold (run s (step t m)). destruct I as (A & B & C). destruct (Gen m t A B) as (A' & B').
    inversion Fl as [|? ? ? In Fl'|? ? ? Out Fl'|o' ? ? ? N Fl'|o' ? ? Stay Fl'|o' ? ? Lv Un Fl']; subst.
    - destruct C as (L & O). apply (IH _ (Some t)); [|exact Fl']. split; [exact A'|]. split; [exact B'|]. split; [exact In|]. destruct (bottom_out l0 t m (O t) (A t (O t)) L) as [(_ & X)|(X & _)]; [exact X|contradiction].
    - destruct C as (L & O). apply (IH _ None); [|exact Fl']. split; [exact A'|]. split; [exact B'|]. destruct (bottom_out l0 t m (O t) (A t (O t)) L) as [(X & _)|(_ & X & _)]; [contradiction|]. split; [exact X|].
      intros u. destruct (Nat.eq_dec u t) as [->|Nu]; [exact Out|]. rewrite (Ot m t u Nu). apply O.
    - apply (IH _ (Some o')); [|exact Fl']. split; [exact A'|]. split; [exact B'|]. destruct C as (C1 & C2). split; [apply Ot; [congruence|exact C1]|]. destruct (step_other t m o') as (-> & _); [congruence|exact C2].
    - apply (IH _ (Some t)); [|exact Fl']. split; [exact A'|]. split; [exact B'|]. split; [exact Stay|]. destruct C as (C1 & C2). destruct (bottom_in l0 t m C1 C2) as [(_ & X)|(X & _)]; [exact X|contradiction].
    - apply (IH _ None); [|exact Fl']. split; [exact A'|]. split; [exact B'|]. destruct C as (C1 & C2). destruct (bottom_in l0 t m C1 C2) as [(X & _)|(_ & X & _)]; [contradiction|]. split; [exact X|].
      intros u. destruct (Nat.eq_dec u t) as [->|Nu]; [exact Lv|]. rewrite (Ot m t u Nu). apply Un. exact Nu. }
  intros Fl. cbv zeta. destruct (G sched (init l0 progs) None) as ([o|] & I); [|exact Fl| |].
  - split; [intros t _; apply Sc|]. split; [intros t [H|H]; destruct H; reflexivity|]. split; [reflexivity|]. intros t [H|H]; apply H; reflexivity.
  - intros H. destruct I as (_ & _ & I & _). destruct (H o I).
  - intros _. destruct I as (_ & _ & I & _). exact I.
Qed.

(** ** Findings *)
Definition two (a b : list stmt) : nat -> list stmt := fun t => match t with 0 => a | 1 => b | _ => [] end.
Definition strict_and_lax := two [SBlock FATAL [SCheck]] [SBlock IGNORE [SCheck]].
(** Two threads, each with one block that ends normally: the level stays changed although all blocks are left. *)
Theorem level_leaks_refuted : exists progs sched, (forall t, scoped (progs t)) /\
  let m := run sched (init WARNING progs) in (forall t, finished m t) /\ m_level m = FATAL.
Proof.
  exists strict_and_lax, [0; 0; 1; 1; 0; 0; 1; 1]. split.
  - intros [|[|t]] l H; cbn in H; [destruct H as [H|[]]; discriminate|destruct H as [H|[]]; discriminate|exact H].
  - cbv zeta. split; [intros [|[|t]]; reflexivity|reflexivity].
Qed.
(** A check inside a block of FATAL is made at IGNORE: the other thread entered its block in between. *)
Theorem strict_block_lax_refuted : exists progs sched, progs 0 = [SBlock FATAL [SCheck]] /\
  let m := run sched (init WARNING progs) in (forall t, finished m t) /\ m_seen m 0 = [IGNORE].
Proof. exists strict_and_lax, [0; 0; 1; 1; 0; 0; 1; 1]. split; [reflexivity|]. cbv zeta. split; [intros [|[|t]]; reflexivity|reflexivity]. Qed.
(** Even if all threads ask for the same level: the first to leave takes it away from the other. *)
Theorem same_level_refuted : exists sched, let m := run sched (init WARNING (two [SBlock FATAL [SCheck]] [SBlock FATAL [SCheck]])) in
  (forall t, finished m t) /\ m_seen m 1 = [WARNING] /\ m_level m = FATAL.
Proof. exists [0; 0; 1; 1; 0; 0; 1; 1]. cbv zeta. split; [intros [|[|t]]; reflexivity|]. split; reflexivity. Qed.
(** Reading and replacing the level are two steps: a level set in between is lost for good. *)
Theorem set_in_between_refuted : exists sched, let m := run sched (init WARNING (two [SBlock WARNING [SCheck]] [SSet FATAL])) in
  (forall t, finished m t) /\ m_level m = WARNING /\ m_seen m 0 = [WARNING].
Proof. exists [0; 1; 0; 0; 0]. cbv zeta. split; [intros [|[|t]]; reflexivity|]. split; reflexivity. Qed.

(** ** Cases *)
Example one_writer_ex : let m := run [0; 0; 1; 0; 1; 0; 0] (init WARNING (two [SBlock FATAL [SCheck]; SCheck] [SCheck; SCheck])) in
  finished m 0 /\ m_seen m 0 = [FATAL; WARNING] /\ m_seen m 1 = [FATAL; FATAL] /\ m_level m = WARNING.
Proof. vm_compute. repeat split; reflexivity. Qed.
Lemma not_in : forall m t, full (m_thread m t) = [] -> ~ in_block m t. Proof. intros m t. apply out_block. Qed.
Example exclusive_ex : always alone_in_block (init WARNING strict_and_lax) [0; 0; 0; 0; 1; 1; 1; 1].
Proof.
  repeat (apply always_step; [intros u N; apply not_in; destruct u as [|[|u]]; first [reflexivity|congruence]|]). apply always_end.
Qed.
Example filo_ex : first_in_last_out None (init WARNING strict_and_lax) [0; 0; 1; 1; 1; 1; 0; 0].
Proof.
  apply filo_enter; [apply in_block_full; discriminate|]. apply filo_stay; [apply in_block_full; discriminate|].
  do 4 (apply filo_other; [discriminate|]). apply filo_stay; [apply in_block_full; discriminate|].
  apply filo_leave; [apply not_in; reflexivity|intros u N; apply not_in; destruct u as [|[|u]]; first [reflexivity|congruence]|]. apply filo_end.
Qed.
Example laxer_ex : forall t l, asks (two [SBlock FATAL [SCheck]] [SSet WARNING] t) l -> 1 <= rank l.
Proof.
  intros [|[|t]] l H; cbn in H; inversion H as [|? ? ?|? ? ? ? A|? ? ? A]; subst; try (cbn; lia); inversion A as [|? ? ?|? ? ? ? A'|? ? ? A']; try inversion A'.
Qed.

(** A thread that is let run ends its program, whatever has happened. *)
Fixpoint cost (x : stmt) : nat := match x with SBlock _ b => 3 + (fix costs l := match l with [] => 0 | y :: r => cost y + costs r end) b | _ => 1 end.
Fixpoint costs (l : list stmt) : nat := match l with [] => 0 | y :: r => cost y + costs r end.
Definition fuel (th : thread) : nat :=
  match t_entering th with Some (_, (_, b, r)) => 2 + costs b + costs r | None => costs (t_now th) end + fold_right (fun e n => 1 + costs (snd e) + n) 0 (t_stack th).
Lemma cost_block : forall l b, cost (SBlock l b) = 3 + costs b.
Proof. reflexivity. Qed.
Lemma step_costs : forall t m, finished m t \/ fuel (m_thread (step t m) t) < fuel (m_thread m t).
Proof.
  intros t m. unfold step, finished. destruct (m_thread m t) as [[[old [[l b] r]]|] now st] eqn:Et; cbn [t_entering t_now t_stack].
  - right. cbn [m_thread]. unfold upd. rewrite Nat.eqb_refl. unfold fuel. cbn. lia.
  - destruct now as [|[|l|l b] r]; [destruct st as [|[old r] st]; [left; reflexivity|]|..]; right; cbn [m_thread]; unfold upd; rewrite Nat.eqb_refl; unfold fuel; cbn [t_entering t_now t_stack costs fold_right snd]; rewrite ?cost_block; cbn [cost]; lia.
Qed.
Theorem blocks_end : forall m t, exists n, finished (run (repeat t n) m) t.
Proof.
  intros m t. remember (fuel (m_thread m t)) as k eqn:Ek. revert m Ek. induction k as [k IH] using lt_wf_ind. intros m Ek. destruct (step_costs t m) as [H|H]; [exists 0; exact H|].
  edestruct (IH _ ltac:(rewrite Ek; exact H) (step t m)) as (n & Hn); [reflexivity|]. exists (S n). exact Hn.
Qed.

Print Assumptions blocks_end.
Print Assumptions one_writer.
Print Assumptions levels_known.
Print Assumptions never_laxer.
Print Assumptions one_level.
Print Assumptions exclusive_blocks.
Print Assumptions restored_first_in_last_out.
Print Assumptions level_leaks_refuted.
Print Assumptions strict_block_lax_refuted.
Print Assumptions same_level_refuted.
Print Assumptions set_in_between_refuted.
