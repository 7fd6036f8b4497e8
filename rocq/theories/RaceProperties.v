(** C68: unit functions and changes of the definitions file in several threads. *)
From Coq Require Import List Bool Arith Lia.
From Verif Require Import RaceModel RaceSpec.
Import ListNotations.

Lemma upd_same : forall A (f : nat -> A) t x, upd f t x t = x. Proof. intros. unfold upd. rewrite Nat.eqb_refl. reflexivity. Qed.
Lemma upd_other : forall A (f : nat -> A) t x u, u <> t -> upd f t x u = f u. Proof. intros A f t x u N. unfold upd. apply Nat.eqb_neq in N. rewrite N. reflexivity. Qed.
Lemma kind_eqb_eq : forall a b, kind_eqb a b = true <-> a = b. Proof. intros [] []; split; cbn; congruence. Qed.
Lemma put_some : forall c k key v k' key' w, put c k key v k' key' = Some w -> (k' = k /\ key' = key /\ v = Some w) \/ c k' key' = Some w.
Proof.
  intros c k key v k' key' w. unfold put. destruct (kind_eqb k k') eqn:E; cbn; [|right; assumption]. destruct (key' =? key) eqn:E'; [|right; assumption].
  apply kind_eqb_eq in E. apply Nat.eqb_eq in E'. subst. left. repeat split. assumption.
Qed.
Lemma clear_some : forall c k k' key' w, clear c k k' key' = Some w -> k' <> k /\ c k' key' = Some w.
Proof. intros c k k' key' w. unfold clear. destruct (kind_eqb k k') eqn:E; [discriminate|]. intros H. split; [|exact H]. intros ->. destruct k; discriminate. Qed.
Lemma clear_none : forall c k k' key', c k' key' = None \/ k' = k -> clear c k k' key' = None.
Proof. intros c k k' key' H. unfold clear. destruct (kind_eqb k k') eqn:E; [reflexivity|]. destruct H as [H|H]; [exact H|]. subst. destruct k; discriminate. Qed.
Lemma repeat_snoc : forall A (x : A) n, repeat x n ++ [x] = repeat x (S n).
Proof. induction n as [|n IH]; [reflexivity|]. cbn [repeat app]. rewrite IH. reflexivity. Qed.

Ltac slim := cbn [goto next_op set_cache set_cwd set_reg say m_cwd m_reg m_next m_cache m_thread m_log m_past at_ todo] in *.
Ltac places F reads t m :=
  unfold step; destruct (m_thread m t) as [pl td] eqn:Et; cbn [at_ todo];
  destruct pl as [|k key got|f|f|f|f p|f p old|f p old|f u old|f u old|f old ok];
  [destruct td as [|[k key|f] r]; [|destruct (m_cache m k key) as [v|] eqn:Ec|]
  |destruct (length got <? reads k key) eqn:El
  | | |destruct (resolve F (m_cwd m) f) as [p|] eqn:Er
  | |destruct (is_dir F (fst p)) eqn:Ed
  |destruct (child F (m_cwd m) (snd p)) as [u|] eqn:Eu
  |destruct (loads F u) eqn:Eo
  | | ].

Section Race.
  Context (F : files) (reads : kind -> nat -> nat).
  Lemma step_other : forall t m w, w <> t -> m_thread (step F reads t m) w = m_thread m w.
  Proof. intros t m w N. places F reads t m; slim; rewrite ?upd_other by exact N; reflexivity. Qed.
  Lemma run_snoc : forall s a m, run F reads (s ++ [a]) m = perform F reads a (run F reads s m).
  Proof. intros. unfold run. rewrite fold_left_app. reflexivity. Qed.
  Lemma always_app : forall P s r m, always F reads P m (s ++ r) -> always F reads P m s /\ always F reads P (run F reads s m) r.
  Proof.
    intros P. induction s as [|a s IH]; intros r m A; [split; [constructor|exact A]|]. cbn [app] in A. inversion A as [|? t ? Pm A'|? k key ? A']; subst; destruct (IH _ _ A') as (X & Y); split; try (constructor; assumption); exact Y.
  Qed.

  (** *** Whatever the schedule, answers come from registries that have been in force *)
  Section Past.
    Context (c0 : dir) (p0 : path) (progs : nat -> list op).
    (** A file with the name of one that a thread asked for, in some directory. *)
    Definition asked (u : path) : Prop := exists t f c p d, In (Change f) (progs t) /\ resolve F c f = Some p /\ child F d (snd p) = Some u /\ loads F u = true.
    Definition from (t : nat) (pl : place) : Prop :=
      match pl with
      | Between | Computing _ _ _ | Leaving _ _ _ => True
      | ClearParse f | ClearBase f | Resolving f => In (Change f) (progs t)
      | Keeping f p | Entering f p _ | Checking f p _ => In (Change f) (progs t) /\ exists c, resolve F c f = Some p
      | Loading f u _ => In (Change f) (progs t) /\ exists c p d, resolve F c f = Some p /\ child F d (snd p) = Some u
      | Swapping _ u _ => asked u
      end.
    Definition past_ok (m : machine) : Prop :=
      In (m_reg m) (m_past m)
      /\ (forall k key v, m_cache m k key = Some v -> incl v (m_past m))
      /\ (forall t k key got, at_ (m_thread m t) = Computing k key got -> incl got (m_past m))
      /\ (forall k key got, In (Answered k key got) (m_log m) -> incl got (m_past m))
      /\ (forall t, (forall o, In o (todo (m_thread m t)) -> In o (progs t)) /\ from t (at_ (m_thread m t)))
      /\ (forall r, In r (m_past m) -> r = mkReg 0 p0 \/ asked (r_file r)).
    Ltac others t H := intros u0; slim; destruct (Nat.eq_dec u0 t) as [->|Nu]; [rewrite ?upd_same; slim; repeat match goal with E : m_thread _ _ = mkT _ _ |- _ => rewrite E end; cbn [at_ todo from]|rewrite ?upd_other by exact Nu; apply H].
    Lemma past_step : forall t m, past_ok m -> past_ok (step F reads t m).
    Proof.
      intros t m (R & C & G & L & T & P). pose proof (T t) as Tt. pose proof (G t) as Gt. revert Tt Gt. places F reads t m; slim; intros (T1 & T2) Gt; cbn [from] in T2.
      - split; [exact R|]. repeat split; first [assumption|apply T].
      - split; [exact R|]. split; [exact C|]. split; [others t G; discriminate|]. split; [intros k' key' got I; apply in_app_or in I; destruct I as [I|[I|[]]]; [eapply L; exact I|injection I as <- <- <-; eapply C; exact Ec]|].
        split; [|exact P]. others t T. split; [intros o I; apply T1; right; exact I|exact T2].
      - split; [exact R|]. split; [exact C|]. split; [others t G; intros ? ? ? [= <- <- <-] ? []|]. split; [exact L|]. split; [|exact P]. others t T. split; [intros o I; apply T1; right; exact I|exact T2].
      - split; [exact R|]. split; [intros k' key' v H; apply clear_some in H; eapply C; apply H|]. split; [others t G; discriminate|]. split; [exact L|]. split; [|exact P]. others t T. split; [intros o I; apply T1; right; exact I|apply T1; left; reflexivity].
      - split; [exact R|]. split; [exact C|]. split; [others t G; intros ? ? ? [= <- <- <-]; apply incl_app; [eapply Gt; reflexivity|intros x [<-|[]]; exact R]|]. split; [exact L|]. split; [|exact P]. others t T. split; [exact T1|exact T2].
      - assert (Ig : incl got (m_past m)) by (eapply Gt; reflexivity).
        split; [exact R|]. split; [intros k' key' v H; destruct (m_cache m k key); [eapply C; exact H|apply put_some in H; destruct H as [(_ & _ & H)|H]; [injection H as <-; exact Ig|eapply C; exact H]]|].
        split; [others t G; discriminate|]. split; [intros k' key' g I; apply in_app_or in I; destruct I as [I|[I|[]]]; [eapply L; exact I|injection I as <- <- <-; exact Ig]|]. split; [|exact P]. others t T. split; [exact T1|exact I].
      - split; [exact R|]. split; [intros k' key' v H; apply clear_some in H; eapply C; apply H|]. split; [others t G; discriminate|]. split; [exact L|]. split; [|exact P]. others t T. split; [exact T1|exact T2].
      - split; [exact R|]. split; [intros k' key' v H; apply clear_some in H; eapply C; apply H|]. split; [others t G; discriminate|]. split; [exact L|]. split; [|exact P]. others t T. split; [exact T1|exact T2].
      - split; [exact R|]. split; [exact C|]. split; [others t G; discriminate|]. split; [exact L|]. split; [|exact P]. others t T. split; [exact T1|]. cbn. split; [exact T2|exists (m_cwd m); exact Er].
      - split; [exact R|]. split; [exact C|]. split; [others t G; discriminate|]. split; [intros k' key' got I; apply in_app_or in I; destruct I as [I|[I|[]]]; [eapply L; exact I|discriminate]|]. split; [|exact P]. others t T. split; [exact T1|exact I].
      - split; [exact R|]. split; [exact C|]. split; [others t G; discriminate|]. split; [exact L|]. split; [|exact P]. others t T. split; [exact T1|exact T2].
      - split; [exact R|]. split; [exact C|]. split; [others t G; discriminate|]. split; [exact L|]. split; [|exact P]. others t T. split; [exact T1|exact T2].
      - split; [exact R|]. split; [exact C|]. split; [others t G; discriminate|]. split; [exact L|]. split; [|exact P]. others t T. split; [exact T1|exact I].
      - split; [exact R|]. split; [exact C|]. split; [others t G; discriminate|]. split; [exact L|]. split; [|exact P]. others t T. split; [exact T1|]. cbn. destruct T2 as (T2 & c & T3). split; [exact T2|exists c, p, (m_cwd m); split; assumption].
      - split; [exact R|]. split; [exact C|]. split; [others t G; discriminate|]. split; [exact L|]. split; [|exact P]. others t T. split; [exact T1|exact I].
      - split; [exact R|]. split; [exact C|]. split; [others t G; discriminate|]. split; [exact L|]. split; [|exact P]. others t T. split; [exact T1|]. cbn. destruct T2 as (T2 & c & p & d & T3 & T4). exists t, f, c, p, d. repeat split; assumption.
      - split; [exact R|]. split; [exact C|]. split; [others t G; discriminate|]. split; [exact L|]. split; [|exact P]. others t T. split; [exact T1|exact I].
      - split; [left; reflexivity|]. split; [intros k' key' v H; apply incl_tl; eapply C; exact H|]. split; [intros u0 k' key' got H; slim; destruct (Nat.eq_dec u0 t) as [->|Nu]; [rewrite upd_same in H; discriminate|rewrite upd_other in H by exact Nu; apply incl_tl; eapply G; exact H]|]. split; [intros k' key' got H; apply incl_tl; eapply L; exact H|].
        split; [others t T; split; [exact T1|exact I]|]. intros r [<-|H]; [right; exact T2|apply P; exact H].
      - split; [exact R|]. split; [exact C|]. split; [others t G; discriminate|]. split; [intros k' key' got I; apply in_app_or in I; destruct I as [I|[I|[]]]; [eapply L; exact I|discriminate]|]. split; [|exact P]. others t T. split; [exact T1|exact I].
    Qed.
    Theorem answers_of_past : forall s, let m := run F reads s (init c0 p0 progs) in
      (forall k key got, In (Answered k key got) (m_log m) -> incl got (m_past m)) /\ forall r, In r (m_past m) -> r = mkReg 0 p0 \/ asked (r_file r).
    Proof.
      intros s. assert (K : past_ok (run F reads s (init c0 p0 progs))).
      { induction s as [|a s IH] using rev_ind.
        - split; [left; reflexivity|]. split; [discriminate|]. split; [discriminate|]. split; [intros ? ? ? []|]. split; [intros t; split; [intros o I; exact I|exact I]|]. intros r [<-|[]]. left; reflexivity.
        - rewrite run_snoc. destruct a as [t|k key]; [apply past_step; exact IH|]. destruct IH as (R & C & G & L & T & P). split; [exact R|]. split; [|split; [exact G|]; split; [exact L|]; split; [exact T|exact P]].
          intros k' key' v H. apply put_some in H. destruct H as [(_ & _ & H)|H]; [discriminate|eapply C; exact H]. }
      destruct K as (_ & _ & _ & L & _ & P). split; [exact L|exact P].
    Qed.
  End Past.

  (** *** If calls and changes do not overlap, answers are those of the registry in force *)
  Definition cleared (pl : place) (k : kind) : Prop :=
    match pl with Between | Computing _ _ _ => False | ClearParse _ => k = KConvert | ClearBase _ => k <> KBase | _ => True end.
  Definition fresh_ok (m : machine) : Prop :=
    (forall k key v, m_cache m k key = Some v -> v = repeat (m_reg m) (reads k key))
    /\ (forall t k key got, at_ (m_thread m t) = Computing k key got -> got = repeat (m_reg m) (length got) /\ length got <= reads k key)
    /\ (forall t k key, cleared (at_ (m_thread m t)) k -> m_cache m k key = None).
  Lemma turn_call : forall m t k key got, at_ (m_thread m t) = Computing k key got -> turn_of_call m t.
  Proof. intros m t k key got H. left. unfold calling. rewrite H. exact I. Qed.
  Lemma turn_change : forall m t, changing m t -> turn_of_change m t. Proof. intros m t H. left. exact H. Qed.
  Lemma cleared_changing : forall m t k, cleared (at_ (m_thread m t)) k -> changing m t.
  Proof. intros m t k. unfold changing. destruct (at_ (m_thread m t)); cbn; tauto. Qed.
  Lemma fresh_step : forall t m, calls_apart m t -> fresh_ok m -> fresh_ok (step F reads t m).
  Proof.
    intros t m (A1 & A2) (C & G & K). pose proof (G t) as Gt. pose proof (K t) as Kt. pose proof (turn_call m t) as Tc. pose proof (turn_change m t) as Th. unfold changing in Th. revert Gt Kt Tc Th.
    unfold fresh_ok. places F reads t m; slim; intros Gt Kt Tc Th; cbn [cleared] in Kt.
    all: try (split; [exact C|split; [intros w; destruct (Nat.eq_dec w t) as [->|Nu]; [rewrite upd_same; slim; rewrite ?Et; first [discriminate|intros k' key' g [= <- <- <-]; cbn; split; [reflexivity|lia]]|rewrite ?upd_other by exact Nu; apply G]
                                    |intros w k' key'; destruct (Nat.eq_dec w t) as [->|Nu]; [rewrite upd_same; slim; rewrite ?Et; cbn [at_ cleared]; first [solve [intros []]|intros _; apply Kt; exact I]|rewrite ?upd_other by exact Nu; apply K]]]; fail).
    - split; [exact C|]. split; [exact G|exact K].
    - split; [intros k' key' v H; apply clear_some in H; apply C; apply H|]. split; [intros w; destruct (Nat.eq_dec w t) as [->|Nu]; [rewrite upd_same; discriminate|rewrite ?upd_other by exact Nu; apply G]|].
      intros w k' key'; destruct (Nat.eq_dec w t) as [->|Nu]; [rewrite upd_same; slim; cbn; intros ->; apply clear_none; right; reflexivity|rewrite ?upd_other by exact Nu; intros H; apply clear_none; left; eapply K; exact H].
    - split; [exact C|]. apply Nat.ltb_lt in El. destruct (Gt _ _ _ eq_refl) as (G1 & G2). split.
      + intros w; destruct (Nat.eq_dec w t) as [->|Nu]; [rewrite upd_same; slim; intros k' key' g [= <- <- <-]|rewrite ?upd_other by exact Nu; apply G]. rewrite app_length. cbn [length]. rewrite Nat.add_1_r. split; [rewrite G1 at 1; rewrite repeat_snoc; reflexivity|lia].
      + intros w k' key'; destruct (Nat.eq_dec w t) as [->|Nu]; [rewrite upd_same; intros []|rewrite ?upd_other by exact Nu; apply K].
    - apply Nat.ltb_ge in El. destruct (Gt _ _ _ eq_refl) as (G1 & G2). assert (Eg : got = repeat (m_reg m) (reads k key)) by (rewrite G1; f_equal; lia).
      split; [intros k' key' v H; destruct (m_cache m k key); [apply C; exact H|apply put_some in H; destruct H as [(-> & -> & H)|H]; [injection H as <-; exact Eg|apply C; exact H]]|].
      split; [intros w; destruct (Nat.eq_dec w t) as [->|Nu]; [rewrite upd_same; discriminate|rewrite ?upd_other by exact Nu; apply G]|].
      intros w k' key'; destruct (Nat.eq_dec w t) as [->|Nu]; [rewrite upd_same; intros []|rewrite ?upd_other by exact Nu]. intros H. destruct (A2 (Tc _ _ _ eq_refl) w Nu). eapply cleared_changing; exact H.
    - split; [intros k' key' v H; apply clear_some in H; apply C; apply H|]. split; [intros w; destruct (Nat.eq_dec w t) as [->|Nu]; [rewrite upd_same; discriminate|rewrite ?upd_other by exact Nu; apply G]|].
      intros w k' key'; destruct (Nat.eq_dec w t) as [->|Nu]; [rewrite upd_same; slim; cbn; intros H; apply clear_none; destruct k'; [left; apply Kt; reflexivity|right; reflexivity|congruence]|rewrite ?upd_other by exact Nu; intros H; apply clear_none; left; eapply K; exact H].
    - split; [intros k' key' v H; apply clear_some in H; apply C; apply H|]. split; [intros w; destruct (Nat.eq_dec w t) as [->|Nu]; [rewrite upd_same; discriminate|rewrite ?upd_other by exact Nu; apply G]|].
      intros w k' key'; destruct (Nat.eq_dec w t) as [->|Nu]; [rewrite upd_same; slim; cbn; intros _; apply clear_none; destruct k'; [left; apply Kt; discriminate|left; apply Kt; discriminate|right; reflexivity]|rewrite ?upd_other by exact Nu; intros H; apply clear_none; left; eapply K; exact H].
    - split; [intros k' key' v H; rewrite (Kt k' key' I) in H; discriminate|]. split; [|intros w k' key' _; apply Kt; exact I].
      intros w k' key' g; destruct (Nat.eq_dec w t) as [->|Nu]; [rewrite upd_same; discriminate|rewrite ?upd_other by exact Nu]. intros H. destruct (A1 (Th I) w Nu). unfold calling. rewrite H. exact I.
  Qed.
  Lemma fresh_run : forall c0 p0 progs s, always F reads calls_apart (init c0 p0 progs) s -> fresh_ok (run F reads s (init c0 p0 progs)).
  Proof.
    intros c0 p0 progs. induction s as [|a s IH] using rev_ind; intros A.
    - split; [discriminate|]. split; [discriminate|]. reflexivity.
    - apply always_app in A. destruct A as (A & B). rewrite run_snoc. specialize (IH A). inversion B as [|? t ? Pm B'|? k key ? B']; subst; [apply fresh_step; assumption|].
      destruct IH as (C & G & K). split; [|split; [exact G|]].
      + intros k' key' v H. apply put_some in H. destruct H as [(_ & _ & H)|H]; [discriminate|apply C; exact H].
      + intros t k' key' H. cbn. unfold put. destruct (kind_eqb k k' && (key' =? key)); [reflexivity|eapply K; exact H].
  Qed.
  Lemma snoc_inj : forall (l : list event) a b, l ++ [a] = l ++ [b] -> a = b.
  Proof. intros l a b H. apply app_inv_head in H. injection H as H. exact H. Qed.
  Lemma snoc_neq : forall (l : list event) a, l = l ++ [a] -> False.
  Proof. intros l a H. apply (f_equal (@length _)) in H. rewrite app_length in H. cbn in H. lia. Qed.
  Lemma answer_fresh : forall t m k key got, fresh_ok m -> m_log (step F reads t m) = m_log m ++ [Answered k key got] -> got = repeat (m_reg m) (reads k key) /\ turn_of_call m t.
  Proof.
    intros t m k' key' g (C & G & K). pose proof (G t) as Gt. unfold turn_of_call, calling. revert Gt. places F reads t m; slim; intros Gt H; try (destruct (snoc_neq _ _ H)); apply snoc_inj in H; try discriminate; injection H as <- <- <-.
    - split; [apply C; exact Ec|]. right. split; [reflexivity|]. exists k, key, r. reflexivity.
    - apply Nat.ltb_ge in El. destruct (Gt _ _ _ eq_refl) as (G1 & G2). split; [rewrite G1; f_equal; lia|]. left. exact I.
  Qed.
  Theorem answers_in_force : forall c0 p0 progs s t, let m := run F reads s (init c0 p0 progs) in
    always F reads calls_apart (init c0 p0 progs) s ->
    forall k key got, m_log (step F reads t m) = m_log m ++ [Answered k key got] -> got = repeat (m_reg m) (reads k key).
  Proof. intros c0 p0 progs s t m A k key got H. eapply answer_fresh; [apply fresh_run; exact A|exact H]. Qed.

  (** *** If changes do not overlap, the working directory is restored and the file in force is the one asked for last *)
  Context (Can : canonical F).
  Section Dir.
    Context (c0 : dir) (p0 : path).
    Definition good (m : machine) : Prop := in_force F c0 p0 (m_log m) (r_file (m_reg m)).
    Definition mid (m : machine) (pl : place) : Prop :=
      match pl with
      | Between | Computing _ _ _ => True
      | ClearParse _ | ClearBase _ | Resolving _ => m_cwd m = c0 /\ good m
      | Keeping f p => m_cwd m = c0 /\ good m /\ resolve F c0 f = Some p
      | Entering f p old => m_cwd m = c0 /\ good m /\ resolve F c0 f = Some p /\ old = c0
      | Checking f p old => m_cwd m = fst p /\ good m /\ resolve F c0 f = Some p /\ old = c0
      | Loading f u old => good m /\ resolve F c0 f = Some u /\ old = c0
      | Swapping f u old => good m /\ resolve F c0 f = Some u /\ old = c0 /\ loads F u = true
      | Leaving f old true => old = c0 /\ (exists q, in_force F c0 p0 (m_log m) q) /\ resolve F c0 f = Some (r_file (m_reg m)) /\ loads F (r_file (m_reg m)) = true
      | Leaving f old false => old = c0 /\ good m /\ forall q, resolve F c0 f = Some q -> loads F q = false
      end.
    Definition dir_ok (m : machine) : Prop :=
      ((forall t, ~ changing m t) -> m_cwd m = c0 /\ good m) /\ forall t, changing m t -> mid m (at_ (m_thread m t)) /\ forall u, u <> t -> ~ changing m u.
    Lemma change_dec : forall m t, changing m t \/ ~ changing m t.
    Proof. intros m t. unfold changing. destruct (at_ (m_thread m t)); tauto. Qed.
    (** Steps that leave the shared state alone but for the log. *)
    Lemma mid_call : forall m m' pl k key got, m_cwd m' = m_cwd m -> m_reg m' = m_reg m -> (m_log m' = m_log m \/ m_log m' = m_log m ++ [Answered k key got]) -> mid m pl -> mid m' pl.
    Proof.
      intros m m' pl k key got Ec Er El. assert (Fo : forall p, in_force F c0 p0 (m_log m) p -> in_force F c0 p0 (m_log m') p) by (intros p H; destruct El as [->| ->]; [exact H|constructor; exact H]).
      unfold mid, good. rewrite Ec, Er. destruct pl as [| | | | | | | | | |f old []]; try tauto; intros H; repeat match goal with H : _ /\ _ |- _ => destruct H end; repeat split; auto. destruct H0 as (q & Hq). exists q. auto.
    Qed.
    Lemma dir_quiet : forall m m' k key got, m_cwd m' = m_cwd m -> m_reg m' = m_reg m -> (m_log m' = m_log m \/ m_log m' = m_log m ++ [Answered k key got]) ->
      (forall u, changing m u \/ changing m' u -> at_ (m_thread m' u) = at_ (m_thread m u)) -> dir_ok m -> dir_ok m'.
    Proof.
      intros m m' k key got Ec Er El Ea (N & M).
      assert (Ch : forall u, changing m' u <-> changing m u) by (intros u; split; intros H; [pose proof (Ea u (or_intror H)) as E|pose proof (Ea u (or_introl H)) as E]; unfold changing in *; rewrite E in *; exact H).
      split.
      - intros H. destruct N as (N1 & N2); [intros u X; apply (H u); apply Ch; exact X|]. split; [rewrite Ec; exact N1|]. unfold good. rewrite Er. destruct El as [->| ->]; [exact N2|constructor; exact N2].
      - intros t H. pose proof (Ea t (or_intror H)) as E. apply Ch in H. destruct (M t H) as (M1 & M2). split; [rewrite E; eapply mid_call; eassumption|]. intros u Nu X. apply (M2 u Nu). apply Ch. exact X.
    Qed.
    (** Steps inside a change. *)
    Lemma dir_change : forall m m' t, (forall u, u <> t -> ~ changing m u) -> (forall u, u <> t -> m_thread m' u = m_thread m u) ->
      (changing m' t -> mid m' (at_ (m_thread m' t))) -> (~ changing m' t -> m_cwd m' = c0 /\ good m') -> dir_ok m'.
    Proof.
      intros m m' t O E A B. assert (O' : forall u, u <> t -> ~ changing m' u) by (intros u N; unfold changing; rewrite (E u N); apply (O u N)).
      split; [intros H; apply B; apply H|]. intros u H. destruct (Nat.eq_dec u t) as [->|N]; [split; [apply A; exact H|exact O']|destruct (O' u N H)].
    Qed.
    Lemma dir_step : forall t m, changes_apart m t -> dir_ok m -> dir_ok (step F reads t m).
    Proof.
      intros t m A D. pose proof (step_other t m) as So. assert (Tc := turn_change m t). unfold changes_apart, turn_of_change, changing in A, Tc.
      destruct D as (N & M). pose proof (M t) as Mt. unfold changing in Mt at 1. revert So A Mt Tc. places F reads t m; intros So A Mt Tc; cbn [at_ todo] in *.
      all: try (specialize (A (or_introl I)); apply (dir_change m _ t A So); slim; unfold changing; slim; rewrite upd_same; slim; [intros _|try (intros H; destruct (H I))]; destruct (Mt I) as (M1 & _); cbn [mid] in *; slim; unfold good in *; slim).
      - split; [exact N|exact M].
      - eapply (dir_quiet m _ k key v); [reflexivity|reflexivity|right; reflexivity| |split; assumption]. intros u [H|H]; slim; (destruct (Nat.eq_dec u t) as [->|Nu]; [rewrite upd_same, Et; reflexivity|rewrite upd_other by exact Nu; reflexivity]).
      - eapply (dir_quiet m _ k key []); [reflexivity|reflexivity|left; reflexivity| |split; assumption]. intros u [H|H]; slim; (destruct (Nat.eq_dec u t) as [->|Nu]; [unfold changing in H; rewrite ?Et in H; slim; rewrite ?upd_same in H; destruct H|rewrite !upd_other by exact Nu; reflexivity]).
      - assert (O : forall u, u <> t -> ~ changing m u) by (apply A; right; split; [reflexivity|exists f, r; reflexivity]).
        destruct N as (N1 & N2); [intros u; destruct (Nat.eq_dec u t) as [->|Nu]; [unfold changing; rewrite Et; intros []|apply O; exact Nu]|].
        apply (dir_change m _ t O So); slim; unfold changing; slim; rewrite upd_same; slim; [intros _; split; assumption|intros H; destruct (H I)].
      - eapply (dir_quiet m _ k key []); [reflexivity|reflexivity|left; reflexivity| |split; assumption]. intros u [H|H]; slim; (destruct (Nat.eq_dec u t) as [->|Nu]; [unfold changing in H; rewrite ?Et in H; slim; rewrite ?upd_same in H; destruct H|rewrite !upd_other by exact Nu; reflexivity]).
      - eapply (dir_quiet m _ k key got); [reflexivity|reflexivity|right; reflexivity| |split; assumption]. intros u [H|H]; slim; (destruct (Nat.eq_dec u t) as [->|Nu]; [unfold changing in H; rewrite ?Et in H; slim; rewrite ?upd_same in H; destruct H|rewrite !upd_other by exact Nu; reflexivity]).
      - exact M1.
      - exact M1.
      - destruct M1 as (M1 & M2). rewrite M1 in Er. repeat split; assumption.
      - exact I.
      - destruct M1 as (M1 & M2). intros _. split; [exact M1|]. constructor; [exact M2|]. intros q H. rewrite <- M1 in H. congruence.
      - destruct M1 as (M1 & M2 & M3). repeat split; assumption.
      - destruct M1 as (M1 & M2 & M3 & M4). repeat split; assumption.
      - destruct M1 as (M1 & M2 & M3 & M4). destruct (Can _ _ _ M3) as (X & _). congruence.
      - destruct M1 as (M1 & M2 & M3 & M4). destruct (Can _ _ _ M3) as (_ & X). rewrite M1, X in Eu. injection Eu as <-. repeat split; assumption.
      - destruct M1 as (M1 & M2 & M3 & M4). destruct (Can _ _ _ M3) as (_ & X). rewrite M1, X in Eu. discriminate.
      - destruct M1 as (M1 & M2 & M3). repeat split; assumption.
      - destruct M1 as (M1 & M2 & M3). repeat split; try assumption. intros q H. congruence.
      - destruct M1 as (M1 & M2 & M3 & M4). repeat split; try assumption. exists (r_file (m_reg m)). exact M1.
      - exact I.
      - destruct ok; slim.
        + destruct M1 as (M1 & (q & M2) & M3 & M4). intros _. split; [exact M1|]. econstructor; eassumption.
        + destruct M1 as (M1 & M2 & M3). intros _. split; [exact M1|]. constructor; assumption.
    Qed.
  End Dir.
  Lemma dir_run : forall c0 p0 progs s, always F reads changes_apart (init c0 p0 progs) s -> dir_ok c0 p0 (run F reads s (init c0 p0 progs)).
  Proof.
    intros c0 p0 progs. induction s as [|a s IH] using rev_ind; intros A.
    - split; [intros _; split; [reflexivity|constructor]|intros t []].
    - apply always_app in A. destruct A as (A & B). rewrite run_snoc. specialize (IH A). inversion B as [|? t ? Pm B'|? k key ? B']; subst; [apply dir_step; assumption|exact IH].
  Qed.
  Theorem directory_and_file : forall c0 p0 progs s, always F reads changes_apart (init c0 p0 progs) s ->
    let m := run F reads s (init c0 p0 progs) in (forall t, ~ changing m t) -> m_cwd m = c0 /\ in_force F c0 p0 (m_log m) (r_file (m_reg m)).
  Proof. intros c0 p0 progs s A m H. destruct (dir_run c0 p0 progs s A) as (N & _). apply N. exact H. Qed.

  (** With both, every answer is what the file asked for last gives, alone. *)
  Theorem answers_of_file_in_force : forall c0 p0 progs s t,
    always F reads calls_apart (init c0 p0 progs) s -> always F reads changes_apart (init c0 p0 progs) s ->
    let m := run F reads s (init c0 p0 progs) in calls_apart m t ->
    forall k key got, m_log (step F reads t m) = m_log m ++ [Answered k key got] ->
    exists r, got = repeat r (reads k key) /\ in_force F c0 p0 (m_log m) (r_file r) /\ m_cwd m = c0.
  Proof.
    intros c0 p0 progs s t A B m (_ & Ct) k key got H. destruct (answer_fresh t m k key got (fresh_run _ _ _ _ A) H) as (X & Tc). exists (m_reg m). split; [exact X|].
    assert (No : forall u, ~ changing m u).
    { intros u. destruct (Nat.eq_dec u t) as [->|N]; [|apply Ct; assumption]. unfold changing. destruct Tc as [Tc|(Tc & _)]; [unfold calling in Tc; destruct (at_ (m_thread m t)); tauto|rewrite Tc; intros []]. }
    destruct (directory_and_file c0 p0 progs s B No) as (P & Q). split; [exact Q|exact P].
  Qed.
  (** *** What a thread returns is what its program asks for, in that order, and it ends if it is let run *)
  Definition current (pl : place) : list op := match pl with
    | Between => [] | Computing k key _ => [Call k key]
    | ClearParse f | ClearBase f | Resolving f | Keeping f _ | Entering f _ _ | Checking f _ _ | Loading f _ _ | Swapping f _ _ | Leaving f _ _ => [Change f] end.
  Lemma step_said : forall t m, let th := m_thread m t in let m' := step F reads t m in let th' := m_thread m' t in
    exists done new, m_log m' = m_log m ++ new /\ Forall2 answers done new /\ current (at_ th) ++ todo th = done ++ current (at_ th') ++ todo th'.
  Proof.
    intros t m. cbv zeta. places F reads t m; slim; rewrite ?upd_same; slim; rewrite ?upd_same; slim; rewrite ?Et; slim; cbn [current app];
      first [exists [], []; rewrite app_nil_r; split; [reflexivity|split; [constructor|reflexivity]]
            |eexists [_], [_]; split; [reflexivity|split; [constructor; [|constructor]|reflexivity]]; cbn; auto].
  Qed.
  Lemma run_said : forall t s m, let m' := run F reads s m in
    exists done, Forall2 answers done (said_by F reads t s m) /\ current (at_ (m_thread m t)) ++ todo (m_thread m t) = done ++ current (at_ (m_thread m' t)) ++ todo (m_thread m' t).
  Proof.
    intros t. induction s as [|a s IH]; intros m; cbv zeta; [exists []; split; [constructor|reflexivity]|]. cbn [said_by]. destruct (IH (perform F reads a m)) as (done & H & E). change (run F reads (a :: s) m) with (run F reads s (perform F reads a m)).
    destruct a as [w|k key]; [|exists done; split; [exact H|exact E]]. destruct (Nat.eqb_spec w t) as [->|N].
    - destruct (step_said t m) as (d & new & L & A & C). cbn [perform] in *. exists (d ++ done). split.
      + apply Forall2_app; [|exact H]. rewrite L, skipn_app, skipn_all, Nat.sub_diag. exact A.
      + rewrite C, E, app_assoc. reflexivity.
    - exists done. split; [exact H|]. rewrite <- E. cbn [perform]. rewrite step_other by congruence. reflexivity.
  Qed.
  Theorem every_thread_answered : forall c0 p0 progs s t, let m := run F reads s (init c0 p0 progs) in
    exists done now, Forall2 answers done (said_by F reads t s (init c0 p0 progs)) /\ progs t = done ++ now ++ todo (m_thread m t) /\ length now <= 1 /\ (at_ (m_thread m t) = Between -> now = []).
  Proof.
    intros c0 p0 progs s t m. destruct (run_said t s (init c0 p0 progs)) as (done & H & E). exists done, (current (at_ (m_thread m t))). split; [exact H|]. split; [exact E|]. split; [destruct (at_ (m_thread m t)); cbn; lia|intros ->; reflexivity].
  Qed.
  Definition fuel (pl : place) : nat := match pl with Between => 0 | Computing k key got => S (reads k key - length got) | Leaving _ _ _ => 1 | Swapping _ _ _ => 2 | Loading _ _ _ => 3 | Checking _ _ _ => 4 | Entering _ _ _ => 5 | Keeping _ _ => 6 | Resolving _ => 7 | ClearBase _ => 8 | ClearParse _ => 9 end.
  Lemma step_fuel : forall t m, let th := m_thread m t in let th' := m_thread (step F reads t m) t in
    (at_ th <> Between -> todo th' = todo th /\ fuel (at_ th') < fuel (at_ th)) /\ (forall o r, at_ th = Between -> todo th = o :: r -> todo th' = r).
  Proof.
    intros t m. cbv zeta. places F reads t m; slim; rewrite ?upd_same; slim; rewrite ?upd_same; slim; rewrite ?Et; slim; cbn [fuel]; (split; [first [congruence|intros _; split; [reflexivity|try lia]]|first [discriminate|congruence]]).
    apply Nat.ltb_lt in El. rewrite app_length. cbn. lia.
  Qed.
  Theorem calls_and_changes_end : forall m t, exists n, m_thread (run F reads (repeat (Go t) n) m) t = mkT Between [].
  Proof.
    intros m t. remember (todo (m_thread m t)) as l eqn:Hl. revert m Hl. induction l as [|o l IH]; intros m Hl;
      remember (fuel (at_ (m_thread m t))) as k eqn:Ek; revert m Hl Ek; induction k as [k IHk] using lt_wf_ind; intros m Hl Ek.
    - destruct (step_fuel t m) as (A & _). destruct (at_ (m_thread m t)) as [|? ? ?|?|?|?|? ?|? ? ?|? ? ?|? ? ?|? ? ?|? ? ?] eqn:Ea; [exists 0; cbn; destruct (m_thread m t); cbn in *; congruence|..];
        (destruct A as (A1 & A2); [discriminate|]; edestruct (IHk _ ltac:(rewrite Ek; exact A2) (step F reads t m)) as (n & H); [congruence|reflexivity|exists (S n); exact H]).
    - destruct (step_fuel t m) as (A & B). destruct (at_ (m_thread m t)) as [|? ? ?|?|?|?|? ?|? ? ?|? ? ?|? ? ?|? ? ?|? ? ?] eqn:Ea;
        [destruct (IH (step F reads t m)) as (n & H); [symmetry; eapply B; [reflexivity|symmetry; exact Hl]|exists (S n); exact H]|..];
        (destruct A as (A1 & A2); [discriminate|]; edestruct (IHk _ ltac:(rewrite Ek; exact A2) (step F reads t m)) as (n & H); [congruence|reflexivity|exists (S n); exact H]).
  Qed.
End Race.

(** ** Findings. Directories 0, 1 and 2; a default file, one file in 1 and one with the same name in 2. *)
Definition there (d n : nat) : bool := match d, n with 0, 0 | 1, 1 | 2, 1 => true | _, _ => false end.
Definition found (d n : nat) : option path := if there d n then Some (d, n) else None.
(** Absolute names 10 d + n, relative ones 100 + n. *)
Definition F0 : files := mkFiles (fun c f => if f <? 100 then found (f / 10) (f mod 10) else found c (f - 100)) found (fun _ => true) (fun _ => true).
Lemma F0_canonical : canonical F0.
Proof.
  assert (X : forall d n p, found d n = Some p -> found (fst p) (snd p) = Some p) by (intros d n p H; unfold found in *; destruct (there d n) eqn:E; [|discriminate]; injection H as <-; cbn; rewrite E; reflexivity).
  intros c f p H. split; [reflexivity|]. unfold F0 in *. cbn [resolve child] in *. destruct (f <? 100); eapply X; exact H.
Qed.
Definition two (a b : list op) : nat -> list op := fun t => match t with 0 => a | 1 => b | _ => [] end.
Definition go (t n : nat) : list act := repeat (Go t) n.
Definition old_reg := mkReg 0 (0, 0).
(** A call made while a change is going on puts an answer of the old definitions into the cache; it is given long after. *)
Theorem stale_answer_refuted : exists progs s, let m := run F0 (fun _ _ => 1) s (init 0 (0, 0) progs) in
  (forall t, at_ (m_thread m t) = Between) /\ r_file (m_reg m) = (1, 1) /\ m_log (step F0 (fun _ _ => 1) 1 m) = m_log m ++ [Answered KParse 7 [old_reg]].
Proof.
  exists (two [Change 11] [Call KParse 7; Call KParse 7]), (go 0 3 ++ go 1 3 ++ go 0 7). cbv zeta. split; [intros [|[|t]]; vm_compute; reflexivity|]. split; vm_compute; reflexivity.
Qed.
(** A conversion that goes on while the definitions change uses both; so does every later one, from the cache. *)
Theorem mixed_answer_refuted : exists progs s, let m := run F0 (fun _ _ => 2) s (init 0 (0, 0) progs) in
  (forall t, m_thread m t = mkT Between []) /\ m_log m = [Changed 11 true; Answered KConvert 7 [old_reg; mkReg 1 (1, 1)]; Answered KConvert 7 [old_reg; mkReg 1 (1, 1)]].
Proof. exists (two [Change 11] [Call KConvert 7; Call KConvert 7]), (go 1 2 ++ go 0 10 ++ go 1 3). cbv zeta. split; [intros [|[|t]]; vm_compute; reflexivity|vm_compute; reflexivity]. Qed.
(** Two changes at the same time leave the process in another directory. *)
Theorem directory_lost_refuted : exists progs s, let m := run F0 (fun _ _ => 1) s (init 0 (0, 0) progs) in
  (forall t, m_thread m t = mkT Between []) /\ m_log m = [Changed 11 true; Changed 21 true] /\ m_cwd m = 1.
Proof. exists (two [Change 11] [Change 21]), (go 0 6 ++ go 1 5 ++ go 0 4 ++ go 1 5). cbv zeta. split; [intros [|[|t]]; vm_compute; reflexivity|]. split; vm_compute; reflexivity. Qed.
(** Two changes at the same time can both load the same file, though they were asked for two: 11 has never been in force. *)
Theorem other_file_refuted : exists progs s, let m := run F0 (fun _ _ => 1) s (init 0 (0, 0) progs) in
  (forall t, m_thread m t = mkT Between []) /\ m_log m = [Changed 21 true; Changed 11 true] /\ map r_file (m_past m) = [(2, 1); (2, 1); (0, 0)].
Proof. exists (two [Change 11] [Change 21]), (go 0 6 ++ go 1 7 ++ go 0 1 ++ go 1 3 ++ go 0 3). cbv zeta. split; [intros [|[|t]]; vm_compute; reflexivity|]. split; vm_compute; reflexivity. Qed.
(** A change to a file that is there fails: the name was looked up in the directory of another change. *)
Theorem file_missed_refuted : exists progs s, let m := run F0 (fun _ _ => 1) s (init 0 (0, 0) progs) in
  resolve F0 0 100 = Some (0, 0) /\ loads F0 (0, 0) = true /\ m_log m = [Changed 100 false; Changed 11 true].
Proof. exists (two [Change 11] [Change 100]), (go 0 6 ++ go 1 4 ++ go 0 4). cbv zeta. split; [reflexivity|]. split; vm_compute; reflexivity. Qed.

(** ** A case: two calls that overlap, a change, a dropped entry, a call, a change that fails *)
Definition case_progs := two [Call KBase 3; Change 11; Call KBase 3; Change 99] [Call KConvert 4; Call KConvert 4].
Definition case_run := go 0 1 ++ go 1 3 ++ go 0 2 ++ [Drop KConvert 4] ++ go 0 10 ++ go 1 3 ++ go 0 7.
Definition callb (m : machine) (t : nat) : bool := match at_ (m_thread m t) with Computing _ _ _ => true | _ => false end.
Definition changeb (m : machine) (t : nat) : bool := match at_ (m_thread m t) with Between | Computing _ _ _ => false | _ => true end.
Definition nextb (m : machine) (t : nat) : bool * bool :=
  match at_ (m_thread m t), todo (m_thread m t) with Between, Call _ _ :: _ => (true, false) | Between, Change _ :: _ => (false, true) | Computing _ _ _, _ => (true, false) | Between, [] => (false, false) | _, _ => (false, true) end.
Lemma callb_ok : forall m t, callb m t = false -> ~ calling m t. Proof. intros m t. unfold callb, calling. destruct (at_ (m_thread m t)); intros H X; try destruct X; discriminate. Qed.
Lemma changeb_ok : forall m t, changeb m t = false -> ~ changing m t. Proof. intros m t. unfold changeb, changing. destruct (at_ (m_thread m t)); intros H X; try destruct X; discriminate. Qed.
Lemma nextb_call : forall m t, turn_of_call m t -> fst (nextb m t) = true.
Proof. intros m t [H|(H & k & key & r & H')]; unfold nextb; [unfold calling in H; destruct (at_ (m_thread m t)); try destruct H; reflexivity|rewrite H, H'; reflexivity]. Qed.
Lemma nextb_change : forall m t, turn_of_change m t -> snd (nextb m t) = true.
Proof. intros m t [H|(H & f & r & H')]; unfold nextb; [unfold changing in H; destruct (at_ (m_thread m t)); try destruct H; reflexivity|rewrite H, H'; reflexivity]. Qed.
Definition apartb (m : machine) (t : nat) : bool := (t <? 2) && negb (snd (nextb m t) && (callb m (1 - t) || changeb m (1 - t))) && negb (fst (nextb m t) && changeb m (1 - t)).
Fixpoint check (F : files) (reads : kind -> nat -> nat) (m : machine) (s : list act) : bool :=
  match s with [] => true | Go t :: r => apartb m t && check F reads (step F reads t m) r | Drop k key :: r => check F reads (perform F reads (Drop k key) m) r end.
Lemma apartb_ok : forall m t, (forall u, 2 <= u -> m_thread m u = mkT Between []) -> apartb m t = true -> t < 2 /\ calls_apart m t /\ changes_apart m t.
Proof.
  intros m t R H. unfold apartb in H. apply andb_prop in H. destruct H as (H & H3). apply andb_prop in H. destruct H as (H1 & H2). apply Nat.ltb_lt in H1. apply negb_true_iff in H2, H3.
  assert (O : forall u, u <> t -> u = 1 - t \/ 2 <= u) by (intros u N; lia).
  assert (Q : forall u, 2 <= u -> ~ calling m u /\ ~ changing m u) by (intros u L; unfold calling, changing; rewrite (R u L); split; intros []).
  split; [exact H1|]. split; [split|]; intros T u N; destruct (O u N) as [->|L]; try (apply (Q u L)).
  - apply nextb_change in T. rewrite T in H2. cbn in H2. apply orb_false_elim in H2. apply callb_ok. apply H2.
  - apply nextb_call in T. rewrite T in H3. apply changeb_ok. exact H3.
  - apply nextb_change in T. rewrite T in H2. cbn in H2. apply orb_false_elim in H2. apply changeb_ok. apply H2.
Qed.
Lemma check_ok : forall F reads s m, (forall u, 2 <= u -> m_thread m u = mkT Between []) -> check F reads m s = true -> always F reads calls_apart m s /\ always F reads changes_apart m s.
Proof.
  intros F reads. induction s as [|[t|k key] s IH]; intros m R H; cbn [check] in H.
  - split; constructor.
  - apply andb_prop in H. destruct H as (H1 & H2). destruct (apartb_ok m t R H1) as (A & B & C). destruct (IH (step F reads t m)) as (X & Y); [intros u L; rewrite step_other by lia; apply R; exact L|exact H2|]. split; constructor; assumption.
  - destruct (IH (perform F reads (Drop k key) m) R H) as (X & Y). split; constructor; assumption.
Qed.
Example case_apart : always F0 (fun _ _ => 1) calls_apart (init 0 (0, 0) case_progs) case_run /\ always F0 (fun _ _ => 1) changes_apart (init 0 (0, 0) case_progs) case_run.
Proof. apply check_ok; [intros [|[|u]] L; [lia|lia|reflexivity]|vm_compute; reflexivity]. Qed.
Example case_log : let m := run F0 (fun _ _ => 1) case_run (init 0 (0, 0) case_progs) in
  m_log m = [Answered KConvert 4 [old_reg]; Answered KBase 3 [old_reg]; Changed 11 true; Answered KConvert 4 [mkReg 1 (1, 1)]; Answered KBase 3 [mkReg 1 (1, 1)]; Changed 99 false] /\ m_cwd m = 0 /\ forall t, m_thread m t = mkT Between [].
Proof. cbv zeta. split; [vm_compute; reflexivity|]. split; [vm_compute; reflexivity|]. intros [|[|t]]; vm_compute; reflexivity. Qed.

Print Assumptions every_thread_answered.
Print Assumptions calls_and_changes_end.
Print Assumptions answers_of_past.
Print Assumptions answers_in_force.
Print Assumptions directory_and_file.
Print Assumptions answers_of_file_in_force.
Print Assumptions stale_answer_refuted.
Print Assumptions mixed_answer_refuted.
Print Assumptions directory_lost_refuted.
Print Assumptions other_file_refuted.
Print Assumptions file_missed_refuted.

Lemma told_app : forall l e, told_done (l ++ [e]) = told_done l + match e with Changed _ true => 1 | _ => 0 end.
Proof. induction l as [|[k key got|f []] l IH]; intros e; cbn [app told_done]; try (rewrite IH; reflexivity). destruct e as [|f []]; reflexivity. Qed.
Definition about_to_tell (m : machine) (t : nat) : Prop := match at_ (m_thread m t) with Leaving _ _ true => True | _ => False end.
Definition counted (m : machine) : Prop :=
  exists ts, NoDup ts /\ (forall t, In t ts <-> about_to_tell m t) /\ length (m_past m) = 1 + told_done (m_log m) + length ts.
Lemma counted_same : forall m m' , counted m -> (forall t, about_to_tell m' t <-> about_to_tell m t) -> length (m_past m') = length (m_past m) -> told_done (m_log m') = told_done (m_log m) -> counted m'.
Proof. intros m m' (ts & N & I & L) A B C. exists ts. split; auto. split; [|congruence]. intros t. rewrite I, A. reflexivity. Qed.
Lemma at_goto : forall t p m u, at_ (m_thread (goto t p m) u) = if u =? t then p else at_ (m_thread m u).
Proof. intros. cbn. unfold upd. destruct (u =? t); reflexivity. Qed.
Lemma counted_step : forall F reads t m, counted m -> counted (step F reads t m).
Proof.
  intros F reads t m H. unfold step.
  destruct (at_ (m_thread m t)) as [|k key got|f|f|f|f p|f p old|f p old|f u old|f u old|f old ok] eqn:P.
  all: repeat match goal with |- context [match ?x with _ => _ end] => lazymatch x with
         | todo _ => destruct x as [|[] ?] | m_cache _ _ _ => destruct x | _ <? _ => destruct x | resolve _ _ _ => destruct x | is_dir _ _ => destruct x | child _ _ _ => destruct x | loads _ _ => destruct x end end.
  all: try exact H.
  all: try (apply (counted_same m); [exact H| |reflexivity|first [reflexivity | cbn; rewrite told_app; lia]];
            intros v; unfold about_to_tell; cbn; unfold upd; destruct (Nat.eqb_spec v t) as [->|]; cbn; rewrite ?P; tauto).
  - destruct H as (ts & N & I & L). exists (t :: ts). split; [|split].
    + constructor; auto. rewrite I. unfold about_to_tell. rewrite P. tauto.
    + intros v. unfold about_to_tell. rewrite at_goto. cbn [In]. destruct (Nat.eqb_spec v t) as [->|V]; [tauto|].
      rewrite I. unfold about_to_tell. cbn. split; [intros [X|X]; [congruence|exact X]|tauto].
    + cbn in *. lia.
  - destruct ok.
    + destruct H as (ts & N & I & L). assert (In t ts) as T by (rewrite I; unfold about_to_tell; now rewrite P).
      apply in_split in T as (a & b & ->). exists (a ++ b). split; [eapply NoDup_remove_1; eauto|split].
      * intros v. unfold about_to_tell. cbn. unfold upd. destruct (Nat.eqb_spec v t) as [->|V]; cbn.
        { split; [|tauto]. intros X. exact (NoDup_remove_2 _ _ _ N X). }
        { fold (about_to_tell m v). rewrite <- I, !in_app_iff. cbn. split; [tauto|intros [X|[X|X]]; auto; congruence]. }
      * cbn. rewrite told_app, app_length. rewrite app_length in L. cbn in L. lia.
    + apply (counted_same m); [exact H| |reflexivity|cbn; rewrite told_app; lia].
      intros v; unfold about_to_tell; cbn; unfold upd; destruct (Nat.eqb_spec v t) as [->|]; cbn; rewrite ?P; tauto.
Qed.
(** In every schedule, however threads come between each other, there are exactly as many new registries as there are changes
    told to be done, once no change is under way: no change is told to be done that put no registry in force, and none is told to have failed that did. *)
Theorem told_done_counted : forall F reads c0 p0 progs s, let m := run F reads s (init c0 p0 progs) in
  told_done (m_log m) < length (m_past m) /\ ((forall t, ~ changing m t) -> length (m_past m) = S (told_done (m_log m))).
Proof.
  intros F reads c0 p0 progs s m. assert (counted m) as (ts & N & I & L).
  { subst m. unfold run. assert (counted (init c0 p0 progs)) as H. { exists []. split; [constructor|]. split; [|reflexivity]. intros t. cbn. tauto. }
    revert H. generalize (init c0 p0 progs). induction s as [|a s IH]; intros m H; cbn [fold_left]; auto.
    apply IH. destruct a; cbn [perform]; [apply counted_step; auto|]. apply (counted_same m); auto; reflexivity. }
  split; [lia|]. intros Q. destruct ts as [|t ts]; [cbn in L; lia|]. exfalso. apply (Q t). specialize (proj1 (I t) (or_introl eq_refl)).
  unfold about_to_tell, changing. destruct (at_ (m_thread m t)); tauto.
Qed.
Example case_counted : let m := run F0 (fun _ _ => 1) case_run (init 0 (0, 0) case_progs) in (forall t, ~ changing m t) /\ length (m_past m) = 2 /\ told_done (m_log m) = 1.
Proof. cbv zeta. split; [intros [|[|t]]; vm_compute; tauto|]. split; vm_compute; reflexivity. Qed.
Print Assumptions told_done_counted.
