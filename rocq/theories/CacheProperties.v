(** C35: unit caches never serve answers from a replaced definitions file. *)
From Coq Require Import String Ascii List Bool Arith QArith Lia.
From Verif Require Import Base PyStr ScaleModel ScaleSpec ScaleMangle ScaleProperties CacheModel CacheSpec CacheProofs CacheTexts.
Import ListNotations.
Open Scope list_scope.
Open Scope nat_scope.

(** Every answer of every fair history, for caches of every size, is the one that a registry just loaded from the
    definitions in force gives without any cache. [good] is any set of texts that are unambiguous; numbers are compared
    with ==. Missing: texts with ambiguous or leaked internal names and unit objects of a replaced registry, for which
    it is false (below). *)
Theorem cached_answers_right_partial :
  forall (E : engine) (uses : text -> list text) (unit_uses : unit_t E -> list text) (good : defs E -> text -> Prop),
  pint_ok E uses unit_uses -> texts_ok E uses good ->
  forall (Z : sizes) (d0 : defs E) (ops : list (op E)) (dir : string),
  let calls := fst (run E Z ops (start E d0 dir)) in
  fair E good d0 calls -> all_right E unit_uses good d0 calls.
Proof. intros E uses unit_uses good P T Z d0 ops dir. now apply cached_right with (uses := uses). Qed.
Print Assumptions cached_answers_right_partial.

(** Texts without a scaled unit, and texts with one whose number has digits on both sides of its point, are such
    a set: the names of two scaled units are the same only if number and unit are the same. *)
Theorem standard_texts_right : forall E, spelling_free E -> texts_ok E words (standard E).
Proof. exact standard_ok. Qed.
Print Assumptions standard_texts_right.

Corollary standard_answers_right_partial : forall E unit_uses, pint_ok E words unit_uses -> spelling_free E ->
  forall Z d0 ops dir, let calls := fst (run E Z ops (start E d0 dir)) in
  fair E (standard E) d0 calls -> all_right E unit_uses (standard E) d0 calls.
Proof. intros E unit_uses P F Z d0 ops dir. apply (cached_answers_right_partial E words unit_uses (standard E) P (standard_ok E F)). Qed.
Print Assumptions standard_answers_right_partial.

(** A change that fails leaves registry and definitions as they were; one that succeeds gives a registry with the new
    definitions and nothing else. Nothing cached survives either. *)
Theorem change_effect : forall E Z o s,
  let s' := fst (step E Z (Change E o) s) in
  parse_cache E s' = [] /\ convert_cache E s' = [] /\ base_cache E s' = []
  /\ match o with
     | Loaded _ _ d => reg_defs E (reg E s') = d /\ reg_names E (reg E s') = [] /\ snd (step E Z (Change E o) s) = RChange E (Ok tt)
     | NotFound _ e | NoDirectory _ e | NotLoaded _ _ e => reg E s' = reg E s /\ snd (step E Z (Change E o) s) = RChange E (Err e)
     end.
Proof. intros E Z [e|e|dir e|dir d] s; cbn; repeat split. Qed.
Print Assumptions change_effect.

(** The working directory of the process is the same after every history. *)
Theorem directory_kept : forall E Z ops s, cwd E (snd (run E Z ops s)) = cwd E s.
Proof.
  intros E Z ops. induction ops as [|o ops IH]; intros s; cbn [run]; auto.
  assert (A : cwd E (fst (step E Z o s)) = cwd E s).
  { destruct o as [a ret|v s1 s2|a|[]]; cbn [step change]; auto.
    - destruct (cached _ _ _ _ _ _) as [c [r out]]; reflexivity.
    - destruct (cached _ _ _ _ _ _) as [c [r out]]; reflexivity.
    - destruct (cached _ _ _ _ _ _) as [c [r out]]; reflexivity. }
  destruct (step E Z o s) as [s1 a]. cbn [fst] in A. specialize (IH s1). destruct (run E Z ops s1) as [l s2]. cbn [snd] in *. congruence.
Qed.
Print Assumptions directory_kept.

(** The caches never outgrow their sizes, whatever is called. *)
Theorem caches_bounded : forall E Z ops d0 dir, let s := snd (run E Z ops (start E d0 dir)) in
  length (parse_cache E s) <= parse_size Z /\ length (convert_cache E s) <= convert_size Z /\ length (base_cache E s) <= base_size Z.
Proof.
  intros E Z ops d0 dir. cbv zeta.
  assert (Fi : forall K V cmp (k : K) (c : cache) (e : K * V) c', find cmp k c = Ok (Some (e, c')) -> length c = S (length c')).
  { intros K V cmp k c. induction c as [|x c IH]; intros e c'; cbn [find]; [discriminate|].
    destruct (cmp k (fst x)); [intros H; injection H as <- <-; reflexivity| |discriminate].
    destruct (find cmp k c) as [[[y r']|]|] eqn:F; try discriminate. intros H. injection H as <- <-. cbn. f_equal. eapply IH; eauto. }
  assert (Ca : forall K V R cmp n f (k : K) (c : cache (K := K) (V := V)) (r : R), length c <= n -> length (fst (cached cmp n f k c r)) <= n).
  { intros K V R cmp n f k c r L. unfold cached. destruct (find cmp k c) as [[[e c']|]|] eqn:F; cbn [fst]; auto.
    - apply Fi in F. cbn. lia.
    - destruct (f r) as [r' [v|x]]; cbn [fst]; auto. rewrite firstn_length. lia. }
  assert (A : forall s, length (parse_cache E s) <= parse_size Z /\ length (convert_cache E s) <= convert_size Z /\ length (base_cache E s) <= base_size Z ->
    let s' := snd (run E Z ops s) in
    length (parse_cache E s') <= parse_size Z /\ length (convert_cache E s') <= convert_size Z /\ length (base_cache E s') <= base_size Z).
  { induction ops as [|o r IH]; intros s H; cbn [run]; auto.
    destruct (step E Z o s) as [s1 a] eqn:Es. specialize (IH s1).
    destruct (run E Z r s1) as [l s2] eqn:Er. cbn [snd] in *. apply IH. destruct H as (H1 & H2 & H3).
    destruct o as [x ret|v t1 t2|x|o]; cbn [step] in Es.
    - pose proof (Ca _ _ _ (cmp_parse E) (parse_size Z) (parse_raw E x ret) (x, ret) (parse_cache E s) (reg E s) H1) as C.
      destruct (cached _ _ _ _ _ _) as [c [q out]]. injection Es as <- <-. cbn in *. auto.
    - pose proof (Ca _ _ _ (cmp_convert E) (convert_size Z) (convert_raw E v t1 t2) (v, t1, t2) (convert_cache E s) (reg E s) H2) as C.
      destruct (cached _ _ _ _ _ _) as [c [q out]]. injection Es as <- <-. cbn in *. auto.
    - pose proof (Ca _ _ _ (cmp_arg E) (base_size Z) (base_raw E x) x (base_cache E s) (reg E s) H3) as C.
      destruct (cached _ _ _ _ _ _) as [c [q out]]. injection Es as <- <-. cbn in *. auto.
    - destruct o; cbn [change] in Es; injection Es as <- <-; cbn; lia. }
  apply A. cbn. lia.
Qed.
Print Assumptions caches_bounded.

(** Registries are never used again: each successful change makes one with a number of its own. *)
Theorem registry_of_epoch : forall E Z ops d0 dir,
  reg_id E (reg E (snd (run E Z ops (start E d0 dir)))) = epoch E ops /\ reg_defs E (reg E (snd (run E Z ops (start E d0 dir)))) = in_force E d0 ops.
Proof.
  intros E Z ops d0 dir.
  assert (Pr : forall s r, reg_id E (fst (reg_parse E s r)) = reg_id E r /\ reg_defs E (fst (reg_parse E s r)) = reg_defs E r).
  { intros s r. unfold reg_parse. destruct (preprocess _ _ _ s _). split; reflexivity. }
  assert (Ca : forall K V cmp n f k c r, (forall q, reg_id E (fst (f q)) = reg_id E q /\ reg_defs E (fst (f q)) = reg_defs E q) ->
    let r' := fst (snd (@cached K V (registry E) cmp n f k c r)) in reg_id E r' = reg_id E r /\ reg_defs E r' = reg_defs E r).
  { intros K V cmp n f k c r F. unfold cached. destruct (find cmp k c) as [[[e c']|]|]; try (split; reflexivity). specialize (F r). destruct (f r) as [r' [v|x]]; exact F. }
  assert (A1 : forall a ret q, reg_id E (fst (parse_raw E a ret q)) = reg_id E q /\ reg_defs E (fst (parse_raw E a ret q)) = reg_defs E q).
  { intros a ret q. unfold parse_raw. destruct a; try (split; reflexivity).
    - destruct (of_bool ret); [|split; reflexivity]. pose proof (Pr [] q) as H. destruct (reg_parse E [] q). exact H.
    - pose proof (Pr (unmangled s) q) as H. destruct (reg_parse E (unmangled s) q). exact H. }
  assert (A2 : forall v s1 s2 q, reg_id E (fst (convert_raw E v s1 s2 q)) = reg_id E q /\ reg_defs E (fst (convert_raw E v s1 s2 q)) = reg_defs E q).
  { intros v s1 s2 q. unfold convert_raw. destruct (teqb s1 s2); [split; reflexivity|]. pose proof (Pr s1 q) as H. destruct (reg_parse E s1 q) as [r1 [u1|e]]; [|exact H].
    pose proof (Pr s2 r1) as H2. cbn [fst] in H. destruct (reg_parse E s2 r1) as [r2 [u2|e]]; cbn [fst] in *; intuition congruence. }
  assert (A3 : forall a q, reg_id E (fst (base_raw E a q)) = reg_id E q /\ reg_defs E (fst (base_raw E a q)) = reg_defs E q).
  { intros a q. unfold base_raw, base_of. destruct a as [|s|g0 u0|]; try (split; reflexivity).
    - pose proof (Pr s q) as H. destruct (reg_parse E s q) as [r1 [u1|e]]; exact H.
    - destruct (g0 =? reg_id E q); split; reflexivity. }
  assert (G : forall ops s n, next E s = S n -> reg_id E (reg E s) = n ->
    reg_id E (reg E (snd (run E Z ops s))) = n + epoch E ops /\ reg_defs E (reg E (snd (run E Z ops s))) = in_force E (reg_defs E (reg E s)) ops).
  { clear ops d0 dir. induction ops as [|o ops IH]; intros s n N I; [cbn; split; auto; lia|].
    cbn [run]. destruct (step E Z o s) as [s1 a] eqn:St.
    assert (K : next E s1 = S (n + epoch E [o]) /\ reg_id E (reg E s1) = n + epoch E [o] /\ reg_defs E (reg E s1) = in_force E (reg_defs E (reg E s)) [o]).
    { destruct o as [x ret|v t1 t2|x|[e|e|dd e|dd d]]; cbn [step change] in St; cbn [epoch in_force]; rewrite ?Nat.add_0_r.
      - pose proof (Ca _ _ (cmp_parse E) (parse_size Z) _ (x, ret) (parse_cache E s) (reg E s) (A1 x ret)) as H. destruct (cached _ _ _ _ _ _) as [c [r out]]. injection St as <- <-. cbn in *. intuition congruence.
      - pose proof (Ca _ _ (cmp_convert E) (convert_size Z) _ (v, t1, t2) (convert_cache E s) (reg E s) (A2 v t1 t2)) as H. destruct (cached _ _ _ _ _ _) as [c [r out]]. injection St as <- <-. cbn in *. intuition congruence.
      - pose proof (Ca _ _ (cmp_arg E) (base_size Z) _ x (base_cache E s) (reg E s) (A3 x)) as H. destruct (cached _ _ _ _ _ _) as [c [r out]]. injection St as <- <-. cbn in *. intuition congruence.
      - injection St as <- <-. cbn. auto.
      - injection St as <- <-. cbn. auto.
      - injection St as <- <-. cbn. auto.
      - injection St as <- <-. cbn. rewrite N. split; [lia|split; [lia|reflexivity]]. }
    destruct K as (K1 & K2 & K3). specialize (IH s1 (n + epoch E [o]) K1 K2). destruct (run E Z ops s1) as [l s2]. cbn [snd] in *. destruct IH as (B & C). rewrite B, C, K3. split.
    - destruct o as [| | |[]]; cbn [epoch]; lia.
    - destruct o as [| | |[]]; reflexivity. }
  destruct (G ops (start E d0 dir) 0 eq_refl eq_refl) as (B & C). split; [exact B|exact C].
Qed.
Print Assumptions registry_of_epoch.

(** A unit of another registry is refused with ValueError by get_base_units, whatever was called before: the cache never answers for it. *)
Lemma find_incl : forall K V cmp (k : K) (c : cache (K := K) (V := V)) e c', find cmp k c = Ok (Some (e, c')) -> incl (e :: c') c /\ cmp k (fst e) = Same.
Proof.
  intros K V cmp k c. induction c as [|x c IH]; intros e c'; cbn [find]; [discriminate|].
  destruct (cmp k (fst x)) eqn:Q; [intros H; injection H as <- <-; split; [apply incl_refl|exact Q]| |discriminate].
  destruct (find cmp k c) as [[[y r']|]|] eqn:F; try discriminate. intros H. injection H as <- <-. destruct (IH _ _ eq_refl) as (I & S). split; auto.
  intros z [<-|[<-|Z]]; [right; apply I; left; reflexivity|left; reflexivity|right; apply I; right; exact Z].
Qed.
Lemma find_err : forall K V cmp (k : K) (c : cache (K := K) (V := V)) x, find cmp k c = Err x -> x = ValueError.
Proof.
  intros K V cmp k c. induction c as [|e c IH]; intros x; cbn [find]; [discriminate|]. destruct (cmp k (fst e)); [discriminate| |congruence].
  destruct (find cmp k c) as [[[y r']|]|] eqn:F; try discriminate. intros H. injection H as <-. eauto.
Qed.
Lemma reg_parse_id : forall E s r, reg_id E (fst (reg_parse E s r)) = reg_id E r.
Proof. intros E s r. unfold reg_parse. destruct (preprocess _ _ _ s _). reflexivity. Qed.
Lemma cached_id : forall E K V cmp n f k c r, (forall q, reg_id E (fst (f q)) = reg_id E q) -> reg_id E (fst (snd (@cached K V (registry E) cmp n f k c r))) = reg_id E r.
Proof. intros E K V cmp n f k c r F. unfold cached. destruct (find cmp k c) as [[[e c']|]|]; try reflexivity. specialize (F r). destruct (f r) as [r' [v|x]]; exact F. Qed.
Lemma parse_raw_id : forall E a ret q, reg_id E (fst (parse_raw E a ret q)) = reg_id E q.
Proof.
  intros E a ret q. unfold parse_raw. destruct a; try reflexivity.
  - destruct (of_bool ret); [|reflexivity]. pose proof (reg_parse_id E [] q) as H. destruct (reg_parse E [] q). exact H.
  - pose proof (reg_parse_id E (unmangled s) q) as H. destruct (reg_parse E (unmangled s) q). exact H.
Qed.
Lemma convert_raw_id : forall E v s1 s2 q, reg_id E (fst (convert_raw E v s1 s2 q)) = reg_id E q.
Proof.
  intros E v s1 s2 q. unfold convert_raw. destruct (teqb s1 s2); [reflexivity|]. pose proof (reg_parse_id E s1 q) as H. destruct (reg_parse E s1 q) as [r1 [u1|e]]; [|exact H].
  pose proof (reg_parse_id E s2 r1) as H2. cbn [fst] in H. destruct (reg_parse E s2 r1) as [r2 [u2|e]]; cbn [fst] in *; congruence.
Qed.
Lemma base_raw_id : forall E a q, reg_id E (fst (base_raw E a q)) = reg_id E q.
Proof.
  intros E a q. unfold base_raw, base_of. destruct a as [|s|g0 u0|]; try reflexivity.
  - pose proof (reg_parse_id E s q) as H. destruct (reg_parse E s q) as [r1 [u1|e]]; exact H.
  - destruct (g0 =? reg_id E q); reflexivity.
Qed.
Definition keys_of_now (E : engine) (s : module_state E) : Prop := forall g u v, In (AUnit E g u, v) (base_cache E s) -> g = reg_id E (reg E s).
Lemma keys_step : forall E Z o s, keys_of_now E s -> keys_of_now E (fst (step E Z o s)).
Proof.
  intros E Z o s H. unfold keys_of_now in *. destruct o as [x ret|v t1 t2|x|o]; cbn [step].
  - pose proof (cached_id E _ _ (cmp_parse E) (parse_size Z) _ (x, ret) (parse_cache E s) (reg E s) (parse_raw_id E x ret)) as I. destruct (cached _ _ _ _ _ _) as [c [r out]]. cbn in *. rewrite I. exact H.
  - pose proof (cached_id E _ _ (cmp_convert E) (convert_size Z) _ (v, t1, t2) (convert_cache E s) (reg E s) (convert_raw_id E v t1 t2)) as I. destruct (cached _ _ _ _ _ _) as [c [r out]]. cbn in *. rewrite I. exact H.
  - pose proof (cached_id E _ _ (cmp_arg E) (base_size Z) _ x (base_cache E s) (reg E s) (base_raw_id E x)) as I.
    unfold cached in *. destruct (find (cmp_arg E) x (base_cache E s)) as [[[e c']|]|] eqn:F; cbn [fst snd base_cache reg] in *.
    + apply find_incl in F as (F & _). intros g u v J. apply (H g u v). apply F. exact J.
    + destruct (base_raw E x (reg E s)) as [r' [v|y]] eqn:B; cbn [fst snd base_cache reg] in *; rewrite I; [|exact H].
      intros g u w J. assert (In (AUnit E g u, w) ((x, v) :: base_cache E s)) as [Q|Q] by (revert J; generalize ((x, v) :: base_cache E s); intros l J; rewrite <- (firstn_skipn (base_size Z) l); apply in_or_app; left; exact J).
      * injection Q as -> ->. cbn [base_raw] in B. destruct (Nat.eqb_spec g (reg_id E (reg E s))); [assumption|discriminate].
      * eauto.
    + exact H.
  - destruct o; cbn; tauto.
Qed.
Theorem foreign_unit_refused : forall E Z ops d0 dir g u, g <> epoch E ops ->
  snd (step E Z (Base_ E (AUnit E g u)) (snd (run E Z ops (start E d0 dir)))) = RBase E (Err ValueError).
Proof.
  intros E Z ops d0 dir g u N. destruct (registry_of_epoch E Z ops d0 dir) as (I & _). rewrite <- I in N.
  assert (keys_of_now E (snd (run E Z ops (start E d0 dir)))) as K.
  { assert (keys_of_now E (start E d0 dir)) as K by (intros g' u' v' []). revert K. generalize (start E d0 dir). clear.
    induction ops as [|o ops IH]; intros s K; cbn [run]; auto. apply (keys_step E Z o) in K. destruct (step E Z o s) as [s1 a]. specialize (IH s1 K). destruct (run E Z ops s1). exact IH. }
  revert N K. generalize (snd (run E Z ops (start E d0 dir))). clear. intros s N K. cbn [step]. unfold cached.
  destruct (find (cmp_arg E) (AUnit E g u) (base_cache E s)) as [[[[k v] c']|]|x] eqn:F.
  - exfalso. apply find_incl in F as (J & Q). cbn [fst] in Q. destruct k as [|t|g' u'|]; try discriminate. cbn [cmp_arg] in Q.
    destruct (unit_eqb E u u'); [|discriminate]. destruct (Nat.eqb_spec g g') as [->|]; [|discriminate]. apply N. apply (K g' u' v). apply J. left. reflexivity.
  - cbn [base_raw]. destruct (Nat.eqb_spec g (reg_id E (reg E s))); [congruence|]. reflexivity.
  - apply find_err in F. subst x. reflexivity.
Qed.
Print Assumptions foreign_unit_refused.

(** What parse_units gives back: a unit of the registry in force if return_unit is True, a text for a text otherwise, None for None; a unit given
    comes back as a unit of its registry. *)
Definition right_kind (E : engine) (now : nat) (a : arg E) (ret : option bool) (p : parsed E) : Prop :=
  match a with
  | AOther _ => False
  | AUnit _ g _ => exists u, p = PUnit E g u
  | AStr _ _ => match ret with Some true => exists u, p = PUnit E now u | _ => exists x, p = PStr E x end
  | ANone _ => match ret with Some true => exists u, p = PUnit E now u | _ => p = PNone E end
  end.
Lemma kind_raw : forall E a ret r p, snd (parse_raw E a ret r) = Ok p -> right_kind E (reg_id E r) a ret p.
Proof.
  intros E a ret r p. unfold parse_raw, right_kind. destruct a as [|s|g u|]; cbn [snd].
  - destruct ret as [[]|]; cbn [of_bool snd]; [|intros H; injection H as <-; reflexivity|intros H; injection H as <-; reflexivity].
    destruct (reg_parse E [] r) as [r' [u|x]]; cbn [snd]; intros H; [injection H as <-; eauto|discriminate].
  - destruct (reg_parse E (unmangled s) r) as [r' [u|x]]; cbn [snd]; intros H; [|discriminate]. injection H as <-. destruct ret as [[]|]; cbn [of_bool]; eauto.
  - intros H. injection H as <-. eauto.
  - discriminate.
Qed.
Lemma kind_same : forall E now a ret b ret' p, cmp_parse E (a, ret) (b, ret') = Same -> right_kind E now b ret' p -> right_kind E now a ret p.
Proof.
  intros E now a ret b ret' p. unfold cmp_parse. cbn [fst snd]. destruct (same_ret ret ret') eqn:R; [|discriminate].
  assert (ret' = ret) as ->. { destruct ret as [[]|], ret' as [[]|]; cbn in R; congruence. }
  destruct a as [|s|g u|], b as [|s'|g' u'|]; cbn [cmp_arg]; try discriminate; auto.
  destruct (unit_eqb E u u'); [|discriminate]. destruct (Nat.eqb_spec g g') as [->|]; [auto|discriminate].
Qed.
Definition kinds_kept (E : engine) (s : module_state E) : Prop := forall a ret p, In ((a, ret), p) (parse_cache E s) -> right_kind E (reg_id E (reg E s)) a ret p.
Lemma kinds_step : forall E Z o s, kinds_kept E s -> kinds_kept E (fst (step E Z o s)) /\
  (forall a ret p, o = Parse E a ret -> snd (step E Z o s) = RParse E (Ok p) -> right_kind E (reg_id E (reg E s)) a ret p).
Proof.
  intros E Z o s H. unfold kinds_kept in *. destruct o as [x ret|v t1 t2|x|o]; cbn [step].
  - pose proof (cached_id E _ _ (cmp_parse E) (parse_size Z) _ (x, ret) (parse_cache E s) (reg E s) (parse_raw_id E x ret)) as I.
    unfold cached in *. destruct (find (cmp_parse E) (x, ret) (parse_cache E s)) as [[[[[b ret'] q] c']|]|y] eqn:F; cbn [fst snd parse_cache reg] in *.
    + apply find_incl in F as (F & S). cbn [fst] in S. split; [intros a r p J; apply H, F, J|].
      intros a r p Q A. injection Q as <- <-. injection A as <-. apply (kind_same E _ x ret b ret'); auto. apply H, F. left. reflexivity.
    + pose proof (kind_raw E x ret (reg E s)) as Kr. destruct (parse_raw E x ret (reg E s)) as [r' [v|y]]; cbn [fst snd parse_cache reg] in *; rewrite I.
      * split; [|intros a r p Q A; injection Q as <- <-; injection A as <-; auto].
        intros a r w J. assert (In ((a, r), w) (((x, ret), v) :: parse_cache E s)) as [Q|Q] by (revert J; generalize (((x, ret), v) :: parse_cache E s); intros l J; rewrite <- (firstn_skipn (parse_size Z) l); apply in_or_app; left; exact J); [|auto].
        injection Q as <- <- <-. auto.
      * split; [exact H|]. intros a r p _ A. discriminate.
    + split; [exact H|]. intros a r p _ A. discriminate.
  - pose proof (cached_id E _ _ (cmp_convert E) (convert_size Z) _ (v, t1, t2) (convert_cache E s) (reg E s) (convert_raw_id E v t1 t2)) as I. destruct (cached _ _ _ _ _ _) as [c [r out]]. cbn in *. rewrite I. split; [exact H|discriminate].
  - pose proof (cached_id E _ _ (cmp_arg E) (base_size Z) _ x (base_cache E s) (reg E s) (base_raw_id E x)) as I. destruct (cached _ _ _ _ _ _) as [c [r out]]. cbn in *. rewrite I. split; [exact H|discriminate].
  - split; [destruct o; cbn; tauto|discriminate].
Qed.
(** Whatever was called before, and whatever the caches hold. *)
Theorem parse_gives_kind : forall E Z ops d0 dir a ret p,
  snd (step E Z (Parse E a ret) (snd (run E Z ops (start E d0 dir)))) = RParse E (Ok p) -> right_kind E (epoch E ops) a ret p.
Proof.
  intros E Z ops d0 dir a ret p A. destruct (registry_of_epoch E Z ops d0 dir) as (I & _). rewrite <- I.
  assert (kinds_kept E (snd (run E Z ops (start E d0 dir)))) as K.
  { assert (kinds_kept E (start E d0 dir)) as K by (intros a' r' p' []). revert K. generalize (start E d0 dir). clear.
    induction ops as [|o ops IH]; intros s K; cbn [run]; auto. apply (kinds_step E Z o) in K as (K & _). destruct (step E Z o s) as [s1 b]. specialize (IH s1 K). destruct (run E Z ops s1). exact IH. }
  exact (proj2 (kinds_step E Z (Parse E a ret) _ K) a ret p eq_refl A).
Qed.
Print Assumptions parse_gives_kind.

(** Anything but a text, a unit or None is refused by parse_units with UndefinedUnitError, in every state. *)
Theorem parse_other_refused : forall E Z s ret, snd (step E Z (Parse E (AOther E) ret) s) = RParse E (Err UndefinedUnitError).
Proof.
  intros E Z s ret. cbn [step]. assert (find (cmp_parse E) (AOther E, ret) (parse_cache E s) = Ok None) as F.
  { induction (parse_cache E s) as [|[[b r] v] c IH]; cbn [find fst]; auto. assert (cmp_parse E (AOther E, ret) (b, r) = Differ) as ->; [|now rewrite IH].
    unfold cmp_parse. cbn [fst snd]. destruct (same_ret ret r), b; reflexivity. }
  unfold cached. rewrite F. reflexivity.
Qed.
Print Assumptions parse_other_refused.

(** ** A small engine, for examples *)
(** A definitions file is a number; a unit is its preprocessed text; the ratio of a unit spells the definitions of
    its scaled units; every conversion gives the definitions in force. *)
Inductive pynum := PInt (n : nat) | PFloat (n : nat) | PText (s : text).
Definition pynum_eqb (a b : pynum) : bool :=
  match a, b with
  | PText s, PText s' => teqb s s'
  | PInt n, PInt m | PInt n, PFloat m | PFloat n, PInt m | PFloat n, PFloat m => n =? m
  | _, _ => false
  end.
Definition gathered (look : text -> option text) (u : text) : text :=
  concat (map (fun w => match look w with Some v => v | None => [] end) (words u)).
Definition known_words (look : text -> option text) (u : text) : bool :=
  forallb (fun w => negb (own_name w) || match look w with Some _ => true | None => false end) (words u).
(** A scaled unit is worth its text without blanks and plus signs. *)
Definition small : engine := {|
  defs := nat; value := text; unit_t := text; num := pynum;
  long_name := fun _ u => Ok (t "x" ++ u);
  evaluate := fun _ x => Ok (stripped_term (mkScaled x [] None));
  pint_parse := fun _ look x => if known_words look x then Ok x else Err UndefinedUnitError;
  pint_convert := fun d _ _ _ _ => Ok (PInt d);
  pint_base := fun d look u => Ok (t "base", PText (gathered look u), PInt d);
  pint_format := fun u => u;
  unit_eqb := teqb; num_eqb := pynum_eqb
|}.
Theorem small_ok : pint_ok small words words.
Proof.
  assert (L : forall f g x, agree small (words x) f g -> known_words f x = known_words g x /\ gathered f x = gathered g x).
  { intros f g x A. unfold known_words, gathered. unfold agree in A. cbn in A. induction (words x) as [|w l IH]; auto. cbn. rewrite (A w) by now left.
    destruct IH as (B & C); [intros n I; apply A; now right|]. rewrite B, C. auto. }
  constructor; cbn.
  - intros d f g x A. destruct (L f g x A) as (-> & _). reflexivity.
  - intros d f x u H n I. destruct (known_words f x); [|discriminate]. now injection H as <-.
  - auto.
  - intros. now left.
  - intros d f g u A. destruct (L f g u A) as (_ & ->). reflexivity.
  - intros d f u b x y H n I. injection H as <- _ _. cbn in I. destruct I as [<-|[]]. reflexivity.
  - intros u v H. now apply teqb_iff.
  - assert (C : forall s s', teqb s s' = teqb s' s).
    { intros s s'. apply eq_true_iff_eq. rewrite !teqb_iff. intuition. }
    intros [n|n|s] [m|m|s']; cbn; auto using Nat.eqb_sym.
Qed.
Print Assumptions small_ok.
Theorem small_spelling_free : spelling_free small.
Proof.
  exists (fun _ n full => Ok (n ++ tl full)). intros d l gap u full G B I U H. cbn in H. injection H as <-.
  exact (f_equal Ok (stripped_spelled l gap u [] None G B (or_introl I) U)).
Qed.
Print Assumptions small_spelling_free.

(** The last answer of a history: the text of what is returned, a number's type, or what is raised. *)
Inductive said := Said (s : string) | Int (n : nat) | Float (n : nat) | Raised (x : exn) | Nothing.
Definition say (a : answer small) : said :=
  match a with
  | RParse _ (Ok (PUnit _ _ u)) => Said (string_of_list_ascii u)
  | RParse _ (Ok (PStr _ u)) => Said (string_of_list_ascii u)
  | RConvert _ (Ok (PInt n)) => Int n
  | RConvert _ (Ok (PFloat n)) => Float n
  | RBase _ (Ok (_, _, PText s, _)) => Said (string_of_list_ascii s)
  | RParse _ (Err x) | RConvert _ (Err x) | RBase _ (Err x) | RChange _ (Err x) => Raised x
  | _ => Nothing
  end.
Definition ask (ops : list (op small)) : said :=
  last (map (fun p => say (snd p)) (fst (run small (mkSizes 9 9 9) ops (start small 7 "home")))) Nothing.
Definition text_of (s : string) : arg small := AStr small (t s).

(** ** Where it fails *)
(** Which of two scaled units with one name was read first decides what the other is worth. *)
Theorem point_and_sign_history_refuted :
  ask [Base_ small (text_of "g / .5 m")] = Said ".5m"
  /\ ask [Parse small (text_of "g / -5 m") None; Base_ small (text_of "g / .5 m")] = Said "-5m".
Proof. split; vm_compute; reflexivity. Qed.
Print Assumptions point_and_sign_history_refuted.
(** An internal name is a unit once it has been used. *)
Theorem leaked_name_refuted :
  ask [Base_ small (text_of "_5_xm")] = Raised UndefinedUnitError
  /\ ask [Parse small (text_of "g / 5 m") None; Base_ small (text_of "_5_xm")] = Said "5m".
Proof. split; vm_compute; reflexivity. Qed.
(** A unit of a replaced registry, once parsed again, makes the same unit of the new registry be refused. *)
Theorem stale_unit_refuted :
  ask [Change small (Loaded small "there" 8); Parse small (AUnit small 1 (t "m")) None] = Said "m"
  /\ ask [Change small (Loaded small "there" 8); Parse small (AUnit small 0 (t "m")) None; Parse small (AUnit small 1 (t "m")) None] = Raised ValueError.
Proof. split; vm_compute; reflexivity. Qed.
(** An integer is returned as the float that was asked for before. *)
Theorem number_type_refuted :
  ask [Convert small (PInt 1) (t "m") (t "m")] = Int 1
  /\ ask [Convert small (PFloat 1) (t "m") (t "m"); Convert small (PInt 1) (t "m") (t "m")] = Float 1.
Proof. split; vm_compute; reflexivity. Qed.
(** Neither an older definition nor a failing change shows. *)
Example change_ex :
  ask [Convert small (PInt 1) (t "g") (t "m"); Change small (Loaded small "there" 8); Change small (NotLoaded small "there" FileNotFoundError); Convert small (PInt 1) (t "g") (t "m")] = Int 8.
Proof. vm_compute. reflexivity. Qed.

(** *** The hypotheses are met *)
(** Texts without a scaled unit, one with, any cache size, a change that fails and one that does not. *)
Definition two_texts (d : nat) (s : text) : Prop := In s [t "g"; t "m"; []; t "g / 2.5 m"].
Lemma two_texts_ok : texts_ok small words two_texts.
Proof.
  constructor; cbn.
  - intros d s x n I X. unfold preprocessed in X. repeat (destruct I as [<-|I]; [vm_compute in X; injection X as <-; cbn; intros J N|]); [| | | |destruct I].
    + destruct J as [<-|[]]; discriminate.
    + destruct J as [<-|[]]; discriminate.
    + destruct J.
    + destruct J as [<-|[<-|[]]]; [discriminate|]. eexists. split; [vm_compute; left; reflexivity|]. vm_compute. reflexivity.
  - intros d s s' a b n I I' A B _ _.
    assert (Q : forall s a, In s [t "g"; t "m"; []; t "g / 2.5 m"] -> In a (scaled_in s) -> a = mkScaled (t "2.5 m") (t "2.5") (Some (t "m"))).
    { clear. intros s a I A. repeat (destruct I as [<-|I]; [vm_compute in A|]); [| | | |destruct I]; repeat (destruct A as [A|A]; [now symmetry|]); contradiction. }
    rewrite (Q s a I A), (Q s' b I' B). reflexivity.
Qed.
Definition history_ex : list (op small) :=
  [Parse small (text_of "g / 2.5 m") (Some true); Base_ small (AUnit small 0 (t "g / _2_5_xm")); Convert small (PInt 3) (t "g") (t "m");
   Change small (NotLoaded small "there" FileNotFoundError); Convert small (PFloat 3) (t "g") (t "m"); Change small (Loaded small "there" 9);
   Convert small (PInt 3) (t "g") (t "m"); Base_ small (text_of "g / 2.5 m"); Base_ small (text_of "g / 2.5 m"); Parse small (ANone small) (Some true)].
Lemma run_ops : forall E Z ops s, map fst (fst (run E Z ops s)) = ops.
Proof. induction ops as [|o ops IH]; intros s; cbn [run]; auto. destruct (step E Z o s) as [s1 a]. specialize (IH s1). destruct (run E Z ops s1). cbn [fst map] in *. now rewrite IH. Qed.
Lemma run_cons : forall E Z o ops s, fst (run E Z (o :: ops) s) = (o, snd (step E Z o s)) :: fst (run E Z ops (fst (step E Z o s))).
Proof. intros E Z o ops s. cbn [run]. destruct (step E Z o s) as [s1 a]. cbn [fst snd]. destruct (run E Z ops s1). reflexivity. Qed.
Example history_right : forall n, let calls := fst (run small (mkSizes n n n) history_ex (start small 7 "home")) in
  fair small two_texts 7 calls /\ all_right small words two_texts 7 calls.
Proof.
  intros n calls. assert (F : fair small two_texts 7 calls); [|split; [exact F|exact (cached_answers_right_partial small words words two_texts small_ok two_texts_ok _ _ _ _ F)]].
  intros past o a future H. pose proof (run_ops small (mkSizes n n n) history_ex (start small 7 "home")) as M. fold calls in M. rewrite H, map_app in M. cbn [map fst] in M.
  assert (I : In o history_ex) by (rewrite <- M; apply in_or_app; right; now left). split.
  - assert (K : forall s, In s (op_texts small o) -> In s [t "g"; t "m"; []; t "g / 2.5 m"]); [|intros s J; apply (K s J)].
    unfold history_ex in I. repeat (destruct I as [<-|I]; [intros s J; cbn in J; cbn; intuition|]). destruct I.
  - intros g u J.
    assert (O : o = Base_ small (AUnit small 0 (t "g / _2_5_xm"))).
    { unfold history_ex in I. repeat (destruct I as [<-|I]; [solve [reflexivity|contradiction]|]). destruct I. }
    subst o. destruct J as [J|[]]. injection J as <- <-.
    destruct past as [|[o1 a1] [|p2 past]].
    + discriminate M.
    + unfold calls, history_ex in H. rewrite run_cons in H. cbn [app] in H. set (a2 := snd (step small _ _ _)) in H.
      assert (B : answer_units small a2 = [(0, t "g / _2_5_xm")]) by (subst a2; vm_compute; reflexivity). clearbody a2.
      match type of H with _ :: ?x = _ => set (rest := x) in H; clearbody rest end. injection H as <- <- _. split; [reflexivity|].
      cbn [map snd concat]. rewrite B. now left.
    + exfalso. apply (f_equal (map (fun o => match op_units small o with [] => false | _ => true end))) in M. unfold history_ex in M. rewrite map_app in M. cbn [map op_units text_of fst] in M. clear - M.
      destruct p2 as [o2 a2]. cbn [app fst] in M. injection M as _ _ M.
      assert (X : In true [false; false; false; false; false; false; false; false]) by (rewrite <- M; apply in_or_app; right; now left). cbn in X. intuition discriminate.
Qed.

Print Assumptions leaked_name_refuted.
Print Assumptions stale_unit_refuted.
Print Assumptions number_type_refuted.
(** A unit parsed before a change of definitions is one of another registry after it. *)
Example case_foreign : let ops := [Base_ small (AUnit small 0 (t "m")); Change small (Loaded small "there" 8); Base_ small (AUnit small 1 (t "m"))] in 0 <> epoch small ops.
Proof. vm_compute. discriminate. Qed.
(** A text comes back as a text if return_unit is left out, as a unit of the new registry if it is True. *)
Example case_kind : ask [Change small (Loaded small "there" 8); Parse small (AStr small (t "m")) None] = Said "m"
  /\ snd (step small (mkSizes 4 4 4) (Parse small (AStr small (t "m")) (Some true)) (snd (run small (mkSizes 4 4 4) [Change small (Loaded small "there" 8)] (start small 7 "here")))) = RParse small (Ok (PUnit small 1 (t "m"))).
Proof. split; vm_compute; reflexivity. Qed.
