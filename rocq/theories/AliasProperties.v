(** C71: lists of tags and labels behave as values of their entities. *)
From Coq Require Import String List Bool Arith Lia.
From Verif Require Import Base AliasModel AliasSpec.
Import ListNotations.
Open Scope list_scope.

(** No two entities have a list in common, and every list there is has an address that was given out. *)
Record inv (w : world) : Prop := {
  i_ents : forall x e, ents w x = Some e -> x < count w /\ e_tags e < fresh w /\ (forall a, e_labels e = Some a -> a < fresh w);
  i_tags : forall x y e e', ents w x = Some e -> ents w y = Some e' -> e_tags e = e_tags e' -> x = y;
  i_labels : forall x y e e' a, ents w x = Some e -> ents w y = Some e' -> e_labels e = Some a -> e_labels e' = Some a -> x = y;
  i_apart : forall x y e e' a, ents w x = Some e -> ents w y = Some e' -> e_labels e' = Some a -> e_tags e <> a;
  i_spec : forall x e, ents w x = Some e -> is_run e = false -> e_labels e <> None /\ e_spec e = NoSpec;
  i_ref : forall x e s, ents w x = Some e -> e_spec e = SpecOf s -> exists e', ents w s = Some e' /\ is_run e' = false;
  i_vars : forall v a, vars w v = Some a -> a < fresh w }.

Lemma upd_eq : forall A x (v : A) f, upd x v f x = v.
Proof. intros. unfold upd. now rewrite Nat.eqb_refl. Qed.
Lemma upd_ne : forall A x (v : A) f y, y <> x -> upd x v f y = f y.
Proof. intros. unfold upd. destruct (Nat.eqb_spec y x); congruence. Qed.

Lemma inv_start : inv start.
Proof. split; cbn; intros; discriminate. Qed.
Lemma inv_cells : forall w c, inv w -> inv (mkWd c (fresh w) (ents w) (count w) (vars w)).
Proof. intros w c [A B C D E F G]. split; auto. Qed.
Lemma inv_alloc : forall w l, inv w -> inv (alloc l w).
Proof.
  intros w l [A B C D E F G]. split; cbn; eauto.
  - intros x e H. destruct (A x e H) as (X & Y & Z). split; auto. split; [lia|]. intros a I. specialize (Z a I). lia.
  - intros v a H. specialize (G v a H). lia.
Qed.
Lemma inv_hold : forall w v a, inv w -> (forall b, a = Some b -> b < fresh w) -> inv (mkWd (cells w) (fresh w) (ents w) (count w) (upd v a (vars w))).
Proof.
  intros w v a [A B C D E F G] H. split; cbn; eauto. intros u b U. unfold upd in U. destruct (Nat.eqb u v); eauto.
Qed.
(** An entity is made, or gets other lists: allowed if its lists are not those of another one. *)
Lemma inv_put : forall w x e, inv w -> (x < count w) ->
  (forall y e', y <> x -> ents w y = Some e' -> e_tags e' <> e_tags e /\ (forall a, e_labels e' = Some a -> a <> e_tags e /\ e_labels e <> Some a) /\ e_labels e <> Some (e_tags e')) ->
  e_labels e <> Some (e_tags e) -> e_tags e < fresh w -> (forall a, e_labels e = Some a -> a < fresh w) ->
  (is_run e = false -> e_labels e <> None /\ e_spec e = NoSpec) ->
  (forall s, e_spec e = SpecOf s -> s <> x /\ exists e', ents w s = Some e' /\ is_run e' = false) ->
  (is_run e = true -> forall e0, ents w x = Some e0 -> is_run e0 = true) ->
  inv (put x e w).
Proof.
  intros w x e [A B C D E F G] L O T Lt Ll S R K.
  assert (Cases : forall y e', upd x (Some e) (ents w) y = Some e' -> (y = x /\ e' = e) \/ (y <> x /\ ents w y = Some e')).
  { intros y e' H. unfold upd in H. destruct (Nat.eqb_spec y x); [left; split; congruence|right; auto]. }
  split; cbn [put ents fresh count vars].
  - intros y e' H. apply Cases in H as [[-> ->]|[N H]]; auto.
  - intros y z e1 e2 H1 H2 Q. apply Cases in H1 as [[-> ->]|[N1 H1]], H2 as [[-> ->]|[N2 H2]]; auto.
    + exfalso. destruct (O z e2 N2 H2) as (X & _). congruence.
    + exfalso. destruct (O y e1 N1 H1) as (X & _). congruence.
    + eauto.
  - intros y z e1 e2 a H1 H2 Q1 Q2. apply Cases in H1 as [[-> ->]|[N1 H1]], H2 as [[-> ->]|[N2 H2]]; auto.
    + exfalso. destruct (O z e2 N2 H2) as (_ & X & _). now destruct (X a Q2).
    + exfalso. destruct (O y e1 N1 H1) as (_ & X & _). now destruct (X a Q1).
    + eauto.
  - intros y z e1 e2 a H1 H2 Q. apply Cases in H1 as [[-> ->]|[N1 H1]], H2 as [[-> ->]|[N2 H2]].
    + congruence.
    + destruct (O z e2 N2 H2) as (_ & X & _). destruct (X a Q). congruence.
    + destruct (O y e1 N1 H1) as (_ & _ & X). congruence.
    + eauto.
  - intros y e' H. apply Cases in H as [[-> ->]|[N H]]; eauto.
  - intros y e' s H Q. apply Cases in H as [[-> ->]|[N H]].
    + destruct (R s Q) as (Ns & e1 & H1 & R1). exists e1. split; auto. now rewrite upd_ne.
    + destruct (F y e' s H Q) as (e1 & H1 & R1). destruct (Nat.eq_dec s x) as [->|Ns]; [|exists e1; split; auto; now rewrite upd_ne].
      exists e. rewrite upd_eq. split; auto. destruct (is_run e) eqn:Re; auto. rewrite (K eq_refl e1 H1) in R1. discriminate.
  - exact G.
Qed.

Lemma get_labels_fresh : forall w x a, inv w -> get_labels w x = Some a -> a < fresh w.
Proof.
  intros w x a I H. unfold get_labels in H. destruct (ents w x) as [e|] eqn:Ex; [|discriminate].
  destruct (e_spec e) as [| |s]; [|
   |destruct (ents w s) as [e'|] eqn:Es; [|discriminate]; now apply (i_ents _ I s e' Es)]; now apply (i_ents _ I x e Ex).
Qed.
Lemma get_tags_fresh : forall w x a, inv w -> get_tags w x = Some a -> a < fresh w.
Proof. intros w x a I H. unfold get_tags in H. destruct (ents w x) as [e|] eqn:Ex; [|discriminate]. injection H as <-. exact (proj1 (proj2 (i_ents _ I x e Ex))). Qed.
Lemma inv_append : forall a t w, inv w -> inv (fst (append a t w)).
Proof. intros [a|] t w I; [|exact I]. now apply inv_cells. Qed.

(** A new entity *)
Lemma inv_new : forall w e, inv w ->
  (forall y e', ents w y = Some e' -> e_tags e' <> e_tags e /\ (forall a, e_labels e' = Some a -> a <> e_tags e /\ e_labels e <> Some a) /\ e_labels e <> Some (e_tags e')) ->
  e_labels e <> Some (e_tags e) -> e_tags e < fresh w -> (forall a, e_labels e = Some a -> a < fresh w) ->
  (is_run e = false -> e_labels e <> None /\ e_spec e = NoSpec) ->
  (forall s, e_spec e = SpecOf s -> exists e', ents w s = Some e' /\ is_run e' = false) ->
  inv (mkWd (cells w) (fresh w) (upd (count w) (Some e) (ents w)) (S (count w)) (vars w)).
Proof.
  intros w e I O T Lt Ll S0 R.
  assert (inv (mkWd (cells w) (fresh w) (ents w) (S (count w)) (vars w))) as I'.
  { destruct I as [A B C D E F G]. split; cbn; eauto. intros x e0 H. destruct (A x e0 H) as (X & Y). split; [lia|exact Y]. }
  apply (inv_put _ (count w) e) in I'; cbn; eauto.
  - intros s Q. destruct (R s Q) as (e' & H & K). split; eauto. apply (i_ents _ I) in H as (H & _). lia.
  - intros _ e0 H. apply (i_ents _ I) in H as (H & _). lia.
Qed.
Lemma spec_ok_ref : forall w s x, spec_ok w s = true -> s = SpecOf x -> exists e', ents w x = Some e' /\ is_run e' = false.
Proof. intros w s x H ->. cbn in H. unfold is_spec in H. destruct (ents w x) as [e|]; [|discriminate]. exists e. split; auto. now destruct (is_run e). Qed.

Lemma inv_tags : forall w x e l, inv w -> ents w x = Some e -> inv (put x (mkEnt (is_run e) (fresh w) (e_labels e) (e_spec e)) (alloc l w)).
Proof.
  intros w x e l I H. pose proof (i_ents _ I x e H) as (X & Y & Z). apply inv_put; cbn; auto.
  - now apply inv_alloc.
  - intros y e' N Hy. pose proof (i_ents _ I y e' Hy) as (Xy & Yy & Zy). split; [lia|]. split.
    + intros a A. specialize (Zy a A). split; [lia|]. intros Q. apply N. eapply i_labels; eauto.
    + intros Q. eapply (i_apart _ I y x e' e); eauto.
  - intros Q. specialize (Z _ Q). lia.
  - intros a Q. specialize (Z _ Q). lia.
  - intros R. eapply i_spec; eauto.
  - intros s Q. destruct (i_ref _ I x e s H Q) as (e' & Hs & K). split; eauto. intros ->. rewrite H in Hs. injection Hs as <-.
    destruct (i_spec _ I _ _ H K). congruence.
  - intros R e0 H0. congruence.
Qed.
Lemma inv_labels : forall w x e l, inv w -> ents w x = Some e -> inv (put x (mkEnt (is_run e) (e_tags e) (Some (fresh w)) (e_spec e)) (alloc l w)).
Proof.
  intros w x e l I H. pose proof (i_ents _ I x e H) as (X & Y & Z). apply inv_put; cbn; auto.
  - now apply inv_alloc.
  - intros y e' N Hy. pose proof (i_ents _ I y e' Hy) as (Xy & Yy & Zy). split; [intros Q; apply N; eapply i_tags; eauto|]. split.
    + intros a A. pose proof (Zy a A). split; [intros Q; subst a; eapply (i_apart _ I x y e e'); eauto|]. intros Q. injection Q as Q. lia.
    + intros Q. injection Q as Q. lia.
  - intros Q. injection Q as Q. lia.
  - intros a Q. injection Q as <-. lia.
  - intros R. split; [discriminate|]. eapply i_spec; eauto.
  - intros s Q. destruct (i_ref _ I x e s H Q) as (e' & Hs & K). split; eauto. intros ->. rewrite H in Hs. injection Hs as <-.
    destruct (i_spec _ I _ _ H K). congruence.
  - intros R e0 H0. congruence.
Qed.
Lemma keep_cases : forall x e w w' e', keep_labels x e w = (w', e') ->
  (exists s, e_spec e = SpecOf s /\ e' = mkEnt (is_run e) (e_tags e) (Some (fresh w)) (e_spec e) /\ w' = put x e' (alloc (value w (LabelsOf s)) w)) \/
  ((forall s, e_spec e <> SpecOf s) /\ e' = e /\ w' = w).
Proof. intros x e w w' e' H. unfold keep_labels in H. destruct (e_spec e) eqn:Q; injection H as <- <-; [right|right|left]; try (split; [discriminate|auto]). eexists. eauto. Qed.
Lemma inv_keep : forall x e w w' e', inv w -> ents w x = Some e -> keep_labels x e w = (w', e') -> inv w' /\ ents w' x = Some e' /\ is_run e' = is_run e.
Proof.
  intros x e w w' e' I H K. apply keep_cases in K as [(s & Q & -> & ->)|(Q & -> & ->)]; auto.
  split; [now apply inv_labels|]. cbn. now rewrite upd_eq.
Qed.
Lemma inv_spec : forall w x e s, inv w -> ents w x = Some e -> is_run e = true -> (forall y, s = SpecOf y -> exists e', ents w y = Some e' /\ is_run e' = false) ->
  inv (put x (mkEnt (is_run e) (e_tags e) (e_labels e) s) w).
Proof.
  intros w x e s I H R O. pose proof (i_ents _ I x e H) as (X & Y & Z). apply inv_put; cbn; auto.
  - intros y e' N Hy. split; [intros Q; apply N; eapply i_tags; eauto|]. split.
    + intros a A. split; [intros ->; eapply (i_apart _ I x y e e'); eauto|]. intros Q. apply N. eapply i_labels; eauto.
    + intros Q. eapply (i_apart _ I y x e' e); eauto.
  - intros Q. eapply (i_apart _ I x x e e); eauto.
  - congruence.
  - intros y Q. destruct (O y Q) as (e' & Hy & K). split; eauto. intros ->. congruence.
  - intros _ e0 H0. congruence.
Qed.
Lemma inv_step : forall p w, inv w -> inv (fst (step p w)).
Proof.
  intros p w I. destruct p as [t l|t s|x s|x s|x s|x|x t|x t|v x|v x|v t]; cbn [step].
  - apply (inv_new (alloc (value w l) (alloc (value w t) w))); cbn; try (now repeat apply inv_alloc); try lia; try discriminate.
    + intros y e' Hy. pose proof (i_ents _ I y e' Hy) as (Xy & Yy & Zy). split; [lia|]. split; [|intros Q; injection Q; lia].
      intros a A. specialize (Zy a A). split; [lia|]. intros Q. injection Q. lia.
    + intros Q. injection Q. lia.
    + intros a Q. injection Q. lia.
  - destruct (spec_ok w s) eqn:K; [|exact I]. apply (inv_new (alloc (value w t) w)); cbn; try (now apply inv_alloc); try lia; try discriminate.
    + intros y e' Hy. pose proof (i_ents _ I y e' Hy) as (Xy & Yy & Zy). split; [lia|]. split; [|discriminate].
      intros a A. specialize (Zy a A). split; [lia|discriminate].
    + intros y Q. eapply spec_ok_ref; eauto.
  - destruct (ents w x) as [e|] eqn:H; [|exact I]. now apply inv_tags.
  - destruct (ents w x) as [e|] eqn:H; [|exact I]. destruct (is_run e) eqn:R; [exact I|]. cbn [fst]. rewrite <- R. now apply inv_labels.
  - destruct (ents w x) as [e|] eqn:H; [|exact I]. destruct (is_run e) eqn:R; [|exact I]. destruct (keep_labels x e w) as [w' e'] eqn:K.
    destruct (inv_keep _ _ _ _ _ I H K) as (I' & H' & R'). destruct (spec_ok w s) eqn:O; cbn [fst]; [|exact I'].
    apply inv_spec; auto; [congruence|]. intros y Q. destruct (spec_ok_ref w s y O Q) as (e1 & H1 & R1).
    destruct (Nat.eq_dec y x) as [->|N]; [congruence|]. exists e1. split; auto.
    apply keep_cases in K as [(s' & _ & _ & ->)|(_ & _ & ->)]; auto. cbn. now rewrite upd_ne.
  - destruct (ents w x) as [e|] eqn:H; [|exact I]. destruct (is_run e) eqn:R; [|exact I]. destruct (keep_labels x e w) as [w' e'] eqn:K. cbn [fst].
    now destruct (inv_keep _ _ _ _ _ I H K).
  - now apply inv_append.
  - now apply inv_append.
  - apply inv_hold; auto. intros b. now apply get_tags_fresh.
  - apply inv_hold; auto. intros b. now apply get_labels_fresh.
  - now apply inv_append.
Qed.
Lemma inv_reachable : forall w, reachable w -> inv w.
Proof.
  intros w (ps & ->). unfold run. generalize inv_start. generalize start. induction ps as [|p ps IH]; intros w I; cbn; auto. apply IH. now apply inv_step.
Qed.

(** Changing the cells at one address *)
Definition poke (a : nat) (l : list string) (w : world) : world := mkWd (upd a l (cells w)) (fresh w) (ents w) (count w) (vars w).
Lemma poke_tags : forall a l w y, tags (poke a l w) y = match get_tags w y with Some b => Some (if Nat.eqb b a then l else cells w b) | None => None end.
Proof. intros. unfold tags, content, get_tags. cbn. destruct (ents w y) as [e|]; reflexivity. Qed.
Lemma poke_labels : forall a l w y, labels (poke a l w) y = match get_labels w y with Some b => Some (if Nat.eqb b a then l else cells w b) | None => None end.
Proof. intros. unfold labels, content. change (get_labels (poke a l w) y) with (get_labels w y). destruct (get_labels w y); reflexivity. Qed.
Lemma poke_tags_ne : forall a l w, (forall y, get_tags w y <> Some a) -> same_tags w (poke a l w).
Proof. intros a l w H y. rewrite poke_tags. unfold tags, content. specialize (H y). destruct (get_tags w y) as [b|]; cbn; auto. destruct (Nat.eqb_spec b a); congruence. Qed.
Lemma poke_labels_ne : forall a l w, (forall y, get_labels w y <> Some a) -> same_labels w (poke a l w).
Proof. intros a l w H y. rewrite poke_labels. unfold labels, content. specialize (H y). destruct (get_labels w y) as [b|]; cbn; auto. destruct (Nat.eqb_spec b a); congruence. Qed.

(** Whose list is shown *)
Lemma get_labels_from : forall w y, inv w -> ents w y <> None -> exists e, ents w (shown_from w y) = Some e /\ get_labels w y = e_labels e.
Proof.
  intros w y I H. unfold get_labels, shown_from. destruct (ents w y) as [e|] eqn:E; [|congruence]. destruct (e_spec e) as [| |s] eqn:S; eauto.
  destruct (i_ref _ I y e s E S) as (e' & H' & _). rewrite H'. eauto.
Qed.
Lemma labels_owner : forall w x y a, inv w -> get_labels w x = Some a -> get_labels w y = Some a -> shown_from w x = shown_from w y.
Proof.
  intros w x y a I Hx Hy.
  destruct (get_labels_from w x I) as (e & Ex & Lx); [unfold get_labels in Hx; destruct (ents w x); discriminate|].
  destruct (get_labels_from w y I) as (e' & Ey & Ly); [unfold get_labels in Hy; destruct (ents w y); discriminate|].
  apply (i_labels _ I _ _ e e' a Ex Ey); congruence.
Qed.
Lemma tags_not_labels : forall w x y a, inv w -> get_tags w x = Some a -> get_labels w y <> Some a.
Proof.
  intros w x y a I Hx Hy.
  destruct (get_labels_from w y I) as (e' & Ey & Ly); [unfold get_labels in Hy; destruct (ents w y); discriminate|].
  unfold get_tags in Hx. destruct (ents w x) as [e|] eqn:E; [|discriminate]. injection Hx as Hx.
  apply (i_apart _ I x _ e e' a E Ey); congruence.
Qed.
Lemma tags_owner : forall w x y a, inv w -> get_tags w x = Some a -> get_tags w y = Some a -> x = y.
Proof.
  intros w x y a I Hx Hy. unfold get_tags in *. destruct (ents w x) as [e|] eqn:E; [|discriminate]. destruct (ents w y) as [e'|] eqn:E'; [|discriminate].
  injection Hx as Hx. injection Hy as Hy. eapply i_tags; eauto. congruence.
Qed.
Lemma spec_shown : forall w x, inv w -> is_spec w x = true -> shown_from w x = x.
Proof. intros w x I H. unfold is_spec in H. unfold shown_from. destruct (ents w x) as [e|] eqn:E; [|discriminate]. destruct (i_spec _ I x e E) as (_ & ->); auto. now destruct (is_run e). Qed.

(** As objects: the tags of two entities are never one list, nor are tags and labels; the labels of two entities are one list only if both show those of the same one. *)
Theorem lists_never_shared : forall w x y a, reachable w ->
  (get_tags w x = Some a -> get_tags w y = Some a -> x = y) /\ (get_tags w x = Some a -> get_labels w y <> Some a) /\
  (get_labels w x = Some a -> get_labels w y = Some a -> shown_from w x = shown_from w y).
Proof.
  intros w x y a R. apply inv_reachable in R. split; [|split]; intros H.
  - intros H'. eapply tags_owner; eauto.
  - eapply tags_not_labels; eauto.
  - intros H'. eapply labels_owner; eauto.
Qed.
(** x.tags.append(t) adds t to the tags of x and changes no other tags and no labels. *)
Theorem append_tags_local : forall w x t l, reachable w -> tags w x = Some l ->
  let r := step (AppendTags x t) w in
  snd r = None /\ tags (fst r) x = Some (l ++ [t]) /\ same_tags_but x w (fst r) /\ same_labels w (fst r).
Proof.
  intros w x t l R H. apply inv_reachable in R. cbn [step]. unfold tags, content in H. destruct (get_tags w x) as [a|] eqn:G; [|discriminate].
  cbn [option_map] in H. injection H as H. cbn [append fst snd]. split; auto. fold (poke a (cells w a ++ [t]) w). split; [|split].
  - rewrite poke_tags, G, Nat.eqb_refl. now subst l.
  - intros y N. rewrite poke_tags. unfold tags, content. destruct (get_tags w y) as [b|] eqn:Gy; auto. destruct (Nat.eqb_spec b a) as [->|]; auto.
    exfalso. apply N. eapply tags_owner; eauto.
  - apply poke_labels_ne. intros y. eapply tags_not_labels; eauto.
Qed.
(** x.labels.append(t) changes the labels of the spec that x shows them from, and of all its runs: of these, and of nothing else. *)
Theorem append_labels_shared : forall w x t l, reachable w -> labels w x = Some l ->
  let r := step (AppendLabels x t) w in
  snd r = None /\ labels_shown (shown_from w x) (l ++ [t]) w (fst r) /\ same_tags w (fst r).
Proof.
  intros w x t l R H. apply inv_reachable in R. cbn [step]. unfold labels, content in H. destruct (get_labels w x) as [a|] eqn:G; [|discriminate].
  cbn [option_map] in H. injection H as H. cbn [append fst snd]. split; auto. fold (poke a (cells w a ++ [t]) w). split.
  - intros y. rewrite poke_labels, H. destruct (Nat.eqb_spec (shown_from w y) (shown_from w x)) as [Q|N].
    + destruct (ents w y) as [e|] eqn:E; [|unfold get_labels; now rewrite E].
      destruct (get_labels_from w y R) as (e' & Ey & Ly); [congruence|]. destruct (get_labels_from w x R) as (e1 & Ex & Lx); [unfold get_labels in G; destruct (ents w x); discriminate|].
      rewrite Q, Ex in Ey. injection Ey as <-. rewrite Ly, <- Lx, G, Nat.eqb_refl. reflexivity.
    + unfold labels, content. destruct (get_labels w y) as [b|] eqn:Gy; auto. destruct (Nat.eqb_spec b a) as [->|]; auto. exfalso. apply N. eapply labels_owner; eauto.
  - apply poke_tags_ne. intros y Q. eapply tags_not_labels; eauto.
Qed.

Definition cells_kept (w w' : world) : Prop := forall a, a < fresh w -> cells w' a = cells w a.
Lemma alloc_kept : forall l w, cells_kept w (alloc l w).
Proof. intros l w a H. cbn. rewrite upd_ne; auto. lia. Qed.
Lemma tags_frame : forall w w' y, inv w -> cells_kept w w' -> get_tags w' y = get_tags w y -> tags w' y = tags w y.
Proof. intros w w' y I C G. unfold tags, content. rewrite G. destruct (get_tags w y) as [a|] eqn:Q; auto. cbn. f_equal. apply C. eapply get_tags_fresh; eauto. Qed.
Lemma labels_frame : forall w w' y, inv w -> cells_kept w w' -> get_labels w' y = get_labels w y -> labels w' y = labels w y.
Proof. intros w w' y I C G. unfold labels, content. rewrite G. destruct (get_labels w y) as [a|] eqn:Q; auto. cbn. f_equal. apply C. eapply get_labels_fresh; eauto. Qed.
Lemma get_tags_put : forall x e w y, get_tags (put x e w) y = if Nat.eqb y x then Some (e_tags e) else get_tags w y.
Proof. intros. unfold get_tags. cbn. unfold upd. destruct (Nat.eqb y x); reflexivity. Qed.

(** x.tags = l: x shows the tags given, as a copy; no other tags and no labels change. *)
Theorem set_tags_copies : forall w x s, reachable w -> ents w x <> None ->
  let r := step (SetTags x s) w in
  snd r = None /\ tags (fst r) x = Some (value w s) /\ same_tags_but x w (fst r) /\ same_labels w (fst r).
Proof.
  intros w x s R H. apply inv_reachable in R. cbn [step]. destruct (ents w x) as [e|] eqn:E; [|congruence]. cbn [fst snd]. split; auto. split; [|split].
  - unfold tags, content. rewrite get_tags_put, Nat.eqb_refl. cbn. now rewrite upd_eq.
  - intros y N. apply tags_frame; auto. { intros a L. now apply alloc_kept. } rewrite get_tags_put. destruct (Nat.eqb_spec y x); [congruence|]. reflexivity.
  - intros y. apply labels_frame; auto. { intros a L. now apply alloc_kept. } unfold get_labels. cbn. unfold upd.
    assert (forall z, match (if Nat.eqb z x then Some (mkEnt (is_run e) (fresh w) (e_labels e) (e_spec e)) else ents w z) with Some e' => e_labels e' | None => None end = match ents w z with Some e' => e_labels e' | None => None end) as Z.
    { intros z. destruct (Nat.eqb_spec z x) as [->|]; auto. now rewrite E. }
    destruct (Nat.eqb_spec y x) as [->|N]; cbn.
    + rewrite E. destruct (e_spec e); auto.
    + destruct (ents w y) as [e'|]; auto. destruct (e_spec e'); auto.
Qed.
(** x.labels = l of a spec: the spec and exactly its runs show the labels given, as a copy; no tags change. *)
Theorem set_labels_copies : forall w x s, reachable w -> is_spec w x = true ->
  let r := step (SetLabels x s) w in
  snd r = None /\ labels_shown x (value w s) w (fst r) /\ same_tags w (fst r).
Proof.
  intros w x s R H. apply inv_reachable in R. cbn [step]. unfold is_spec in H. destruct (ents w x) as [e|] eqn:E; [|congruence].
  destruct (is_run e) eqn:K; [discriminate|]. destruct (i_spec _ R x e E K) as (_ & S). cbn [fst snd]. split; auto. split.
  - intros y. unfold shown_from. destruct (ents w y) as [e'|] eqn:Ey.
    + destruct (Nat.eqb_spec (match e_spec e' with SpecOf s => s | _ => y end) x) as [Q|N].
      * unfold labels, content, get_labels. cbn. destruct (Nat.eq_dec y x) as [->|Ny].
        { rewrite upd_eq. cbn. rewrite S. cbn. now rewrite upd_eq. }
        { rewrite upd_ne, Ey by auto. destruct (e_spec e') as [| |z]; [congruence|congruence|]. subst z. rewrite upd_eq. cbn. now rewrite upd_eq. }
      * apply labels_frame; auto. { intros a L. now apply alloc_kept. } unfold get_labels. cbn. destruct (Nat.eq_dec y x) as [->|Ny].
        { rewrite E in Ey. injection Ey as <-. rewrite S in N. congruence. }
        { rewrite upd_ne, Ey by auto. destruct (e_spec e') as [| |z]; auto. now rewrite upd_ne. }
    + assert (y <> x) by congruence. assert (labels w y = None) as L by (unfold labels, get_labels; now rewrite Ey).
      rewrite L. unfold labels, get_labels. cbn. rewrite upd_ne, Ey by auto. now destruct (Nat.eqb y x).
  - intros y. apply tags_frame; auto. { intros a L. now apply alloc_kept. } rewrite get_tags_put. destruct (Nat.eqb_spec y x) as [->|]; [|reflexivity].
    unfold get_tags. now rewrite E.
Qed.

(** What the copy kept by the setter of spec does: nothing that is seen. *)
Lemma keep_unseen : forall w x e w' e', inv w -> ents w x = Some e -> is_run e = true -> keep_labels x e w = (w', e') ->
  cells_kept w w' /\ (forall y, y <> x -> ents w' y = ents w y) /\ ents w' x = Some e' /\ e_tags e' = e_tags e /\ e_spec e' = e_spec e /\
  (forall y, tags w' y = tags w y) /\ (forall y, labels w' y = labels w y) /\ content w' (e_labels e') = labels w x.
Proof.
  intros w x e w' e' I E K Q. apply keep_cases in Q as [(s & S & -> & ->)|(S & -> & ->)].
  - destruct (i_ref _ I x e s E S) as (es & Es & Ks).
    split; [exact (alloc_kept _ w)|]. split; [intros y N; cbn; now rewrite upd_ne|]. split; [cbn; now rewrite upd_eq|]. split; [reflexivity|]. split; [reflexivity|]. split; [|split].
    + intros y. apply tags_frame; auto. { intros a L. now apply alloc_kept. } rewrite get_tags_put. destruct (Nat.eqb_spec y x) as [->|]; [|reflexivity]. unfold get_tags. now rewrite E.
    + intros y. apply labels_frame; auto. { intros a L. now apply alloc_kept. } unfold get_labels. cbn. destruct (Nat.eq_dec y x) as [->|N].
      * rewrite upd_eq, E. cbn. rewrite S. assert (s <> x) by congruence. now rewrite upd_ne.
      * rewrite upd_ne by auto. destruct (ents w y) as [e1|] eqn:E1; auto. destruct (e_spec e1) as [| |z] eqn:S1; auto.
        destruct (i_ref _ I y e1 z E1 S1) as (ez & Ez & Kz). assert (z <> x) by congruence. now rewrite upd_ne.
    + unfold labels, get_labels. rewrite E, S, Es. cbn. rewrite upd_eq. unfold value, content, get_labels. rewrite ?Es. destruct (i_spec _ I s es Es Ks) as (L & NS). rewrite NS.
      destruct (e_labels es); [reflexivity|congruence].
  - split; [intros a _; reflexivity|]. repeat (split; [now auto|]). unfold labels, get_labels. rewrite E. destruct (e_spec e) as [| |s]; auto. now destruct (S s).
Qed.
(** run.spec = s with a spec, a link or None: the run shows the labels of the spec, or keeps, as a copy, those it showed; nothing else changes. *)
Theorem set_spec_labels : forall w x s, reachable w -> ents w x <> None -> is_spec w x = false -> spec_ok w s = true ->
  let r := step (SetSpec x s) w in
  snd r = None /\ labels (fst r) x = (match s with SpecOf y => labels w y | _ => labels w x end) /\
  (forall y, y <> x -> labels (fst r) y = labels w y) /\ same_tags w (fst r) /\
  (forall y, shown_from (fst r) y = if Nat.eqb y x then (match s with SpecOf z => z | _ => x end) else shown_from w y).
Proof.
  intros w x s R H K O. apply inv_reachable in R. cbn [step]. unfold is_spec in K. destruct (ents w x) as [e|] eqn:E; [|congruence].
  destruct (is_run e) eqn:Q; [|discriminate]. destruct (keep_labels x e w) as [w' e'] eqn:KL. rewrite O. cbn [fst snd].
  destruct (keep_unseen _ _ _ _ _ R E Q KL) as (C & N & E' & T & S & Tg & Lb & Co). destruct (inv_keep _ _ _ _ _ R E KL) as (I' & _ & R').
  set (w2 := put x _ w').
  assert (forall y, y <> x -> labels w2 y = labels w' y) as Oth.
  { intros y Ny. unfold labels, content, get_labels, w2. cbn. rewrite upd_ne by auto. destruct (ents w' y) as [e1|] eqn:E1; auto. destruct (e_spec e1) as [| |z] eqn:S1; auto.
    destruct (i_ref _ I' y e1 z E1 S1) as (ez & Ez & Kz). assert (z <> x) as Nz by congruence. now rewrite upd_ne by auto. }
  split; auto. split; [|split; [|split]].
  - destruct s as [| |y].
    + unfold labels at 1, get_labels, w2. cbn. rewrite upd_eq. cbn. exact Co.
    + unfold labels at 1, get_labels, w2. cbn. rewrite upd_eq. cbn. exact Co.
    + destruct (spec_ok_ref w (SpecOf y) y O eq_refl) as (ey & Ey & Ky). assert (y <> x) as Ny by congruence. rewrite <- Lb, <- Oth by auto.
      unfold labels, get_labels, w2. cbn. rewrite upd_eq. cbn. rewrite upd_ne by auto. rewrite N, Ey by auto. destruct (i_spec _ R y ey Ey Ky) as (_ & ->). reflexivity.
  - intros y Ny. now rewrite Oth.
  - intros y. rewrite <- Tg. unfold tags, content, w2. rewrite get_tags_put. destruct (Nat.eqb_spec y x) as [->|]; [|reflexivity]. unfold get_tags. rewrite E'. reflexivity.
  - intros y. unfold shown_from, w2. cbn. unfold upd. destruct (Nat.eqb_spec y x) as [->|Ny]; [reflexivity|]. now rewrite N.
Qed.
(** An assignment to run.spec that is refused raises TypeError and changes nothing that is seen. *)
Theorem set_spec_refused : forall w x p, reachable w -> ents w x <> None -> is_spec w x = false ->
  (p = SetSpecBad x \/ exists s, p = SetSpec x s /\ spec_ok w s = false) ->
  let r := step p w in snd r = Some TypeError /\ same_labels w (fst r) /\ same_tags w (fst r) /\ (forall y, shown_from (fst r) y = shown_from w y).
Proof.
  intros w x p R H K P. apply inv_reachable in R. unfold is_spec in K. destruct (ents w x) as [e|] eqn:E; [|congruence].
  destruct (is_run e) eqn:Q; [|discriminate]. destruct (keep_labels x e w) as [w' e'] eqn:KL.
  assert (step p w = (w', Some TypeError)) as ->.
  { destruct P as [->|(s & -> & O)]; cbn [step]; rewrite E, Q, KL; [reflexivity|]. now rewrite O. }
  destruct (keep_unseen _ _ _ _ _ R E Q KL) as (C & N & E' & T & S & Tg & Lb & Co). cbn [fst snd]. repeat (split; [now auto|]).
  intros y. unfold shown_from. destruct (Nat.eq_dec y x) as [->|Ny]; [rewrite E', E, S|rewrite N by auto]; reflexivity.
Qed.

(** A new spec or run shows the values given, as copies; a run shows the labels of its spec; nothing else changes. *)
Theorem new_spec_copies : forall w t l, reachable w -> let r := step (NewSpec t l) w in
  snd r = None /\ tags (fst r) (count w) = Some (value w t) /\ labels (fst r) (count w) = Some (value w l).
Proof.
  intros w t l R. cbn [step fst snd]. split; auto. split.
  - unfold tags, content, get_tags. cbn. rewrite upd_eq. cbn. rewrite upd_ne by lia. now rewrite upd_eq.
  - unfold labels, content, get_labels. cbn. rewrite upd_eq. cbn. now rewrite upd_eq.
Qed.
Theorem new_run_copies : forall w t s, reachable w -> let r := step (NewRun t s) w in
  if spec_ok w s then snd r = None /\ tags (fst r) (count w) = Some (value w t) /\ labels (fst r) (count w) = (match s with SpecOf y => labels w y | _ => None end)
  else r = (w, Some TypeError).
Proof.
  intros w t s R. apply inv_reachable in R. cbn [step]. destruct (spec_ok w s) eqn:O; [|reflexivity]. cbn [fst snd]. split; auto. split.
  - unfold tags, content, get_tags. cbn. rewrite upd_eq. cbn. now rewrite upd_eq.
  - destruct s as [| |y]; try (unfold labels, get_labels; cbn; rewrite upd_eq; reflexivity).
    destruct (spec_ok_ref w _ y O eq_refl) as (e & E & K). pose proof (i_ents _ R y e E) as (X & Y & Z). destruct (i_spec _ R y e E K) as (L & S).
    unfold labels, content, get_labels. cbn. rewrite upd_eq. cbn. rewrite upd_ne by lia. rewrite E, S. destruct (e_labels e) as [a|] eqn:La; [|reflexivity]. cbn. rewrite upd_ne; auto.
    specialize (Z a eq_refl). lia.
Qed.
Theorem new_keeps_others : forall w p, reachable w -> (exists t l, p = NewSpec t l) \/ (exists t s, p = NewRun t s) ->
  forall y, y <> count w -> tags (fst (step p w)) y = tags w y /\ labels (fst (step p w)) y = labels w y.
Proof.
  intros w p R P y N. apply inv_reachable in R.
  assert (step p w = (w, Some TypeError) \/ (cells_kept w (fst (step p w)) /\ exists e, ents (fst (step p w)) = upd (count w) (Some e) (ents w))) as [->|(C & e & E)].
  { destruct P as [(t & l & ->)|(t & s & ->)]; cbn [step].
    - right. split; [intros a L; cbn; rewrite !upd_ne by lia; auto|]. eexists. reflexivity.
    - destruct (spec_ok w s); [right|left; reflexivity]. split; [intros a L; cbn; rewrite !upd_ne by lia; auto|]. eexists. reflexivity. }
  - auto.
  - split; [apply tags_frame; auto; unfold get_tags; now rewrite E, upd_ne|]. apply labels_frame; auto. unfold get_labels. rewrite E, upd_ne by auto.
    destruct (ents w y) as [e1|] eqn:E1; auto. destruct (e_spec e1) as [| |z] eqn:S1; auto. destruct (i_ref _ R y e1 z E1 S1) as (ez & Ez & _).
    pose proof (i_ents _ R z ez Ez) as (X & _). now rewrite upd_ne by lia.
Qed.

(** Appending to a list held in a variable does what appending to the tags, or the labels, of some entity does, or nothing that is seen. *)
Theorem append_held : forall w v t, reachable w -> vars w v <> None ->
  let r := step (AppendVar v t) w in
  snd r = None /\ ((exists x, r = step (AppendTags x t) w) \/ (exists x, r = step (AppendLabels x t) w) \/ (same_tags w (fst r) /\ same_labels w (fst r))).
Proof.
  intros w v t R H. apply inv_reachable in R. cbn [step]. destruct (vars w v) as [a|] eqn:V; [|congruence]. cbn [append snd fst]. split; auto.
  assert (forall f : nat -> option nat, (forall y, ents w y = None -> f y = None) -> (exists x, f x = Some a) \/ (forall y, f y <> Some a)) as D.
  { intros f F0. assert (forall n, (exists x, f x = Some a) \/ (forall y, y < n -> f y <> Some a)) as X.
    { induction n as [|n [IH|IH]]; auto; [right; lia|]. destruct (f n) as [b|] eqn:Fn; [destruct (Nat.eq_dec b a) as [->|]; [left; eauto|]|];
        right; intros y L; (destruct (Nat.eq_dec y n) as [->|]; [congruence|apply IH; lia]). }
    destruct (X (count w)) as [Y|Y]; auto. right. intros y Q. destruct (ents w y) as [e|] eqn:E; [|rewrite F0 in Q; congruence].
    apply (Y y); auto. now apply (i_ents _ R y e). }
  destruct (D (get_tags w)) as [(x & T)|T]; [unfold get_tags; intros y ->; reflexivity| |].
  - left. exists x. now rewrite T.
  - destruct (D (get_labels w)) as [(x & L)|L]; [unfold get_labels; intros y ->; reflexivity| |].
    + right. left. exists x. now rewrite L.
    + right. right. fold (poke a (cells w a ++ [t]) w). split; [now apply poke_tags_ne|now apply poke_labels_ne].
Qed.
(** After v = x.tags, v.append(t) is x.tags.append(t). *)
Theorem hold_tags_appends : forall w v x t l, reachable w -> tags w x = Some l ->
  let w1 := fst (step (HoldTags v x) w) in step (AppendVar v t) w1 = step (AppendTags x t) w1 /\ same_tags w w1 /\ same_labels w w1.
Proof.
  intros w v x t l R H. cbn [step fst]. split; [|split; intros y; reflexivity]. cbn [step vars]. rewrite upd_eq. reflexivity.
Qed.

(** After v = x.labels, v.append(t) is x.labels.append(t). *)
Theorem hold_labels_appends : forall w v x t l, reachable w -> labels w x = Some l ->
  let w1 := fst (step (HoldLabels v x) w) in step (AppendVar v t) w1 = step (AppendLabels x t) w1 /\ same_tags w w1 /\ same_labels w w1.
Proof.
  intros w v x t l R H. cbn [step fst]. split; [|split; intros y; reflexivity]. cbn [step vars]. rewrite upd_eq. reflexivity.
Qed.
(** What cannot be done raises AttributeError and changes nothing: labels of a run cannot be assigned, and where there is no list there is no append. *)
Theorem no_list_raises : forall w x s t,
  (ents w x <> None -> is_spec w x = false -> step (SetLabels x s) w = (w, Some AttributeError)) /\
  (tags w x = None -> step (AppendTags x t) w = (w, Some AttributeError)) /\
  (labels w x = None -> step (AppendLabels x t) w = (w, Some AttributeError)).
Proof.
  intros w x s t. split; [|split].
  - intros H K. cbn [step]. unfold is_spec in K. destruct (ents w x) as [e|]; [|congruence]. destruct (is_run e); [reflexivity|discriminate].
  - unfold tags, content. intros H. cbn [step]. destruct (get_tags w x); [discriminate|reflexivity].
  - unfold labels, content. intros H. cbn [step]. destruct (get_labels w x); [discriminate|reflexivity].
Qed.

(** A list that is no entity's stays so. *)
Definition lost (a : nat) (w : world) : Prop := a < fresh w /\ forall x e, ents w x = Some e -> e_tags e <> a /\ e_labels e <> Some a.
Lemma lost_put : forall a x e w, lost a w -> e_tags e <> a -> e_labels e <> Some a -> lost a (put x e w).
Proof. intros a x e w (L & H) T Lb. split; auto. intros y e' E. cbn in E. unfold upd in E. destruct (Nat.eqb y x); [injection E as <-; auto|eauto]. Qed.
Lemma lost_alloc : forall a l w, lost a w -> lost a (alloc l w).
Proof. intros a l w (L & H). split; [cbn; lia|exact H]. Qed.
Lemma lost_new : forall a e n v w, lost a w -> e_tags e <> a -> e_labels e <> Some a -> lost a (mkWd (cells w) (fresh w) (upd n (Some e) (ents w)) (S n) v).
Proof. intros a e n v w L T Lb. exact (lost_put a n e w L T Lb). Qed.
Lemma lost_step : forall p a w, lost a w -> lost a (fst (step p w)).
Proof.
  intros p a w D. destruct (D) as (L & H). destruct p as [t l|t s|x s|x s|x s|x|x t|x t|v x|v x|v t]; cbn [step].
  - apply (lost_new a _ (count w) (vars w) (alloc (value w l) (alloc (value w t) w))); cbn; [now repeat apply lost_alloc|lia|]. intros Q. injection Q. lia.
  - destruct (spec_ok w s); [|exact D]. apply (lost_new a _ (count w) (vars w) (alloc (value w t) w)); cbn; [now apply lost_alloc|lia|discriminate].
  - destruct (ents w x) as [e|] eqn:E; [|exact D]. destruct (H x e E). apply lost_put; cbn; [now apply lost_alloc|lia|auto].
  - destruct (ents w x) as [e|] eqn:E; [|exact D]. destruct (is_run e); [exact D|]. destruct (H x e E). apply lost_put; cbn; [now apply lost_alloc|auto|]. intros Q. injection Q. lia.
  - destruct (ents w x) as [e|] eqn:E; [|exact D]. destruct (is_run e); [|exact D]. destruct (keep_labels x e w) as [w' e'] eqn:K.
    assert (lost a w' /\ e_tags e' <> a /\ e_labels e' <> Some a) as (D' & T' & L').
    { destruct (H x e E). apply keep_cases in K as [(s' & _ & -> & ->)|(_ & -> & ->)]; auto. cbn. assert (Some (fresh w) <> Some a) by (intros Q; injection Q; lia).
      split; [|auto]. apply lost_put; cbn; auto. now apply lost_alloc. }
    destruct (spec_ok w s); cbn [fst]; auto. now apply lost_put.
  - destruct (ents w x) as [e|] eqn:E; [|exact D]. destruct (is_run e); [|exact D]. destruct (keep_labels x e w) as [w' e'] eqn:K.
    destruct (H x e E). apply keep_cases in K as [(s' & _ & -> & ->)|(_ & -> & ->)]; auto. cbn. assert (Some (fresh w) <> Some a) by (intros Q; injection Q; lia).
    apply lost_put; cbn; auto. now apply lost_alloc.
  - destruct (get_tags w x); exact D.
  - destruct (get_labels w x); exact D.
  - exact D.
  - exact D.
  - destruct (vars w v); exact D.
Qed.
Lemma vars_step : forall p v w, not_held v p -> vars (fst (step p w)) v = vars w v.
Proof.
  intros p v w N. destruct p as [t l|t s|x s|x s|x s|x|x t|x t|u x|u x|u t]; cbn [step not_held] in *.
  - reflexivity.
  - destruct (spec_ok w s); reflexivity.
  - destruct (ents w x); reflexivity.
  - destruct (ents w x) as [e|]; [destruct (is_run e)|]; reflexivity.
  - destruct (ents w x) as [e|]; [destruct (is_run e)|]; try reflexivity. unfold keep_labels. destruct (e_spec e), (spec_ok w s); reflexivity.
  - destruct (ents w x) as [e|]; [destruct (is_run e)|]; try reflexivity. unfold keep_labels. destruct (e_spec e); reflexivity.
  - destruct (get_tags w x); reflexivity.
  - destruct (get_labels w x); reflexivity.
  - cbn. rewrite upd_ne; auto.
  - cbn. rewrite upd_ne; auto.
  - destruct (vars w u); reflexivity.
Qed.
Lemma lost_unseen : forall a l w, lost a w -> same_tags w (poke a l w) /\ same_labels w (poke a l w).
Proof.
  intros a l w (_ & H). split; [apply poke_tags_ne|apply poke_labels_ne]; intros y Q.
  - unfold get_tags in Q. destruct (ents w y) as [e|] eqn:E; [|discriminate]. injection Q as Q. now destruct (H y e E).
  - unfold get_labels in Q. destruct (ents w y) as [e|] eqn:E; [|discriminate]. destruct (e_spec e) as [| |s]; [now destruct (H y e E)|now destruct (H y e E)|].
    destruct (ents w s) as [e'|] eqn:E'; [|discriminate]. now destruct (H s e' E').
Qed.
(** v = x.tags; x.tags = s; whatever follows that does not assign v: v.append(t) changes nothing that is seen of any entity. *)
Theorem reassigned_lets_go : forall w v x s ps t, reachable w -> ents w x <> None -> Forall (not_held v) ps ->
  let w1 := run (HoldTags v x :: SetTags x s :: ps) w in let r := step (AppendVar v t) w1 in
  snd r = None /\ same_tags w1 (fst r) /\ same_labels w1 (fst r).
Proof.
  intros w v x s ps t R H N. apply inv_reachable in R. destruct (ents w x) as [e|] eqn:E; [|congruence]. pose proof (i_ents _ R x e E) as (X & Y & Z).
  cbn [run fold_left]. set (w0 := fst (step (SetTags x s) (fst (step (HoldTags v x) w)))).
  assert (lost (e_tags e) w0 /\ vars w0 v = Some (e_tags e)) as (D & V).
  { subst w0. cbn [step fst ents]. rewrite E. cbn [fst]. split; [|cbn; rewrite upd_eq; unfold get_tags; now rewrite E]. split; [cbn; lia|].
    intros y e' Q. cbn in Q. unfold upd in Q. destruct (Nat.eqb_spec y x) as [->|Ny].
    - injection Q as <-. cbn. split; [lia|]. intros Q. eapply (i_apart _ R x x e e); eauto.
    - split; [intros T; apply Ny; eapply i_tags; eauto|]. intros T. eapply (i_apart _ R x y e e'); eauto. }
  assert (lost (e_tags e) (run ps w0) /\ vars (run ps w0) v = Some (e_tags e)) as (D1 & V1).
  { clearbody w0. revert w0 D V. induction N as [|p ps Np Nps IH]; intros w0 D V; cbn [run fold_left]; auto. apply IH; [now apply lost_step|now rewrite vars_step]. }
  fold (run ps w0). cbn [step]. rewrite V1. cbn [append fst snd]. split; auto. now apply lost_unseen.
Qed.

(** The same for v = x.labels; x.labels = s of a spec. *)
Theorem reassigned_labels_let_go : forall w v x s ps t, reachable w -> is_spec w x = true -> Forall (not_held v) ps ->
  let w1 := run (HoldLabels v x :: SetLabels x s :: ps) w in let r := step (AppendVar v t) w1 in
  snd r = None /\ same_tags w1 (fst r) /\ same_labels w1 (fst r).
Proof.
  intros w v x s ps t R H N. apply inv_reachable in R. unfold is_spec in H. destruct (ents w x) as [e|] eqn:E; [|discriminate]. destruct (is_run e) eqn:K; [discriminate|].
  pose proof (i_ents _ R x e E) as (X & Y & Z). destruct (i_spec _ R x e E K) as (Lb & S). destruct (e_labels e) as [a|] eqn:La; [|congruence]. specialize (Z a eq_refl).
  cbn [run fold_left]. set (w0 := fst (step (SetLabels x s) (fst (step (HoldLabels v x) w)))).
  assert (lost a w0 /\ vars w0 v = Some a) as (D & V).
  { subst w0. cbn [step fst ents]. rewrite E, K. cbn [fst]. split; [|cbn; rewrite upd_eq; unfold get_labels; now rewrite E, S]. split; [cbn; lia|].
    intros y e' Q. cbn in Q. unfold upd in Q. destruct (Nat.eqb_spec y x) as [->|Ny].
    - injection Q as <-. cbn. split; [|intros Q; injection Q; lia]. exact (i_apart _ R x x e e a E E La).
    - split; [exact (i_apart _ R y x e' e a Q E La)|]. intros T. apply Ny. exact (i_labels _ R y x e' e a Q E T La). }
  assert (lost a (run ps w0) /\ vars (run ps w0) v = Some a) as (D1 & V1).
  { clearbody w0. revert w0 D V. induction N as [|p ps Np Nps IH]; intros w0 D V; cbn [run fold_left]; auto. apply IH; [now apply lost_step|now rewrite vars_step]. }
  fold (run ps w0). cbn [step]. rewrite V1. cbn [append fst snd]. split; auto. now apply lost_unseen.
Qed.

(** Finding: a label added through one run appears in its spec and in the other runs of that spec. *)
Open Scope string_scope.
Theorem labels_through_run_refuted : exists ps x y t, let w := run ps start in let w' := fst (step (AppendLabels x t) w) in
  is_spec w x = false /\ is_spec w y = false /\ x <> y /\ labels w y = Some ["red"] /\ labels w' y = Some ["red"; "blue"] /\ labels w' 0 = Some ["red"; "blue"].
Proof. exists [NewSpec (Lit []) (Lit ["red"]); NewRun (Lit []) (SpecOf 0); NewRun (Lit []) (SpecOf 0)], 1, 2, "blue". vm_compute. repeat split; discriminate. Qed.
(** The same call does not do this for tags, and a run that lets its spec go no longer sees it. *)
Example case_let_go : let w := run [NewSpec (Lit ["a"]) (Lit ["red"]); NewRun (TagsOf 0) (SpecOf 0); HoldTags 0 1; SetSpec 1 NoSpec; AppendLabels 0 "blue"; AppendTags 0 "b"; AppendVar 0 "c"; SetTags 1 (Var 0); AppendVar 0 "d"] start in
  labels w 1 = Some ["red"] /\ labels w 0 = Some ["red"; "blue"] /\ tags w 0 = Some ["a"; "b"] /\ tags w 1 = Some ["a"; "c"] /\ content w (vars w 0) = Some ["a"; "c"; "d"].
Proof. vm_compute. auto. Qed.
Example case_refused : let w := run [NewSpec (Lit []) (Lit ["red"]); NewRun (Lit []) (SpecOf 0)] start in
  reachable w /\ ents w 1 <> None /\ is_spec w 1 = false /\ spec_ok w (SpecOf 1) = false /\ spec_ok w (SpecOf 0) = true /\ vars (run [HoldTags 0 1] w) 0 <> None.
Proof. split; [eexists; reflexivity|]. vm_compute. repeat split; discriminate. Qed.

Print Assumptions lists_never_shared.
Print Assumptions append_tags_local.
Print Assumptions append_labels_shared.
Print Assumptions set_tags_copies.
Print Assumptions set_labels_copies.
Print Assumptions set_spec_labels.
Print Assumptions set_spec_refused.
Print Assumptions new_spec_copies.
Print Assumptions new_run_copies.
Print Assumptions new_keeps_others.
Print Assumptions append_held.
Print Assumptions hold_tags_appends.
Print Assumptions hold_labels_appends.
Print Assumptions no_list_raises.
Print Assumptions reassigned_lets_go.
Print Assumptions reassigned_labels_let_go.
Print Assumptions labels_through_run_refuted.
