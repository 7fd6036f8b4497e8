From Coq Require Import String List Bool Arith Lia.
From Verif Require Import Base BaseFacts RegModel RegSpec.
Import ListNotations.
Open Scope string_scope.
Open Scope list_scope.
Open Scope nat_scope.

Lemma mem_In : forall c l, mem c l = true <-> In c l.
Proof.
  intros. unfold mem. rewrite existsb_exists. split.
  - intros (x & I & E). apply Nat.eqb_eq in E. now subst.
  - intros I. exists c. split; auto. apply Nat.eqb_refl.
Qed.

(** ** Linearisation *)

Lemma heads_nil : forall ls, heads ls = [] -> concat ls = [].
Proof. induction ls as [|[|c l] ls IH]; cbn; auto. discriminate. Qed.

Lemma in_heads : forall ls c, In c (heads ls) -> exists l, In (c :: l) ls.
Proof.
  intros ls c I. unfold heads in I. apply in_flat_map in I as ([|d l] & L & J); [destruct J|]. destruct J as [->|[]]. eauto.
Qed.

Lemma drop_concat : forall c ls a, In a (concat (map (drop_head c) ls)) -> In a (concat ls).
Proof.
  intros c ls a I. apply in_concat in I as (l & L & J). apply in_map_iff in L as (l0 & <- & L). apply in_concat. exists l0. split; auto.
  destruct l0 as [|d r]; cbn in J; auto. destruct (c =? d); [now right|auto].
Qed.

Lemma concat_drop : forall c ls a, In a (concat ls) -> a = c \/ In a (concat (map (drop_head c) ls)).
Proof.
  intros c ls a I. apply in_concat in I as (l & L & J). destruct (Nat.eq_dec a c) as [->|N]; auto. right. apply in_concat.
  exists (drop_head c l). split; [now apply in_map|]. destruct l as [|d r]; cbn in *; auto. destruct (c =? d) eqn:E; auto.
  apply Nat.eqb_eq in E. subst. destruct J as [->|J]; auto. congruence.
Qed.

Lemma merge_elements : forall n ls l, merge n ls = Some l -> forall a, In a l <-> In a (concat ls).
Proof.
  induction n as [|n IH]; intros ls l H a; cbn [merge] in H; destruct (heads ls) as [|h hs] eqn:Hd.
  - injection H as <-. now rewrite heads_nil.
  - discriminate.
  - injection H as <-. now rewrite heads_nil.
  - match type of H with context [find ?f ?x] => destruct (find f x) as [c|] eqn:F end; [|discriminate].
    destruct (merge n (map (drop_head c) ls)) as [l'|] eqn:M; [|discriminate]. injection H as <-.
    apply find_some in F as [F _]. rewrite <- Hd in F. apply in_heads in F as (r & R).
    cbn [In]. rewrite (IH _ _ M a). split.
    + intros [->|I]; [|eapply drop_concat; eauto]. apply in_concat. exists (a :: r). split; auto. now left.
    + intros I. apply (concat_drop c) in I as [->|I]; auto.
Qed.

Lemma entries_drop_le : forall c ls, entries (map (drop_head c) ls) <= entries ls.
Proof.
  intros c ls. unfold entries. induction ls as [|l ls IH]; cbn; auto. rewrite !app_length. destruct l as [|d r]; cbn; [lia|]. destruct (c =? d); cbn; lia.
Qed.
Lemma entries_drop : forall c ls, In c (heads ls) -> entries (map (drop_head c) ls) < entries ls.
Proof.
  intros c ls. unfold entries. induction ls as [|l ls IH]; cbn; [tauto|]. intros I. apply in_app_iff in I. rewrite !app_length.
  pose proof (entries_drop_le c ls) as LE. unfold entries in LE.
  destruct l as [|d r]; cbn in *.
  - destruct I as [[]|I]. specialize (IH I). lia.
  - destruct I as [[->|[]]|I].
    + rewrite Nat.eqb_refl. lia.
    + specialize (IH I). destruct (c =? d); cbn; lia.
Qed.

(** The number of entries is always enough: merging fails only for want of a good head. *)
Lemma merge_enough : forall n m ls, entries ls <= n -> entries ls <= m -> merge n ls = merge m ls.
Proof.
  induction n as [|n IH]; intros m ls Hn Hm.
  - destruct m as [|m]; auto. cbn [merge]. destruct (heads ls) as [|h hs] eqn:Hd; auto.
    assert (I : In h (heads ls)) by (rewrite Hd; now left). apply entries_drop in I. lia.
  - destruct m as [|m].
    + cbn [merge]. destruct (heads ls) as [|h hs] eqn:Hd; auto.
      assert (I : In h (heads ls)) by (rewrite Hd; now left). apply entries_drop in I. lia.
    + cbn [merge]. destruct (heads ls) as [|h hs] eqn:Hd; auto.
      match goal with |- context [find ?f ?x] => destruct (find f x) as [c|] eqn:F end; auto.
      apply find_some in F as [F _]. rewrite <- Hd in F. apply entries_drop in F. f_equal. apply IH; lia.
Qed.

(** ** Memory *)

Lemma put_length : forall A (l : list A) a d, length (put l a d) = length l.
Proof. induction l as [|x l IH]; intros [|a] d; cbn; auto. Qed.
Lemma nth_put : forall A (l : list A) a d b (x : A), a < length l -> nth b (put l a d) x = if Nat.eqb a b then d else nth b l x.
Proof.
  induction l as [|y l IH]; intros a d b x H; cbn in H; [lia|]. destruct a as [|a], b as [|b]; cbn; auto. apply IH. lia.
Qed.

(** ** The invariant *)

Record inv (w : world) : Prop := mkInv {
  i_dicts : 0 < length (dicts w);
  i_handles : forall a, In a (handles w) -> 0 < a /\ a < length (dicts w);
  i_bases : forall c k b, class_at w c = Some k -> In b (c_bases k) -> b < c;
  i_mro : forall c k a, class_at w c = Some k -> (In a (c_mro k) <-> descends w c a);
  i_first : forall c k, class_at w c = Some k -> exists r, c_mro k = c :: r;
  i_holder : forall t c, holder w t = Some c -> claims w c t;
  i_claims : forall t c, claims w c t -> exists c', holder w t = Some c' /\ descends w c' c;
  i_plain : forall c k, class_at w c = Some k -> c_meta k = false ->
              c_skip k = [] /\ c_keep k = [] /\ c_given k = None /\ c_typ k = None /\
              forall b kb, In b (c_bases k) -> class_at w b = Some kb -> c_meta kb = false;
  i_skip : forall c k x, class_at w c = Some k -> (In x (c_skip k) <-> exists a, descends w c a /\ keeps_out w a x);
  i_typ : forall c k t, class_at w c = Some k -> (c_typ k = Some (Some t) <-> c_given k = Some t)
}.

Lemma class_lt : forall w c k, class_at w c = Some k -> c < length (classes w).
Proof. intros w c k H. apply nth_error_Some. unfold class_at in H. congruence. Qed.

Lemma descends_class : forall w c a, descends w c a -> class_at w c <> None.
Proof. intros w c a H. destruct H; congruence. Qed.

Lemma descends_trans : forall w c b a, descends w c b -> descends w b a -> descends w c a.
Proof. intros w c b a H. induction H; auto. intros D. econstructor; eauto. Qed.

Lemma descends_target : forall w c a, descends w c a -> class_at w a <> None.
Proof. intros w c a H. induction H; auto. Qed.

(** ** A new class *)
Section New.
  Variable w w' : world.
  Variable k : pyclass.
  Hypothesis Hc : classes w' = classes w ++ [k].
  Hypothesis Hb : forall c k b, class_at w c = Some k -> In b (c_bases k) -> b < c.
  Hypothesis Hk : forall b, In b (c_bases k) -> b < length (classes w).
  Let c := length (classes w).

  Lemma class_old : forall a, a < c -> class_at w' a = class_at w a.
  Proof. intros a L. unfold class_at. rewrite Hc. now apply nth_error_app1. Qed.
  Lemma class_new : class_at w' c = Some k.
  Proof. unfold class_at. rewrite Hc, nth_error_app2 by auto. fold c. now rewrite Nat.sub_diag. Qed.
  Lemma class_cases : forall a ka, class_at w' a = Some ka -> (a < c /\ class_at w a = Some ka) \/ (a = c /\ ka = k).
  Proof.
    intros a ka H. assert (L := class_lt _ _ _ H). rewrite Hc, app_length in L. cbn in L. fold c in L.
    destruct (Nat.eq_dec a c) as [->|N].
    - right. rewrite class_new in H. injection H as <-. auto.
    - left. assert (a < c) by lia. rewrite class_old in H by auto. auto.
  Qed.
  Lemma descends_old : forall b a, b < c -> descends w' b a <-> descends w b a.
  Proof.
    intros b a L. split; intros H; revert L; induction H as [b N|b kb b' a K I D IH]; intros L.
    - apply d_self. rewrite class_old in N; auto.
    - rewrite class_old in K by auto. pose proof (Hb _ _ _ K I). econstructor; eauto. apply IH. lia.
    - apply d_self. rewrite class_old; auto.
    - pose proof (Hb _ _ _ K I). eapply d_base; [rewrite class_old by auto; exact K|eauto|]. apply IH. lia.
  Qed.
  Lemma descends_new : forall a, descends w' c a <-> a = c \/ exists b, In b (c_bases k) /\ descends w b a.
  Proof.
    intros a. split.
    - intros H. inversion H; subst; auto. right. rewrite class_new in H0. injection H0 as <-. exists b. split; auto. apply descends_old; auto.
    - intros [->|(b & I & D)]; [apply d_self; rewrite class_new; discriminate|]. eapply d_base; [apply class_new|eauto|]. apply descends_old; auto.
  Qed.
  Lemma descends_lt : forall b a, b < c -> descends w b a -> a < c.
  Proof. intros b a L D. apply descends_target in D. unfold class_at in D. now apply nth_error_Some in D. Qed.
  Lemma claims_cases : forall a t, claims w' a t <-> (a < c /\ claims w a t) \/ (a = c /\ c_given k = Some t).
  Proof.
    intros a t. split.
    - intros (ka & K & G). destruct (class_cases _ _ K) as [[L K']|[-> ->]]; auto. left. split; auto. exists ka. auto.
    - intros [[L (ka & K & G)]|[-> G]]; [exists ka; rewrite class_old; auto|exists k; split; auto; apply class_new].
  Qed.
  Lemma keeps_cases : forall a x, keeps_out w' a x <-> (a < c /\ keeps_out w a x) \/ (a = c /\ In x (c_keep k)).
  Proof.
    intros a x. split.
    - intros (ka & K & G). destruct (class_cases _ _ K) as [[L K']|[-> ->]]; auto. left. split; auto. exists ka. auto.
    - intros [[L (ka & K & G)]|[-> G]]; [exists ka; rewrite class_old; auto|exists k; split; auto; apply class_new].
  Qed.
End New.

Lemma in_mros : forall w bases a, inv w -> (forall b, In b bases -> b < length (classes w)) ->
  In a (concat (map (mro_of w) bases ++ [bases])) <-> exists b, In b bases /\ descends w b a.
Proof.
  intros w bases a V L. rewrite concat_app, in_app_iff. cbn [concat]. rewrite app_nil_r, in_concat. split.
  - intros [(l & M & I)|I].
    + apply in_map_iff in M as (b & <- & B). exists b. split; auto. unfold mro_of in I. destruct (class_at w b) as [kb|] eqn:K; [|destruct I].
      now apply (i_mro w V b kb a K).
    + exists a. split; auto. apply d_self. unfold class_at. apply nth_error_Some. auto.
  - intros (b & B & D). left. exists (mro_of w b). split; [now apply in_map|]. unfold mro_of. destruct (class_at w b) as [kb|] eqn:K.
    + now apply (i_mro w V b kb a K).
    + apply descends_class in D. congruence.
Qed.

Lemma inv_start : inv start.
Proof.
  split; try (intros [|c] k; discriminate); try (intros [|c] k b; discriminate).
  - cbn. auto.
  - intros a [].
  - intros t [|c] (k & K & _); discriminate.
Qed.

Lemma typ_in_shape : forall w l, match typ_in w l with Some _ => None | None => Some (@None string) end = None \/
  match typ_in w l with Some _ => None | None => Some (@None string) end = Some None.
Proof. intros. destruct (typ_in w l); auto. Qed.

(** What [define] does when it succeeds. *)
Lemma define_inv : forall w e bases typ skip, inv w -> snd (define w e bases typ skip) = None ->
  exists k, classes (fst (define w e bases typ skip)) = classes w ++ [k] /\ c_bases k = bases /\ c_given k = typ /\ c_keep k = skip /\
    (forall b, In b bases -> b < length (classes w)) /\
    (forall a, In a (c_mro k) <-> a = length (classes w) \/ exists b, In b bases /\ descends w b a) /\
    (exists r, c_mro k = length (classes w) :: r) /\ handles (fst (define w e bases typ skip)) = handles w /\
    (c_meta k = true \/ (c_meta k = false /\ typ = None /\ skip = [] /\ c_typ k = None /\ c_skip k = [] /\
       forall b kb, In b bases -> class_at w b = Some kb -> c_meta kb = false)) /\
    (c_meta k = true -> c_skip k = flat_map (skip_of w) bases ++ skip) /\
    match typ with
    | Some t => c_typ k = Some (Some t) /\ dicts (fst (define w e bases typ skip)) = put (dicts w) 0 (dict_set t (length (classes w)) (registry w)) /\
                forall x, holder w t = Some x -> exists b, In b bases /\ descends w b x
    | None => (c_typ k = None \/ c_typ k = Some None) /\ dicts (fst (define w e bases typ skip)) = dicts w
    end.
Proof.
  intros w e bases typ skip V. unfold define.
  destruct (negb (forallb (fun b => b <? length (classes w)) bases)) eqn:B; [discriminate|]. apply negb_false_iff in B. rewrite forallb_forall in B.
  assert (L : forall b, In b bases -> b < length (classes w)) by (intros b I; apply Nat.ltb_lt; auto).
  destruct (merge _ _) as [rest|] eqn:M; [|discriminate].
  assert (R : forall a, In a rest <-> exists b, In b bases /\ descends w b a) by (intros a; rewrite (merge_elements _ _ _ M a); now apply in_mros).
  assert (R' : forall a, In a (length (classes w) :: rest) <-> a = length (classes w) \/ exists b, In b bases /\ descends w b a).
  { intros a. cbn [In]. rewrite R. split; intros [H|H]; auto. }
  destruct (e || existsb (fun b => match class_at w b with Some k => c_meta k | None => false end) bases) eqn:Me.
  - destruct typ as [t|].
    + destruct (match dict_get t (registry w) with Some holder => negb (mem holder (length (classes w) :: rest)) | None => false end) eqn:T; [discriminate|].
      intros _. eexists. cbn [fst classes dicts handles]. split; [reflexivity|]. cbn [c_bases c_given c_keep c_mro c_meta c_skip c_typ].
      repeat (split; eauto). intros x X. unfold holder in X. rewrite X in T. apply negb_false_iff, mem_In, R' in T. destruct T as [->|T]; auto.
      apply (i_holder w V) in X. destruct X as (kx & K & _). apply class_lt in K. lia.
    + intros _. eexists. cbn [fst classes dicts handles]. split; [reflexivity|]. cbn [c_bases c_given c_keep c_mro c_meta c_skip c_typ].
      repeat (split; eauto). apply typ_in_shape.
  - destruct typ as [t|]; [discriminate|]. destruct skip as [|x skip]; [|discriminate]. intros _.
    eexists. cbn [fst classes dicts handles]. split; [reflexivity|]. cbn [c_bases c_given c_keep c_mro c_meta c_skip c_typ].
    repeat (split; eauto).
    + right. repeat (split; auto). intros b kb I K. apply orb_false_iff in Me as [_ Me].
      destruct (c_meta kb) eqn:Mb; auto. assert (X : existsb (fun b => match class_at w b with Some k => c_meta k | None => false end) bases = true)
        by (apply existsb_exists; exists b; rewrite K; auto). congruence.
    + discriminate.
Qed.

(** A rejected definition changes nothing. *)
Lemma define_err : forall w e bases typ skip x, snd (define w e bases typ skip) = Some x -> fst (define w e bases typ skip) = w.
Proof.
  intros w e bases typ skip x. unfold define.
  destruct (negb (forallb (fun b => b <? length (classes w)) bases)); auto. destruct (merge _ _) as [rest|]; auto.
  destruct (e || existsb (fun b => match class_at w b with Some k => c_meta k | None => false end) bases).
  - destruct typ as [t|]; [|discriminate]. destruct (match dict_get t (registry w) with Some holder => _ | None => false end); auto. discriminate.
  - destruct typ as [t|]; auto. destruct skip; auto. discriminate.
Qed.

Lemma registry_put : forall w d, 0 < length (dicts w) -> forall w', dicts w' = put (dicts w) 0 d -> registry w' = d.
Proof. intros w d L w' E. unfold registry, dict_at. rewrite E, nth_put by auto. reflexivity. Qed.

Lemma registry_same : forall w w', dicts w' = dicts w -> registry w' = registry w.
Proof. intros w w' E. unfold registry, dict_at. now rewrite E. Qed.

Lemma inv_define : forall w e bases typ skip, inv w -> inv (fst (define w e bases typ skip)).
Proof.
  intros w e bases typ skip V. destruct (snd (define w e bases typ skip)) as [x|] eqn:E; [now rewrite (define_err _ _ _ _ _ _ E)|].
  destruct (define_inv _ _ _ _ _ V E) as (k & Hc & Eb & Eg & Ek & L & M & F1 & H & P & Sk & T).
  set (w' := fst (define w e bases typ skip)) in *. clearbody w'. set (c := length (classes w)) in *.
  assert (Hb := i_bases w V). assert (Lk : forall b, In b (c_bases k) -> b < length (classes w)) by (rewrite Eb; auto).
  assert (D0 : length (dicts w') = length (dicts w)) by (destruct typ as [t|]; [destruct T as (_ & -> & _); apply put_length|destruct T as [_ ->]; auto]).
  assert (Hold : forall t0, holder w' t0 = match typ with Some t => if String.eqb t0 t then Some c else holder w t0 | None => holder w t0 end).
  { intros t0. unfold holder. destruct typ as [t|].
    - destruct T as (_ & Hd & _). rewrite (registry_put w _ (i_dicts w V) w' Hd). destruct (String.eqb t0 t) eqn:S.
      + apply String.eqb_eq in S. subst. apply dict_get_set_same.
      + apply String.eqb_neq in S. now apply dict_get_set_other.
    - destruct T as [_ Hd]. now rewrite (registry_same w w' Hd). }
  split.
  - rewrite D0. apply V.
  - intros a I. rewrite H in I. rewrite D0. now apply (i_handles w V).
  - intros a ka b K I. destruct (class_cases w w' k Hc _ _ K) as [[La K']|[-> ->]]; eauto.
  - intros a ka x K. destruct (class_cases w w' k Hc _ _ K) as [[La K']|[-> ->]].
    + rewrite (descends_old w w' k Hc Hb) by auto. now apply (i_mro w V).
    + rewrite M. rewrite (descends_new w w' k Hc Hb Lk). rewrite Eb. reflexivity.
  - intros a ka K. destruct (class_cases w w' k Hc _ _ K) as [[La K']|[-> ->]]; [now apply (i_first w V)|exact F1].
  - intros t0 a X. rewrite Hold in X. apply (claims_cases w w' k Hc). destruct typ as [t|].
    + destruct (String.eqb t0 t) eqn:S.
      * apply String.eqb_eq in S. subst. injection X as <-. right. auto.
      * left. apply (i_holder w V) in X. destruct X as (ka & K & G). split; [eapply class_lt; eauto|exists ka; auto].
    + left. apply (i_holder w V) in X. destruct X as (ka & K & G). split; [eapply class_lt; eauto|exists ka; auto].
  - intros t0 a X. rewrite Hold. apply (claims_cases w w' k Hc) in X.
    assert (Old : a < length (classes w) -> claims w a t0 -> exists c', holder w t0 = Some c' /\ descends w' c' a).
    { intros La Cl. destruct (i_claims w V _ _ Cl) as (c' & Hh & D). exists c'. split; auto. apply (descends_old w w' k Hc Hb); auto.
      apply (i_holder w V) in Hh. destruct Hh as (kc & K & _). eapply class_lt; eauto. }
    destruct typ as [t|].
    + destruct (String.eqb t0 t) eqn:S.
      * apply String.eqb_eq in S. subst t0. exists c. split; auto. apply (descends_new w w' k Hc Hb Lk). destruct X as [[La Cl]|[-> _]]; auto.
        right. destruct (i_claims w V _ _ Cl) as (c' & Hh & D). destruct T as (_ & _ & T). destruct (T _ Hh) as (b & I & Db).
        exists b. rewrite Eb. split; auto. eapply descends_trans; eauto.
      * destruct X as [[La Cl]|[-> G]]; auto. rewrite Eg in G. injection G as ->. rewrite String.eqb_refl in S. discriminate.
    + destruct X as [[La Cl]|[-> G]]; auto. congruence.
  - intros a ka K Me. destruct (class_cases w w' k Hc _ _ K) as [[La K']|[-> ->]].
    + destruct (i_plain w V _ _ K' Me) as (A1 & A2 & A3 & A4 & A5). repeat (split; auto). intros b kb I Kb.
      pose proof (Hb _ _ _ K' I). rewrite (class_old w w' k Hc) in Kb by lia. eauto.
    + destruct P as [P|(_ & P1 & P2 & P3 & P4 & P5)]; [congruence|]. rewrite Ek, Eg. repeat (split; auto). intros b kb I Kb.
      rewrite Eb in I. rewrite (class_old w w' k Hc) in Kb by auto. eauto.
  - intros a ka x K. destruct (class_cases w w' k Hc _ _ K) as [[La K']|[-> ->]].
    + rewrite (i_skip w V _ _ x K'). split; intros (a' & D & Kp).
      * exists a'. split; [now apply (descends_old w w' k Hc Hb)|]. apply (keeps_cases w w' k Hc). left. split; auto. destruct Kp as (q & Q & _). eapply class_lt; eauto.
      * apply (descends_old w w' k Hc Hb) in D; auto. exists a'. split; auto. apply (keeps_cases w w' k Hc) in Kp as [[_ Kp]|[-> _]]; auto.
        apply (descends_lt w) in D; auto. exfalso. exact (Nat.lt_irrefl _ D).
    + assert (X : In x (c_skip k) <-> (exists b, In b bases /\ In x (skip_of w b)) \/ In x skip).
      { destruct P as [P|(_ & P1 & P2 & P3 & P4 & P5)].
        - rewrite (Sk P), in_app_iff, in_flat_map. reflexivity.
        - rewrite P4, P2. cbn. split; [tauto|]. intros [(b & I & J)|[]]. unfold skip_of in J. destruct (class_at w b) as [kb|] eqn:Kb; [|destruct J].
          destruct (i_plain w V _ _ Kb (P5 _ _ I Kb)) as (A1 & _). rewrite A1 in J. destruct J. }
      rewrite X. split.
      * intros [(b & I & J)|J].
        -- unfold skip_of in J. destruct (class_at w b) as [kb|] eqn:Kb; [|destruct J]. apply (i_skip w V _ _ x Kb) in J as (a' & D & Kp).
           exists a'. split; [apply (descends_new w w' k Hc Hb Lk); right; exists b; rewrite Eb; auto|]. apply (keeps_cases w w' k Hc). left. split; auto.
           destruct Kp as (q & Q & _). eapply class_lt; eauto.
        -- exists c. split; [apply (descends_new w w' k Hc Hb Lk); auto|]. apply (keeps_cases w w' k Hc). right. rewrite Ek. auto.
      * intros (a' & D & Kp). apply (descends_new w w' k Hc Hb Lk) in D as [->|(b & I & D)].
        -- apply (keeps_cases w w' k Hc) in Kp as [[F _]|[_ Kp]]; [exfalso; exact (Nat.lt_irrefl _ F)|]. rewrite Ek in Kp. auto.
        -- left. rewrite Eb in I. exists b. split; auto. unfold skip_of. destruct (class_at w b) as [kb|] eqn:Kb; [|apply descends_class in D; congruence].
           apply (i_skip w V _ _ x Kb). exists a'. split; auto. apply (keeps_cases w w' k Hc) in Kp as [[_ Kp]|[-> _]]; auto.
           apply (descends_lt w) in D; auto. exfalso. exact (Nat.lt_irrefl _ D).
  - intros a ka t0 K. destruct (class_cases w w' k Hc _ _ K) as [[La K']|[-> ->]].
    + exact (i_typ w V _ _ t0 K').
    + rewrite Eg. destruct typ as [t|]; [destruct T as [-> _]; split; congruence|]. destruct T as [[-> | ->] _]; split; congruence.
Qed.

Lemma dicts_handle : forall w n f, inv w -> registry (on_handle w n f) = registry w.
Proof.
  intros w n f V. unfold on_handle. destruct (nth_error (handles w) n) as [a|] eqn:E; auto. apply nth_error_In in E.
  destruct (i_handles w V _ E) as [P L]. unfold registry, dict_at. cbn [dicts]. rewrite nth_put by auto. destruct (a =? 0) eqn:Z; auto.
  apply Nat.eqb_eq in Z. lia.
Qed.

(** A step that leaves the classes and the registry alone keeps the invariant. *)
Lemma inv_frame : forall w w', classes w' = classes w -> registry w' = registry w -> 0 < length (dicts w') ->
  (forall a, In a (handles w') -> 0 < a /\ a < length (dicts w')) -> inv w -> inv w'.
Proof.
  intros w w' Hc Hr D H V.
  assert (C : forall c, class_at w' c = class_at w c) by (intros c; unfold class_at; now rewrite Hc).
  assert (De : forall c a, descends w' c a <-> descends w c a).
  { intros c a. split; intros X; induction X; [apply d_self|eapply d_base|apply d_self|eapply d_base]; eauto; try (rewrite C in *; eauto; fail); rewrite <- C in *; eauto. }
  assert (Ho : forall t, holder w' t = holder w t) by (intros t; unfold holder; now rewrite Hr).
  split; auto.
  - intros c k b K. rewrite C in K. now apply (i_bases w V).
  - intros c k a K. rewrite C in K. rewrite De. now apply (i_mro w V).
  - intros c k K. rewrite C in K. now apply (i_first w V).
  - intros t c X. rewrite Ho in X. destruct (i_holder w V _ _ X) as (k & K & G). exists k. rewrite C. auto.
  - intros t c (k & K & G). rewrite C in K. destruct (i_claims w V t c) as (c' & X & Y); [exists k; auto|]. exists c'. rewrite Ho, De. auto.
  - intros c k K M. rewrite C in K. destruct (i_plain w V _ _ K M) as (A1 & A2 & A3 & A4 & A5). repeat (split; auto). intros b kb I Kb. rewrite C in Kb. eauto.
  - intros c k x K. rewrite C in K. rewrite (i_skip w V _ _ x K). split; intros (a & Da & (q & Q & I)); exists a; (split; [now apply De|]); exists q; [rewrite C|rewrite C in Q]; auto.
  - intros c k t K. rewrite C in K. exact (i_typ w V _ _ t K).
Qed.

Lemma inv_handle : forall w n f, inv w -> inv (on_handle w n f).
Proof.
  intros w n f V. apply (inv_frame w); auto.
  - unfold on_handle. destruct (nth_error (handles w) n); auto.
  - now apply dicts_handle.
  - unfold on_handle. destruct (nth_error (handles w) n); cbn [dicts]; rewrite ?put_length; apply V.
  - unfold on_handle. destruct (nth_error (handles w) n); cbn [dicts handles]; rewrite ?put_length; apply V.
Qed.

Lemma inv_ask : forall w, inv w -> inv (fst (class_mapping w)).
Proof.
  intros w V. pose proof (i_dicts w V). apply (inv_frame w); auto; cbn [fst class_mapping classes dicts handles].
  - unfold registry, dict_at. cbn [dicts fst class_mapping]. now rewrite app_nth1.
  - rewrite app_length. lia.
  - intros a I. rewrite app_length. cbn. apply in_app_iff in I as [I|[<-|[]]]; [|lia]. apply (i_handles w V) in I. lia.
Qed.

Lemma inv_step : forall w o, inv w -> inv (step w o).
Proof. intros w [e b t s| |n k c|n k|n] V; cbn [step]; auto using inv_define, inv_ask, inv_handle. Qed.

Lemma inv_run : forall ops w, inv w -> inv (run w ops).
Proof. unfold run. induction ops as [|o ops IH]; intros w V; cbn; auto. apply IH. now apply inv_step. Qed.
Lemma inv_reachable : forall ops, inv (run start ops).
Proof. intros. apply inv_run, inv_start. Qed.

(** The type name of a class is claimed by one of its ancestors. *)
Lemma typ_in_claimed : forall w l t, inv w -> typ_in w l = Some (Some t) -> exists a, In a l /\ claims w a t.
Proof.
  intros w l t V. induction l as [|a l IH]; cbn [typ_in]; [discriminate|]. intros H.
  destruct (class_at w a) as [k|] eqn:K; [|destruct (IH H) as (x & I & C); exists x; cbn; tauto].
  destruct (c_typ k) as [u|] eqn:U; [|destruct (IH H) as (x & I & C); exists x; cbn; tauto].
  injection H as ->. exists a. split; [now left|]. exists k. split; auto. now apply (i_typ w V _ _ _ K).
Qed.

(** ** Mappings that were given away *)

(** The same but for the contents of the dictionaries given away. *)
Definition alike (w w' : world) : Prop :=
  classes w = classes w' /\ registry w = registry w' /\ handles w = handles w' /\ length (dicts w) = length (dicts w').

Lemma define_alike : forall w w' e b t s, inv w -> inv w' -> alike w w' -> alike (fst (define w e b t s)) (fst (define w' e b t s)).
Proof.
  intros [cl d h] [cl' d' h'] e b t s V V' (Ec & Er & Eh & El). cbn in Ec, Eh, El. subst cl' h'.
  assert (P : 0 < length d) by apply V. assert (P' : 0 < length d') by apply V'. clear V V'.
  assert (Same : alike (mkW cl d h) (mkW cl d' h)) by (unfold alike; auto).
  unfold define. rewrite <- Er. cbn [classes handles].
  change (class_at (mkW cl d' h)) with (class_at (mkW cl d h)). change (mro_of (mkW cl d' h)) with (mro_of (mkW cl d h)).
  change (skip_of (mkW cl d' h)) with (skip_of (mkW cl d h)).
  match goal with |- alike (fst (if ?x then _ else _)) _ => destruct x end; [exact Same|].
  match goal with |- alike (fst (match ?x with Some _ => _ | None => _ end)) _ => destruct x as [rest|] end; [|exact Same].
  assert (Et : typ_in (mkW cl d' h) rest = typ_in (mkW cl d h) rest).
  { clear. induction rest as [|x rest IH]; cbn [typ_in]; auto. change (class_at (mkW cl d' h)) with (class_at (mkW cl d h)). now rewrite IH. }
  rewrite Et. clear Et.
  match goal with |- alike (fst (if ?x then _ else _)) _ => destruct x end.
  - destruct t as [t|].
    + match goal with |- alike (fst (if ?x then _ else _)) _ => destruct x end; [exact Same|].
      cbn [fst]. split; [reflexivity|]. 
      split; [transitivity (dict_set t (length cl) (registry (mkW cl d h)));
        [apply (registry_put (mkW cl d h)); [exact P|reflexivity]|symmetry; apply (registry_put (mkW cl d' h)); [exact P'|reflexivity]]|]. split; [reflexivity|]. cbn [dicts]. now rewrite !put_length.
    + cbn [fst]. split; [reflexivity|]. split; [exact Er|]. auto.
  - destruct t as [t|]; [exact Same|]. destruct s; [|exact Same]. cbn [fst]. split; [reflexivity|]. split; [exact Er|]. auto.
Qed.

Lemma ask_alike : forall w w', inv w -> inv w' -> alike w w' -> alike (fst (class_mapping w)) (fst (class_mapping w')).
Proof.
  intros w w' V V' (Ec & Er & Eh & El). pose proof (i_dicts w V). pose proof (i_dicts w' V'). unfold alike, class_mapping.
  cbn [fst classes dicts handles]. unfold registry at 1 3, dict_at. cbn [dicts]. rewrite !app_nth1 by auto. rewrite !app_length. cbn [length].
  split; auto. split; [exact Er|]. rewrite Eh, El. auto.
Qed.

Lemma handle_alike : forall w w' n f, inv w -> alike w w' -> alike (on_handle w n f) w'.
Proof.
  intros w w' n f V (Ec & Er & Eh & El). split; [|split; [|split]].
  - unfold on_handle. destruct (nth_error (handles w) n); auto.
  - rewrite dicts_handle; auto.
  - unfold on_handle. destruct (nth_error (handles w) n); auto.
  - unfold on_handle. destruct (nth_error (handles w) n); cbn [dicts]; rewrite ?put_length; auto.
Qed.

Lemma run_alike : forall ops w w', inv w -> inv w' -> alike w w' -> alike (run w ops) (run w' (filter leaves_mappings ops)).
Proof.
  unfold run. induction ops as [|o ops IH]; intros w w' V V' A; cbn [fold_left filter]; auto.
  destruct o as [e b t s| |n k c|n k|n]; cbn [leaves_mappings fold_left step]; apply IH; auto using inv_define, inv_ask, inv_handle, define_alike, ask_alike, handle_alike.
Qed.
