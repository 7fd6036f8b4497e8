(** Entities that look the same compare equal. *)
From Coq Require Import String List Bool Arith ZArith QArith Lia Permutation.
From Verif Require Import Base BaseFacts GraphModel GraphProofs EqModel EqProofs EqSpec.
Import ListNotations.
Open Scope string_scope.
Open Scope list_scope.
Open Scope nat_scope.

(** ** Uids as dictionaries *)

Lemma same_uids_iff : forall u w, NoDup (keys u) -> NoDup (keys w) -> (same_uids u w = true <-> same_pairs u w).
Proof.
  intros u w Nu Nw.
  assert (Du : NoDup u) by (eapply NoDup_map_inv; exact Nu).
  assert (Dw : NoDup w) by (eapply NoDup_map_inv; exact Nw).
  unfold same_uids, same_pairs. rewrite andb_true_iff, Nat.eqb_eq, forallb_forall.
  assert (Ex : forall kv, existsb (fun kw => String.eqb (fst kv) (fst kw) && String.eqb (snd kv) (snd kw)) w = true <-> In kv w).
  { intros [k v]. rewrite existsb_exists. split.
    - intros [[k' v'] [I E]]. cbn in E. apply andb_true_iff in E as [E1 E2]. apply String.eqb_eq in E1, E2. now subst.
    - intros I. exists (k, v). cbn. now rewrite !String.eqb_refl. }
  split.
  - intros [L F] kv. split; [intros I; apply Ex; auto|].
    assert (I1 : incl u w) by (intros x I; apply Ex; auto).
    assert (I2 : incl w u) by (apply NoDup_length_incl; auto; lia). apply I2.
  - intros H. split.
    + apply Nat.le_antisymm; apply NoDup_incl_length; auto; intros x I; apply H; auto.
    + intros x I. apply Ex, H, I.
Qed.

Lemma Forall2_len : forall A B (P : A -> B -> Prop) l m, Forall2 P l m -> length l = length m.
Proof. induction 1; cbn; congruence. Qed.

Lemma compared_in : forall e f, In f (compared e) <-> In f (keys (e_fields e)) /\ f <> "output_material".
Proof.
  intros e f. unfold compared. rewrite filter_In, negb_true_iff, String.eqb_neq. tauto.
Qed.

Lemma nodup_keys_inj : forall A k (v w : A) d, NoDup (keys d) -> In (k, v) d -> In (k, w) d -> v = w.
Proof. intros A k v w d N I J. apply (In_dict_get k v d N) in I. apply (In_dict_get k w d N) in J. congruence. Qed.

(** ** Values *)

Lemma mentions_refs : forall v o, In o (refs v) <-> mentions v o.
Proof.
  apply (pv_ind2 (fun v => forall o, In o (refs v) <-> mentions v o)).
  - intros o; split; [contradiction | inversion 1].
  - intros a o; split; [contradiction | inversion 1].
  - intros s i o; split; [contradiction | inversion 1].
  - intros p o. cbn. split; [intros [->|[]]; constructor | inversion 1; auto].
  - intros l F o. rewrite Forall_forall in F. rewrite refs_list, in_flat_map. split.
    + intros [x [I Hx]]. econstructor; [exact I | apply F; auto].
    + inversion 1; subst. eexists. split; [eauto | apply F; auto].
  - intros l F o. rewrite Forall_forall in F. rewrite refs_tuple, in_flat_map. split.
    + intros [x [I Hx]]. econstructor; [exact I | apply F; auto].
    + inversion 1; subst. eexists. split; [eauto | apply F; auto].
  - intros l F o. rewrite Forall_forall in F. rewrite refs_dict, in_flat_map. split.
    + intros [[k x] [I Hx]]. econstructor; [exact I | apply (F (k, x)); auto].
    + inversion 1; subst. eexists. split; [eauto | apply (F (k, v)); auto].
  - intros t l F o. rewrite Forall_forall in F. rewrite refs_obj, in_flat_map. split.
    + intros [[k x] [I Hx]]. econstructor; [exact I | apply (F (k, x)); auto].
    + inversion 1; subst. eexists. split; [eauto | apply (F (k, v)); auto].
Qed.

Lemma mentions_deep : forall v o, In o (deep v) <-> mentions_inside v o.
Proof.
  intros v o. unfold deep, mentions_inside.
  assert (X : forall x, In o (inner x) <-> (forall p, x <> PRef p) /\ mentions x o).
  { intros x. unfold inner. destruct x; cbn [is_ref]; rewrite ?mentions_refs; try (split; [intros; split; [discriminate | auto] | tauto]).
    split; [contradiction|]. intros [N _]. exfalso. now apply (N o0). }
  destruct (items_of v) as [l|]; [|apply X]. rewrite in_flat_map. split; intros [x [I H]]; exists x; [rewrite X in H | rewrite X]; tauto.
Qed.

Section Twin.
  Variable lower : string -> string.
  Variable h : heap.
  Variable R : oid -> oid -> Prop.
  Notation twin := (twin R).

  Lemma twin_dict : forall l m, twin (PDict l) (PDict m) <->
    NoDup (keys l) /\ NoDup (keys m) /\ length l = length m /\ forall k x, In (k, x) l -> exists y, In (k, y) m /\ twin x y.
  Proof.
    intros l m. cbn [EqSpec.twin].
    assert (X : forall l : list (string * pv), (fix go (l : list (string * pv)) : Prop :=
           match l with
           | [] => True
           | (k, x) :: r => (exists y, In (k, y) m /\ twin x y) /\ go r
           end) l <-> forall k x, In (k, x) l -> exists y, In (k, y) m /\ twin x y).
    { clear l. induction l as [|[k x] r IH]; [split; [intros; contradiction | auto]|]. rewrite IH. split.
      - intros [A B] k' x' [E|I]; [inv E; auto | auto].
      - intros H. split; [apply H; now left|]. intros. apply H. now right. }
    rewrite X. tauto.
  Qed.

  Lemma twin_obj : forall t u l m, twin (PObj t l) (PObj u m) <-> t = u /\ twin (PDict l) (PDict m).
  Proof. intros. cbn [EqSpec.twin]. tauto. Qed.

  Lemma twin_sym : (forall a b, R a b -> R b a) -> forall v w, twin v w -> twin w v.
  Proof.
    intros Sy.
    assert (Gl : forall l, Forall (fun v => forall w, twin v w -> twin w v) l -> forall m,
      twin (PList l) (PList m) -> twin (PList m) (PList l)).
    { induction 1 as [|x l Hx F IH]; intros [|y m]; cbn; auto. intros [A B]. split; auto. apply (IH m B). }
    assert (Gd : forall l, Forall (fun kv : string * pv => forall w, twin (snd kv) w -> twin w (snd kv)) l -> forall m,
      twin (PDict l) (PDict m) -> twin (PDict m) (PDict l)).
    { intros l F m T. apply twin_dict in T as (Nl & Nm & L & G). apply twin_dict. split; [auto|]. split; [auto|]. split; [auto|].
      rewrite Forall_forall in F.
      assert (Back : forall j, In j (keys m) -> In j (keys l)).
      { apply NoDup_length_incl; auto; [unfold keys; rewrite !map_length; lia|].
        intros j I. apply in_map_iff in I as [[j' x] [<- I]]. destruct (G _ _ I) as [y [Iy _]]. apply in_map_iff. exists (j', y). auto. }
      intros j y I. assert (J : In j (keys l)) by (apply Back, in_map_iff; exists (j, y); auto).
      apply in_map_iff in J as [[j' x] [E Ix]]. cbn in E. subst j'. exists x. split; auto.
      destruct (G _ _ Ix) as [y' [Iy' T]]. assert (y' = y) by (eapply nodup_keys_inj; eauto). subst. apply (F (j, x)); auto. }
    apply (pv_ind2 (fun v => forall w, twin v w -> twin w v)).
    - intros [] H; cbn in *; auto.
    - intros a [] H; cbn in *; auto.
    - intros s i [] H; cbn in *; try tauto. destruct H; auto.
    - intros o [] H; cbn in *; auto.
    - intros l F [] H; try (cbn in H; contradiction). apply Gl; auto.
    - intros l F [] H; try (cbn in H; contradiction). apply (Gl l F l0 H).
    - intros l F [] H; try (cbn in H; contradiction). apply Gd; auto.
    - intros t l F [] H; try (cbn in H; contradiction). apply twin_obj in H as [-> H]. apply twin_obj. split; auto.
  Qed.

  Section Peq.
    Variable eeq : oid -> oid -> bool.

    Lemma twin_peq : forall v w, twin v w -> (forall x y, In x (refs v) -> R x y -> eeq x y = true) -> peq lower h eeq v w = true.
    Proof.
      assert (Gl : forall l, Forall (fun v => forall w, twin v w -> (forall x y, In x (refs v) -> R x y -> eeq x y = true) -> peq lower h eeq v w = true) l -> forall m,
        twin (PList l) (PList m) -> (forall x y, In x (flat_map refs l) -> R x y -> eeq x y = true) ->
        (fix go (l m : list pv) {struct l} : bool :=
             match l, m with
             | [], [] => true
             | x :: l', y :: m' => peq lower h eeq x y && go l' m'
             | _, _ => false
             end) l m = true).
      { induction 1 as [|x l Hx F IH]; intros [|y m] T E; cbn in T; auto; try contradiction. destruct T as [A B].
        rewrite Hx; auto.
        - apply IH; auto. intros. apply E; auto. cbn. apply in_or_app; auto.
        - intros. apply E; auto. cbn. apply in_or_app; auto. }
      assert (Gd : forall l, Forall (fun kv : string * pv => forall w, twin (snd kv) w -> (forall x y, In x (refs (snd kv)) -> R x y -> eeq x y = true) -> peq lower h eeq (snd kv) w = true) l -> forall m,
        twin (PDict l) (PDict m) -> (forall x y, In x (flat_map (fun kv => refs (snd kv)) l) -> R x y -> eeq x y = true) ->
        length l = length m /\ forall m', incl m m' ->
        (fix go (l : list (string * pv)) : bool :=
             match l with
             | [] => true
             | (k, x) :: r => existsb (fun kw => String.eqb k (fst kw) && peq lower h eeq x (snd kw)) m' && go r
             end) l = true).
      { intros l F m T E. apply twin_dict in T as (_ & _ & L & G). split; auto. intros m' I. rewrite Forall_forall in F.
        assert (Sub : forall r, incl r l -> (fix go (l : list (string * pv)) : bool :=
             match l with
             | [] => true
             | (k, x) :: r => existsb (fun kw => String.eqb k (fst kw) && peq lower h eeq x (snd kw)) m' && go r
             end) r = true); [|apply Sub, incl_refl].
        induction r as [|[k x] r IH]; intros Ir; auto. rewrite IH by (intros z Hz; apply Ir; now right). rewrite andb_true_r.
        destruct (G k x) as [y [Iy Ty]]; [apply Ir; now left|].
        apply existsb_exists. exists (k, y). split; [now apply I|]. cbn [fst snd]. rewrite String.eqb_refl.
        apply (F (k, x)); auto; [apply Ir; now left|]. cbn [snd]. intros. apply E; auto. apply in_flat_map. exists (k, x). split; auto. apply Ir; now left. }
      apply (pv_ind2 (fun v => forall w, twin v w -> (forall x y, In x (refs v) -> R x y -> eeq x y = true) -> peq lower h eeq v w = true)).
      - intros [] T E; cbn in *; auto.
      - intros a [] T E; cbn in T; try contradiction. subst. apply atom_eq_refl.
      - intros s i [] T E; cbn in T; try contradiction. destruct T as [-> ->]. cbn. now rewrite !String.eqb_refl.
      - intros o [] T E; cbn in T; try contradiction. cbn. apply E; cbn; auto.
      - intros l F [] T E; try (cbn in T; contradiction). rewrite refs_list in E. apply (Gl l F _ T E).
      - intros l F [] T E; try (cbn in T; contradiction). rewrite refs_tuple in E.
        assert (Q := Gl l F _ T E). cbn [peq]. destruct l as [|v1 [|v2 [|]]]; try exact Q.
        all: repeat match goal with |- context [match ?x with _ => _ end] => destruct x; try exact Q end.
      - intros l F [] T E; try (cbn in T; contradiction). rewrite refs_dict in E. destruct (Gd l F _ T E) as [L G].
        cbn [peq]. rewrite L, Nat.eqb_refl, G by apply incl_refl. reflexivity.
      - intros t l F [] T E; try (cbn in T; contradiction). apply twin_obj in T as [-> T]. rewrite refs_obj in E. destruct (Gd l F _ T E) as [L G].
        cbn [peq]. rewrite String.eqb_refl, L, Nat.eqb_refl, G by apply incl_refl. reflexivity.
    Qed.

    Hypothesis uok : uids_ok h.
    Hypothesis cop : copies h R.
    (** The entities met inside plain values. *)
    Variable T : oid -> Prop.
    Hypothesis deepT : forall a b f x, R a b -> In x (deep (read h a f)) -> T x.
    Hypothesis eeqT : forall x y, T x -> R x y -> eeq x y = true.

    Definition rok (c : cache) : Prop := forall x y, R x y -> lookup c x y <> Some FF.
    Definition tok (c : cache) : Prop := forall x y ex ey, lookup c x y = Some TT -> hget h x = Some ex -> hget h y = Some ey ->
      same_pairs (e_uids ex) (e_uids ey).
    Definition cok c := rok c /\ tok c.

    Section Loops.
      Variable rec : cache -> oid -> oid -> option (tern * cache).
      Hypothesis rec_extends : forall c a b t c', rec c a b = Some (t, c') -> extends c c'.
      Hypothesis rec_settled : forall c a b t c', rec c a b = Some (t, c') -> settled rec c' a b t.
      Hypothesis rec_ok : forall c a b t c', rec c a b = Some (t, c') -> cok c ->
        cok c' /\ (R a b -> t <> FF) /\
        (t = TT -> forall ea, hget h a = Some ea -> exists eb, hget h b = Some eb /\ same_pairs (e_uids ea) (e_uids eb)).

      Lemma scan_ok : forall that c x pre p r c', scan rec c x pre that p = Some (r, c') -> cok c -> cok c' /\
        match r with
        | Matched rest => exists l1 y l2, that = l1 ++ PRef y :: l2 /\ rest = rev pre ++ l1 ++ l2 /\
             forall ea, hget h x = Some ea -> exists eb, hget h y = Some eb /\ same_pairs (e_uids ea) (e_uids eb)
        | Pending => True
        | Missing => p = false /\ forall z, In (PRef z) that -> ~ R x z
        end.
      Proof.
        induction that as [|y that IH]; intros c x pre p r c' H Ok; cbn [scan] in H.
        - inv H. split; auto. destruct p; auto.
        - destruct (match y with PRef o => rec c x o | _ => Some (FF, c) end) as [[t c1]|] eqn:E; [|discriminate].
          assert (X : cok c1 /\ forall z, y = PRef z -> (R x z -> t <> FF) /\
            (t = TT -> forall ea, hget h x = Some ea -> exists eb, hget h z = Some eb /\ same_pairs (e_uids ea) (e_uids eb))).
          { destruct y; try (inv E; split; [auto | intros; discriminate]).
            destruct (rec_ok _ _ _ _ _ E Ok) as [A B]. split; auto. intros z [= <-]. auto. }
          destruct X as [Ok1 X]. destruct t.
          + inv H. split; auto. destruct y; try discriminate. exists [], o, that. cbn. repeat split; auto. apply X; auto.
          + destruct (IH _ _ _ _ _ _ H Ok1) as [Ok2 Q]. split; auto. destruct r; auto.
            * destruct Q as (l1 & y1 & l2 & -> & -> & Q). exists (y :: l1), y1, l2. cbn. rewrite <- app_assoc. auto.
            * destruct Q as [-> Q]. split; auto. intros z [->|I] Rz; [|now apply (Q z)]. destruct (X z eq_refl) as [N _]. now apply N.
          + destruct (IH _ _ _ _ _ _ H Ok1) as [Ok2 Q]. split; auto. destruct r; auto.
            * destruct Q as (l1 & y1 & l2 & -> & -> & Q). exists (y :: l1), y1, l2. cbn. rewrite <- app_assoc. auto.
            * destruct Q as [Q _]. discriminate.
      Qed.

      Lemma list_ok : forall this c that b c', list_loop lower h eeq rec c this that = Some (b, c') -> cok c -> cok c'.
      Proof.
        induction this as [|v this IH]; intros c that b c' H Ok; cbn [list_loop] in H.
        - inv H. auto.
        - destruct v; try (destruct (existsb _ that); [eapply IH; eauto | inv H; auto]).
          destruct (scan rec c o [] that false) as [[[rest| |] c1]|] eqn:E; [| | |discriminate];
            apply scan_ok in E as [S1 _]; auto; try (inv H; auto); eapply IH; eauto.
      Qed.

      Lemma same_pairs_trans : forall u v w, same_pairs u v -> same_pairs u w -> same_pairs v w.
      Proof. unfold same_pairs. intros u v w A B kv. rewrite <- A. apply B. Qed.

      Lemma list_copies : forall this c that part extra b c',
        list_loop lower h eeq rec c this that = Some (b, c') -> cok c ->
        Permutation that (part ++ extra) -> Forall2 twin this part ->
        (forall x, In x (flat_map inner this) -> T x) -> (forall x, In x (flat_map inner part) -> T x) ->
        (forall x y ex ey, In (PRef x) that -> In (PRef y) that -> hget h x = Some ex -> hget h y = Some ey ->
              same_pairs (e_uids ex) (e_uids ey) -> x = y) -> b = true.
      Proof.
        induction this as [|v this IH]; intros c that part extra b c' H Ok P F Tv Tw U; cbn [list_loop] in H.
        - inv H. auto.
        - inversion F as [|? w ? part' Hvw F']; subst.
          assert (Tv' : forall x, In x (flat_map inner this) -> T x) by (intros; apply Tv; cbn; apply in_or_app; auto).
          assert (Tw' : forall x, In x (flat_map inner part') -> T x) by (intros; apply Tw; cbn; apply in_or_app; auto).
          assert (Iw : In w that) by (eapply Permutation_in; [apply Permutation_sym; eauto | now left]).
          destruct (is_ref v) eqn:Ev.
          + destruct v as [| | |a| | | |]; try discriminate. destruct w as [| | |b0| | | |]; cbn in Hvw; try contradiction.
            destruct (scan rec c a [] that false) as [[r c1]|] eqn:E; [|discriminate].
            apply scan_ok in E as [Ok1 Q]; auto. destruct r as [rest| |].
            * destruct Q as (l1 & y & l2 & -> & -> & Q). cbn [rev app] in H.
              destruct (proj2 cop a b0 Hvw) as (ea & eb & Ha & Hb & _ & Sp & _).
              destruct (Q ea Ha) as (ey & Hy & Sy).
              assert (y = b0).
              { apply (U y b0 ey eb); auto; [apply in_or_app; right; now left|]. eapply same_pairs_trans; eauto. }
              subst y. eapply (IH c1 (l1 ++ l2) part' extra); eauto.
              { apply Permutation_sym. eapply Permutation_cons_app_inv. apply Permutation_sym. exact P. }
              { intros x y ex ey' Ix Iy. apply U; apply in_app_iff in Ix; apply in_app_iff in Iy; apply in_or_app; cbn; tauto. }
            * eapply (IH c1 that part' (PRef b0 :: extra)); eauto.
              eapply perm_trans; [exact P|]. cbn. apply Permutation_middle.
            * exfalso. destruct Q as [_ Q]. eapply Q; eauto.
          + assert (Pq : peq lower h eeq w v = true).
            { apply twin_peq; [apply twin_sym; auto; apply cop|].
              intros x y Ix Rxy. apply eeqT; auto. apply Tw. cbn. apply in_or_app; left. unfold inner.
              destruct w; auto. destruct v; cbn in Hvw; try contradiction. discriminate. }
            assert (Ex : existsb (fun w => peq lower h eeq w v) that = true) by (apply existsb_exists; exists w; auto).
            assert (H' : list_loop lower h eeq rec c this that = Some (b, c')) by (destruct v; try discriminate; rewrite Ex in H; exact H).
            eapply (IH c that part' (w :: extra)); eauto.
            eapply perm_trans; [exact P|]. cbn. apply Permutation_middle.
      Qed.

      Lemma field_ok : forall c tu uu a b f r c', field_cmp lower h eeq rec c tu uu (read h a f) (read h b f) = Some (r, c') -> cok c ->
        cok c' /\ (R a b -> alike h R (read h a f) (read h b f) -> r = true).
      Proof.
        intros c tu uu a b f r c' H Ok. unfold field_cmp in H.
        assert (Ta : R a b -> forall x, In x (deep (read h a f)) -> T x) by (intros; eapply deepT; eauto).
        assert (Tb : R a b -> forall x, In x (deep (read h b f)) -> T x) by (intros; eapply (deepT b a); eauto; now apply cop).
        set (v := read h a f) in *. set (w := read h b f) in *. clearbody v w.
        assert (X : (match items_of v, items_of w with
            | Some l, Some m =>
                if length l =? length m then list_loop lower h eeq rec c l m
                else Some (((length l =? 0) && tu) || ((length m =? 0) && uu), c)
            | _, _ => Some (peq lower h eeq v w, c)
            end = Some (r, c')) -> (is_ref v && is_ref w = false) -> cok c' /\ (R a b -> alike h R v w -> r = true)).
        { intros X N. unfold alike. unfold deep in Ta, Tb. destruct (items_of v) as [l|] eqn:Ev, (items_of w) as [m|] eqn:Ew.
          - destruct (length l =? length m) eqn:El.
            + split; [eapply list_ok; eauto|]. intros Rab [[m' [P F]] U].
              eapply (list_copies l c m m' []); eauto.
              * rewrite app_nil_r. now apply Permutation_sym.
              * intros x Ix. apply Tb; auto. apply in_flat_map in Ix as [z [Iz Hz]]. apply in_flat_map. exists z. split; auto.
                eapply Permutation_in; eauto.
            + inv X. split; auto. intros _ [[m' [P F]] _]. apply Forall2_len in F. apply Permutation_length in P.
              apply Nat.eqb_neq in El. congruence.
          - inv X. split; auto. intros _ Tw. destruct v, w; cbn in Tw; try contradiction; discriminate.
          - inv X. split; auto. intros _ Tw. destruct v, w; cbn in Tw; try contradiction; discriminate.
          - inv X. split; auto. intros Rab Tw. apply twin_peq; auto.
            intros x y Ix Rxy. apply eeqT; auto. apply Ta; auto. unfold inner. destruct v; auto.
            destruct w; cbn in Tw; try contradiction. cbn in N. discriminate. }
        destruct v; try (apply X; [assumption | reflexivity]). destruct w; try (apply X; [assumption | reflexivity]).
        clear X. destruct (rec c o o0) as [[t c1]|] eqn:E; [|discriminate]. apply rec_ok in E as [S1 [N _]]; auto.
        destruct t; inv H; split; auto. intros _ Al. cbn in Al. exfalso. now apply N.
      Qed.

      Lemma fields_ok : forall fs c tu uu a b r c', fields_loop lower h eeq rec c tu uu a b fs = Some (r, c') -> cok c ->
        cok c' /\ (R a b -> (forall f, In f fs -> alike h R (read h a f) (read h b f)) -> r = true).
      Proof.
        induction fs as [|f fs IH]; intros c tu uu a b r c' H Ok; cbn [fields_loop] in H.
        - inv H. auto.
        - destruct (field_cmp lower h eeq rec c tu uu (read h a f) (read h b f)) as [[x c1]|] eqn:E; [|discriminate].
          apply field_ok in E as [Ok1 Ht]; auto. destruct x.
          + destruct (IH _ _ _ _ _ _ _ H Ok1) as [Ok2 Hr]. split; auto. intros Rab Al. apply Hr; auto. intros; apply Al; now right.
          + inv H. split; auto. intros Rab Al. apply Ht; auto. apply Al. now left.
      Qed.
    End Loops.

    Lemma cok_put : forall c a b t, cok c -> (R a b -> t <> FF) ->
      (t = TT -> forall ea eb, hget h a = Some ea -> hget h b = Some eb -> same_pairs (e_uids ea) (e_uids eb)) -> cok (put c a b t).
    Proof.
      intros c a b t [Ro To] H1 H2.
      assert (Key : forall x y, ckey x y = ckey a b -> (x = a /\ y = b) \/ (x = b /\ y = a)).
      { unfold ckey. intros x y E. injection E as E1 E2. lia. }
      split.
      - intros x y Rxy L. rewrite lookup_put in L. destruct (key_eqb (ckey x y) (ckey a b)) eqn:E; [|now apply (Ro x y)].
        apply key_eqb_eq, Key in E. injection L as ->. destruct E as [[-> ->]|[-> ->]]; [now apply H1|]. apply H1; auto. now apply cop.
      - intros x y ex ey L Hx Hy. rewrite lookup_put in L. destruct (key_eqb (ckey x y) (ckey a b)) eqn:E; [|now apply (To x y ex ey)].
        apply key_eqb_eq, Key in E. injection L as ->. destruct E as [[-> ->]|[-> ->]]; [now apply H2|].
        unfold same_pairs. intros kv. symmetry. apply H2; auto.
    Qed.

    Lemma ceq_ok : forall n c a b t c', cached_equals lower h eeq n c a b = Some (t, c') -> cok c ->
      cok c' /\ (R a b -> t <> FF) /\
      (t = TT -> forall ea, hget h a = Some ea -> exists eb, hget h b = Some eb /\ same_pairs (e_uids ea) (e_uids eb)).
    Proof.
      induction n as [|n IH]; intros c a b t c' H Ok.
      - cbn in H. destruct (hget h a) as [ea|] eqn:Ea; [destruct (hget h b) as [eb|] eqn:Eb|].
        + destruct (lookup c a b) eqn:L; inv H. split; auto. split.
          * intros Rab ->. now apply (proj1 Ok a b).
          * intros -> ea' [= <-]. exists eb. split; auto. eapply (proj2 Ok a b); eauto.
        + inv H. split; auto. split.
          * intros Rab. destruct (proj2 cop a b Rab) as (? & ? & _ & ? & _). congruence.
          * destruct (a =? b) eqn:Q; [|discriminate]. apply Nat.eqb_eq in Q. subst. congruence.
        + inv H. split; auto. split.
          * intros Rab. destruct (proj2 cop a b Rab) as (? & ? & ? & _). congruence.
          * intros _ ea Q. discriminate.
      - cbn [cached_equals] in H. destruct (hget h a) as [ea|] eqn:Ea; [destruct (hget h b) as [eb|] eqn:Eb|].
        2: { inv H. split; auto. split.
          * intros Rab. destruct (proj2 cop a b Rab) as (? & ? & _ & ? & _). congruence.
          * destruct (a =? b) eqn:Q; [|discriminate]. apply Nat.eqb_eq in Q. subst. congruence. }
        2: { inv H. split; auto. split.
          * intros Rab. destruct (proj2 cop a b Rab) as (? & ? & ? & _). congruence.
          * intros _ ea Q. discriminate. }
        destruct (lookup c a b) eqn:L.
        { inv H. split; auto. split.
          * intros Rab ->. now apply (proj1 Ok a b).
          * intros -> ea' [= <-]. exists eb. split; auto. eapply (proj2 Ok a b); eauto. }
        assert (Sp : R a b -> e_kind ea = e_kind eb /\ same_pairs (e_uids ea) (e_uids eb) /\
           (forall f, In f (keys (e_fields ea)) <-> In f (keys (e_fields eb))) /\
           forall f, In f (compared ea) -> alike h R (read h a f) (read h b f)).
        { intros Rab. destruct (proj2 cop a b Rab) as (ea' & eb' & Q1 & Q2 & Q3 & Q4 & Q5 & Q6).
          assert (ea' = ea) by congruence. assert (eb' = eb) by congruence. subst.
          split; [auto|]. split; [auto|]. split; [auto|]. intros f If. apply compared_in in If as [I N]. auto. }
        assert (Ok1 : cok (put c a b UU)) by (apply cok_put; auto; discriminate).
        destruct (same_names (compared ea) (compared eb)) eqn:Sn; cbn [negb] in H.
        2: { assert (N : ~ R a b).
             { intros Rab. destruct (Sp Rab) as (_ & _ & Q & _).
               assert (Z : forall u w, (forall f, In f (compared u) -> In f (compared w)) -> forallb (fun f => existsb (String.eqb f) (compared w)) (compared u) = true).
               { intros u w I. apply forallb_forall. intros f If. apply existsb_exists. exists f. split; [auto | apply String.eqb_refl]. }
               assert (same_names (compared ea) (compared eb) = true); [|congruence].
               unfold same_names. rewrite !Z; auto; intros f; rewrite !compared_in, Q; auto. }
             inv H. split; [apply cok_put; [auto | intros; contradiction | discriminate]|]. split; [contradiction | discriminate]. }
        destruct (same_uids (e_uids ea) (e_uids eb)) eqn:Su; cbn [negb] in H.
        2: { assert (N : ~ R a b).
             { intros Rab. destruct (Sp Rab) as (_ & Q & _).
               apply (same_uids_iff (e_uids ea) (e_uids eb)) in Q; [congruence | eapply uok; eauto | eapply uok; eauto]. }
             inv H. split; [apply cok_put; [auto | intros; contradiction | discriminate]|]. split; [contradiction | discriminate]. }
        assert (Sm : same_pairs (e_uids ea) (e_uids eb)) by (apply same_uids_iff; auto; eapply uok; eauto).
        destruct (fields_loop _ _ _ _ _ _ _ _ _) as [[r c2]|] eqn:F; [|discriminate].
        apply fields_ok in F; [|intros; eapply IH; eauto | exact Ok1].
        destruct F as [Ok2 Hr]. destruct r.
        + destruct (ekind_eqb (e_kind ea) (e_kind eb)) eqn:Ek.
          * inv H. split; [|split; [discriminate|]].
            { apply cok_put; auto; [discriminate|]. intros _ ea' eb' Q1 Q2. rewrite Ea in Q1; rewrite Eb in Q2; injection Q1 as <-; injection Q2 as <-; exact Sm. }
            { intros _ ea' Q1. injection Q1 as <-. eauto. }
          * assert (N : ~ R a b).
            { intros Rab. destruct (Sp Rab) as (Q & _). unfold ekind_eqb in Ek. now destruct (ekind_eq_dec (e_kind ea) (e_kind eb)). }
            inv H. split; [apply cok_put; [auto | intros; contradiction | discriminate]|]. split; [contradiction | discriminate].
        + assert (N : ~ R a b).
          { intros Rab. assert (false = true); [|discriminate]. apply Hr; auto. apply Sp; auto. }
          inv H. split; [apply cok_put; [auto | intros; contradiction | discriminate]|]. split; [contradiction | discriminate].
    Qed.

    Lemma copies_at : forall a b, R a b ->
      match cached_equals lower h eeq (depth h) [] a b with Some (TT, _) => true | _ => false end = true.
    Proof.
      intros a b Rab. destruct (ceq_fresh lower h eeq a b) as [c [E|E]]; rewrite E; auto.
      apply ceq_ok in E as [_ [N _]]; [|split; intros x y; discriminate]. exfalso. now apply N.
    Qed.
  End Peq.
End Twin.

(** In layered heaps two levels are enough. *)
Lemma copies_equal_lemma : forall lower h R, layered h -> uids_ok h -> copies h R -> forall a b, R a b -> entity_eq lower h a b = true.
Proof.
  intros lower h R [L1 L2] U C a b Rab. unfold entity_eq. cbn [equals_at].
  apply (copies_at lower h R _ U C (attribute_template h)); auto.
  - intros x y f z _ I. apply mentions_deep in I. eauto.
  - intros x y Tx Rxy. cbn [equals_at].
    set (R' := fun p q => R p q /\ attribute_template h p /\ attribute_template h q).
    assert (Kd : forall p q, R p q -> attribute_template h p -> attribute_template h q).
    { intros p q Rpq. destruct (proj2 C p q Rpq) as (ep & eq & Hp & Hq & K & _). unfold attribute_template, kind_at. rewrite Hp, Hq. cbn. now rewrite K. }
    assert (NoRef : forall p f, attribute_template h p -> refs (read h p f) = []).
    { intros p f Tp. destruct (refs (read h p f)) as [|z l] eqn:E; auto. exfalso. apply (L2 p f z Tp). apply mentions_refs. rewrite E. now left. }
    assert (Tw : forall v w, refs v = [] -> twin R v w -> twin R' v w).
    { assert (Gl : forall l, Forall (fun v => forall w, refs v = [] -> twin R v w -> twin R' v w) l -> forall m, flat_map refs l = [] -> twin R (PList l) (PList m) -> twin R' (PList l) (PList m)).
      { induction 1 as [|v l Hv F IH]; intros [|w m] E H; try exact H. cbn [flat_map] in E. apply app_eq_nil in E as [E1 E2]. destruct H as [A B]. split; [apply Hv; auto | apply (IH m E2 B)]. }
      assert (Gd : forall l, Forall (fun kv : string * pv => forall w, refs (snd kv) = [] -> twin R (snd kv) w -> twin R' (snd kv) w) l -> forall m, flat_map (fun kv => refs (snd kv)) l = [] -> twin R (PDict l) (PDict m) -> twin R' (PDict l) (PDict m)).
      { intros l F m E H. apply twin_dict in H as (A & B & D & G). apply twin_dict. split; [auto|]. split; [auto|]. split; [auto|].
        intros k v I. destruct (G k v I) as [w [Iw T]]. exists w. split; auto. rewrite Forall_forall in F. apply (F (k, v)); auto. cbn [snd].
        destruct (refs v) as [|z q] eqn:Q; auto. exfalso. assert (X : In z []); [|contradiction].
        rewrite <- E. apply in_flat_map. exists (k, v). split; auto. cbn. rewrite Q. now left. }
      apply (pv_ind2 (fun v => forall w, refs v = [] -> twin R v w -> twin R' v w)).
      - intros [] E H; cbn in *; auto.
      - intros ? [] E H; cbn in *; auto.
      - intros ? ? [] E H; cbn in *; auto.
      - intros o w E. discriminate.
      - intros l F [] E H; try (cbn in H; contradiction). rewrite refs_list in E. apply Gl; auto.
      - intros l F [] E H; try (cbn in H; contradiction). rewrite refs_tuple in E. apply (Gl l F l0 E H).
      - intros l F [] E H; try (cbn in H; contradiction). rewrite refs_dict in E. apply Gd; auto.
      - intros t l F [] E H; try (cbn in H; contradiction). rewrite refs_obj in E. destruct H as [-> H]. exact (conj eq_refl (Gd l F fs E H)). }
    assert (C' : copies h R').
    { split.
      - intros p q (A & B & D). split; [now apply C | auto].
      - intros p q (A & B & D). destruct (proj2 C p q A) as (ep & eq & Q1 & Q2 & Q3 & Q4 & Q5 & Q6). exists ep, eq.
        split; [auto|]. split; [auto|]. split; [auto|]. split; [auto|]. split; [auto|]. intros f I N.
        specialize (Q6 f I N). assert (E := NoRef p f B).
        assert (Ei : forall l, items_of (read h p f) = Some l -> forall z, In z l -> refs z = []).
        { intros l Hl z Iz.
          assert (E' : flat_map refs l = []).
          { destruct (read h p f) as [| | | | l1 | l1 | l1 | ]; cbn [items_of] in Hl; try discriminate; injection Hl as <-;
              rewrite ?refs_list, ?refs_tuple in E; auto. clear. induction l1; auto. }
          destruct (refs z) as [|y0 r0] eqn:Ez; auto. exfalso.
          assert (In y0 (flat_map refs l)) as Hin by (apply in_flat_map; exists z; rewrite Ez; split; [auto | now left]).
          rewrite E' in Hin. contradiction. }
        unfold alike in *. destruct (items_of (read h p f)) as [l|]; [destruct (items_of (read h q f)) as [m|]|]; auto.
        destruct Q6 as [[m' [P F]] Un]. split; auto. exists m'. split; auto.
        specialize (Ei l eq_refl). clear - F Ei Tw. induction F; constructor; auto.
        + apply Tw; auto. apply Ei. now left.
        + apply IHF. intros; apply Ei; now right. }
    apply (copies_at lower h R' (Nat.eqb) U C' (fun _ => False)).
    + intros p q f z (A & B & D) I. apply mentions_deep in I. apply (L2 p f z B).
      unfold mentions_inside in I. destruct (read h p f) as [| | | |l|l|l|]; cbn in I; try tauto.
      * destruct I as (v & Iv & _ & M). econstructor; eauto.
      * destruct I as (v & Iv & _ & M). econstructor; eauto.
      * destruct I as (v & Iv & _ & M). apply in_map_iff in Iv as [kv [<- _]]. inversion M.
    + contradiction.
    + split; auto. split; auto. eapply Kd; eauto.
Qed.
