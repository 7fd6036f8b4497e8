(** Proofs about entity equality. *)
From Coq Require Import String List Bool Arith ZArith QArith Lia Sorted.
From Verif Require Import Base BaseFacts GraphModel GraphProofs EqModel.
Import ListNotations.
Open Scope string_scope.
Open Scope list_scope.
Open Scope nat_scope.

Lemma key_eqb_eq : forall p q, key_eqb p q = true <-> p = q.
Proof.
  intros [a b] [c d]. unfold key_eqb; cbn. rewrite andb_true_iff, !Nat.eqb_eq. split; [intros [-> ->]; auto | intros [= -> ->]; auto].
Qed.

Lemma ckey_sym : forall a b, ckey a b = ckey b a.
Proof. intros. unfold ckey. now rewrite Nat.min_comm, Nat.max_comm. Qed.

Lemma ckey_self : forall x a b, ckey x x = ckey a b -> a = b /\ a = x.
Proof. unfold ckey. intros x a b H. injection H as H1 H2. lia. Qed.

Lemma lookup_sym : forall c a b, lookup c a b = lookup c b a.
Proof. intros. unfold lookup. now rewrite ckey_sym. Qed.

Lemma lookup_put : forall c a b t x y,
  lookup (put c a b t) x y = if key_eqb (ckey x y) (ckey a b) then Some t else lookup c x y.
Proof. intros. unfold lookup, put; cbn. now destruct (key_eqb (ckey x y) (ckey a b)). Qed.

Lemma lookup_put_same : forall c a b t, lookup (put c a b t) a b = Some t.
Proof. intros. rewrite lookup_put. now rewrite (proj2 (key_eqb_eq _ _) eq_refl). Qed.

(** The cache only gains entries. *)
Definition extends (c c' : cache) : Prop := forall x y t, lookup c x y = Some t -> lookup c' x y = Some t.

Lemma extends_refl : forall c, extends c c.
Proof. unfold extends; auto. Qed.

Lemma extends_trans : forall c1 c2 c3, extends c1 c2 -> extends c2 c3 -> extends c1 c3.
Proof. unfold extends; auto. Qed.

Lemma extends_put : forall c a b t, lookup c a b = None -> extends c (put c a b t).
Proof.
  intros c a b t H x y u L. rewrite lookup_put. destruct (key_eqb (ckey x y) (ckey a b)) eqn:E; auto.
  apply key_eqb_eq in E. unfold lookup in *. rewrite E in L. rewrite L in H. discriminate.
Qed.

(** ** Plain values *)

Lemma pv_ind2 (P : pv -> Prop) :
  P PNone -> (forall a, P (PAtom a)) -> (forall s i, P (PLink s i)) -> (forall o, P (PRef o)) ->
  (forall l, Forall P l -> P (PList l)) -> (forall l, Forall P l -> P (PTuple l)) ->
  (forall l, Forall (fun kv => P (snd kv)) l -> P (PDict l)) ->
  (forall t l, Forall (fun kv => P (snd kv)) l -> P (PObj t l)) -> forall v, P v.
Proof.
  intros H1 H2 H3 H4 H5 H6 H7 H8. fix IH 1. destruct v; [exact H1 | apply H2 | apply H3 | apply H4 | | | | ].
  - apply H5. induction l; constructor; auto.
  - apply H6. induction l; constructor; auto.
  - apply H7. induction l as [|[k v] l IHl]; constructor; auto.
  - apply H8. induction fs as [|[k v] l IHl]; constructor; auto.
Qed.

Lemma atom_eq_refl : forall a, atom_eq a a = true.
Proof.
  destruct a; cbn; try apply String.eqb_refl; apply Qeq_bool_iff; reflexivity.
Qed.

Lemma same_uids_refl : forall u, same_uids u u = true.
Proof.
  intros. unfold same_uids. rewrite Nat.eqb_refl. cbn. apply forallb_forall. intros kv I.
  apply existsb_exists. exists kv. now rewrite !String.eqb_refl.
Qed.

Lemma same_names_refl : forall l, same_names l l = true.
Proof.
  intros. unfold same_names. rewrite andb_diag. apply forallb_forall. intros f I. apply existsb_exists.
  exists f. now rewrite String.eqb_refl.
Qed.

Section Proofs.
  Variable lower : string -> string.
  Variable h : heap.

  Section Level.
    Variable eeq : oid -> oid -> bool.
    Notation peq := (peq lower h eeq).

    Lemma peq_refl : (forall o, eeq o o = true) -> forall v, peq v v = true.
    Proof.
      intros R. apply pv_ind2; cbn; auto using atom_eq_refl.
      - intros. now rewrite !String.eqb_refl.
      - induction 1; auto. rewrite H. auto.
      - intros l F.
        assert (G : (fix go (l m : list pv) {struct l} : bool :=
             match l, m with
             | [], [] => true
             | x :: l', y :: m' => peq x y && go l' m'
             | _, _ => false
             end) l l = true).
        { induction F; auto. rewrite H. auto. }
        destruct l as [|v1 [|v2 [|]]]; auto.
        all: repeat match goal with |- context [match ?x with _ => _ end] => destruct x; auto end.
      - intros l F. rewrite Nat.eqb_refl. cbn.
        assert (G : forall m, incl m l -> (fix go (l0 : list (string * pv)) : bool :=
             match l0 with
             | [] => true
             | (k, x) :: r => existsb (fun kw => String.eqb k (fst kw) && peq x (snd kw)) l && go r
             end) m = true); [|apply G, incl_refl].
        induction m as [|[k x] r IH]; auto. intros I. rewrite IH by (intros z Hz; apply I; now right).
        rewrite andb_true_r. apply existsb_exists. exists (k, x). split; [apply I; now left|].
        cbn. rewrite String.eqb_refl. cbn. rewrite Forall_forall in F. apply (F (k, x)). apply I; now left.
      - intros t l F. rewrite String.eqb_refl, Nat.eqb_refl. cbn.
        assert (G : forall m, incl m l -> (fix go (l0 : list (string * pv)) : bool :=
             match l0 with
             | [] => true
             | (k, x) :: r => existsb (fun kw => String.eqb k (fst kw) && peq x (snd kw)) l && go r
             end) m = true); [|apply G, incl_refl].
        induction m as [|[k x] r IH]; auto. intros I. rewrite IH by (intros z Hz; apply I; now right).
        rewrite andb_true_r. apply existsb_exists. exists (k, x). split; [apply I; now left|].
        cbn. rewrite String.eqb_refl. cbn. rewrite Forall_forall in F. apply (F (k, x)). apply I; now left.
    Qed.

    Section Loops.
      Variable rec : cache -> oid -> oid -> option (tern * cache).
      Notation scan := (scan rec).
      Notation list_loop := (list_loop lower h eeq rec).
      Notation field_cmp := (field_cmp lower h eeq rec).
      Notation fields_loop := (fields_loop lower h eeq rec).

      (** A comparison whose outcome is fixed from cache [c] on. *)
      Definition settled (c : cache) (x y : oid) (t : tern) : Prop :=
        forall c2, extends c c2 -> rec c2 x y = Some (t, c2).

      Hypothesis rec_extends : forall c a b t c', rec c a b = Some (t, c') -> extends c c'.

      Lemma scan_extends : forall that c x pre p r c', scan c x pre that p = Some (r, c') -> extends c c'.
      Proof.
        induction that as [|y that IH]; intros c x pre p r c' H; cbn [EqModel.scan] in H.
        - inv H. apply extends_refl.
        - destruct (match y with PRef o => rec c x o | _ => Some (FF, c) end) as [[t c1]|] eqn:E; [|discriminate].
          assert (X : extends c c1) by (destruct y; try (inv E; apply extends_refl); eapply rec_extends; eauto).
          destruct t.
          + inv H. auto.
          + eapply extends_trans; eauto.
          + eapply extends_trans; eauto.
      Qed.

      Lemma list_loop_extends : forall this c that b c', list_loop c this that = Some (b, c') -> extends c c'.
      Proof.
        induction this as [|v this IH]; intros c that b c' H; cbn [EqModel.list_loop] in H.
        - inv H. apply extends_refl.
        - destruct v;
            try (destruct (existsb _ that); [eapply IH; eauto | inv H; apply extends_refl]).
          destruct (scan c o [] that false) as [[[rest| |] c1]|] eqn:E; [| | |discriminate];
            apply scan_extends in E; try (inv H; auto); (eapply extends_trans; [eauto | eapply IH; eauto]).
      Qed.

      Lemma field_cmp_extends : forall c tu uu v w b c', field_cmp c tu uu v w = Some (b, c') -> extends c c'.
      Proof.
        intros c tu uu v w b c' H. unfold EqModel.field_cmp in H.
        assert (X : (match items_of v, items_of w with
            | Some l, Some m =>
                if length l =? length m then list_loop c l m
                else Some (((length l =? 0) && tu) || ((length m =? 0) && uu), c)
            | _, _ => Some (EqModel.peq lower h eeq v w, c)
            end = Some (b, c')) -> extends c c').
        { intros X. destruct (items_of v), (items_of w); try (inv X; apply extends_refl).
          destruct (length l =? length l0); [eapply list_loop_extends; eauto | inv X; apply extends_refl]. }
        destruct v; auto. destruct w; auto.
        destruct (rec c o o0) as [[[] c1]|] eqn:E; inv H; eapply rec_extends; eauto.
      Qed.

      Lemma fields_loop_extends : forall fs c tu uu a b r c', fields_loop c tu uu a b fs = Some (r, c') -> extends c c'.
      Proof.
        induction fs as [|f fs IH]; intros c tu uu a b r c' H; cbn [EqModel.fields_loop] in H.
        - inv H. apply extends_refl.
        - destruct (field_cmp c tu uu (read h a f) (read h b f)) as [[[] c1]|] eqn:E; [| |discriminate];
            apply field_cmp_extends in E.
          + eapply extends_trans; eauto.
          + inv H; auto.
      Qed.

      (** ** No loop gives up if the recursive calls do not *)
      Section Total.
        Variable c0 : cache.
        Hypothesis rec_total : forall c a b, extends c0 c -> rec c a b <> None.

        Lemma scan_total : forall that c x pre p, extends c0 c -> scan c x pre that p <> None.
        Proof.
          induction that as [|y that IH]; intros c x pre p X; cbn [EqModel.scan]; [discriminate|].
          destruct (match y with PRef o => rec c x o | _ => Some (FF, c) end) as [[t c1]|] eqn:E.
          - assert (X1 : extends c c1) by (destruct y; try (inv E; apply extends_refl); eapply rec_extends; eauto).
            destruct t; [discriminate | |]; apply IH; eapply extends_trans; eauto.
          - destruct y; try discriminate. exfalso. eapply rec_total; eauto.
        Qed.

        Lemma list_loop_total : forall this c that, extends c0 c -> list_loop c this that <> None.
        Proof.
          induction this as [|v this IH]; intros c that X; cbn [EqModel.list_loop]; [discriminate|].
          destruct v; try (destruct (existsb _ that); [now apply IH | discriminate]).
          destruct (scan c o [] that false) as [[[rest| |] c1]|] eqn:E.
          - apply scan_extends in E. apply IH. eapply extends_trans; eauto.
          - apply scan_extends in E. apply IH. eapply extends_trans; eauto.
          - discriminate.
          - exfalso. eapply scan_total; eauto.
        Qed.

        Lemma field_cmp_total : forall c tu uu v w, extends c0 c -> field_cmp c tu uu v w <> None.
        Proof.
          intros c tu uu v w X. unfold EqModel.field_cmp.
          assert (Y : (match items_of v, items_of w with
            | Some l, Some m =>
                if length l =? length m then list_loop c l m
                else Some (((length l =? 0) && tu) || ((length m =? 0) && uu), c)
            | _, _ => Some (EqModel.peq lower h eeq v w, c)
            end <> None)).
          { destruct (items_of v), (items_of w); try discriminate.
            destruct (length l =? length l0); [now apply list_loop_total | discriminate]. }
          destruct v; auto. destruct w; auto.
          destruct (rec c o o0) as [[[] c1]|] eqn:E; try discriminate. exfalso. eapply rec_total; eauto.
        Qed.

        Lemma fields_loop_total : forall fs c tu uu a b, extends c0 c -> fields_loop c tu uu a b fs <> None.
        Proof.
          induction fs as [|f fs IH]; intros c tu uu a b X; cbn [EqModel.fields_loop]; [discriminate|].
          destruct (field_cmp c tu uu (read h a f) (read h b f)) as [[[] c1]|] eqn:E.
          - apply field_cmp_extends in E. apply IH. eapply extends_trans; eauto.
          - discriminate.
          - exfalso. eapply field_cmp_total; eauto.
        Qed.
      End Total.

      (** ** Comparing a list with itself *)
      Section Self.
        Hypothesis eeq_refl : forall o, eeq o o = true.
        Hypothesis rec_settled : forall c a b t c', rec c a b = Some (t, c') -> settled c' a b t /\ settled c' b a t.
        Definition selfok (c : cache) : Prop := forall x, lookup c x x <> Some FF.
        Hypothesis rec_selfok : forall c a b t c', rec c a b = Some (t, c') -> selfok c -> selfok c' /\ (a = b -> t <> FF).

        Lemma settled_extends : forall c c' x y t, settled c x y t -> extends c c' -> settled c' x y t.
        Proof. unfold settled. intros c c' x y t S X c2 X2. apply S. eapply extends_trans; eauto. Qed.

        Lemma settled_fun : forall c x y t t', settled c x y t -> settled c x y t' -> t = t'.
        Proof.
          intros c x y t t' S S'. specialize (S c (extends_refl c)). specialize (S' c (extends_refl c)). congruence.
        Qed.

        Lemma settled_sym : forall c x y t, settled c x y t -> settled c y x t.
        Proof. intros c x y t S. specialize (S c (extends_refl c)) as E. now apply rec_settled in E as [_ ?]. Qed.

        Definition not_true (c : cache) (x y : oid) : Prop := exists t, t <> TT /\ settled c x y t.

        Lemma not_true_extends : forall c c' x y, not_true c x y -> extends c c' -> not_true c' x y.
        Proof. intros c c' x y [t [N S]] X. exists t. split; auto. eapply settled_extends; eauto. Qed.

        Lemma scan_spec : forall that c x pre p r c', scan c x pre that p = Some (r, c') ->
          (selfok c -> selfok c') /\
          match r with
          | Matched rest => exists l1 y l2, that = l1 ++ PRef y :: l2 /\ rest = rev pre ++ l1 ++ l2 /\ settled c' x y TT
                              /\ (forall z, In (PRef z) l1 -> not_true c' x z)
          | Pending => forall z, In (PRef z) that -> not_true c' x z
          | Missing => p = false /\ forall z, In (PRef z) that -> settled c' x z FF
          end.
        Proof.
          induction that as [|y that IH]; intros c x pre p r c' H; cbn [EqModel.scan] in H.
          - inv H. split; auto. destruct p; cbn; [contradiction | tauto].
          - destruct (match y with PRef o => rec c x o | _ => Some (FF, c) end) as [[t c1]|] eqn:E; [|discriminate].
            assert (X1 : (selfok c -> selfok c1) /\ forall z, y = PRef z -> settled c1 x z t).
            { destruct y; try (inv E; split; [auto | intros; discriminate]).
              split; [intros; eapply rec_selfok; eauto|]. intros z [= <-]. exact (proj1 (rec_settled _ _ _ _ _ E)). }
            destruct X1 as [SO St].
            destruct t.
            + inv H. split; auto. destruct y; try discriminate. exists [], o, that. cbn. repeat split; auto; try contradiction.
            + assert (Ext := scan_extends _ _ _ _ _ _ _ H). destruct (IH _ _ _ _ _ _ H) as [S2 R]. split; [auto|].
              assert (Hy : forall z, y = PRef z -> settled c' x z FF) by (intros; eapply settled_extends; eauto).
              destruct r.
              * destruct R as (l1 & y1 & l2 & -> & -> & St1 & N1). exists (y :: l1), y1, l2. cbn. rewrite <- app_assoc. cbn.
                repeat split; auto. intros z [->|I]; auto. exists FF. split; [discriminate | auto].
              * intros z [->|I]; auto. exists FF. split; [discriminate | auto].
              * destruct R as [-> R]. split; auto. intros z [->|I]; auto.
            + assert (Ext := scan_extends _ _ _ _ _ _ _ H). destruct (IH _ _ _ _ _ _ H) as [S2 R]. split; [auto|].
              assert (Hy : forall z, y = PRef z -> settled c' x z UU) by (intros; eapply settled_extends; eauto).
              destruct r.
              * destruct R as (l1 & y1 & l2 & -> & -> & St1 & N1). exists (y :: l1), y1, l2. cbn. rewrite <- app_assoc. cbn.
                repeat split; auto. intros z [->|I]; auto. exists UU. split; [discriminate | auto].
              * intros z [->|I]; auto. exists UU. split; [discriminate | auto].
              * destruct R as [R _]. discriminate.
        Qed.

        Variable l : list pv.
        Notation el := (fun j => nth j l PNone).

        (** The state of the loop when it reaches position [i]: [rem] are the positions of the
            members still in the copy, [sg k] the position that member [k] was matched with. *)
        Record inv_at (i : nat) (c : cache) (rem : list nat) (sg : nat -> option nat) : Prop := {
          i0 : StronglySorted lt rem /\ (forall j, In j rem -> j < length l);
          i1 : forall j, j < length l -> (~ In j rem <-> exists k, k < i /\ sg k = Some j);
          i2 : forall k j, k < i -> sg k = Some j -> j < length l /\ (j = k \/ (j < i /\ sg j = Some k) \/ (i <= j /\ In k rem));
          i3 : forall m j, m < i -> j < length l -> (In j rem \/ exists k, m < k /\ k < i /\ sg k = Some j) ->
                 (match sg m with Some j' => j < j' | None => True end) ->
                 forall x y, el m = PRef x -> el j = PRef y -> not_true c x y;
          i4 : forall k j, k < i -> sg k = Some j -> exists x y, el k = PRef x /\ el j = PRef y /\ settled c x y TT;
          i5 : forall k k' j, k < i -> k' < i -> sg k = Some j -> sg k' = Some j -> k = k'
        }.

        Lemma inv_extends : forall i c c' rem sg, inv_at i c rem sg -> extends c c' -> inv_at i c' rem sg.
        Proof.
          intros i c c' rem sg [A0 A1 A2 A3 A4 A5] X. constructor; auto.
          - intros. eapply not_true_extends; eauto.
          - intros k j Hk E. destruct (A4 k j Hk E) as (x & y & E1 & E2 & S). exists x, y. repeat split; auto. eapply settled_extends; eauto.
        Qed.

        (** A member still in the copy was not found equal to the one whose turn it is. *)
        Lemma passed : forall i c rem sg m x y, inv_at i c rem sg -> m < i -> i < length l -> In m rem ->
          (In i rem \/ exists k, m < k /\ k < i /\ sg k = Some i) ->
          el m = PRef y -> el i = PRef x -> not_true c y x.
        Proof.
          intros i c rem sg m x y V Hm Hi Im Hrem Em Ei.
          eapply (i3 _ _ _ _ V m i); eauto.
          destruct (sg m) as [j'|] eqn:E; auto.
          assert (Lm : m < length l) by (apply (proj2 (i0 _ _ _ _ V)); auto).
          destruct (i2 _ _ _ _ V m j' Hm E) as [Lj [->|[[Hj Ej]|[Hj _]]]].
          - exfalso. apply (proj2 (i1 _ _ _ _ V m Lm)); [exists m; auto | auto].
          - exfalso. apply (proj2 (i1 _ _ _ _ V m Lm)); [exists j'; auto | auto].
          - assert (j' <> i); [|lia]. intros ->.
            destruct Hrem as [Hr|[k [K1 [K2 K3]]]].
            + apply (proj2 (i1 _ _ _ _ V i Hi)); [exists m; auto | auto].
            + assert (k = m) by (eapply (i5 _ _ _ _ V); eauto). lia.
        Qed.

        Lemma sorted_split : forall a j b, StronglySorted lt (a ++ j :: b) ->
          (forall x, In x a -> x < j) /\ (forall x, In x b -> j < x) /\ StronglySorted lt (a ++ b).
        Proof.
          induction a as [|z a IH]; cbn; intros j b S.
          - inv S. rewrite Forall_forall in H2. repeat split; auto; contradiction.
          - inv S. destruct (IH _ _ H1) as [A [B C]]. rewrite Forall_forall in H2. repeat split; auto.
            + intros x [<-|I]; auto. apply H2. apply in_or_app; right; now left.
            + constructor; auto. rewrite Forall_forall. intros x I. apply H2. apply in_app_iff in I. apply in_or_app; cbn; tauto.
        Qed.

        Lemma nodup_split : forall a (j : nat) b, StronglySorted lt (a ++ j :: b) -> ~ In j (a ++ b).
        Proof.
          intros a j b S I. destruct (sorted_split _ _ _ S) as [A [B _]]. apply in_app_iff in I as [I|I].
          - apply A in I. lia.
          - apply B in I. lia.
        Qed.

        Lemma step_none : forall i c rem sg, inv_at i c rem sg -> i < length l -> In i rem ->
          (forall x, el i = PRef x -> forall j y, In j rem -> el j = PRef y -> not_true c x y) ->
          inv_at (S i) c rem (fun k => if k =? i then None else sg k).
        Proof.
          intros i c rem sg V Hi Ir N. destruct V as [A0 A1 A2 A3 A4 A5]. constructor.
          - auto.
          - intros j Hj. rewrite A1 by auto. split; intros [k [K1 K2]]; exists k.
            + split; [lia|]. replace (k =? i) with false; auto. symmetry; apply Nat.eqb_neq; lia.
            + destruct (k =? i) eqn:E; [discriminate|]. apply Nat.eqb_neq in E. split; [lia | auto].
          - intros k j Hk E. destruct (k =? i) eqn:Ek; [discriminate|]. apply Nat.eqb_neq in Ek.
            assert (k < i) by lia. destruct (A2 k j H E) as [Lj [->|[[Hj Ej]|[Hj Hr]]]]; split; auto.
            + right; left. split; [lia|]. replace (j =? i) with false; auto. symmetry; apply Nat.eqb_neq; lia.
            + assert (j <> i). { intros ->. apply (proj2 (A1 i Hi)); [exists k; auto | auto]. }
              right; right. split; [lia | auto].
          - intros m j Hm Hj Hr Hs x y Ex Ey. destruct (m =? i) eqn:Em.
            + apply Nat.eqb_eq in Em; subst. apply (N x Ex j y); auto.
              destruct Hr as [|[k [K1 [K2 K3]]]]; auto. lia.
            + apply Nat.eqb_neq in Em. eapply (A3 m j); eauto; [lia|]. destruct Hr as [|[k [K1 [K2 K3]]]]; auto.
              destruct (k =? i) eqn:Ek; [discriminate|]. apply Nat.eqb_neq in Ek. right. exists k. split; auto. split; [lia | auto].
          - intros k j Hk E. destruct (k =? i) eqn:Ek; [discriminate|]. apply Nat.eqb_neq in Ek. apply (A4 k j); auto; lia.
          - intros k k' j Hk Hk' E E'. destruct (k =? i) eqn:Ek; [discriminate|]. destruct (k' =? i) eqn:Ek'; [discriminate|].
            apply Nat.eqb_neq in Ek, Ek'. eapply (A5 k k' j); eauto; lia.
        Qed.

        Lemma step_match : forall i c a p b sg x y, inv_at i c (a ++ p :: b) sg -> i < length l ->
          el i = PRef x -> el p = PRef y -> settled c x y TT ->
          (forall j z, In j a -> el j = PRef z -> not_true c x z) ->
          (In i (a ++ p :: b) /\ i <= p \/ p < i /\ sg p = Some i) ->
          inv_at (S i) c (a ++ b) (fun k => if k =? i then Some p else sg k).
        Proof.
          intros i c a p b sg x y V Hi Ex Ey St Na Hp.
          assert (Srt := proj1 (i0 _ _ _ _ V)). destruct (sorted_split _ _ _ Srt) as [Sa [Sb Sab]].
          assert (Nd := nodup_split _ _ _ Srt).
          assert (Sub : forall j, In j (a ++ b) -> In j (a ++ p :: b)) by (intros j I; apply in_app_iff in I; apply in_or_app; cbn; tauto).
          assert (Sub2 : forall j, In j (a ++ p :: b) -> j <> p -> In j (a ++ b)) by (intros j I N; apply in_app_iff in I; cbn in I; apply in_or_app; intuition congruence).
          assert (Ip : In p (a ++ p :: b)) by (apply in_or_app; right; now left).
          destruct V as [A0 A1 A2 A3 A4 A5].
          assert (Lp : p < length l) by (apply A0; auto).
          assert (Fresh : forall k, k < i -> sg k <> Some p).
          { intros k Hk E. apply (proj2 (A1 p Lp)); [exists k; auto | auto]. }
          constructor.
          - split; auto. intros j I. apply A0. auto.
          - intros j Hj. split.
            + intros N. destruct (Nat.eq_dec j p) as [->|Np].
              * exists i. rewrite Nat.eqb_refl. auto.
              * assert (~ In j (a ++ p :: b)) as N2 by (intros I; apply N; auto).
                apply A1 in N2 as [k [K1 K2]]; auto. exists k. split; [lia|]. replace (k =? i) with false; auto. symmetry; apply Nat.eqb_neq; lia.
            + intros [k [K1 K2]] I. destruct (k =? i) eqn:Ek.
              * injection K2 as <-. contradiction.
              * apply Nat.eqb_neq in Ek. apply (proj2 (A1 j Hj)); [exists k; split; [lia | auto] | auto].
          - intros k j Hk E. destruct (k =? i) eqn:Ek.
            + apply Nat.eqb_eq in Ek; subst k. injection E as <-. split; auto.
              destruct Hp as [[Hi1 Hi2]|[Hp1 Hp2]].
              * destruct (Nat.eq_dec p i) as [|Np]; auto. right; right. split; [lia | apply Sub2; auto].
              * right; left. split; [lia|]. replace (p =? i) with false; auto. symmetry; apply Nat.eqb_neq; lia.
            + apply Nat.eqb_neq in Ek. assert (Hk' : k < i) by lia.
              destruct (A2 k j Hk' E) as [Lj [->|[[Hj Ej]|[Hj Hr]]]]; split; auto.
              * right; left. split; [lia|]. replace (j =? i) with false; auto. symmetry; apply Nat.eqb_neq; lia.
              * destruct (Nat.eq_dec j i) as [->|Nj].
                { right; left. split; [lia|]. rewrite Nat.eqb_refl. destruct Hp as [[Hi1 Hi2]|[Hp1 Hp2]].
                  - exfalso. apply (proj2 (A1 i Hi)); [exists k; auto | auto].
                  - f_equal. eapply A5; eauto. }
                { right; right. split; [lia|]. apply Sub2; auto. intros ->.
                  destruct Hp as [[Hi1 Hi2]|[Hp1 Hp2]]; [lia | congruence]. }
          - intros m j Hm Hj Hr Hs x' y' Ex' Ey'. destruct (m =? i) eqn:Em.
            + apply Nat.eqb_eq in Em; subst m. assert (x' = x) by congruence. subst x'.
              destruct Hr as [Hr|[k [K1 [K2 _]]]]; [|lia].
              apply (Na j y'); auto. apply in_app_iff in Hr as [|Hr]; auto. apply Sb in Hr. lia.
            + apply Nat.eqb_neq in Em. eapply (A3 m j); eauto; [lia|]. destruct Hr as [|[k [K1 [K2 K3]]]]; auto.
              destruct (k =? i) eqn:Ek.
              * injection K3 as <-. auto.
              * apply Nat.eqb_neq in Ek. right. exists k. split; auto. split; [lia | auto].
          - intros k j Hk E. destruct (k =? i) eqn:Ek.
            + apply Nat.eqb_eq in Ek; subst k. injection E as <-. exists x, y. auto.
            + apply Nat.eqb_neq in Ek. apply (A4 k j); auto; lia.
          - intros k k' j Hk Hk' E E'. destruct (Nat.eqb_spec k i) as [Ek|Ek]; destruct (Nat.eqb_spec k' i) as [Ek'|Ek'].
            + lia.
            + exfalso. apply (Fresh k'); [lia | congruence].
            + exfalso. apply (Fresh k); [lia | congruence].
            + eapply (A5 k k' j); eauto; lia.
        Qed.

        Lemma map_split : forall (f : nat -> pv) rem l1 y l2, map f rem = l1 ++ y :: l2 ->
          exists a p b, rem = a ++ p :: b /\ map f a = l1 /\ f p = y /\ map f b = l2.
        Proof.
          induction rem as [|r rem IH]; intros l1 y l2 E; cbn in E.
          - destruct l1; discriminate.
          - destruct l1 as [|z l1]; cbn in E.
            + injection E as <- <-. exists [], r, rem. auto.
            + injection E as <- E. destruct (IH _ _ _ E) as (a & p & b & -> & <- & <- & <-). exists (r :: a), p, b. auto.
        Qed.

        Lemma skipn_nth : forall i, i < length l -> skipn i l = el i :: skipn (S i) l.
        Proof.
          intros i. revert l. induction i as [|i IH]; intros [|v r] H; cbn in *; try lia; auto.
          apply IH. lia.
        Qed.

        Lemma self_loop : forall n i c rem sg b c', length l - i = n -> i <= length l -> inv_at i c rem sg -> selfok c ->
          list_loop c (skipn i l) (map el rem) = Some (b, c') -> b = true /\ selfok c'.
        Proof.
          induction n as [|n IH]; intros i c rem sg b c' En Hi V So H.
          - rewrite skipn_all2 in H by lia. cbn in H. inv H. auto.
          - assert (Hi' : i < length l) by lia. rewrite (skipn_nth i Hi') in H.
            assert (Plain : (forall x, el i <> PRef x) -> b = true /\ selfok c').
            { intros NP.
              assert (Ir : In i rem).
              { destruct (in_dec Nat.eq_dec i rem) as [|N]; auto. exfalso. apply (i1 _ _ _ _ V i Hi') in N as [k [K1 K2]].
                destruct (i4 _ _ _ _ V k i K1 K2) as (x & y & _ & E & _). eapply NP; eauto. }
              assert (Q : existsb (fun w => EqModel.peq lower h eeq w (el i)) (map el rem) = true).
              { apply existsb_exists. exists (el i). split; [exact (in_map el rem i Ir) | apply peq_refl; auto]. }
              cbn [EqModel.list_loop] in H. cbv beta in H, NP, Q.
              destruct (nth i l PNone) eqn:E; try (rewrite Q in H; eapply (IH (S i)); [lia | lia | | exact So | exact H];
                eapply step_none; eauto; intros x Hx; cbv beta in Hx; rewrite E in Hx; discriminate).
              exfalso; eapply NP; reflexivity. }
            destruct (el i) as [| | |x| | | | ] eqn:E; try (apply Plain; discriminate). clear Plain.
            cbn [EqModel.list_loop] in H. cbv beta in H.
            destruct (scan c x [] (map el rem) false) as [[r c1]|] eqn:Sc; [|discriminate].
            assert (Ext := scan_extends _ _ _ _ _ _ _ Sc). destruct (scan_spec _ _ _ _ _ _ _ Sc) as [So1 R].
            specialize (So1 So). assert (V1 := inv_extends _ _ _ _ _ V Ext).
            assert (Mem : forall j y, In j rem -> el j = PRef y -> In (PRef y) (map el rem)).
            { intros j y Ij Ej. rewrite <- Ej. apply (in_map el). auto. }
            destruct (in_dec Nat.eq_dec i rem) as [Ir|Ir].
            + destruct r as [rest| |].
              * destruct R as (l1 & y & l2 & Eq1 & -> & St & N1). cbn [rev app] in H.
                destruct (map_split _ _ _ _ _ Eq1) as (a & p & b0 & -> & <- & Ey & <-). rewrite <- map_app in H.
                assert (Hp : i <= p).
                { destruct (Nat.lt_ge_cases p i) as [Lt|]; auto. exfalso.
                  assert (NT : not_true c1 y x).
                  { eapply (passed i c1 _ sg p x y V1 Lt Hi'); eauto. apply in_or_app; right; now left. }
                  destruct NT as [t [Nt S2]]. apply settled_sym in S2. apply Nt. eapply settled_fun; eauto. }
                eapply (IH (S i)); [lia | lia | | exact So1 | exact H].
                eapply step_match; eauto. intros j z Ij Ez. apply N1. cbv beta in Ez. rewrite <- Ez. apply (in_map el). auto.
              * eapply (IH (S i)); [lia | lia | | exact So1 | exact H].
                eapply step_none; eauto. intros x' Ex' j y Ij Ey. cbv beta in Ex'. assert (x' = x) by congruence. subst. apply R. eapply Mem; eauto.
              * exfalso. destruct R as [_ R]. assert (S2 := R x (Mem i x Ir E)).
                specialize (S2 c1 (extends_refl _)). apply rec_selfok in S2; auto. destruct S2 as [_ S2]. now apply S2.
            + destruct (proj1 (i1 _ _ _ _ V1 i Hi') Ir) as [k [K1 K2]].
              destruct (i2 _ _ _ _ V1 k i K1 K2) as [_ [->|[[? _]|[_ Ik]]]]; [lia | lia |].
              destruct (i4 _ _ _ _ V1 k i K1 K2) as (y & x' & Ey & Ex' & St). cbv beta in Ey, Ex'. assert (x' = x) by congruence. subst x'.
              apply settled_sym in St.
              destruct r as [rest| |].
              * destruct R as (l1 & y2 & l2 & Eq1 & -> & St2 & N1). cbn [rev app] in H.
                destruct (map_split _ _ _ _ _ Eq1) as (a & p & b0 & -> & <- & Ey2 & <-). rewrite <- map_app in H.
                assert (p = k).
                { destruct (Nat.lt_trichotomy p k) as [Lt|[|Gt]]; auto; exfalso.
                  - assert (NT : not_true c1 y2 x).
                    { eapply (passed i c1 _ sg p x y2 V1); eauto; [lia | apply in_or_app; right; now left]. }
                    destruct NT as [t [Nt S2]]. apply settled_sym in S2. apply Nt. eapply settled_fun; eauto.
                  - assert (Ia : In k a).
                    { destruct (sorted_split _ _ _ (proj1 (i0 _ _ _ _ V1))) as [_ [Sb _]].
                      apply in_app_iff in Ik as [|[->|Ib]]; auto; [lia|]. apply Sb in Ib. lia. }
                    assert (NT : not_true c1 x y). { apply N1. rewrite <- Ey. apply (in_map el). auto. }
                    destruct NT as [t [Nt S2]]. apply Nt. eapply settled_fun; eauto. }
                subst p. eapply (IH (S i)); [lia | lia | | exact So1 | exact H].
                eapply step_match; eauto. intros j z Ij Ez. apply N1. cbv beta in Ez. rewrite <- Ez. apply (in_map el). auto.
              * exfalso. destruct (R y (Mem k y Ik Ey)) as [t [Nt S2]]. apply Nt. eapply settled_fun; eauto.
              * exfalso. destruct R as [_ R]. assert (S2 := R y (Mem k y Ik Ey)).
                assert (TT = FF) by (eapply settled_fun; eauto). discriminate.
        Qed.

        Lemma map_seq_nth : forall (m : list pv), map (fun j => nth j m PNone) (seq 0 (length m)) = m.
        Proof.
          induction m as [|v m IH]; auto. cbn [length seq map]. f_equal. rewrite <- seq_shift, map_map. exact IH.
        Qed.

        Lemma seq_sorted : forall n s, StronglySorted lt (seq s n).
        Proof.
          induction n as [|n IH]; intros s; cbn; constructor; auto. rewrite Forall_forall. intros x I. apply in_seq in I. lia.
        Qed.

        Lemma list_self : forall c b c', selfok c -> list_loop c l l = Some (b, c') -> b = true /\ selfok c'.
        Proof.
          intros c b c' So H. apply (self_loop (length l) 0 c (seq 0 (length l)) (fun _ => None) b c'); auto; try lia.
          - constructor; try (intros; lia).
            + split; [apply seq_sorted|]. intros j I. apply in_seq in I. lia.
            + intros j Hj. split.
              * intros N. exfalso. apply N. apply in_seq. lia.
              * intros [k [K _]]. lia.
          - rewrite map_seq_nth. exact H.
        Qed.
      End Self.

      Section Fields.
        Hypothesis eeq_refl : forall o, eeq o o = true.
        Hypothesis rec_settled : forall c a b t c', rec c a b = Some (t, c') -> settled c' a b t /\ settled c' b a t.
        Hypothesis rec_selfok : forall c a b t c', rec c a b = Some (t, c') -> selfok c -> selfok c' /\ (a = b -> t <> FF).

        Lemma list_selfok : forall this c that b c', list_loop c this that = Some (b, c') -> selfok c -> selfok c'.
        Proof.
          induction this as [|v this IH]; intros c that b c' H So; cbn [EqModel.list_loop] in H.
          - inv H. auto.
          - destruct v;
              try (destruct (existsb _ that); [eapply IH; eauto | inv H; auto]).
            destruct (scan c o [] that false) as [[[rest| |] c1]|] eqn:E; [| | |discriminate];
              apply scan_spec in E as [S1 _]; auto; try (inv H; auto); eapply IH; eauto.
        Qed.

        Lemma field_selfok : forall c tu uu v w b c', field_cmp c tu uu v w = Some (b, c') -> selfok c ->
          selfok c' /\ (v = w -> b = true).
        Proof.
          intros c tu uu v w b c' H So. unfold EqModel.field_cmp in H.
          assert (X : (match items_of v, items_of w with
            | Some l, Some m =>
                if length l =? length m then list_loop c l m
                else Some (((length l =? 0) && tu) || ((length m =? 0) && uu), c)
            | _, _ => Some (EqModel.peq lower h eeq v w, c)
            end = Some (b, c')) -> selfok c' /\ (v = w -> b = true)).
          { intros X. destruct (items_of v) as [l|] eqn:Ev, (items_of w) as [m|] eqn:Ew.
            2,3,4: inv X; split; auto; intros ->; now apply peq_refl.
            destruct (length l =? length m) eqn:El.
            - split; [eapply list_selfok; eauto|]. intros ->. assert (l = m) by congruence. subst.
              eapply list_self; eauto.
            - inv X. split; auto. intros ->. exfalso. assert (l = m) by congruence. subst. now rewrite Nat.eqb_refl in El. }
          destruct v; auto. destruct w; auto.
          destruct (rec c o o0) as [[t c1]|] eqn:E; [|discriminate]. apply rec_selfok in E as [S1 N]; auto.
          destruct t; inv H; split; auto. intros [= ->]. exfalso. now apply N.
        Qed.

        Lemma fields_selfok : forall fs c tu uu a b r c', fields_loop c tu uu a b fs = Some (r, c') -> selfok c ->
          selfok c' /\ (a = b -> r = true).
        Proof.
          induction fs as [|f fs IH]; intros c tu uu a b r c' H So; cbn [EqModel.fields_loop] in H.
          - inv H. auto.
          - destruct (field_cmp c tu uu (read h a f) (read h b f)) as [[x c1]|] eqn:E; [|discriminate].
            apply field_selfok in E as [S1 Ht]; auto. destruct x.
            + eapply IH; eauto.
            + inv H. split; auto. intros ->. now apply Ht.
        Qed.
      End Fields.
    End Loops.

    Notation ceq := (cached_equals lower h eeq).

    Lemma ceq_hit : forall n c a b t, lookup c a b = Some t -> hget h a <> None -> hget h b <> None -> ceq n c a b = Some (t, c).
    Proof.
      intros n c a b t L Ha Hb. destruct n; cbn [cached_equals]; destruct (hget h a), (hget h b); try congruence; now rewrite L.
    Qed.

    Lemma ceq_out : forall n c a b, hget h a = None \/ hget h b = None -> ceq n c a b = Some (if a =? b then TT else FF, c).
    Proof.
      intros n c a b H. destruct n; cbn [cached_equals]; destruct (hget h a), (hget h b); destruct H; try congruence; auto.
    Qed.

    (** What a completed comparison leaves behind. *)
    Lemma ceq_done : forall n c a b t c', ceq n c a b = Some (t, c') ->
      extends c c' /\ (hget h a <> None -> hget h b <> None -> lookup c' a b = Some t).
    Proof.
      induction n as [|n IH]; intros c a b t c' H.
      - cbn in H. destruct (hget h a), (hget h b); try (inv H; split; [apply extends_refl | congruence]).
        destruct (lookup c a b) eqn:L; inv H. split; [apply extends_refl | auto].
      - cbn [cached_equals] in H. destruct (hget h a) as [ea|], (hget h b) as [eb|]; try (inv H; split; [apply extends_refl | congruence]).
        destruct (lookup c a b) eqn:L; [inv H; split; [apply extends_refl | auto]|].
        assert (Fin : forall c2 u, extends (put c a b UU) c2 -> extends c (put c2 a b u)).
        { intros c2 u X x y w Lx. rewrite lookup_put. destruct (key_eqb (ckey x y) (ckey a b)) eqn:Ek.
          - apply key_eqb_eq in Ek. unfold lookup in Lx, L. rewrite Ek in Lx. congruence.
          - apply X. rewrite lookup_put, Ek. auto. }
        destruct (negb (same_names _ _)); [inv H; split; [apply Fin, extends_refl | intros; apply lookup_put_same]|].
        destruct (negb (same_uids _ _)); [inv H; split; [apply Fin, extends_refl | intros; apply lookup_put_same]|].
        destruct (fields_loop _ _ _ _ _ _ _ _ _) as [[r c2]|] eqn:F; [|discriminate].
        apply fields_loop_extends in F; [|intros; eapply IH; eauto].
        destruct r; [destruct (ekind_eqb _ _)|]; inv H; (split; [apply Fin; auto | intros; apply lookup_put_same]).
    Qed.

    Lemma ceq_settled : forall n c a b t c', ceq n c a b = Some (t, c') -> settled (ceq n) c' a b t /\ settled (ceq n) c' b a t.
    Proof.
      intros n c a b t c' H. destruct (ceq_done _ _ _ _ _ _ H) as [X L].
      destruct (hget h a) eqn:Ha; [destruct (hget h b) eqn:Hb|].
      - assert (L' : lookup c' a b = Some t) by (apply L; congruence).
        split; intros c2 X2; apply ceq_hit; try congruence; [|rewrite lookup_sym]; apply X2; auto.
      - rewrite ceq_out in H by auto. inv H. split; intros c2 X2; rewrite ceq_out by auto; auto. now rewrite Nat.eqb_sym.
      - rewrite ceq_out in H by auto. inv H. split; intros c2 X2; rewrite ceq_out by auto; auto. now rewrite Nat.eqb_sym.
    Qed.

    Lemma selfok_put : forall c a b t, selfok c -> (a = b -> t <> FF) -> selfok (put c a b t).
    Proof.
      intros c a b t So H x L. rewrite lookup_put in L. destruct (key_eqb (ckey x x) (ckey a b)) eqn:E.
      - apply key_eqb_eq in E. apply ckey_self in E as [-> _]. injection L as ->. now apply H.
      - now apply (So x).
    Qed.

    Lemma ceq_selfok : (forall o, eeq o o = true) -> forall n c a b t c', ceq n c a b = Some (t, c') -> selfok c ->
      selfok c' /\ (a = b -> t <> FF).
    Proof.
      intros R. induction n as [|n IH]; intros c a b t c' H So.
      - cbn in H. destruct (hget h a), (hget h b); try (inv H; split; auto; intros ->; rewrite Nat.eqb_refl; discriminate).
        destruct (lookup c a b) eqn:L; inv H. split; auto. intros -> ->. now apply So in L.
      - cbn [cached_equals] in H. destruct (hget h a) as [ea|] eqn:Ea, (hget h b) as [eb|] eqn:Eb;
          try (inv H; split; auto; intros ->; rewrite Nat.eqb_refl; discriminate).
        destruct (lookup c a b) eqn:L; [inv H; split; auto; intros -> ->; now apply So in L|].
        assert (S1 : selfok (put c a b UU)) by (apply selfok_put; auto; discriminate).
        destruct (same_names _ _) eqn:Sn; cbn [negb] in H.
        2: { assert (a <> b) by (intros ->; rewrite Ea in Eb; injection Eb as <-; now rewrite same_names_refl in Sn).
             inv H. split; [apply selfok_put; auto|]; contradiction. }
        destruct (same_uids _ _) eqn:Su; cbn [negb] in H.
        2: { assert (a <> b) by (intros ->; rewrite Ea in Eb; injection Eb as <-; now rewrite same_uids_refl in Su).
             inv H. split; [apply selfok_put; auto|]; contradiction. }
        destruct (fields_loop _ _ _ _ _ _ _ _ _) as [[r c2]|] eqn:F; [|discriminate].
        apply fields_selfok in F; [|intros; eapply ceq_done; eauto | exact R | exact (ceq_settled n) | exact IH | exact S1].
        destruct F as [S2 Hr]. destruct r.
        + destruct (ekind_eqb _ _) eqn:Ek.
          * inv H. split; [apply selfok_put; auto|]; discriminate.
          * assert (a <> b). { intros ->. rewrite Ea in Eb. injection Eb as <-. unfold ekind_eqb in Ek. now destruct (ekind_eq_dec (e_kind ea) (e_kind ea)). }
            inv H. split; [apply selfok_put; auto|]; contradiction.
        + assert (a <> b) by (intros E; apply Hr in E; discriminate).
          inv H. split; [apply selfok_put; auto|]; contradiction.
    Qed.

    (** ** The depth suffices *)
    Definition pairs : list (oid * oid) := list_prod (seq 0 (length h)) (seq 0 (length h)).
    Definition uncached (c : cache) : nat :=
      length (filter (fun p => match lookup c (fst p) (snd p) with None => true | _ => false end) pairs).

    Lemma filter_le : forall (f g : oid * oid -> bool) l, (forall x, In x l -> f x = true -> g x = true) ->
      length (filter f l) <= length (filter g l).
    Proof.
      induction l as [|x l IH]; intros H; cbn; auto.
      assert (IH' : length (filter f l) <= length (filter g l)) by (apply IH; intros; apply H; auto; now right).
      destruct (f x) eqn:F; destruct (g x) eqn:G; cbn; try lia. rewrite (H x) in G; auto; [discriminate | now left].
    Qed.

    Lemma filter_lt : forall (f g : oid * oid -> bool) l z, (forall x, In x l -> f x = true -> g x = true) ->
      In z l -> f z = false -> g z = true -> length (filter f l) < length (filter g l).
    Proof.
      induction l as [|x l IH]; intros z H I Fz Gz; [contradiction|].
      assert (Le : length (filter f l) <= length (filter g l)) by (apply filter_le; intros; apply H; auto; now right).
      cbn. destruct I as [->|I].
      - rewrite Fz, Gz. cbn. lia.
      - assert (Lt : length (filter f l) < length (filter g l)) by (eapply IH; eauto; intros; apply H; auto; now right).
        destruct (f x) eqn:F; destruct (g x) eqn:G; cbn; try lia. rewrite (H x) in G; auto; [discriminate | now left].
    Qed.

    Lemma uncached_le : forall c c', extends c c' -> uncached c' <= uncached c.
    Proof.
      intros c c' X. apply filter_le. intros [x y] _ H. cbn in *.
      destruct (lookup c x y) eqn:L; auto. apply X in L. now rewrite L in H.
    Qed.

    Lemma uncached_put : forall c a b t, a < length h -> b < length h -> lookup c a b = None ->
      uncached (put c a b t) < uncached c.
    Proof.
      intros c a b t Ha Hb L. apply filter_lt with (z := (a, b)).
      - intros [x y] _ H. cbn in *. destruct (lookup c x y) eqn:E; auto.
        rewrite (extends_put c a b t L _ _ _ E) in H. discriminate.
      - apply in_prod; apply in_seq; lia.
      - cbn [fst snd]. now rewrite lookup_put_same.
      - cbn. now rewrite L.
    Qed.

    Lemma ceq_total : forall n c a b, uncached c < n -> ceq n c a b <> None.
    Proof.
      induction n as [|n IH]; intros c a b U; [lia|].
      cbn [cached_equals]. destruct (hget h a) as [ea|] eqn:Ea; [|discriminate]. destruct (hget h b) as [eb|] eqn:Eb; [|discriminate].
      destruct (lookup c a b) eqn:L; [discriminate|].
      assert (La : a < length h) by (apply nth_error_Some; unfold hget in Ea; congruence).
      assert (Lb : b < length h) by (apply nth_error_Some; unfold hget in Eb; congruence).
      assert (U1 := uncached_put c a b UU La Lb L).
      destruct (negb (same_names _ _)); [discriminate|]. destruct (negb (same_uids _ _)); [discriminate|].
      destruct (fields_loop _ _ _ _ _ _ _ _ _) as [[r c2]|] eqn:F.
      - destruct r; [destruct (ekind_eqb _ _)|]; discriminate.
      - exfalso. revert F. apply fields_loop_total with (c0 := put c a b UU); [| |apply extends_refl].
        + intros; eapply ceq_done; eauto.
        + intros c2 x y X. apply IH. apply uncached_le in X. lia.
    Qed.

    Lemma uncached_nil : uncached [] < depth h.
    Proof.
      unfold uncached, depth. apply Nat.lt_succ_r.
      assert (Hl : length pairs = length h * length h) by (unfold pairs; now rewrite prod_length, seq_length).
      rewrite <- Hl. clear. induction pairs as [|x l IH]; cbn; auto. cbn in IH. lia.
    Qed.

    Lemma ceq_depth : forall a b, exists t c, ceq (depth h) [] a b = Some (t, c).
    Proof.
      intros a b. destruct (ceq (depth h) [] a b) as [[t c]|] eqn:E; [eauto|].
      exfalso. revert E. apply ceq_total, uncached_nil.
    Qed.

    (** A comparison started afresh ends in True or False. *)
    Lemma ceq_fresh : forall a b, exists c, ceq (depth h) [] a b = Some (TT, c) \/ ceq (depth h) [] a b = Some (FF, c).
    Proof.
      intros a b. destruct (ceq_depth a b) as [t [c E]]. exists c. destruct t; auto. exfalso.
      unfold depth in E. cbn [cached_equals] in E.
      destruct (hget h a) as [ea|]; [|destruct (a =? b); discriminate]. destruct (hget h b) as [eb|]; [|destruct (a =? b); discriminate].
      cbn [lookup find option_map] in E.
      destruct (negb (same_names _ _)); [discriminate|]. destruct (negb (same_uids _ _)); [discriminate|].
      destruct (fields_loop _ _ _ _ _ _ _ _ _) as [[r c2]|]; [|discriminate].
      destruct r; [destruct (ekind_eqb _ _)|]; discriminate.
    Qed.

    (** What a comparison that ended in True has checked. *)
    Lemma fields_true : forall rec fs c tu uu a b c', fields_loop lower h eeq rec c tu uu a b fs = Some (true, c') ->
      forall f, In f fs -> exists c1 c2, field_cmp lower h eeq rec c1 tu uu (read h a f) (read h b f) = Some (true, c2).
    Proof.
      induction fs as [|g fs IH]; intros c tu uu a b c' H f I; [contradiction|]. cbn [fields_loop] in H.
      destruct (field_cmp _ _ _ _ c _ _ _ _) as [[[] c1]|] eqn:E; try discriminate.
      destruct I as [->|I]; [eauto | eapply IH; eauto].
    Qed.

    Lemma ceq_true : forall n c a b c' ea eb, ceq n c a b = Some (TT, c') -> lookup c a b <> Some TT ->
      hget h a = Some ea -> hget h b = Some eb ->
      e_kind ea = e_kind eb /\ same_names (compared ea) (compared eb) = true /\ same_uids (e_uids ea) (e_uids eb) = true
      /\ forall f, In f (compared ea) -> exists n' c1 c2, field_cmp lower h eeq (ceq n') c1 (nonempty (e_uids ea)) (nonempty (e_uids eb)) (read h a f) (read h b f) = Some (true, c2).
    Proof.
      intros n c a b c' ea eb H L Ha Hb. destruct n; cbn [cached_equals] in H; rewrite Ha, Hb in H.
      - destruct (lookup c a b) eqn:E; [|discriminate]. injection H as -> ->. now contradiction L.
      - destruct (lookup c a b) eqn:E; [injection H as -> ->; now contradiction L|].
        destruct (same_names _ _) eqn:Sn; cbn [negb] in H; [|discriminate].
        destruct (same_uids _ _) eqn:Su; cbn [negb] in H; [|discriminate].
        destruct (fields_loop _ _ _ _ _ _ _ _ _) as [[[] c2]|] eqn:F; try discriminate.
        destruct (ekind_eqb _ _) eqn:Ek; [|discriminate].
        split. { unfold ekind_eqb in Ek. now destruct (ekind_eq_dec (e_kind ea) (e_kind eb)). }
        split; [auto|]. split; [auto|]. intros f I. destruct (fields_true _ _ _ _ _ _ _ _ F f I) as (x & y & Q). eauto.
    Qed.
  End Level.

  (** ** The equality of entities *)

  Lemma equals_refl : forall k o, equals_at lower h k o o = true.
  Proof.
    induction k as [|k IH]; intros o; cbn [equals_at]; [apply Nat.eqb_refl|].
    destruct (ceq_fresh (equals_at lower h k) o o) as [c [E|E]]; rewrite E; auto.
    apply ceq_selfok in E; auto; [|intros x; discriminate]. destruct E as [_ E]. exfalso. now apply E.
  Qed.

  Lemma equals_inv : forall k a b ea eb, equals_at lower h (S k) a b = true ->
    hget h a = Some ea -> hget h b = Some eb ->
    e_kind ea = e_kind eb /\ same_names (compared ea) (compared eb) = true /\ same_uids (e_uids ea) (e_uids eb) = true
    /\ forall f, In f (compared ea) -> exists n' c1 c2,
         field_cmp lower h (equals_at lower h k) (cached_equals lower h (equals_at lower h k) n') c1
           (nonempty (e_uids ea)) (nonempty (e_uids eb)) (read h a f) (read h b f) = Some (true, c2).
  Proof.
    intros k a b ea eb H Ha Hb. cbn [equals_at] in H.
    destruct (cached_equals _ _ _ _ _ _ _) as [[[] c]|] eqn:E; try discriminate.
    eapply ceq_true; eauto. cbn. discriminate.
  Qed.

  (** ** Which comparisons of nested entities matter *)

  Fixpoint refs (v : pv) : list oid :=
    match v with
    | PRef o => [o]
    | PList l | PTuple l => (fix go (l : list pv) := match l with [] => [] | x :: r => refs x ++ go r end) l
    | PDict l | PObj _ l => (fix go (l : list (string * pv)) := match l with [] => [] | (_, x) :: r => refs x ++ go r end) l
    | _ => []
    end.

  Lemma refs_list : forall l, refs (PList l) = flat_map refs l.
  Proof. induction l; cbn in *; congruence. Qed.
  Lemma refs_tuple : forall l, refs (PTuple l) = flat_map refs l.
  Proof. induction l; cbn in *; congruence. Qed.
  Lemma refs_dict : forall l, refs (PDict l) = flat_map (fun kv => refs (snd kv)) l.
  Proof. induction l as [|[] ?]; cbn in *; congruence. Qed.
  Lemma refs_obj : forall t l, refs (PObj t l) = flat_map (fun kv => refs (snd kv)) l.
  Proof. induction l as [|[] ?]; cbn in *; congruence. Qed.

  Section Ext.
    Variables e1 e2 : oid -> oid -> bool.
    Definition agree_on (l m : list oid) : Prop := forall x y, In x l -> In y m -> e1 x y = e2 x y.

    Lemma agree_app : forall l1 l2 m, agree_on (l1 ++ l2) m -> agree_on l1 m /\ agree_on l2 m.
    Proof. unfold agree_on. intros. split; intros; apply H; auto; apply in_or_app; auto. Qed.

    Lemma agree_app_r : forall l m1 m2, agree_on l (m1 ++ m2) -> agree_on l m1 /\ agree_on l m2.
    Proof. unfold agree_on. intros. split; intros; apply H; auto; apply in_or_app; auto. Qed.

    Lemma peq_ext : forall v w, agree_on (refs v) (refs w) -> peq lower h e1 v w = peq lower h e2 v w.
    Proof.
      assert (Go : forall l, Forall (fun v => forall w, agree_on (refs v) (refs w) -> peq lower h e1 v w = peq lower h e2 v w) l ->
        forall m, agree_on (flat_map refs l) (flat_map refs m) ->
        (fix go (l m : list pv) {struct l} : bool :=
             match l, m with
             | [], [] => true
             | x :: l', y :: m' => peq lower h e1 x y && go l' m'
             | _, _ => false
             end) l m =
        (fix go (l m : list pv) {struct l} : bool :=
             match l, m with
             | [], [] => true
             | x :: l', y :: m' => peq lower h e2 x y && go l' m'
             | _, _ => false
             end) l m).
      { induction 1 as [|x l Hx F IH]; intros m A; destruct m as [|y m]; auto. cbn [flat_map] in A.
        apply agree_app in A as [A1 A2]. apply agree_app_r in A1 as [A1 _]. apply agree_app_r in A2 as [_ A2].
        rewrite Hx by auto. f_equal. auto. }
      assert (Gd : forall l, Forall (fun kv => forall w, agree_on (refs (snd kv)) (refs w) -> peq lower h e1 (snd kv) w = peq lower h e2 (snd kv) w) l ->
        forall m, agree_on (flat_map (fun kv => refs (snd kv)) l) (flat_map (fun kv : string * pv => refs (snd kv)) m) ->
        (fix go (l : list (string * pv)) : bool :=
             match l with
             | [] => true
             | (k, x) :: r => existsb (fun kw => String.eqb k (fst kw) && peq lower h e1 x (snd kw)) m && go r
             end) l =
        (fix go (l : list (string * pv)) : bool :=
             match l with
             | [] => true
             | (k, x) :: r => existsb (fun kw => String.eqb k (fst kw) && peq lower h e2 x (snd kw)) m && go r
             end) l).
      { induction 1 as [|[k x] l Hx F IH]; intros m A; auto. cbn [flat_map] in A. apply agree_app in A as [A1 A2]. f_equal; auto.
        clear - Hx A1. cbn [snd] in *. induction m as [|[k' y] m IH]; auto. cbn [flat_map snd] in A1. apply agree_app_r in A1 as [A1 A2].
        cbn [existsb fst snd]. rewrite Hx by auto. f_equal. auto. }
      apply (pv_ind2 (fun v => forall w, agree_on (refs v) (refs w) -> peq lower h e1 v w = peq lower h e2 v w)); auto.
      - intros o w A. destruct w; auto. apply A; cbn; auto.
      - intros l F w A. destruct w; auto. rewrite !refs_list in A. apply (Go l F _ A).
      - intros l F w A. destruct w; auto. rewrite !refs_tuple in A.
        assert (Q := Go l F _ A). cbn [peq]. destruct l as [|v1 [|v2 [|]]]; try exact Q.
        all: repeat match goal with |- context [match ?x with _ => _ end] => destruct x; try exact Q end.
      - intros l F w A. destruct w; auto. rewrite !refs_dict in A. cbn [peq]. f_equal. apply (Gd l F _ A).
      - intros t l F w A. destruct w; auto. rewrite !refs_obj in A. cbn [peq]. f_equal. apply (Gd l F _ A).
    Qed.

    (** Entities compared as such, and those compared inside plain values. *)
    Definition is_ref (v : pv) : bool := match v with PRef _ => true | _ => false end.
    Definition inner (v : pv) : list oid := if is_ref v then [] else refs v.
    Definition deep (v : pv) : list oid :=
      match items_of v with Some l => flat_map inner l | None => inner v end.
    Definition top (v : pv) : list oid :=
      match v with
      | PRef o => [o]
      | _ => match items_of v with
             | Some l => flat_map (fun x => match x with PRef o => [o] | _ => [] end) l
             | None => []
             end
      end.

    Variable S : oid -> Prop.
    Hypothesis closed : forall o e f, S o -> hget h o = Some e -> In f (compared e) -> forall x, In x (top (read h o f)) -> S x.
    Hypothesis agreed : forall o e f o' e' f', S o -> hget h o = Some e -> In f (compared e) ->
      S o' -> hget h o' = Some e' -> agree_on (deep (read h o f)) (deep (read h o' f')).

    Section ExtLoops.
      Variables r1 r2 : cache -> oid -> oid -> option (tern * cache).
      Hypothesis same_rec : forall c a b, S a -> S b -> r1 c a b = r2 c a b.

      Lemma scan_ext : forall that c x pre p, S x -> (forall y, In (PRef y) that -> S y) -> scan r1 c x pre that p = scan r2 c x pre that p.
      Proof.
        induction that as [|y that IH]; intros c x pre p Sx Sy; auto. cbn [scan].
        assert (E : match y with PRef o => r1 c x o | _ => Some (FF, c) end = match y with PRef o => r2 c x o | _ => Some (FF, c) end).
        { destruct y; auto. apply same_rec; auto. apply Sy; now left. }
        rewrite E. destruct (match y with PRef o => r2 c x o | _ => Some (FF, c) end) as [[[] c1]|]; auto; apply IH; auto; intros; apply Sy; now right.
      Qed.

      Lemma scan_sub : forall r that c x pre p rest c', scan r c x pre that p = Some (Matched rest, c') -> incl rest (rev pre ++ that).
      Proof.
        induction that as [|y that IH]; intros c x pre p rest c' H; cbn [scan] in H.
        - destruct p; discriminate.
        - destruct (match y with PRef o => r c x o | _ => Some (FF, c) end) as [[[] c1]|]; try discriminate.
          + inv H. intros z I. apply in_app_iff in I. apply in_or_app. cbn. tauto.
          + apply IH in H. cbn in H. rewrite <- app_assoc in H. exact H.
          + apply IH in H. cbn in H. rewrite <- app_assoc in H. exact H.
      Qed.

      Lemma peq_ext_plain : forall v w, is_ref w = false -> agree_on (inner v) (inner w) -> peq lower h e1 v w = peq lower h e2 v w.
      Proof.
        intros v w N A. destruct (is_ref v) eqn:Ev.
        - destruct v; try discriminate. destruct w; try discriminate; auto.
        - apply peq_ext. unfold inner in A. now rewrite Ev, N in A.
      Qed.

      Lemma list_loop_ext : forall this c that, (forall x, In (PRef x) this -> S x) -> (forall y, In (PRef y) that -> S y) ->
        agree_on (flat_map inner that) (flat_map inner this) ->
        list_loop lower h e1 r1 c this that = list_loop lower h e2 r2 c this that.
      Proof.
        induction this as [|v this IH]; intros c that Sx Sy A; auto.
        assert (A2 : agree_on (flat_map inner that) (flat_map inner this)) by (cbn [flat_map] in A; apply agree_app_r in A; tauto).
        assert (Sx2 : forall x, In (PRef x) this -> S x) by (intros; apply Sx; now right).
        destruct (is_ref v) eqn:Ev.
        - destruct v; try discriminate. cbn [list_loop]. rewrite scan_ext; auto; [|apply Sx; now left].
          destruct (scan r2 c o [] that false) as [[[rest| |] c1]|] eqn:E; auto.
          apply scan_sub in E. cbn [rev app] in E. apply IH; auto.
          intros x y Ix Iy. apply A2; auto. apply in_flat_map in Ix as [z [Iz Hz]]. apply in_flat_map. exists z. split; auto.
        - assert (E : existsb (fun w => peq lower h e1 w v) that = existsb (fun w => peq lower h e2 w v) that).
          { cbn [flat_map] in A. apply agree_app_r in A as [A _]. clear - A Ev. induction that as [|w that IH]; auto.
            cbn [flat_map] in A. apply agree_app in A as [A1 A2]. cbn [existsb]. rewrite IH by auto. f_equal. now apply peq_ext_plain. }
          destruct v; try discriminate; cbn [list_loop]; rewrite E, (IH c that) by auto; reflexivity.
      Qed.

      Lemma top_items : forall v l x, items_of v = Some l -> In (PRef x) l -> In x (top v).
      Proof.
        intros v l x E I. unfold top. destruct v; try discriminate; rewrite E; apply in_flat_map; exists (PRef x); cbn; auto.
      Qed.

      Lemma field_cmp_ext : forall c tu uu v w, (forall x, In x (top v) -> S x) -> (forall x, In x (top w) -> S x) ->
        agree_on (deep v) (deep w) -> agree_on (deep w) (deep v) -> field_cmp lower h e1 r1 c tu uu v w = field_cmp lower h e2 r2 c tu uu v w.
      Proof.
        intros c tu uu v w Sv Sw A A'. unfold field_cmp.
        assert (P : is_ref v && is_ref w = false -> items_of v = None \/ items_of w = None -> peq lower h e1 v w = peq lower h e2 v w).
        { intros N I. destruct v, w; cbn [is_ref andb] in N; try discriminate; try reflexivity; try (destruct I; discriminate).
          apply peq_ext. exact A. }
        assert (X : is_ref v && is_ref w = false -> match items_of v, items_of w with
            | Some l, Some m =>
                if length l =? length m then list_loop lower h e1 r1 c l m
                else Some (((length l =? 0) && tu) || ((length m =? 0) && uu), c)
            | _, _ => Some (peq lower h e1 v w, c)
            end = match items_of v, items_of w with
            | Some l, Some m =>
                if length l =? length m then list_loop lower h e2 r2 c l m
                else Some (((length l =? 0) && tu) || ((length m =? 0) && uu), c)
            | _, _ => Some (peq lower h e2 v w, c)
            end).
        { intros N. destruct (items_of v) as [l|] eqn:Ev, (items_of w) as [m|] eqn:Ew; try (rewrite P; auto; fail).
          destruct (length l =? length m); auto. apply list_loop_ext.
          - intros x I. apply Sv. eapply top_items; eauto.
          - intros x I. apply Sw. eapply top_items; eauto.
          - unfold deep in A'. rewrite Ev, Ew in A'. exact A'. }
        destruct v; try (apply X; reflexivity). destruct w; try (apply X; reflexivity).
        rewrite same_rec; auto; [apply Sv | apply Sw]; now left.
      Qed.
    End ExtLoops.

    Lemma existsb_in : forall f m, existsb (String.eqb f) m = true -> In f m.
    Proof. intros f m H. apply existsb_exists in H as [x [I E]]. apply String.eqb_eq in E. now subst. Qed.

    Lemma same_names_in : forall l m f, same_names l m = true -> In f l -> In f m.
    Proof.
      intros l m f H I. unfold same_names in H. apply andb_true_iff in H as [H _]. rewrite forallb_forall in H. apply existsb_in, H, I.
    Qed.

    Lemma ceq_ext : forall n c a b, S a -> S b -> cached_equals lower h e1 n c a b = cached_equals lower h e2 n c a b.
    Proof.
      induction n as [|n IH]; intros c a b Sa Sb; auto. cbn [cached_equals].
      destruct (hget h a) as [ea|] eqn:Ea; auto. destruct (hget h b) as [eb|] eqn:Eb; auto. destruct (lookup c a b); auto.
      destruct (same_names (compared ea) (compared eb)) eqn:Sn; cbn [negb]; auto. destruct (negb (same_uids _ _)); auto.
      assert (F : forall fs c tu uu, incl fs (compared ea) ->
        fields_loop lower h e1 (cached_equals lower h e1 n) c tu uu a b fs = fields_loop lower h e2 (cached_equals lower h e2 n) c tu uu a b fs).
      { induction fs as [|f fs IHf]; intros c0 tu uu I; auto. cbn [fields_loop].
        assert (Ifa : In f (compared ea)) by (apply I; now left).
        assert (Ifb : In f (compared eb)) by (eapply same_names_in; eauto).
        rewrite (field_cmp_ext (cached_equals lower h e1 n) (cached_equals lower h e2 n) IH).
        - destruct (field_cmp _ _ _ _ _ _ _ _ _) as [[[] c1]|]; auto. apply IHf. intros z Hz. apply I; now right.
        - intros x Hx. eapply (closed a ea f); eauto.
        - intros x Hx. eapply (closed b eb f); eauto.
        - eapply agreed; eauto.
        - eapply agreed; eauto. }
      rewrite F by apply incl_refl. reflexivity.
    Qed.
  End Ext.
End Proofs.
