From Coq Require Import String List Bool Arith Lia.
From Verif Require Import Base BaseFacts GraphModel GraphSpec GraphProofs TravModel SerialEntity InstModel InstSpec.
Import ListNotations.
Open Scope string_scope.
Open Scope list_scope.

Lemma hget_set_field : forall g r f v q, hget (set_field g r f v) q =
  if Nat.eqb r q then match hget g r with Some e => Some (mkE (e_kind e) (e_uids e) (dict_set f v (e_fields e))) | None => None end else hget g q.
Proof.
  intros. unfold set_field. destruct (hget g r) as [e|] eqn:E.
  - rewrite hget_hset, E. reflexivity.
  - destruct (Nat.eqb r q) eqn:N; auto. apply Nat.eqb_eq in N. now subst.
Qed.

Definition mem (o : oid) (l : list oid) : bool := existsb (Nat.eqb o) l.
Lemma mem_In : forall o l, mem o l = true <-> In o l.
Proof.
  intros. unfold mem. rewrite existsb_exists. split.
  - intros (x & I & E). apply Nat.eqb_eq in E. now subst.
  - intros I. exists o. split; auto. apply Nat.eqb_refl.
Qed.
Lemma mem_not : forall o l, mem o l = false <-> ~ In o l.
Proof. intros. rewrite <- mem_In. destruct (mem o l); split; congruence. Qed.

Definition upd (out : oid -> list oid) (o : oid) (l : list oid) : oid -> list oid := fun y => if Nat.eqb y o then l else out y.
Lemma upd_same : forall out o l, upd out o l o = l.
Proof. intros. unfold upd. now rewrite Nat.eqb_refl. Qed.
Lemma upd_other : forall out o l y, y <> o -> upd out o l y = out y.
Proof. intros. unfold upd. apply Nat.eqb_neq in H. now rewrite H. Qed.

Lemma run_kind_class : forall k rk, run_kind k = Some rk <-> run_class k rk.
Proof.
  intros. unfold run_class. split.
  - intros H. destruct k; inv H; cbn; tauto.
  - intros H. cbn in H. repeat destruct H as [E|H]; try contradiction; inv E; reflexivity.
Qed.

Lemma seen_get_In : forall s o r, seen_get s o = Some r -> In (o, r) s.
Proof.
  intros s o r H. unfold seen_get in H.
  match type of H with context [find ?f ?l] => destruct (find f l) as [[a b]|] eqn:E end; [|discriminate]. injection H as <-.
  apply find_some in E as [I E]. cbn in E. apply Nat.eqb_eq in E. now subst.
Qed.
Lemma seen_get_app : forall s t o, seen_get (s ++ t) o = match seen_get s o with Some r => Some r | None => seen_get t o end.
Proof. intros. unfold seen_get. induction s as [|[a b] s IH]; cbn; auto. destruct (Nat.eqb a o); auto. Qed.
Lemma seen_get_none : forall s o, seen_get s o = None <-> ~ In o (map fst s).
Proof.
  intros. unfold seen_get. induction s as [|[a b] s IH]; cbn; [tauto|]. destruct (Nat.eqb a o) eqn:E.
  - apply Nat.eqb_eq in E. subst. cbn. split; [discriminate|]. intros H. destruct H. auto.
  - apply Nat.eqb_neq in E. rewrite IH. tauto.
Qed.
Lemma seen_get_some : forall s o, In o (map fst s) -> exists r, seen_get s o = Some r.
Proof. intros s o I. destruct (seen_get s o) eqn:E; eauto. apply seen_get_none in E. contradiction. Qed.
Lemma In_seen_get : forall s o r, NoDup (map fst s) -> In (o, r) s -> seen_get s o = Some r.
Proof.
  intros s o r N I. destruct (seen_get s o) as [q|] eqn:E.
  - f_equal. apply seen_get_In in E. clear - N I E. induction s as [|[a b] s IH]; [destruct I|]. cbn in N. inv N.
    assert (X : forall c, In (a, c) s -> False) by (intros c J; apply H1; change a with (fst (a, c)); now apply in_map).
    destruct I as [I|I], E as [E|E]; try congruence; try (inv I; exfalso; eauto; fail); try (inv E; exfalso; eauto; fail). auto.
  - apply seen_get_none in E. exfalso. apply E. change o with (fst (o, r)). now apply in_map.
Qed.

Section Inst.
  Variable eq : heap -> pv -> oid -> bool.
  Variable defaults : ekind -> list (string * pv).
  Variable h : heap.
  Hypothesis agree : processes_agree h.
  Hypothesis lists : lists_mirror h.
  Hypothesis typed : refs_typed h.

  Definition refs (v : pv) : list oid :=
    match v with
    | PRef o => [o]
    | PList l => flat_map (fun x => match x with PRef o => [o] | _ => [] end) l
    | _ => []
    end.
  Lemma refs_list : forall xs, refs (PList (map PRef xs)) = xs.
  Proof. induction xs as [|x xs IH]; cbn in *; auto. now rewrite IH. Qed.

  Definition edges (o : oid) : list oid :=
    match kind_at h o with
    | Some KMatS => refs (fval h o "process")
    | Some KIngS => refs (fval h o "material")
    | Some KProcS => refs (fval h o "ingredients")
    | _ => []
    end.

  Definition ref (s : seen) (o : oid) : pv := match seen_get s o with Some r => PRef r | None => PNone end.
  Definition name_of (o : oid) : pv := read h o "name".

  (** The run of [o] when the references [out] have been assigned. *)
  Definition expected (s : seen) (out : oid -> list oid) (o : oid) : entity :=
    match kind_at h o with
    | Some KMeasS => mkE KMeasR [] (("spec", PRef o) :: ("material", PNone) :: ("name", name_of o) :: defaults KMeasR)
    | Some KMatS => mkE KMatR [] (("spec", PRef o) :: ("process", hd PNone (map (ref s) (out o))) :: ("measurements", PList []) :: ("name", name_of o) :: defaults KMatR)
    | Some KProcS => mkE KProcR [] (("spec", PRef o)
        :: ("output_material", match fval h o "output_material" with PRef m => if mem o (out m) then ref s m else PNone | _ => PNone end)
        :: ("ingredients", PList (map (ref s) (out o))) :: ("name", name_of o) :: defaults KProcR)
    | _ => mkE KIngR [] (("spec", PRef o) :: ("material", hd PNone (map (ref s) (out o)))
        :: ("process", match fval h o "process" with PRef p => if mem o (out p) then ref s p else PNone | _ => PNone end)
        :: ("name", PNone) :: defaults KIngR)
    end.

  Record Inv (s : seen) (out : oid -> list oid) (g : heap) : Prop := mkInv {
    i_old : forall o, o < length h -> hget g o = hget h o;
    i_len : length g = length h + length s;
    i_pos : forall i o r, nth_error s i = Some (o, r) -> r = length h + i;
    i_nodup : NoDup (map fst s);
    i_spec : forall o, In o (map fst s) -> is_spec h o;
    i_out : forall o x, In x (out o) -> In o (map fst s) /\ In x (map fst s);
    i_pre : forall o, exists k, out o = firstn k (edges o);
    i_ent : forall o r, seen_get s o = Some r -> hget g r = Some (expected s out o)
  }.

  Lemma kind_lt_h : forall o k, kind_at h o = Some k -> o < length h.
  Proof. intros. eapply kind_lt; eauto. Qed.
  Lemma spec_lt : forall o, is_spec h o -> o < length h.
  Proof. intros o (k & rk & K & _). eapply kind_lt; eauto. Qed.

  Lemma seen_ge : forall s out g o r, Inv s out g -> seen_get s o = Some r -> length h <= r /\ r < length g.
  Proof.
    intros s out g o r I E. apply seen_get_In in E. apply In_nth_error in E as [i E]. assert (X := i_pos _ _ _ I _ _ _ E).
    assert (i < length s) by (apply nth_error_Some; congruence). rewrite (i_len _ _ _ I). lia.
  Qed.
  Lemma seen_inj : forall s out g o o' r, Inv s out g -> seen_get s o = Some r -> seen_get s o' = Some r -> o = o'.
  Proof.
    intros s out g o o' r I E E'. apply seen_get_In in E, E'. apply In_nth_error in E as [i E]. apply In_nth_error in E' as [j E'].
    assert (X := i_pos _ _ _ I _ _ _ E). assert (Y := i_pos _ _ _ I _ _ _ E'). assert (i = j) by lia. subst. congruence.
  Qed.

  Lemma fval_old : forall s out g o f, Inv s out g -> o < length h -> fval g o f = fval h o f.
  Proof. intros. unfold fval. now rewrite (i_old _ _ _ H). Qed.
  Lemma kind_old : forall s out g o, Inv s out g -> o < length h -> kind_at g o = kind_at h o.
  Proof. intros. unfold kind_at. now rewrite (i_old _ _ _ H). Qed.
  Lemma read_spec : forall o, is_spec h o -> name_of o = fval h o "name".
  Proof. intros o (k & rk & K & C). unfold name_of, read. rewrite K. apply run_kind_class in C. destruct k; auto. discriminate. Qed.

  Lemma expected_kind : forall s out o k rk, kind_at h o = Some k -> run_class k rk -> e_kind (expected s out o) = rk.
  Proof. intros s out o k rk K C. apply run_kind_class in C. unfold expected. rewrite K. destruct k; inv C; reflexivity. Qed.

  (** A new entry changes nothing in what is expected of the others. *)
  Lemma expected_app : forall s out g o r, Inv s out g -> ~ In o (map fst s) ->
    forall y, expected (s ++ [(o, r)]) out y = expected s out y.
  Proof.
    intros s out g o r I N y.
    assert (R : forall x z, In x (out z) -> ref (s ++ [(o, r)]) x = ref s x).
    { intros x z J. apply (i_out _ _ _ I) in J as [_ J]. apply seen_get_some in J as [q J]. unfold ref. rewrite seen_get_app, J. reflexivity. }
    assert (R' : forall x z, mem z (out x) = true -> ref (s ++ [(o, r)]) x = ref s x).
    { intros x z J. apply mem_In in J. apply (i_out _ _ _ I) in J as [J _]. apply seen_get_some in J as [q J]. unfold ref. rewrite seen_get_app, J. reflexivity. }
    assert (M : forall z, map (ref (s ++ [(o, r)])) (out z) = map (ref s) (out z)).
    { intros z. apply map_ext_in. intros x J. eapply R; eauto. }
    unfold expected. rewrite M. repeat break_match; auto; rewrite (R' _ _ Heqb); auto.
  Qed.

  Lemma out_unseen : forall s out g o, Inv s out g -> ~ In o (map fst s) -> out o = [].
  Proof. intros s out g o I N. destruct (out o) as [|x l] eqn:E; auto. exfalso. apply N. apply (i_out _ _ _ I o x). rewrite E. now left. Qed.

  Lemma new_run_ok : forall s out g o k rk, Inv s out g -> ~ In o (map fst s) -> kind_at h o = Some k -> run_kind k = Some rk ->
    exists g1, new_run eq defaults g rk o = Done g1 /\ Inv (s ++ [(o, length g)]) out g1.
  Proof.
    intros s out g o k rk I N K Rk. assert (Lo := kind_lt_h _ _ K). unfold new_run.
    assert (Nm : match rk with KIngR => PNone | _ => read g o "name" end = match rk with KIngR => PNone | _ => name_of o end).
    { destruct rk; auto; rewrite read_spec by (exists k; eexists; rewrite <- run_kind_class; eauto); unfold read;
      rewrite (kind_old _ _ _ _ I Lo), K; destruct k; try discriminate; apply (fval_old _ _ _ _ _ I Lo). }
    rewrite Nm. clear Nm.
    assert (E : assign eq (g ++ [mkE rk [] (blank rk ++ ("name", match rk with KIngR => PNone | _ => name_of o end) :: defaults rk)]) (length g) "spec" (PRef o)
      = (g ++ [expected s out o], None)).
    { assert (A : asked_kind rk "spec" k) by (destruct k; inv Rk; unfold asked_kind; cbn; tauto).
      assert (Kg : kind_at g o = Some k) by (rewrite (kind_old _ _ _ _ I Lo); auto).
      assert (B : exists g1, (g1 = g) /\ assign eq (g ++ [mkE rk [] (blank rk ++ ("name", match rk with KIngR => PNone | _ => name_of o end) :: defaults rk)]) (length g) "spec" (PRef o)
         = (g1 ++ [mkE rk [] (dict_set "spec" (PRef o) (blank rk ++ ("name", match rk with KIngR => PNone | _ => name_of o end) :: defaults rk))], None)).
      { exists g. split; auto. unfold assign. rewrite kind_app2. cbn [e_kind].
        assert (Fv : fval (g ++ [mkE rk [] (blank rk ++ ("name", match rk with KIngR => PNone | _ => name_of o end) :: defaults rk)]) (length g) "spec" = PNone).
        { rewrite fval_app2. destruct k; inv Rk; reflexivity. }
        assert (X := fits_is_kind g o k (mkE rk [] (blank rk ++ ("name", match rk with KIngR => PNone | _ => name_of o end) :: defaults rk)) Kg).
        destruct k; inv Rk; cbn [role_of String.eqb Ascii.eqb Bool.eqb]; unfold set_ing_spec, set_plain; rewrite ?Fv, ?X, set_field_app2; reflexivity. }
      destruct B as (g1 & -> & B). rewrite B. f_equal. f_equal. f_equal. unfold expected. rewrite K, (out_unseen _ _ _ _ I N).
      destruct k; inv Rk; cbn [map hd blank app dict_set String.eqb Ascii.eqb Bool.eqb]; auto.
      - destruct (fval h o "output_material") as [| | |m| | | |]; auto. destruct (mem o (out m)) eqn:M; auto.
        exfalso. apply mem_In in M. apply (i_out _ _ _ I) in M as [_ M]. auto.
      - destruct (fval h o "process") as [| | |m| | | |]; auto. destruct (mem o (out m)) eqn:M; auto.
        exfalso. apply mem_In in M. apply (i_out _ _ _ I) in M as [_ M]. auto. }
    rewrite E. cbn [assigned]. eexists. split; [reflexivity|].
    assert (Lg := i_len _ _ _ I). constructor.
    - intros y Ly. rewrite hget_app1 by lia. now apply (i_old _ _ _ I).
    - rewrite !app_length. cbn. lia.
    - intros i y r E'. destruct (Nat.lt_ge_cases i (length s)) as [L|L].
      + rewrite nth_error_app1 in E' by auto. eapply i_pos; eauto.
      + rewrite nth_error_app2 in E' by auto. destruct (i - length s) as [|j] eqn:D; cbn in E'; [|destruct j; discriminate]. inv E'. lia.
    - rewrite map_app. cbn. apply NoDup_app_intro; [apply (i_nodup _ _ _ I)|repeat constructor; cbn; tauto|].
      intros x A [->|[]]. auto.
    - intros y J. rewrite map_app in J. apply in_app_or in J as [J|[<-|[]]]; [eapply i_spec; eauto|]. exists k, rk. split; auto. now apply run_kind_class.
    - intros a b J. apply (i_out _ _ _ I) in J as [A B]. rewrite map_app, !in_app_iff. auto.
    - apply (i_pre _ _ _ I).
    - intros y r J. rewrite (expected_app _ _ _ _ _ I N). rewrite seen_get_app in J. destruct (seen_get s y) as [q|] eqn:Q.
      + injection J as <-. assert (X := seen_ge _ _ _ _ _ I Q). rewrite hget_app1 by lia. eapply i_ent; eauto.
      + unfold seen_get in J. cbn [find option_map fst snd] in J. destruct (Nat.eqb o y) eqn:Y; [|discriminate]. injection J as <-. apply Nat.eqb_eq in Y. subst. apply hget_app2.
  Qed.

  (** ** Assignments *)

  Lemma expected_upd : forall s out a l o, is_spec h o -> o <> a ->
    (kind_at h o = Some KProcS -> fval h o "output_material" = PRef a -> mem o l = mem o (out a)) ->
    (kind_at h o = Some KIngS -> fval h o "process" = PRef a -> mem o l = mem o (out a)) ->
    expected s (upd out a l) o = expected s out o.
  Proof.
    intros s out a l o (k & rk & K & C) N P Q. apply run_kind_class in C. unfold expected. rewrite (upd_other _ _ _ _ N). rewrite K in *.
    destruct k; inv C; auto.
    - destruct (fval h o "output_material") as [| | |m| | | |]; auto. destruct (Nat.eq_dec m a) as [->|D].
      + rewrite upd_same, P; auto.
      + now rewrite upd_other.
    - destruct (fval h o "process") as [| | |m| | | |]; auto. destruct (Nat.eq_dec m a) as [->|D].
      + rewrite upd_same, Q; auto.
      + now rewrite upd_other.
  Qed.

  Lemma output_material : forall p m, kind_at h p = Some KProcS -> fval h p "output_material" = PRef m ->
    kind_at h m = Some KMatS /\ fval h m "process" = PRef p.
  Proof. intros p m K F. apply (agree KMatS KProcS); [right; auto|auto]. Qed.
  Lemma process_output : forall m p, kind_at h m = Some KMatS -> fval h m "process" = PRef p ->
    kind_at h p = Some KProcS /\ fval h p "output_material" = PRef m.
  Proof. intros m p K F. apply (agree KMatS KProcS); [right; auto|auto]. Qed.
  Lemma user_kind : forall x p, kind_at h x = Some KIngS -> fval h x "process" = PRef p -> kind_at h p = Some KProcS.
  Proof. intros x p K F. destruct (lists KIngS "process" KProcS "ingredients") as [_ L]; [unfold listed; tauto|]. eauto. Qed.
  Lemma ingredients_of : forall p, kind_at h p = Some KProcS ->
    exists xs, fval h p "ingredients" = PList (map PRef xs) /\ edges p = xs /\ NoDup xs
      /\ forall x, In x xs <-> (kind_at h x = Some KIngS /\ fval h x "process" = PRef p).
  Proof.
    intros p K. destruct (lists KIngS "process" KProcS "ingredients") as [L _]; [unfold listed; tauto|].
    destruct (L p K) as (xs & E & N & H). exists xs. split; auto. split; auto. unfold edges. rewrite K, E. apply refs_list.
  Qed.
  Lemma material_kind : forall x m, kind_at h x = Some KIngS -> fval h x "material" = PRef m -> kind_at h m = Some KMatS.
  Proof.
    intros x m K F. destruct (typed x KIngS "material" KMatS K) as (k & pk & K' & A & W); [unfold asked_kind; cbn; tauto|].
    rewrite K in K'. injection K' as <-. unfold asked_kind in A. cbn in A.
    rewrite F in W. destruct W as [W|[(s & i & W)|(q & W & Kq)]]; try discriminate. injection W as <-.
    repeat destruct A as [E|A]; try contradiction; inv E; auto.
  Qed.

  Lemma run_at : forall s out g o r, Inv s out g -> seen_get s o = Some r -> forall k rk, kind_at h o = Some k -> run_kind k = Some rk ->
    kind_at g r = Some rk.
  Proof.
    intros s out g o r I E k rk K R. unfold kind_at. rewrite (i_ent _ _ _ I _ _ E). cbn. f_equal. eapply expected_kind; eauto. now apply run_kind_class.
  Qed.
  Lemma is_kind_run : forall s out g o r, Inv s out g -> seen_get s o = Some r -> forall k rk, kind_at h o = Some k -> run_kind k = Some rk ->
    is_kind g rk (PRef r) = true.
  Proof. intros. apply is_kind_ref. eapply run_at; eauto. Qed.
  Lemma fval_run : forall s out g o r f, Inv s out g -> seen_get s o = Some r -> fval g r f = fget (expected s out o) f.
  Proof. intros s out g o r f I E. unfold fval. now rewrite (i_ent _ _ _ I _ _ E). Qed.

  Lemma seen_In : forall s o r, seen_get s o = Some r -> In o (map fst s).
  Proof. intros s o r E. apply seen_get_In in E. change o with (fst (o, r)). now apply in_map. Qed.

  Lemma upd_inv : forall s out g g' a l, Inv s out g -> length g' = length g -> (forall o, o < length h -> hget g' o = hget h o) ->
    In a (map fst s) -> (forall x, In x l -> In x (map fst s)) -> (exists k, l = firstn k (edges a)) ->
    (forall o r, seen_get s o = Some r -> hget g' r = Some (expected s (upd out a l) o)) -> Inv s (upd out a l) g'.
  Proof.
    intros s out g g' a l I L O A X P E. constructor; auto.
    - rewrite L. apply (i_len _ _ _ I).
    - apply (i_pos _ _ _ I).
    - apply (i_nodup _ _ _ I).
    - apply (i_spec _ _ _ I).
    - intros o x J. unfold upd in J. destruct (Nat.eqb o a) eqn:N.
      + apply Nat.eqb_eq in N. subst. auto.
      + apply (i_out _ _ _ I); auto.
    - intros o. unfold upd. destruct (Nat.eqb o a) eqn:N.
      + apply Nat.eqb_eq in N. now subst.
      + apply (i_pre _ _ _ I).
  Qed.

  Ltac at_old I r := match goal with Hr : seen_get _ _ = Some r |- _ =>
    assert (length h <= r) by (eapply seen_ge; eauto) end.

  Lemma assign_process : forall s out g m r p q, Inv s out g -> seen_get s m = Some r -> kind_at h m = Some KMatS -> out m = [] ->
    fval h m "process" = PRef p -> seen_get s p = Some q ->
    exists g', assign eq g r "process" (PRef q) = (g', None) /\ Inv s (upd out m [p]) g'.
  Proof.
    intros s out g m r p q I Em K O F Ep. destruct (process_output _ _ K F) as [Kp Fp].
    assert (Kr := run_at _ _ _ _ _ I Em _ _ K eq_refl). unfold assign. rewrite Kr. cbn [role_of String.eqb Ascii.eqb Bool.eqb].
    assert (Fv : fval g r "process" = PNone) by (rewrite (fval_run _ _ _ _ _ "process" I Em); unfold expected, fget; rewrite K, O; reflexivity).
    unfold set_process. rewrite Fv.
    rewrite (is_kind_run _ _ _ _ _ I Ep _ _ Kp eq_refl). eexists. split; [reflexivity|].
    assert (Lr := seen_ge _ _ _ _ _ I Em). assert (Lq := seen_ge _ _ _ _ _ I Ep).
    apply (upd_inv s out g); auto.
    - now rewrite !set_field_length.
    - intros o L. rewrite !hget_set_field. destruct (Nat.eqb r o) eqn:N1; [apply Nat.eqb_eq in N1; lia|].
      destruct (Nat.eqb q o) eqn:N2; [apply Nat.eqb_eq in N2; lia|]. now apply (i_old _ _ _ I).
    - eapply seen_In; eauto.
    - intros x [<-|[]]. eapply seen_In; eauto.
    - exists 1. unfold edges. now rewrite K, F.
    - assert (Nrq : q <> r) by (intros ->; assert (m = p) by (eapply seen_inj; eauto); congruence).
      intros o c Eo. rewrite !hget_set_field. destruct (Nat.eqb q r) eqn:N0; [apply Nat.eqb_eq in N0; contradiction|].
      destruct (Nat.eqb r c) eqn:N1.
      + apply Nat.eqb_eq in N1. subst c. assert (o = m) by (eapply seen_inj; eauto). subst o. rewrite (i_ent _ _ _ I _ _ Em).
        unfold expected. rewrite K, upd_same, O. cbn [map hd e_kind e_uids e_fields dict_set String.eqb Ascii.eqb Bool.eqb]. unfold ref. now rewrite Ep.
      + destruct (Nat.eqb q c) eqn:N2.
        * apply Nat.eqb_eq in N2. subst c. assert (o = p) by (eapply seen_inj; eauto). subst o. rewrite (i_ent _ _ _ I _ _ Ep).
          assert (p <> m) by congruence. unfold expected. rewrite Kp, Fp, upd_same, upd_other by auto. 
          replace (mem p [p]) with true by (unfold mem; cbn; now rewrite Nat.eqb_refl).
          replace (ref s m) with (PRef r) by (unfold ref; now rewrite Em). reflexivity.
        * rewrite (i_ent _ _ _ I _ _ Eo). f_equal. symmetry. apply expected_upd.
          -- eapply i_spec; eauto. eapply seen_In; eauto.
          -- intros ->. rewrite Em in Eo. injection Eo as <-. now rewrite Nat.eqb_refl in N1.
          -- intros Ko Fo. destruct (output_material _ _ Ko Fo) as [_ Y]. rewrite F in Y. injection Y as <-.
             rewrite Ep in Eo. injection Eo as <-. now rewrite Nat.eqb_refl in N2.
          -- intros Ko Fo. apply user_kind in Fo; auto. congruence.
  Qed.

  Lemma assign_material : forall s out g m r p q, Inv s out g -> seen_get s m = Some r -> kind_at h m = Some KIngS -> out m = [] ->
    fval h m "material" = PRef p -> seen_get s p = Some q ->
    exists g', assign eq g r "material" (PRef q) = (g', None) /\ Inv s (upd out m [p]) g'.
  Proof.
    intros s out g m r p q I Em K O F Ep. assert (Kp := material_kind _ _ K F).
    assert (Kr := run_at _ _ _ _ _ I Em _ _ K eq_refl). unfold assign. rewrite Kr. cbn [role_of String.eqb Ascii.eqb Bool.eqb].
    unfold set_plain. rewrite (is_kind_run _ _ _ _ _ I Ep _ _ Kp eq_refl). eexists. split; [reflexivity|].
    assert (Lr := seen_ge _ _ _ _ _ I Em).
    apply (upd_inv s out g); auto.
    - now rewrite set_field_length.
    - intros o L. rewrite hget_set_field. destruct (Nat.eqb r o) eqn:N1; [apply Nat.eqb_eq in N1; lia|]. now apply (i_old _ _ _ I).
    - eapply seen_In; eauto.
    - intros x [<-|[]]. eapply seen_In; eauto.
    - exists 1. unfold edges. now rewrite K, F.
    - intros o c Eo. rewrite hget_set_field. destruct (Nat.eqb r c) eqn:N1.
      + apply Nat.eqb_eq in N1. subst c. assert (o = m) by (eapply seen_inj; eauto). subst o. rewrite (i_ent _ _ _ I _ _ Em).
        unfold expected. rewrite K, upd_same, O. cbn [map hd e_kind e_uids e_fields dict_set String.eqb Ascii.eqb Bool.eqb]. replace (ref s p) with (PRef q) by (unfold ref; now rewrite Ep).
        destruct (fval h m "process") as [| | |y| | | |] eqn:Fy; auto. apply user_kind in Fy; auto. rewrite upd_other by congruence. reflexivity.
      + rewrite (i_ent _ _ _ I _ _ Eo). f_equal. symmetry. apply expected_upd.
        * eapply i_spec; eauto. eapply seen_In; eauto.
        * intros ->. rewrite Em in Eo. injection Eo as <-. now rewrite Nat.eqb_refl in N1.
        * intros Ko Fo. destruct (output_material _ _ Ko Fo) as [Y _]. congruence.
        * intros Ko Fo. apply user_kind in Fo; auto. congruence.
  Qed.

  Lemma assign_ingredient : forall s out g p rp k x rx, Inv s out g -> seen_get s p = Some rp -> kind_at h p = Some KProcS ->
    out p = firstn k (edges p) -> nth_error (edges p) k = Some x -> seen_get s x = Some rx ->
    exists g', assign eq g rx "process" (PRef rp) = (g', None) /\ Inv s (upd out p (firstn (S k) (edges p))) g'.
  Proof.
    intros s out g p rp k x rx I Ep K O Nk Ex. destruct (ingredients_of _ K) as (xs & Exs & Ed & Nd & Hx). rewrite Ed in *.
    assert (Ix : In x xs) by (eapply nth_error_In; eauto). destruct (proj1 (Hx x) Ix) as [Kx Fx].
    assert (Sk : firstn (S k) xs = firstn k xs ++ [x]).
    { clear - Nk. revert k Nk. induction xs as [|y xs IH]; intros [|k] E; cbn in *; try discriminate; [congruence|]. f_equal. auto. }
    assert (Nx : ~ In x (firstn k xs)).
    { clear - Nk Nd. revert k Nk. induction xs as [|y xs IH]; intros [|k] E; cbn in *; try discriminate; [tauto|]. inv Nd.
      intros [->|J]; [|eapply IH; eauto]. apply H1. eapply nth_error_In; eauto. }
    assert (Kr := run_at _ _ _ _ _ I Ex _ _ Kx eq_refl). unfold assign. rewrite Kr. cbn [role_of String.eqb Ascii.eqb Bool.eqb].
    assert (Fv : fval g rx "process" = PNone).
    { rewrite (fval_run _ _ _ _ _ "process" I Ex). unfold expected, fget. rewrite Kx, Fx, O, (proj2 (mem_not _ _) Nx). reflexivity. }
    assert (Fi : fval g rp "ingredients" = PList (map (ref s) (firstn k xs))).
    { rewrite (fval_run _ _ _ _ _ "ingredients" I Ep). unfold expected, fget. rewrite K, O. reflexivity. }
    unfold set_owned. rewrite Fv.
    rewrite (is_kind_run _ _ _ _ _ I Ep _ _ K eq_refl). cbv zeta.
    assert (Nrp : rx <> rp) by (intros ->; assert (x = p) by (eapply seen_inj; eauto); congruence).
    rewrite fval_set_other, Fi by auto. eexists. split; [reflexivity|].
    assert (Lr := seen_ge _ _ _ _ _ I Ep). assert (Lx := seen_ge _ _ _ _ _ I Ex).
    apply (upd_inv s out g); auto.
    - now rewrite !set_field_length.
    - intros o L. rewrite !hget_set_field. destruct (Nat.eqb rp o) eqn:N1; [apply Nat.eqb_eq in N1; lia|].
      destruct (Nat.eqb rx o) eqn:N2; [apply Nat.eqb_eq in N2; lia|]. now apply (i_old _ _ _ I).
    - eapply seen_In; eauto.
    - intros y J. rewrite Sk in J. apply in_app_or in J as [J|[<-|[]]].
      + apply (i_out _ _ _ I p). now rewrite O.
      + eapply seen_In; eauto.
    - exists (S k). now rewrite Ed.
    - intros o c Eo. rewrite !hget_set_field. destruct (Nat.eqb rx rp) eqn:N0; [apply Nat.eqb_eq in N0; contradiction|].
      destruct (Nat.eqb rp c) eqn:N1.
      + apply Nat.eqb_eq in N1. subst c. assert (o = p) by (eapply seen_inj; eauto). subst o. rewrite (i_ent _ _ _ I _ _ Ep).
        unfold expected. rewrite K, upd_same, O, Sk, map_app. cbn [map e_kind e_uids e_fields dict_set String.eqb Ascii.eqb Bool.eqb]. replace (ref s x) with (PRef rx) by (unfold ref; now rewrite Ex).
        f_equal. f_equal. f_equal. f_equal. f_equal. destruct (fval h p "output_material") as [| | |y| | | |] eqn:Fy; auto.
        destruct (output_material _ _ K Fy) as [Y _]. rewrite upd_other by congruence. reflexivity.
      + destruct (Nat.eqb rx c) eqn:N2.
        * apply Nat.eqb_eq in N2. subst c. assert (o = x) by (eapply seen_inj; eauto). subst o. rewrite (i_ent _ _ _ I _ _ Ex).
          assert (x <> p) by congruence. unfold expected. rewrite Kx, Fx, upd_same, upd_other by auto.
          replace (mem x (firstn (S k) xs)) with true. 2: { symmetry. apply mem_In. rewrite Sk. apply in_or_app. right. now left. }
          cbn [e_kind e_uids e_fields dict_set String.eqb Ascii.eqb Bool.eqb]. replace (ref s p) with (PRef rp) by (unfold ref; now rewrite Ep). reflexivity.
        * rewrite (i_ent _ _ _ I _ _ Eo). f_equal. symmetry. apply expected_upd.
          -- eapply i_spec; eauto. eapply seen_In; eauto.
          -- intros ->. rewrite Ep in Eo. injection Eo as <-. now rewrite Nat.eqb_refl in N1.
          -- intros Ko Fo. destruct (output_material _ _ Ko Fo) as [Y _]. congruence.
          -- intros Ko Fo. rewrite Sk, O. assert (o <> x) by (intros ->; rewrite Ex in Eo; injection Eo as <-; now rewrite Nat.eqb_refl in N2).
             unfold mem. rewrite existsb_app. cbn. apply Nat.eqb_neq in H. rewrite H. now rewrite !orb_false_r.
  Qed.

  Lemma assign_none : forall s out g m r k rk f, Inv s out g -> seen_get s m = Some r -> kind_at h m = Some k -> run_kind k = Some rk -> out m = [] ->
    (k = KMatS /\ f = "process") \/ (k = KIngS /\ f = "material") ->
    exists g', assign eq g r f PNone = (g', None) /\ Inv s out g'.
  Proof.
    intros s out g m r k rk f I Em K R O C. assert (Kr := run_at _ _ _ _ _ I Em _ _ K R).
    assert (E : assign eq g r f PNone = (set_field g r f PNone, None)).
    { unfold assign. rewrite Kr. destruct C as [[-> ->]|[-> ->]]; inv R; cbn [role_of String.eqb Ascii.eqb Bool.eqb]; auto.
      unfold set_process. rewrite (fval_run _ _ _ _ _ "process" I Em). unfold expected, fget. rewrite K, O. reflexivity. }
    eexists. split; [exact E|]. assert (Lr := seen_ge _ _ _ _ _ I Em). constructor; try apply I.
    - intros o L. rewrite hget_set_field. destruct (Nat.eqb r o) eqn:N1; [apply Nat.eqb_eq in N1; lia|]. now apply (i_old _ _ _ I).
    - rewrite set_field_length. apply (i_len _ _ _ I).
    - intros o c Eo. rewrite hget_set_field. destruct (Nat.eqb r c) eqn:N1; [|now apply (i_ent _ _ _ I)].
      apply Nat.eqb_eq in N1. subst c. assert (o = m) by (eapply seen_inj; eauto). subst o. rewrite (i_ent _ _ _ I _ _ Em).
      f_equal. unfold expected. rewrite K, O. destruct C as [[-> ->]|[-> ->]]; reflexivity.
  Qed.

  (** ** The crawler *)

  Lemma reaches_trans : forall a b c, reaches h a b -> reaches h b c -> reaches h a c.
  Proof. intros a b c H K. induction K; eauto using reaches. Qed.
  Lemma reaches_one : forall a b, spec_step h a b -> reaches h a b.
  Proof. intros. econstructor; eauto. constructor. Qed.

  Definition stuck (o : oid) : Prop :=
    exists s i, (kind_at h o = Some KMatS /\ fval h o "process" = PLink s i) \/ (kind_at h o = Some KIngS /\ fval h o "material" = PLink s i).

  Lemma stuck_link : forall a o, reaches h a o -> stuck o -> link_on_the_way h a.
  Proof. intros a o R (s & i & H). exists o, s, i. auto. Qed.
  Lemma link_trans : forall a b, reaches h a b -> link_on_the_way h b -> link_on_the_way h a.
  Proof. intros a b R (o & s & i & R' & H). exists o, s, i. split; auto. eapply reaches_trans; eauto. Qed.

  Definition room (s : seen) : nat := length h - length s.
  Lemma seen_bound : forall s out g o, Inv s out g -> is_spec h o -> ~ In o (map fst s) -> length s < length h.
  Proof.
    intros s out g o I So N.
    assert (X : length (o :: map fst s) <= length (seq 0 (length h))).
    { apply NoDup_incl_length; [constructor; [auto|apply (i_nodup _ _ _ I)]|]. intros y J. apply in_seq. cbn.
      destruct J as [<-|J]; [apply spec_lt in So; lia|]. apply (i_spec _ _ _ I) in J. apply spec_lt in J. lia. }
    cbn in X. rewrite map_length, seq_length in X. lia.
  Qed.

  (** What a call brings about, starting from [s], [out] at [o]. *)
  Record Post (s : seen) (out : oid -> list oid) (o : oid) (s' : seen) (out' : oid -> list oid) (g' : heap) : Prop := mkPost {
    p_inv : Inv s' out' g';
    p_more : exists more, s' = s ++ more /\ forall y, In y (map fst more) -> out' y = edges y /\ reaches h o y /\ ~ stuck y;
    p_out : forall y, In y (map fst s) -> out' y = out y
  }.

  Definition each (crawl : heap -> seen -> pv -> outcome (oid * heap * seen)) :=
    fix each (h : heap) (s : seen) (l : list pv) (p : oid) : outcome (heap * seen) :=
      match l with
      | [] => Done (h, s)
      | x :: l' =>
          obind (crawl h s x) (fun '(r, h2, s2) =>
          obind (assigned (assign eq h2 r "process" (PRef p))) (fun h3 => each h3 s2 l' p))
      end.

  Lemma crawler_eq : forall n g s o, crawler eq defaults (S n) g s (PRef o) =
    match seen_get s o with
    | Some r => Done (r, g, s)
    | None =>
        match kind_at g o with
        | Some KMeasS => obind (new_run eq defaults g KMeasR o) (fun h1 => Done (length g, h1, s ++ [(o, length g)]))
        | Some KMatS =>
            obind (new_run eq defaults g KMatR o) (fun h1 =>
            obind (match fval h1 o "process" with
                   | PNone => Done (PNone, h1, s ++ [(o, length g)])
                   | v => obind (crawler eq defaults n h1 (s ++ [(o, length g)]) v) (fun '(p, h2, s2) => Done (PRef p, h2, s2))
                   end) (fun '(v, h2, s2) =>
            obind (assigned (assign eq h2 (length g) "process" v)) (fun h3 => Done (length g, h3, s2))))
        | Some KIngS =>
            obind (new_run eq defaults g KIngR o) (fun h1 =>
            obind (match fval h1 o "material" with
                   | PNone => Done (PNone, h1, s ++ [(o, length g)])
                   | v => obind (crawler eq defaults n h1 (s ++ [(o, length g)]) v) (fun '(p, h2, s2) => Done (PRef p, h2, s2))
                   end) (fun '(v, h2, s2) =>
            obind (assigned (assign eq h2 (length g) "material" v)) (fun h3 => Done (length g, h3, s2))))
        | Some KProcS =>
            obind (new_run eq defaults g KProcR o) (fun h1 =>
            obind (each (crawler eq defaults n) h1 (s ++ [(o, length g)]) (match fval h1 o "ingredients" with PList l => l | _ => [] end) (length g))
              (fun '(h2, s2) => Done (length g, h2, s2)))
        | _ => Raised TypeError
        end
    end.
  Proof. reflexivity. Qed.

  Lemma firstn_nth : forall A (l : list A) k x, nth_error l k = Some x -> firstn (S k) l = firstn k l ++ [x].
  Proof. induction l as [|y l IH]; intros [|k] x E; cbn in *; try discriminate; [congruence|]. f_equal. auto. Qed.

  Definition good (n : nat) : Prop := forall s out g o, Inv s out g -> is_spec h o -> room s < n ->
    (exists r g' s' out', crawler eq defaults n g s (PRef o) = Done (r, g', s') /\ seen_get s' o = Some r /\ Post s out o s' out' g')
    \/ (crawler eq defaults n g s (PRef o) = Raised TypeError /\ link_on_the_way h o).

  Lemma each_ok : forall n p, good n -> kind_at h p = Some KProcS -> forall rest k s out g rp, Inv s out g -> seen_get s p = Some rp -> room s < n ->
    skipn k (edges p) = rest -> out p = firstn k (edges p) ->
    (exists g' s' out', each (crawler eq defaults n) g s (map PRef rest) rp = Done (g', s') /\ Inv s' out' g'
       /\ out' p = edges p /\ (exists more, s' = s ++ more /\ forall y, In y (map fst more) -> out' y = edges y /\ reaches h p y /\ ~ stuck y)
       /\ (forall y, In y (map fst s) -> y <> p -> out' y = out y))
    \/ (each (crawler eq defaults n) g s (map PRef rest) rp = Raised TypeError /\ link_on_the_way h p).
  Proof.
    intros n p G K. destruct (ingredients_of _ K) as (xs & Exs & Ed & Nd & Hx).
    induction rest as [|x rest IH]; intros k s out g rp I Ep R Sk O.
    - left. exists g, s, out. cbn. split; auto. split; auto. split.
      + rewrite O. rewrite <- (firstn_skipn k (edges p)) at 2. rewrite Sk. now rewrite app_nil_r.
      + split; auto. exists []. rewrite app_nil_r. split; auto. intros y [].
    - assert (Nk : nth_error (edges p) k = Some x).
      { clear - Sk. revert Sk. generalize (edges p). intros l. revert l. induction k; intros [|y l] E; cbn in *; try discriminate; [congruence|auto]. }
      assert (Ix : In x xs) by (rewrite <- Ed; eapply nth_error_In; eauto). destruct (proj1 (Hx x) Ix) as [Kx Fx].
      assert (St : spec_step h p x) by (eapply ss_ingredient; eauto; now apply in_map).
      assert (Sx : is_spec h x) by (exists KIngS, KIngR; split; auto; unfold run_class; cbn; tauto).
      cbn [map each]. destruct (G s out g x I Sx R) as [(rx & g1 & s1 & out1 & E1 & Gx & P)|[E1 L]].
      2: { right. rewrite E1. split; auto. eapply link_trans; eauto. now apply reaches_one. }
      rewrite E1. cbn [obind]. destruct P as [I1 (more & -> & Hm) Po].
      assert (Ep1 : seen_get (s ++ more) p = Some rp) by (rewrite seen_get_app, Ep; auto).
      assert (O1 : out1 p = firstn k (edges p)) by (rewrite Po; auto; eapply seen_In; eauto).
      destruct (assign_ingredient _ _ _ _ _ _ _ _ I1 Ep1 K O1 Nk Gx) as (g2 & E2 & I2). rewrite E2. cbn [assigned obind].
      assert (R2 : room (s ++ more) < n) by (unfold room in *; rewrite app_length; lia).
      assert (Sk2 : skipn (S k) (edges p) = rest).
      { clear - Sk. revert Sk. generalize (edges p). intros l. revert l. induction k; intros [|y l] E; cbn in *; try discriminate; [congruence|]. now apply IHk. }
      destruct (IH (S k) (s ++ more) _ g2 rp I2 Ep1 R2 Sk2 (upd_same _ _ _)) as [(g' & s' & out' & E3 & I3 & O3 & (more2 & -> & Hm2) & Po3)|[E3 L]].
      + left. exists g', ((s ++ more) ++ more2), out'. split; auto. split; auto. split; auto. split.
        * exists (more ++ more2). rewrite app_assoc. split; auto. intros y J. rewrite map_app in J. apply in_app_or in J as [J|J]; auto.
          destruct (Hm y J) as (A & B & C). split; [|split; auto; apply (reaches_trans p x); [now apply reaches_one|exact B]]. destruct (Nat.eq_dec y p) as [->|Ny]; auto.
          rewrite Po3; auto; [|rewrite map_app; apply in_or_app; auto]. now rewrite upd_other.
        * intros y J Ny. rewrite Po3; auto; [|rewrite map_app; apply in_or_app; auto]. rewrite upd_other by auto. now apply Po.
      + right. auto.
  Qed.

  Lemma reference_value : forall o k f pk, kind_at h o = Some k -> asked_kind k f pk ->
    fval h o f = PNone \/ (exists s i, fval h o f = PLink s i) \/ exists p, fval h o f = PRef p.
  Proof.
    intros o k f pk K A. destruct (typed o k f pk K A) as (k' & pk' & _ & _ & [W|[W|(p & W & _)]]); eauto.
  Qed.

  Lemma crawler_ok : forall n, good n.
  Proof.
    induction n as [|n IH]; intros s out g o I So R; [lia|]. rewrite crawler_eq. destruct (seen_get s o) as [r|] eqn:E.
    - left. exists r, g, s, out. split; auto. split; auto. constructor; auto. exists []. rewrite app_nil_r. split; auto. intros y [].
    - apply seen_get_none in E. destruct So as (k & rk & K & C). assert (C' := C). apply run_kind_class in C.
      assert (Lo := kind_lt_h _ _ K). rewrite (kind_old _ _ _ _ I Lo), K.
      destruct (new_run_ok _ _ _ _ _ _ I E K C) as (g1 & E1 & I1).
      set (s1 := s ++ [(o, length g)]) in *.
      assert (Eo : seen_get s1 o = Some (length g)).
      { unfold s1. rewrite seen_get_app. rewrite (proj2 (seen_get_none _ _) E). unfold seen_get. cbn [find fst]. now rewrite Nat.eqb_refl. }
      assert (Oo := out_unseen _ _ _ _ I E).
      assert (R1 : room s1 < n).
      { assert (Bd := seen_bound _ _ _ o I (ex_intro _ k (ex_intro _ rk (conj K C'))) E). unfold room, s1 in *. rewrite app_length. cbn. lia. }
      (* one reference *)
      assert (One : forall f, (k = KMatS /\ f = "process") \/ (k = KIngS /\ f = "material") ->
        let res := obind (match fval g1 o f with
                   | PNone => Done (PNone, g1, s1)
                   | v => obind (crawler eq defaults n g1 s1 v) (fun '(p, h2, s2) => Done (PRef p, h2, s2))
                   end) (fun '(v, h2, s2) =>
            obind (assigned (assign eq h2 (length g) f v)) (fun h3 => Done (length g, h3, s2))) in
        (exists r g' s' out', res = Done (r, g', s') /\ seen_get s' o = Some r /\ Post s out o s' out' g')
        \/ (res = Raised TypeError /\ link_on_the_way h o)).
      { intros f Cf. rewrite (fval_old _ _ _ _ f I1 Lo).
        assert (Ed : edges o = refs (fval h o f)) by (unfold edges; rewrite K; destruct Cf as [[-> ->]|[-> ->]]; reflexivity).
        assert (Ak : exists pk, asked_kind k f pk) by (destruct Cf as [[-> ->]|[-> ->]]; unfold asked_kind; cbn; eexists; tauto).
        destruct Ak as [pk Ak]. destruct (reference_value _ _ _ _ K Ak) as [F|[(sc & i & F)|(p & F)]]; rewrite F in *.
        - destruct (assign_none _ _ _ _ _ _ _ _ I1 Eo K C Oo Cf) as (g2 & E2 & I2). cbn [obind]. rewrite E2. cbn [assigned obind].
          left. exists (length g), g2, s1, out. split; auto. split; auto. constructor; auto. exists [(o, length g)]. split; auto.
          intros y [<-|[]]. cbn [fst]. split; [now rewrite Oo, Ed|]. split; [constructor|].
          intros (s' & i' & [[K' F']|[K' F']]); destruct Cf as [[-> ->]|[-> ->]]; congruence.
        - right. destruct n; [lia|]. cbn. split; auto. eapply stuck_link; [constructor|]. exists sc, i. destruct Cf as [[-> ->]|[-> ->]]; auto.
        - assert (St : spec_step h o p) by (destruct Cf as [[-> ->]|[-> ->]]; [now apply ss_process|now apply ss_material]).
          assert (Sp : is_spec h p).
          { destruct Cf as [[-> ->]|[-> ->]].
            - destruct (process_output _ _ K F) as [Kp _]. exists KProcS, KProcR. split; auto. unfold run_class; cbn; tauto.
            - assert (Kp := material_kind _ _ K F). exists KMatS, KMatR. split; auto. unfold run_class; cbn; tauto. }
          destruct (IH s1 out g1 p I1 Sp R1) as [(q & g2 & s2 & out2 & E2 & Gp & P)|[E2 L]].
          2: { right. rewrite E2. cbn [obind]. split; auto. eapply link_trans; eauto. now apply reaches_one. }
          rewrite E2. cbn [obind]. destruct P as [I2 (more & -> & Hm) Po].
          assert (Eo2 : seen_get (s1 ++ more) o = Some (length g)) by (rewrite seen_get_app, Eo; auto).
          assert (Oo2 : out2 o = []) by (rewrite Po; auto; eapply seen_In; eauto).
          assert (A : exists g3, assign eq g2 (length g) f (PRef q) = (g3, None) /\ Inv (s1 ++ more) (upd out2 o [p]) g3).
          { destruct Cf as [[-> ->]|[-> ->]]; [eapply assign_process|eapply assign_material]; eauto. }
          destruct A as (g3 & E3 & I3). rewrite E3. cbn [assigned obind]. left. exists (length g), g3, (s1 ++ more), (upd out2 o [p]).
          split; auto. split; auto. constructor; auto.
          + exists ((o, length g) :: more). split; [unfold s1; now rewrite <- app_assoc|].
            assert (Do : upd out2 o [p] o = edges o) by (rewrite upd_same, Ed; reflexivity).
            intros y J. cbn [map fst] in J. destruct (Nat.eq_dec y o) as [->|Ny].
            * split; auto. split; [constructor|]. intros (s' & i' & [[K' F']|[K' F']]); destruct Cf as [[-> ->]|[-> ->]]; congruence.
            * destruct J as [J|J]; [congruence|]. destruct (Hm y J) as (X & Y & Z). rewrite upd_other by auto. split; auto. split; auto.
              apply (reaches_trans o p); [now apply reaches_one|exact Y].
          + intros y J. assert (y <> o) by (intros ->; contradiction). rewrite upd_other by auto. apply Po. unfold s1. rewrite map_app. apply in_or_app. auto. }
      destruct k; inv C; rewrite E1; cbn [obind].
      + apply (One "process"); auto.
      + destruct (ingredients_of _ K) as (xs & Exs & Ed & Nd & Hx). rewrite (fval_old _ _ _ _ "ingredients" I1 Lo), Exs.
        destruct (each_ok n o IH K xs 0 s1 out g1 (length g) I1 Eo R1) as [(g' & s' & out' & E3 & I3 & O3 & (more & -> & Hm) & Po3)|[E3 L]].
        * now rewrite Ed.
        * now rewrite Oo.
        * left. rewrite E3. cbn [obind]. exists (length g), g', (s1 ++ more), out'. split; auto. split; [rewrite seen_get_app, Eo; auto|].
          constructor; auto.
          -- exists ((o, length g) :: more). split; [unfold s1; now rewrite <- app_assoc|]. intros y J. cbn [map fst] in J.
             destruct J as [<-|J]; [|now apply Hm]. split; auto. split; [constructor|]. intros (s' & i' & [[K' F']|[K' F']]); congruence.
          -- intros y J. assert (y <> o) by (intros ->; contradiction). apply Po3; auto. unfold s1. rewrite map_app. apply in_or_app. auto.
        * right. rewrite E3. cbn [obind]. auto.
      + left. exists (length g), g1, s1, out. split; auto. split; auto. constructor; auto. exists [(o, length g)]. split; auto.
        intros y [<-|[]]. cbn [fst]. split; [rewrite Oo; unfold edges; now rewrite K|]. split; [constructor|].
        intros (s' & i' & [[K' F']|[K' F']]); congruence.
      + apply (One "material"); auto.
  Qed.
End Inst.
