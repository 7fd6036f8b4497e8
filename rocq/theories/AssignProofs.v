(** Proofs about assignments to two-sided references. *)
From Coq Require Import String List Bool Arith Lia.
From Verif Require Import Base BaseFacts GraphModel GraphSpec GraphProofs SerialSpec AssignSpec.
Import ListNotations.
Open Scope string_scope.
Open Scope list_scope.
Open Scope nat_scope.

(** ** Steps *)

Lemma same_refl : forall h P, same_but h h P.
Proof. intros. repeat split; auto. Qed.
Lemma same_set : forall h h' o f v (P : oid -> string -> Prop), same_but h h' P -> P o f -> same_but h (set_field h' o f v) P.
Proof.
  intros h h' o f v P (L & K & U & F) H. split; [now rewrite set_field_length|]. split; [intros; now rewrite kind_set_field|].
  split; [intros; now rewrite uids_set_field|]. intros o' f' N. rewrite fval_set_other; auto.
  destruct (Nat.eq_dec o o') as [->|]; auto. destruct (string_dec f f') as [->|]; auto.
Qed.

Section Assign.
  Variable eq : heap -> pv -> oid -> bool.
  Notation assign := (GraphModel.assign eq).
  Notation gstep := (GraphModel.gstep eq).
  Notation grun := (GraphModel.grun eq).

  Lemma well_typed_iff : forall h o f v k pk, kind_at h o = Some k -> asked_kind k f pk ->
    (well_typed h o f v <-> (v = PNone \/ (exists s i, v = PLink s i) \/ exists p, v = PRef p /\ kind_at h p = Some pk)).
  Proof.
    intros h o f v k pk K A. split.
    - intros (k' & pk' & K' & A' & V). rewrite K in K'. injection K' as <-.
      assert (pk' = pk); [|now subst]. clear - A A'. unfold asked_kind in *. cbn in *.
      repeat (destruct A as [A|A]; [injection A; intros; subst;
        repeat (destruct A' as [A'|A']; [first [discriminate | injection A'; intros; subst; reflexivity]|]); contradiction|]); contradiction.
    - intros V. exists k, pk. auto.
  Qed.

  (** *** The process of a material *)

  Lemma process_assigned : forall h m mk pk v, kind_at h m = Some mk -> couple mk pk ->
    let r := assign h m "process" v in
    (well_typed h m "process" v /\ snd r = None /\ process_effect h m pk v true (fst r))
    \/ (~ well_typed h m "process" v /\ snd r = Some TypeError /\ process_effect h m pk v false (fst r)).
  Proof.
    intros h m mk pk v K C r. assert (A : asked_kind mk "process" pk) by (destruct C as [[-> ->]|[-> ->]]; unfold asked_kind; cbn; tauto).
    rewrite (well_typed_iff h m "process" v mk pk K A). unfold r, GraphModel.assign. rewrite K, (couple_role _ _ C). unfold set_process.
    set (h1 := match fval h m "process" with PRef p => if is_kind h pk (PRef p) then set_field h p "output_material" PNone else h | _ => h end).
    assert (Hm : hget h m <> None) by (eapply kind_hget; eauto).
    assert (S1 : forall P : oid -> string -> Prop, (forall q, holds h m "process" pk q -> P q "output_material") -> same_but h h1 P).
    { intros P H. unfold h1. destruct (fval h m "process") as [| | |p| | | |] eqn:F; try apply same_refl.
      destruct (is_kind h pk (PRef p)) eqn:I; [|apply same_refl]. apply same_set; [apply same_refl|]. apply H. split; auto. now apply is_kind_ref. }
    assert (O1 : forall q, holds h m "process" pk q -> fval h1 q "output_material" = PNone).
    { intros q [F Kq]. unfold h1. rewrite F, (proj2 (is_kind_ref _ _ _) Kq). apply fval_set_same. eapply kind_hget; eauto. }
    assert (K1 : forall o, kind_at h1 o = kind_at h o) by (intros; apply (S1 (fun _ _ => True)); auto).
    assert (Hm1 : hget h1 m <> None) by (apply (kind_hget _ _ mk); now rewrite K1).
    assert (D : "process" <> "output_material") by discriminate.
    assert (Free : (v = PNone \/ exists s i, v = PLink s i) -> process_effect h m pk v true (set_field h1 m "process" v)).
    { intros V. constructor.
      - intros _. now apply fval_set_same.
      - intros p _ ->. destruct V as [V|(s & i & V)]; discriminate.
      - intros q Hq _. rewrite fval_set_other by auto. auto.
      - apply same_set; [apply S1; intros; right; auto | left; auto]. }
    assert (Bad : process_effect h m pk v false h1).
    { constructor; try discriminate; auto. }
    destruct v as [| |s i|p| | | |]; cbn [fst snd].
    - left. split; [auto|]. split; [reflexivity|]. apply Free; eauto.
    - right. split; [intros [V|[(s & i & V)|(p & V & _)]]; discriminate|]. split; [reflexivity|exact Bad].
    - left. split; [eauto|]. split; [reflexivity|]. apply Free; eauto.
    - destruct (is_kind h1 pk (PRef p)) eqn:I; cbn [fst snd].
      + apply is_kind_ref in I. rewrite K1 in I. left. split; [eauto|]. split; [reflexivity|].
        assert (Hp : hget h1 p <> None) by (apply (kind_hget _ _ pk); now rewrite K1).
        constructor.
        * intros _. apply fval_set_same. apply (kind_hget _ _ mk). now rewrite kind_set_field, K1.
        * intros q _ [= <-]. rewrite fval_set_other by auto. now apply fval_set_same.
        * intros q Hq [X|N]; [discriminate|]. rewrite fval_set_other by auto. rewrite fval_set_other by (left; congruence). auto.
        * apply same_set; [apply same_set; [apply S1; intros; right; auto | right; auto] | left; auto].
      + right. split.
        { intros [V|[(s & i & V)|(q & V & Kq)]]; try discriminate. injection V as <-. rewrite <- K1 in Kq. apply is_kind_ref in Kq. congruence. }
        split; [reflexivity|exact Bad].
    - right. split; [intros [V|[(s & i & V)|(p & V & _)]]; discriminate|]. split; [reflexivity|exact Bad].
    - right. split; [intros [V|[(s & i & V)|(p & V & _)]]; discriminate|]. split; [reflexivity|exact Bad].
    - right. split; [intros [V|[(s & i & V)|(p & V & _)]]; discriminate|]. split; [reflexivity|exact Bad].
    - right. split; [intros [V|[(s & i & V)|(p & V & _)]]; discriminate|]. split; [reflexivity|exact Bad].
  Qed.

  (** *** References with a list on the other side *)

  Lemma taken_iff : forall h x y, (match y with PRef o => Nat.eqb o x | _ => false end || eq h y x)%bool = true <-> taken_for eq h x y.
  Proof.
    intros h x y. unfold taken_for. rewrite orb_true_iff. split; intros [H|H]; auto.
    - left. destruct y; try discriminate. apply Nat.eqb_eq in H. now subst.
    - left. subst. apply Nat.eqb_refl.
  Qed.
  Lemma remove_some : forall h x l l', remove eq h x l = Some l' -> without_first (taken_for eq h x) l l'.
  Proof.
    intros h x. induction l as [|y l IH]; intros l' E; cbn in E; [discriminate|].
    destruct (match y with PRef o => Nat.eqb o x | _ => false end || eq h y x)%bool eqn:T.
    - injection E as <-. apply taken_iff in T. exists [], y, l. repeat split; auto.
    - destruct (remove eq h x l) as [l1|] eqn:R; [|discriminate]. injection E as <-. destruct (IH l1 eq_refl) as (a & z & b & -> & Tz & Na & ->).
      exists (y :: a), z, b. repeat split; auto. intros w [<-|I]; auto. rewrite <- taken_iff. congruence.
  Qed.
  Lemma remove_none : forall h x l, remove eq h x l = None <-> forall y, In y l -> ~ taken_for eq h x y.
  Proof.
    intros h x. induction l as [|y l IH]; cbn; [split; [intros _ y [] | auto]|].
    destruct (match y with PRef o => Nat.eqb o x | _ => false end || eq h y x)%bool eqn:T.
    - split; [discriminate|]. intros H. apply taken_iff in T. exfalso. eapply H; eauto.
    - assert (N : ~ taken_for eq h x y) by (rewrite <- taken_iff; congruence). destruct (remove eq h x l) as [l1|]; cbn.
      + split; [discriminate|]. intros H. destruct IH as [_ IH]. discriminate IH. intros z I. apply H. now right.
      + split; auto. intros _ z [<-|I]; auto. destruct IH as [IH _]. now apply IH.
  Qed.

  Lemma listed_parts : forall ck cf pk lf, listed ck cf pk lf -> asked_kind ck cf pk /\ ck <> pk /\ cf <> lf.
  Proof. intros ck cf pk lf [L|[L|L]]; injection L as -> -> -> ->; (split; [unfold asked_kind; cbn; tauto | split; discriminate]). Qed.

  Lemma list_assigned : forall h ck cf pk lf x v, listed ck cf pk lf -> lists_exist h -> kind_at h x = Some ck ->
    let r := assign h x cf v in
    (lost eq h x cf pk lf /\ r = (h, Some ValueError))
    \/ (~ lost eq h x cf pk lf /\ well_typed h x cf v /\ snd r = None /\ list_effect eq h x cf pk lf v true (fst r))
    \/ (~ lost eq h x cf pk lf /\ ~ well_typed h x cf v /\ snd r = Some TypeError /\ list_effect eq h x cf pk lf v false (fst r)).
  Proof.
    intros h ck cf pk lf x v L E K r. destruct (listed_parts _ _ _ _ L) as (A & Nk & Nf).
    rewrite (well_typed_iff h x cf v ck pk K A). unfold r, GraphModel.assign. rewrite K, (proj2 (role_owned _ _ _ _) L). unfold set_owned.
    assert (Det : (lost eq h x cf pk lf /\ match fval h x cf with
        | PRef p => if is_kind h pk (PRef p) then match fval h p lf with
             | PList l => match remove eq h x l with Some l' => Ok (set_field h p lf (PList l')) | None => Err ValueError end
             | _ => Err AttributeError end else Ok h
        | _ => Ok h end = Err ValueError)
      \/ (~ lost eq h x cf pk lf /\ exists h1, match fval h x cf with
        | PRef p => if is_kind h pk (PRef p) then match fval h p lf with
             | PList l => match remove eq h x l with Some l' => Ok (set_field h p lf (PList l')) | None => Err ValueError end
             | _ => Err AttributeError end else Ok h
        | _ => Ok h end = Ok h1
        /\ (forall P : oid -> string -> Prop, (forall q, holds h x cf pk q -> P q lf) -> same_but h h1 P)
        /\ (forall p l, holds h x cf pk p -> fval h p lf = PList l -> exists l', without_first (taken_for eq h x) l l' /\ fval h1 p lf = PList l')
        /\ (forall p, ~ holds h x cf pk p -> fval h1 p lf = fval h p lf))).
    { assert (Nothing : (forall p, ~ holds h x cf pk p) -> ~ lost eq h x cf pk lf /\ exists h1, Ok h = Ok h1
        /\ (forall P : oid -> string -> Prop, (forall q, holds h x cf pk q -> P q lf) -> same_but h h1 P)
        /\ (forall p l, holds h x cf pk p -> fval h p lf = PList l -> exists l', without_first (taken_for eq h x) l l' /\ fval h1 p lf = PList l')
        /\ (forall p, ~ holds h x cf pk p -> fval h1 p lf = fval h p lf)).
      { intros H. split; [intros (p & l & Hp & _); now apply (H p)|]. exists h. split; auto. split; [intros; apply same_refl|].
        split; auto. intros p l Hp. now destruct (H p). }
      destruct (fval h x cf) as [| | |p| | | |] eqn:F; try (right; apply Nothing; intros p [Fp _]; congruence).
      destruct (is_kind h pk (PRef p)) eqn:I.
      2:{ right. apply Nothing. intros q [Fq Kq]. rewrite F in Fq. injection Fq as <-. apply is_kind_ref in Kq. congruence. }
      apply is_kind_ref in I. assert (Hp : holds h x cf pk p) by (now split).
      assert (Un : forall q, holds h x cf pk q -> q = p) by (intros q [Fq _]; congruence).
      destruct (E ck cf pk lf p L I) as [l Fl]. rewrite Fl. destruct (remove eq h x l) as [l'|] eqn:R.
      - right. split.
        { intros (q & l2 & Hq & Fq & Nq). apply Un in Hq. subst q. rewrite Fl in Fq. injection Fq as <-. apply remove_none in Nq. congruence. }
        eexists. split; [reflexivity|]. split; [intros P H; apply same_set; [apply same_refl | now apply H]|]. split.
        + intros q l2 Hq Fq. apply Un in Hq. subst q. rewrite Fl in Fq. injection Fq as <-. exists l'. split; [now apply remove_some|].
          apply fval_set_same. eapply kind_hget; eauto.
        + intros q Nq. apply fval_set_other. left. intros ->. contradiction.
      - left. split; auto. exists p, l. split; auto. split; auto. now apply remove_none. }
    destruct Det as [[Lo ->]|[NL (h1 & -> & S1 & O1 & R1)]]; [left; split; auto; now destruct v|]. right.
    assert (K1 : forall o, kind_at h1 o = kind_at h o) by (intros; apply (S1 (fun _ _ => True)); auto).
    assert (Hx1 : hget h1 x <> None) by (apply (kind_hget _ _ ck); now rewrite K1).
    assert (Free : (v = PNone \/ exists s i, v = PLink s i) -> list_effect eq h x cf pk lf v true (set_field h1 x cf v)).
    { intros V. constructor.
      - intros _. now apply fval_set_same.
      - intros p l Hp Fl. destruct (O1 p l Hp Fl) as (l' & W & F1). exists l'. split; auto. split; [intros _ ->; destruct V as [V|(s & i & V)]; discriminate|].
        intros _. rewrite fval_set_other by auto. auto.
      - intros p l _ ->. destruct V as [V|(s & i & V)]; discriminate.
      - apply same_set; [apply S1; intros; right; auto | left; auto]. }
    assert (Bad : list_effect eq h x cf pk lf v false h1).
    { constructor; try discriminate.
      - intros p l Hp Fl. destruct (O1 p l Hp Fl) as (l' & W & F1). exists l'. split; auto. split; [discriminate | auto].
      - apply S1. intros; right; auto. }
    destruct v as [| |s i|p| | | |]; cbn [fst snd].
    - left. split; [auto|]. split; [auto|]. split; [reflexivity|]. apply Free; eauto.
    - right. split; [auto|]. split; [intros [V|[(s & i & V)|(p & V & _)]]; discriminate|]. split; [reflexivity|exact Bad].
    - left. split; [auto|]. split; [eauto|]. split; [reflexivity|]. apply Free; eauto.
    - destruct (is_kind h1 pk (PRef p)) eqn:I; cbn [fst snd].
      + apply is_kind_ref in I. assert (Kp := I). rewrite K1 in Kp. destruct (E ck cf pk lf p L Kp) as [l Fl].
        assert (Hp1 : hget (set_field h1 x cf (PRef p)) p <> None) by (apply (kind_hget _ _ pk); now rewrite kind_set_field).
        assert (X : exists l', fval h1 p lf = PList l' /\ (holds h x cf pk p -> without_first (taken_for eq h x) l l') /\ (~ holds h x cf pk p -> l' = l)).
        { assert (Dec : holds h x cf pk p \/ ~ holds h x cf pk p).
          { unfold holds. destruct (fval h x cf) as [| | |q| | | |]; try (right; intros [Q _]; discriminate). destruct (Nat.eq_dec q p) as [->|]; [left; auto | right; intros [Q _]; congruence]. }
          destruct Dec as [Hp|Np].
          - destruct (O1 p l Hp Fl) as (l' & W & F1). exists l'. repeat split; auto. contradiction.
          - exists l. rewrite R1 by auto. repeat split; auto. contradiction. }
        destruct X as (l' & F1 & Wo & Wn). rewrite fval_set_other by auto. rewrite F1. cbn [fst snd]. left. split; [auto|]. split; [eauto|]. split; [reflexivity|].
        constructor.
        * intros _. rewrite fval_set_other by auto. now apply fval_set_same.
        * intros q l2 Hq Fq. destruct (Nat.eq_dec q p) as [->|Nq].
          { rewrite Fl in Fq. injection Fq as <-. exists l'. split; auto. split; [intros _ _; now apply fval_set_same|]. intros [X|X]; [discriminate | congruence]. }
          destruct (O1 q l2 Hq Fq) as (l3 & W & F3). exists l3. split; auto. split; [congruence|]. intros _. rewrite !fval_set_other by auto. auto.
        * intros q l2 _ [= <-] Nq Fq. rewrite Fl in Fq. injection Fq as <-. rewrite fval_set_same by auto. now rewrite Wn.
        * apply same_set; [apply same_set; [apply S1; intros; right; auto | left; auto] | right; auto].
      + right. split; [auto|]. split.
        { intros [V|[(s & i & V)|(q & V & Kq)]]; try discriminate. injection V as <-. rewrite <- K1 in Kq. apply is_kind_ref in Kq. congruence. }
        split; [reflexivity|exact Bad].
    - right. split; [auto|]. split; [intros [V|[(s & i & V)|(p & V & _)]]; discriminate|]. split; [reflexivity|exact Bad].
    - right. split; [auto|]. split; [intros [V|[(s & i & V)|(p & V & _)]]; discriminate|]. split; [reflexivity|exact Bad].
    - right. split; [auto|]. split; [intros [V|[(s & i & V)|(p & V & _)]]; discriminate|]. split; [reflexivity|exact Bad].
    - right. split; [auto|]. split; [intros [V|[(s & i & V)|(p & V & _)]]; discriminate|]. split; [reflexivity|exact Bad].
  Qed.

  (** ** How long the lists are *)

  Definition b2n (b : bool) : nat := if b then 1 else 0.
  Lemma filter_one : forall (P Q : oid -> bool) l x, NoDup l -> In x l -> (forall y, y <> x -> P y = Q y) ->
    length (filter P l) + b2n (Q x) = length (filter Q l) + b2n (P x).
  Proof.
    intros P Q l x N I H. induction l as [|y l IH]; [contradiction|]. inversion N as [|? ? Ny N']; subst. cbn [filter].
    destruct (Nat.eq_dec y x) as [->|Nx].
    - assert (E : filter P l = filter Q l).
      { clear - Ny H. induction l as [|z l IH]; auto. cbn. rewrite (H z) by (intros ->; apply Ny; now left). rewrite IH; auto. intros I; apply Ny; now right. }
      rewrite E. destruct (P x), (Q x); cbn; lia.
    - destruct I as [->|I]; [congruence|]. specialize (IH N' I). rewrite (H y Nx). destruct (Q y); cbn; lia.
  Qed.

  (** The lists have at most as many items as there are objects that refer to their owner; exactly as many if [strict]. *)
  Definition counts (strict : bool) (h : heap) : Prop :=
    forall ck cf pk lf p l, listed ck cf pk lf -> kind_at h p = Some pk -> fval h p lf = PList l ->
      length l <= length (referring h ck cf p) /\ (strict = true -> length l = length (referring h ck cf p)).
  Definition aimed (h : heap) : Prop :=
    forall ck cf pk lf x p, listed ck cf pk lf -> kind_at h x = Some ck -> fval h x cf = PRef p -> kind_at h p = Some pk.
  Definition orderly (strict : bool) (h : heap) : Prop := counts strict h /\ aimed h /\ lists_exist h.

  Lemma refers_iff : forall h ck cf p x, refers_to h ck cf p x = true <-> kind_at h x = Some ck /\ fval h x cf = PRef p.
  Proof.
    intros h ck cf p x. unfold refers_to. destruct (kind_at h x) as [k|]; [|split; [discriminate | intros [? _]; discriminate]].
    destruct (ekind_eq_dec k ck) as [->|N]; [|split; [discriminate | intros [? _]; congruence]].
    destruct (fval h x cf); try (split; [discriminate | intros [_ ?]; discriminate]). rewrite Nat.eqb_eq. split; [intros ->; auto | intros [_ X]; now injection X].
  Qed.
  Lemma referring_ext : forall h h' ck cf p, length h' = length h -> (forall x, refers_to h' ck cf p x = refers_to h ck cf p x) ->
    referring h' ck cf p = referring h ck cf p.
  Proof. intros h h' ck cf p L E. unfold referring. rewrite L. apply filter_ext. auto. Qed.
  Lemma refers_ext : forall h h' ck cf p x, kind_at h' x = kind_at h x -> (kind_at h x = Some ck -> fval h' x cf = fval h x cf) ->
    refers_to h' ck cf p x = refers_to h ck cf p x.
  Proof. intros h h' ck cf p x K F. unfold refers_to. rewrite K. destruct (kind_at h x) as [k|]; auto. destruct (ekind_eq_dec k ck) as [->|]; auto. now rewrite F. Qed.

  Lemma orderly_frame : forall s h h', length h' = length h -> (forall o, kind_at h' o = kind_at h o) ->
    (forall ck cf pk lf, listed ck cf pk lf ->
      (forall p, kind_at h p = Some pk -> fval h' p lf = fval h p lf) /\ (forall x, kind_at h x = Some ck -> fval h' x cf = fval h x cf)) ->
    orderly s h -> orderly s h'.
  Proof.
    intros s h h' L K F (C & A & E). split; [|split].
    - intros ck cf pk lf p l Ls Kp Fl. rewrite K in Kp. destruct (F _ _ _ _ Ls) as [F1 F2]. rewrite F1 in Fl by auto.
      rewrite (referring_ext h h'); eauto. intros x. apply refers_ext; auto.
    - intros ck cf pk lf x p Ls Kx Fx. rewrite K in *. destruct (F _ _ _ _ Ls) as [F1 F2]. rewrite F2 in Fx by auto. eauto.
    - intros ck cf pk lf p Ls Kp. rewrite K in Kp. destruct (F _ _ _ _ Ls) as [F1 F2]. rewrite F1 by auto. eauto.
  Qed.

  Lemma orderly_new : forall s h k u fs, orderly s h -> orderly s (h ++ [mkE k u (blank k ++ fs)]).
  Proof.
    intros s h k u fs (C & A & E).
    assert (BL : forall ck cf pk lf, listed ck cf pk lf -> dict_get lf (blank pk) = Some (PList []) /\ dict_get cf (blank ck) = Some PNone)
      by (intros ck cf pk lf [L|[L|L]]; inv L; split; reflexivity).
    assert (A' : aimed (h ++ [mkE k u (blank k ++ fs)])).
    { intros ck cf pk lf x p L Kx Fx. destruct (BL _ _ _ _ L) as [_ BC]. rewrite kind_new in *. rewrite fval_new in Fx. destruct (Nat.eqb x (length h)).
      - cbn [e_kind] in Kx. injection Kx as ->. rewrite (fget_blank _ _ _ _ _ BC) in Fx. discriminate.
      - assert (Kp := A _ _ _ _ _ _ L Kx Fx). assert (Lp := kind_lt _ _ _ Kp). replace (Nat.eqb p (length h)) with false; auto. symmetry. apply Nat.eqb_neq. lia. }
    split; [|split; auto].
    - intros ck cf pk lf p l L Kp Fl. destruct (BL _ _ _ _ L) as [Bl BC]. rewrite kind_new in Kp. rewrite fval_new in Fl.
      unfold referring. rewrite app_length, seq_app, filter_app. cbn [length seq plus]. cbn [filter].
      assert (New : refers_to (h ++ [mkE k u (blank k ++ fs)]) ck cf p (length h) = false).
      { apply not_true_is_false. rewrite refers_iff, kind_new, fval_new, Nat.eqb_refl. intros [Kx Fx]. injection Kx as Kx. cbn [e_kind] in Kx. subst k.
        rewrite (fget_blank _ _ _ _ _ BC) in Fx. discriminate. }
      rewrite New, app_nil_r.
      match goal with |- context [@filter ?T ?P ?l] => assert (Old : @filter T P l = referring h ck cf p) end.
      { apply filter_ext_in. intros x I. apply in_seq in I. assert (Nx : Nat.eqb x (length h) = false) by (apply Nat.eqb_neq; lia).
        apply refers_ext; [now rewrite kind_new, Nx | intros _; now rewrite fval_new, Nx]. }
      rewrite Old. destruct (Nat.eqb p (length h)) eqn:Ep; [|eauto].
      cbn [e_kind] in Kp. injection Kp as ->. rewrite (fget_blank _ _ _ _ _ Bl) in Fl. injection Fl as <-. cbn [length].
      assert (N0 : length (referring h ck cf p) = 0).
      { apply Nat.eqb_eq in Ep. subst p. destruct (referring h ck cf (length h)) as [|y r] eqn:Er; auto. exfalso.
        assert (I : In y (referring h ck cf (length h))) by (rewrite Er; now left).
        apply filter_In in I as [_ I]. apply refers_iff in I as [Ky Fy]. assert (Kq := A _ _ _ _ _ _ L Ky Fy). apply kind_lt in Kq. lia. }
      rewrite N0. auto.
    - intros ck cf pk lf p L Kp. destruct (BL _ _ _ _ L) as [Bl _]. rewrite kind_new in Kp. rewrite fval_new. destruct (Nat.eqb p (length h)); [|eauto].
      cbn [e_kind] in Kp. injection Kp as ->. rewrite (fget_blank _ _ _ _ _ Bl). eauto.
  Qed.

  Lemma without_first_length : forall P l l', without_first P l l' -> length l = S (length l').
  Proof. intros P l l' (a & y & b & -> & _ & _ & ->). rewrite !app_length. cbn. lia. Qed.

  Lemma orderly_list : forall s h ck cf pk lf x v acc h', listed ck cf pk lf -> kind_at h x = Some ck ->
    (acc = true -> well_typed h x cf v) -> (s = true -> acc = false -> ~ attached h x cf) ->
    list_effect eq h x cf pk lf v acc h' -> orderly s h -> orderly s h'.
  Proof.
    intros s h ck cf pk lf x v acc h' L Kx W NR Ef (C & A & E). destruct (listed_parts _ _ _ _ L) as (As & Nk & Nf).
    destruct (le_rest _ _ _ _ _ _ _ _ _ Ef) as (Ln & K & _ & Fr).
    assert (Wv : forall p, acc = true -> v = PRef p -> kind_at h p = Some pk).
    { intros p Ha Hv. apply W in Ha. rewrite (well_typed_iff h x cf v ck pk Kx As) in Ha. destruct Ha as [X|[(a & b & X)|(q & X & Kq)]]; congruence. }
    assert (Ex' : lists_exist h').
    { intros ck2 cf2 pk2 lf2 p L2 Kp. rewrite K in Kp. destruct (E _ _ _ _ _ L2 Kp) as [l Fl].
      destruct (listed_fun _ _ _ _ _ _ _ _ L L2) as [Hk [Hf [H1 [H2 [H3 H4]]]]].
      assert (D : (lf2 = lf /\ ((acc = true /\ v = PRef p) \/ holds h x cf pk p)) \/ ~ (lf2 = lf /\ ((acc = true /\ v = PRef p) \/ holds h x cf pk p))).
      { destruct (string_dec lf2 lf) as [->|]; [|right; tauto].
        assert (Dv : (acc = true /\ v = PRef p) \/ ~ (acc = true /\ v = PRef p)).
        { destruct acc; [|right; intros [X _]; discriminate]. destruct v as [| | |q| | | |]; try (right; intros [_ X]; discriminate).
          destruct (Nat.eq_dec q p) as [->|]; [left; auto | right; intros [_ X]; congruence]. }
        assert (Dh : holds h x cf pk p \/ ~ holds h x cf pk p).
        { unfold holds. destruct (fval h x cf) as [| | |q| | | |]; try (right; intros [X _]; discriminate).
          destruct (Nat.eq_dec q p) as [->|]; [|right; intros [X _]; congruence]. rewrite Kp. destruct (ekind_eq_dec pk2 pk) as [->|]; [left; auto | right; intros [_ X]; congruence]. }
        tauto. }
      destruct D as [[-> D]|D].
      - assert (Dh : holds h x cf pk p \/ ~ holds h x cf pk p).
        { unfold holds. destruct (fval h x cf) as [| | |q| | | |]; try (right; intros [X _]; discriminate).
          destruct (Nat.eq_dec q p) as [->|]; [|right; intros [X _]; congruence]. rewrite Kp. destruct (ekind_eq_dec pk2 pk) as [->|]; [left; auto | right; intros [_ X]; congruence]. }
        destruct Dh as [Hp|Np].
        + destruct (le_old _ _ _ _ _ _ _ _ _ Ef p l Hp Fl) as (l' & _ & O1 & O2). destruct acc; [|eauto].
          destruct v as [| | |q| | | |]; try (eexists; apply O2; right; discriminate). destruct (Nat.eq_dec q p) as [->|]; [eauto|]. eexists; apply O2; right; congruence.
        + destruct D as [[Ha Hv]|D]; [|contradiction]. eexists. eapply (le_new _ _ _ _ _ _ _ _ _ Ef); eauto.
      - rewrite Fr; eauto. intros [(_ & -> & X)|X]; [|tauto]. rewrite Kx in Kp. injection Kp as <-. now destruct H1. }
    assert (Fx : forall ck2 cf2 pk2 lf2 y, listed ck2 cf2 pk2 lf2 -> kind_at h y = Some ck2 -> y <> x -> fval h' y cf2 = fval h y cf2).
    { intros ck2 cf2 pk2 lf2 y L2 Ky Ny. apply Fr. intros [(_ & X & _)|(X & _)]; [congruence|]. destruct (listed_fun _ _ _ _ _ _ _ _ L L2) as [_ [_ [_ [H4 _]]]]. congruence. }
    assert (Fxx : acc = false -> fval h' x cf = fval h x cf).
    { intros ->. apply Fr. intros [(X & _)|(X & _)]; congruence. }
    split; [|split; auto].
    2:{ intros ck2 cf2 pk2 lf2 y p L2 Ky Fy. rewrite K in *. destruct (Nat.eq_dec y x) as [->|Ny].
        - rewrite Kx in Ky. injection Ky as <-. destruct (listed_fun _ _ _ _ _ _ _ _ L L2) as [Hk [Hf [_ [_ [H3 _]]]]]. destruct (Hf eq_refl) as [<- <-].
          assert (pk2 = pk) by (symmetry; tauto). subst pk2. destruct acc; [rewrite (le_ref _ _ _ _ _ _ _ _ _ Ef) in Fy by auto; now apply Wv|].
          rewrite Fxx in Fy by auto. eauto.
        - rewrite (Fx ck2 cf2 pk2 lf2) in Fy by auto. eauto. }
    intros ck2 cf2 pk2 lf2 p l2 L2 Kp Fl2. rewrite K in Kp. destruct (listed_fun _ _ _ _ _ _ _ _ L L2) as [Hk [Hf [H1 [H2 [H3 H4]]]]].
    destruct (ekind_eq_dec ck ck2) as [<-|Nc].
    2:{ assert (Np : pk <> pk2) by tauto. rewrite Fr in Fl2.
        - rewrite (referring_ext h h'); eauto. intros y. apply refers_ext; auto. intros Ky. eapply Fx; eauto. intros ->. congruence.
        - intros [(_ & -> & X)|(X & [[Ha Hv]|[_ Y]])]; [rewrite Kx in Kp; injection Kp as <-; congruence | | congruence]. specialize (Wv p Ha Hv). congruence. }
    destruct (Hf eq_refl) as [<- <-]. assert (pk2 = pk) by (symmetry; tauto). subst pk2.
    destruct (E _ _ _ _ _ L Kp) as [l Fl]. destruct (C _ _ _ _ _ _ L Kp Fl) as [C1 C2].
    assert (Cnt : length (referring h' ck cf p) + b2n (refers_to h ck cf p x) = length (referring h ck cf p) + b2n (refers_to h' ck cf p x)).
    { unfold referring. rewrite Ln. apply filter_one; [apply seq_NoDup | apply in_seq; assert (X := kind_lt _ _ _ Kx); lia|].
      intros y Ny. apply refers_ext; auto. intros Ky. eapply Fx; eauto. }
    assert (RA : refers_to h ck cf p x = true <-> holds h x cf pk p) by (rewrite refers_iff; unfold holds; tauto).
    destruct acc.
    - assert (RB : refers_to h' ck cf p x = true <-> v = PRef p).
      { rewrite refers_iff, K, (le_ref _ _ _ _ _ _ _ _ _ Ef) by auto. tauto. }
      assert (Ll : length l2 + b2n (refers_to h ck cf p x) = length l + b2n (refers_to h' ck cf p x)).
      { destruct (refers_to h ck cf p x) eqn:Ra.
        - destruct (le_old _ _ _ _ _ _ _ _ _ Ef p l (proj1 RA eq_refl) Fl) as (l' & W' & O1 & O2). apply without_first_length in W'.
          destruct (refers_to h' ck cf p x) eqn:Rb.
          + rewrite O1 in Fl2 by (auto; now apply RB). injection Fl2 as <-. rewrite app_length. cbn. lia.
          + rewrite O2 in Fl2 by (right; intros X; apply RB in X; discriminate). injection Fl2 as <-. cbn. lia.
        - assert (Nh : ~ holds h x cf pk p) by (intros X; apply RA in X; discriminate). destruct (refers_to h' ck cf p x) eqn:Rb.
          + rewrite (le_new _ _ _ _ _ _ _ _ _ Ef p l) in Fl2; auto; [|now apply RB]. injection Fl2 as <-. rewrite app_length. cbn. lia.
          + rewrite Fr in Fl2; [rewrite Fl in Fl2; injection Fl2 as <-; lia|].
            intros [(_ & _ & X)|(_ & [[_ X]|X])]; [congruence | apply RB in X; discriminate | contradiction]. }
      split; [lia|]. intros Hs. apply C2 in Hs. lia.
    - assert (RB : refers_to h' ck cf p x = refers_to h ck cf p x).
      { apply refers_ext; auto. } rewrite RB in Cnt.
      destruct (refers_to h ck cf p x) eqn:Ra.
      + assert (Hp := proj1 RA eq_refl). destruct (le_old _ _ _ _ _ _ _ _ _ Ef p l Hp Fl) as (l' & W' & O1 & O2). apply without_first_length in W'.
        rewrite O2 in Fl2 by auto. injection Fl2 as <-. split; [lia|]. intros Hs. exfalso. apply (NR Hs eq_refl). exists p. apply Hp.
      + assert (Nh : ~ holds h x cf pk p) by (intros X; apply RA in X; discriminate).
        rewrite Fr in Fl2; [rewrite Fl in Fl2; injection Fl2 as <-; split; [lia | intros Hs; apply C2 in Hs; lia]|].
        intros [(X & _)|(_ & [[X _]|X])]; [discriminate | discriminate | contradiction].
  Qed.

  Lemma assign_len : forall h o f v, length (fst (assign h o f v)) = length h.
  Proof.
    intros. unfold GraphModel.assign. destruct (kind_at h o) as [k|]; auto. destruct (role_of k f) as [[pk|pk lf|pk|]|]; auto.
    - unfold set_process. cbn zeta. repeat break_match; cbn [fst]; rewrite ?set_field_length; auto.
    - unfold set_owned. cbn zeta. repeat (break_match; cbn [fst]; rewrite ?set_field_length; auto; try discriminate);
        repeat match goal with H : Ok _ = Ok _ |- _ => injection H as <- end; rewrite ?set_field_length; auto.
    - unfold set_plain. repeat break_match; cbn [fst]; rewrite ?set_field_length; auto.
    - unfold set_ing_spec, set_plain. cbn zeta. repeat break_match; cbn [fst]; rewrite ?set_field_length; auto.
  Qed.

  Lemma orderly_step : forall s h op, (s = true -> no_reject h op) -> orderly s h -> orderly s (fst (gstep h op)).
  Proof.
    intros s h [k u fs|x f v] NR O; cbn [GraphModel.gstep fst]; [now apply orderly_new|].
    destruct (kind_at h x) as [k|] eqn:K; [|unfold GraphModel.assign; now rewrite K].
    destruct (role_of k f) as [r|] eqn:R; [|unfold GraphModel.assign; now rewrite K, R].
    destruct r as [|pk lf| |].
    2:{ apply role_owned in R. assert (O' := O). destruct O' as (_ & _ & E).
        destruct (list_assigned h k f pk lf x v R E K) as [[_ Er]|[(_ & W & _ & Ef)|(_ & W & _ & Ef)]].
        - now rewrite Er.
        - eapply orderly_list; eauto. discriminate.
        - eapply orderly_list; eauto; [discriminate|]. intros Hs _ At. apply W. eapply NR; eauto. apply (listed_asked _ _ _ _ R). }
    all: eapply orderly_frame; [apply assign_len | intros; apply kind_assign | | exact O]; intros; eapply assign_list_frame; eauto; intros; congruence.
  Qed.

  Lemma orderly_run : forall s ops h, (s = true -> throughout eq no_reject h ops) -> orderly s h -> orderly s (grun h ops).
  Proof.
    intros s. induction ops as [|op ops IH]; intros h T O; cbn [GraphModel.grun]; auto.
    apply IH; [intros Hs; now apply T in Hs as [_ Hs]|]. apply orderly_step; auto. intros Hs. now apply T in Hs as [Hs _].
  Qed.

  Lemma orderly_nil : forall s, orderly s [].
  Proof.
    intros s. split; [|split].
    - intros ck cf pk lf p l _ K. destruct p; discriminate.
    - intros ck cf pk lf x p _ K. destruct x; discriminate.
    - intros ck cf pk lf p _ K. destruct p; discriminate.
  Qed.

  (** ** Lost for good *)

  Definition stuck (ck : ekind) (cf : string) (pk : ekind) (lf : string) (x p : oid) (h : heap) : Prop :=
    kind_at h x = Some ck /\ kind_at h p = Some pk /\ fval h x cf = PRef p /\ exists l, fval h p lf = PList l /\ ~ In (PRef x) l.

  Lemma stuck_frame : forall h h' ck cf pk lf x p, (forall o, kind_at h' o = kind_at h o) ->
    fval h' x cf = fval h x cf -> fval h' p lf = fval h p lf -> stuck ck cf pk lf x p h -> stuck ck cf pk lf x p h'.
  Proof. intros h h' ck cf pk lf x p K F1 F2 (A & B & C & D). unfold stuck. rewrite !K, F1, F2. auto. Qed.

  Lemma stuck_lost : forall h ck cf pk lf x p, unlike eq x p lf h -> stuck ck cf pk lf x p h -> lost eq h x cf pk lf.
  Proof.
    intros h ck cf pk lf x p U (Kx & Kp & F & l & Fl & N). exists p, l. split; [split; auto|]. split; auto.
    intros y I [->|T]; [contradiction|]. rewrite (U l y Fl I) in T; [discriminate|]. intros ->. contradiction.
  Qed.

  Lemma stuck_step : forall h op ck cf pk lf x p, listed ck cf pk lf -> lists_exist h -> unlike eq x p lf h ->
    stuck ck cf pk lf x p h -> stuck ck cf pk lf x p (fst (gstep h op)).
  Proof.
    intros h op ck cf pk lf x p L E U St. assert (St' := St). destruct St' as (Kx & Kp & F & l & Fl & N).
    destruct (listed_parts _ _ _ _ L) as (As & Nk & Nf). destruct op as [k u fs|o f v]; cbn [GraphModel.gstep fst].
    - assert (Lx := kind_lt _ _ _ Kx). assert (Lp := kind_lt _ _ _ Kp).
      assert (Ex : Nat.eqb x (length h) = false) by (apply Nat.eqb_neq; lia). assert (Ep : Nat.eqb p (length h) = false) by (apply Nat.eqb_neq; lia).
      unfold stuck. rewrite !kind_new, !fval_new, Ex, Ep. eauto.
    - destruct (kind_at h o) as [k|] eqn:K; [|unfold GraphModel.assign; now rewrite K].
      destruct (role_of k f) as [r|] eqn:R; [|unfold GraphModel.assign; now rewrite K, R].
      destruct r as [|pk2 lf2| |].
      2:{ apply role_owned in R. destruct (listed_fun _ _ _ _ _ _ _ _ R L) as [Hk [Hf [H1 [H2 [H3 H4]]]]].
          assert (Lost := stuck_lost _ _ _ _ _ _ _ U St).
          destruct (list_assigned h k f pk2 lf2 o v R E K) as [[_ Er]|Alt]; [now rewrite Er|].
          assert (No : o <> x).
          { intros ->. rewrite Kx in K. injection K as <-. destruct (Hf eq_refl) as [-> ->]. assert (pk2 = pk) by tauto. subst pk2. destruct Alt as [[Q _]|[Q _]]; contradiction. }
          assert (Go : forall acc h', (acc = true -> well_typed h o f v) -> list_effect eq h o f pk2 lf2 v acc h' -> stuck ck cf pk lf x p h').
          { intros acc h' W Ef. destruct (le_rest _ _ _ _ _ _ _ _ _ Ef) as (_ & Kk & _ & Fr).
            assert (Fx : fval h' x cf = fval h x cf). { apply Fr. intros [(_ & X & _)|(X & _)]; [congruence|]. destruct (listed_fun _ _ _ _ _ _ _ _ L R) as [_ [_ [_ [_ [_ X4]]]]]. congruence. }
            unfold stuck. rewrite !Kk, Fx. split; auto. split; auto. split; auto.
            destruct (ekind_eq_dec pk2 pk) as [->|Np].
            - assert (k = ck) by tauto. subst k. destruct (Hf eq_refl) as [-> ->].
              assert (Dh : holds h o cf pk p \/ ~ holds h o cf pk p).
              { unfold holds. destruct (fval h o cf) as [| | |q| | | |]; try (right; intros [X _]; discriminate). destruct (Nat.eq_dec q p) as [->|]; [left; auto | right; intros [X _]; congruence]. }
              assert (Dv : (acc = true /\ v = PRef p) \/ (acc = false \/ v <> PRef p)).
              { destruct acc; auto. destruct v as [| | |q| | | |]; try (right; right; discriminate). destruct (Nat.eq_dec q p) as [->|]; [left; auto | right; right; congruence]. }
              destruct Dh as [Hp|Np].
              + destruct (le_old _ _ _ _ _ _ _ _ _ Ef p l Hp Fl) as (l' & (a & y & b & -> & _ & _ & ->) & O1 & O2).
                assert (Na : ~ In (PRef x) (a ++ b)) by (rewrite in_app_iff in *; cbn in N; tauto).
                destruct Dv as [[Ha Hv]|Dv]; [exists ((a ++ b) ++ [PRef o]); split; auto; rewrite in_app_iff; cbn; intros [X|[X|[]]]; [contradiction | congruence] | eauto].
              + destruct Dv as [[Ha Hv]|Dv].
                * exists (l ++ [PRef o]). split; [eapply (le_new _ _ _ _ _ _ _ _ _ Ef); eauto|]. rewrite in_app_iff; cbn; intros [X|[X|[]]]; [contradiction | congruence].
                * exists l. split; auto. rewrite Fr; auto. intros [(_ & _ & X)|(_ & [[Ha Hv]|X])]; [congruence | | contradiction]. destruct Dv; congruence.
            - exists l. split; auto. rewrite Fr; auto. intros [(_ & -> & X)|(X & [[Ha Hv]|[_ X']])]; [| |congruence].
              + destruct (listed_fun _ _ _ _ _ _ _ _ L R) as [_ [_ [_ [_ [_ X4]]]]]. congruence.
              + apply W in Ha. destruct (listed_parts _ _ _ _ R) as (As2 & _). rewrite (well_typed_iff h o f v k pk2 K As2) in Ha.
                destruct Ha as [Y|[(a & b & Y)|(q & Y & Kq)]]; congruence. }
          destruct Alt as [(_ & W & _ & Ef)|(_ & W & _ & Ef)]; eapply Go; eauto. discriminate. }
      all: assert (Fr : forall ck0 cf0 pk0 lf0, listed ck0 cf0 pk0 lf0 -> _) by (eapply (assign_list_frame eq h o f v k); eauto; intros; congruence).
      all: destruct (Fr _ _ _ _ L) as [F1 F2]; eapply stuck_frame; [intros; apply kind_assign | auto | auto | exact St].
  Qed.
End Assign.
