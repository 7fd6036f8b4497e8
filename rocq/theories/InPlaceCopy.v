From Coq Require Import String List Bool Arith Lia.
From Verif Require Import Base BaseFacts GraphModel GraphSpec GraphProofs TravModel SerialEntity SerialModel SerialSpec SerialProofs LoadLinkProofs
  DepsProofs InstProofs InPlaceModel InPlaceSpec.
Import ListNotations.
Open Scope string_scope.
Open Scope list_scope.

Lemma set_field_elsewhere : forall g p l w x, p <> x -> hget (set_field g p l w) x = hget g x.
Proof. intros. rewrite hget_set_field. apply Nat.eqb_neq in H. now rewrite H. Qed.
Lemma produce_role : forall k f pk, role_of k f = Some (Produce pk) -> f = "process".
Proof.
  intros k f pk H. unfold role_of in H.
  repeat match type of H with context [match ?c with _ => _ end] => destruct c eqn:?; try discriminate end;
    repeat match goal with E : String.eqb _ _ = true |- _ => apply String.eqb_eq in E end; auto; congruence.
Qed.

(** Assigning to a reference field changes at most the entity, the one it referred to and the one it now refers to. *)
Lemma assign_touches : forall eq h o f v h' e x, assign eq h o f v = (h', e) -> x <> o -> v <> PRef x -> fval h o f <> PRef x -> hget h' x = hget h x.
Proof.
  intros eq h o f v h' e x H N1 N2 N3.
  assert (Plain : forall pk l g, hget g x = hget h x -> set_plain pk l g o v = (h', e) -> hget h' x = hget h x).
  { intros pk l g Hg E. unfold set_plain in E. destruct v; repeat break_if; inversion E; subst; rewrite ?set_field_elsewhere; auto. }
  unfold assign in H. destruct (kind_at h o) as [k|]; [|inversion H; subst; auto].
  destruct (role_of k f) as [[pk|pk lf|pk|]|] eqn:R; [| |eapply Plain; eauto| |inversion H; subst; auto]; cycle 2.
  - eapply Plain; [|exact H]. destruct (fval h o "spec"); auto. destruct (is_kind _ _ _); auto. rewrite !set_field_elsewhere; auto.
  - apply produce_role in R. subst f. unfold set_process in H. set (h1 := match fval h o "process" with PRef _ => _ | _ => _ end) in H.
    assert (H1 : hget h1 x = hget h x).
    { unfold h1. destruct (fval h o "process"); auto. destruct (is_kind _ _ _); auto. apply set_field_elsewhere. congruence. }
    clearbody h1. destruct v; repeat break_if; inversion H; subst; rewrite ?set_field_elsewhere; auto; congruence.
  - unfold set_owned in H. match type of H with match ?c with _ => _ end = _ => assert (D : forall g, c = Ok g -> hget g x = hget h x) end.
    { intros g. destruct (fval h o f); try (intros Q; inversion Q; subst; auto; fail). destruct (is_kind _ _ _); [|intros Q; inversion Q; subst; auto].
      destruct (fval h o0 lf); try discriminate. destruct (remove _ _ _ _); [|discriminate]. intros Q. inversion Q. subst. apply set_field_elsewhere. congruence. }
    match type of H with match ?c with _ => _ end = _ => destruct c as [g|] end; [|inversion H; subst; auto]. specialize (D g eq_refl).
    destruct v; try (inversion H; subst; rewrite ?set_field_elsewhere; auto; fail). destruct (is_kind _ _ _); [|inversion H; subst; auto].
    cbv zeta in H. destruct (fval _ _ lf); inversion H; subst; rewrite ?set_field_elsewhere; auto; congruence.
Qed.

Lemma assign_all_touches : forall lower k u args g fs h' x, NoDup (map fst args) ->
  (forall f v, In (f, v) args -> reference k f /\ dict_get f fs = Some PNone /\ v <> PRef x) -> x < length g ->
  assign_all lower (g ++ [mkE k u fs]) (length g) args = Ok h' -> length h' = S (length g) /\ hget h' x = hget g x.
Proof.
  intros lower k u args. induction args as [|[f v] args IH]; intros g fs h' x N H L E; cbn [assign_all] in E.
  - injection E as <-. rewrite app_length. split; [cbn; lia|]. unfold hget. now rewrite nth_error_app1.
  - destruct (assign _ _ _ f v) as [h1 [e|]] eqn:A; [discriminate|]. destruct (H f v (or_introl eq_refl)) as (R & B & Nv).
    assert (T := assign_touches _ _ _ _ _ _ _ x A). destruct (assign_inv _ _ _ _ _ _ _ _ R B A) as (g1 & -> & Lg & _).
    cbn in N. apply NoDup_cons_iff in N as [N1 N2]. rewrite <- Lg in E.
    destruct (IH g1 (dict_set f v fs) h' x) as [L2 E2]; auto; try lia.
    + intros f' v' I. destruct (H f' v' (or_intror I)) as (R' & B' & Nv'). repeat split; auto. rewrite dict_get_set_other; auto.
      intros ->. apply N1. change f with (fst (f, v')). now apply in_map.
    + split; [congruence|]. rewrite E2. unfold hget in T |- *. rewrite !nth_error_app1 in T by lia. apply T; auto; [lia|].
      rewrite fval_app2. unfold fget. cbn. rewrite B. discriminate.
Qed.

Section Reading.
  Variable lower : string -> string.
  Variable known : string -> bool.
  Variable construct : heap -> string -> list (string * pv) -> res (list (string * pv)).
  (** The entities there were. *)
  Variable h0 : heap.

  Definition more (h : heap) : Prop := length h0 <= length h /\ forall x, x < length h0 -> hget h x = hget h0 x.
  Definition fresh (v : pv) : Prop := forall x, item_of v x -> length h0 <= x.

  Lemma make_entity_more : forall h ix k d v h' ix', more h -> (forall f w, In (f, w) d -> fresh w) ->
    make_entity lower construct (h, ix) k d = Ok (v, (h', ix')) -> more h' /\ fresh v.
  Proof.
    intros h ix k d v h' ix' [L M] F H. unfold make_entity in H. destruct (uids_of _ _) as [u|]; [|discriminate]. cbn [bind] in H.
    destruct (construct _ _ _) as [fs|]; [|discriminate]. cbn [bind] in H. destruct (assign_all _ _ _ _) as [h1|] eqn:A; [|discriminate]. cbn [bind] in H. inversion H. subst.
    assert (T : forall x, x < length h0 -> length h' = S (length h) /\ hget h' x = hget h x).
    { intros x Lx. eapply assign_all_touches; [| | |exact A]; try lia.
      - rewrite keys_map_pair. apply nodup_ref_args.
      - intros f w I. apply in_map_iff in I as (f' & Q & I). inversion Q. subst. split; [|split].
        + now apply ref_args_iff in I.
        + apply ref_args_iff in I. rewrite dict_get_app. now rewrite (blank_ref _ _ I).
        + unfold arg. destruct (dict_get f d) eqn:D; [|discriminate]. intros ->. apply dict_get_In in D. specialize (F _ _ D x (it_ref x)). lia. }
    split; [split|].
    - destruct h0 as [|e r] eqn:Q; [cbn; lia|]. rewrite <- Q in *. destruct (T 0) as [-> _]; [rewrite Q; cbn; lia|]. lia.
    - intros x Lx. destruct (T x Lx) as [_ ->]. auto.
    - intros x Q. inversion Q. subst. lia.
  Qed.

  Lemma hook_more : forall h ix d v h' ix', more h -> (forall f w, In (f, w) d -> fresh w) ->
    load_and_index lower known construct false (h, ix) d = Ok (v, (h', ix')) -> more h' /\ fresh v.
  Proof.
    intros h ix d v h' ix' M F H. unfold load_and_index in H. destruct (dict_get "type" d) as [w|] eqn:T; [|inversion H; subst; split; [auto|]; intros x Q; inversion Q; subst; eapply F; eauto].
    destruct w as [|a| | | | | |]; try discriminate. destruct a; try discriminate. destruct (String.eqb _ _).
    - unfold make_link in H. destruct (dict_get "scope" _) as [w|]; [|discriminate]. destruct w as [|a| | | | | |]; try discriminate. destruct a; try discriminate.
      destruct (dict_get "id" _) as [w|]; [|discriminate]. destruct w as [|a| | | | | |]; try discriminate. destruct a; try discriminate. inversion H. subst. split; auto. intros x Q; inversion Q.
    - destruct (kind_of _) as [k|].
      + refine (make_entity_more _ _ _ _ _ _ _ M _ H). intros f w D. apply (F f w). eapply In_dict_del; eauto.
      + destruct (known _); [|discriminate]. destruct (construct _ _ _); [|discriminate]. inversion H. subst. split; auto. intros x Q; inversion Q.
  Qed.

  Lemma update_fresh : forall (l d : list (string * pv)), (forall f w, In (f, w) l -> fresh w) -> (forall f w, In (f, w) d -> fresh w) ->
    forall f w, In (f, w) (dict_update l d) -> fresh w.
  Proof.
    induction l as [|[k v] r IH]; intros d A B; auto. cbn [dict_update fold_left] in *. apply IH; [intros; eapply A; right; eauto|].
    intros f w I. apply DepsProofs.In_dict_set in I as [[_ ->]|I]; eauto. apply (A k). now left.
  Qed.

  Lemma decode_more : forall j h ix v h' ix', more h -> decode lower known construct false (h, ix) j = Ok (v, (h', ix')) -> more h' /\ fresh v.
  Proof.
    fix IH 1. intros j h ix v h' ix' M H. destruct j as [|a|l|l].
    - injection H as <- <- <-. split; auto. intros x Q; inversion Q.
    - injection H as <- <- <-. split; auto. intros x Q; inversion Q.
    - rewrite decode_arr_eq in H. destruct (decode_list _ _ _ _ _ _) as [[vs [g1 ix1]]|] eqn:E; [|discriminate]. injection H as <- <- <-.
      enough (more g1 /\ forall w, In w vs -> fresh w) as [A B].
      { split; auto. intros x Q. inversion Q. subst. eapply B; eauto. }
      revert h ix vs M E. induction l as [|x r IHl]; intros h ix vs M E; cbn [decode_list] in E.
      + injection E as <- <- <-. split; auto. intros w [].
      + destruct (decode _ _ _ _ _ x) as [[w [g2 ix2]]|] eqn:E1; [|discriminate]. cbn [bind] in E.
        destruct (decode_list _ _ _ _ _ r) as [[ws [g3 ix3]]|] eqn:E2; [|discriminate]. injection E as <- <- <-.
        destruct (IH _ _ _ _ _ _ M E1) as [A B]. destruct (IHl _ _ _ A E2) as [C D]. split; auto. intros w' [<-|I]; auto.
    - rewrite decode_obj_eq in H. destruct (decode_pairs _ _ _ _ _ _) as [[vs [g1 ix1]]|] eqn:E; [|discriminate]. cbn [bind] in H.
      enough (more g1 /\ forall f w, In (f, w) vs -> fresh w) as [A B].
      { refine (hook_more _ _ _ _ _ _ A _ H). apply update_fresh; auto. intros f w []. }
      clear H. revert h ix vs M E. induction l as [|[k x] r IHl]; intros h ix vs M E; cbn [decode_pairs] in E.
      + injection E as <- <- <-. split; auto. intros f w [].
      + destruct (decode _ _ _ _ _ x) as [[w [g2 ix2]]|] eqn:E1; [|discriminate]. cbn [bind] in E.
        destruct (decode_pairs _ _ _ _ _ r) as [[ws [g3 ix3]]|] eqn:E2; [|discriminate]. injection E as <- <- <-.
        destruct (IH _ _ _ _ _ _ M E1) as [A B]. destruct (IHl _ _ _ A E2) as [C D]. split; auto. intros f w' [Q|I]; eauto. now inversion Q; subst.
  Qed.

  Lemma rebuild_more : forall h d w h', more h -> rebuild lower known construct h d = Ok (w, h') -> more h' /\ fresh w.
  Proof.
    intros h d w h' M H. unfold rebuild in H. destruct (raw_dumps _ _) as [j|]; [|discriminate]. cbn [bind] in H. unfold raw_loads in H.
    destruct (decode _ _ _ _ _ _) as [[v [g ix]]|] eqn:E; [|discriminate]. cbn in H. inversion H. subst. eapply decode_more; eauto.
  Qed.

  Variable ix : index.

  Definition copy_list (n : nat) := fix go (st : istate) (l : list pv) : res (list pv * istate) :=
    match l with
    | [] => Ok ([], st)
    | x :: r => do (y, s1) <- copy lower known construct ix n st x; do (ys, s2) <- go s1 r; Ok (y :: ys, s2)
    end.
  Definition copy_pairs (n : nat) := fix go (st : istate) (l : list (string * pv)) : res (list (string * pv) * istate) :=
    match l with
    | [] => Ok ([], st)
    | (k, x) :: r => do (y, s1) <- copy lower known construct ix n st x; do (ys, s2) <- go s1 r; Ok ((k, y) :: ys, s2)
    end.
  Definition copy_made (n : nat) (st : istate) (d : list (string * pv)) : res (pv * istate) :=
    do (d', s1) <- copy_pairs n st d;
    do (w, h2) <- rebuild lower known construct (fst s1) d';
    Ok (w, (h2, snd s1)).
  Definition copy_to (n : nat) (st : istate) (r : pv) : res (pv * istate) :=
    match r with
    | PList l => do (vs, st') <- copy_list n st l; Ok (PList vs, st')
    | PTuple l => do (vs, st') <- copy_list n st l; Ok (PTuple vs, st')
    | PDict d => do (vs, st') <- copy_pairs n st d; Ok (PDict vs, st')
    | PObj t fs => copy_made n st (fs ++ [("type", str t)])
    | PRef o => copy_made n st (as_dict (fst st) o)
    | PLink _ _ | PNone | PAtom _ => Ok (r, st)
    end.
  Definition pointed (st : istate) (v : pv) : pv * istate :=
    match v with
    | PLink s i => let r := match index_get ix s i with Some o => PRef o | None => v end in (r, (fst st, (v, r) :: snd st))
    | _ => (v, st)
    end.
  Lemma copy_S : forall n st v, copy lower known construct ix (S n) st v =
    if match v with PTuple _ => negb (hashable v) | _ => false end then Err TypeError else
    match memo_get (snd st) v with
    | Some w => Ok (w, st)
    | None => let '(r, st) := pointed st v in do (w, st) <- copy_to n st r; Ok (w, (fst st, (v, w) :: snd st))
    end.
  Proof. reflexivity. Qed.

  Lemma copy_more : forall n st v w st', more (fst st) -> copy lower known construct ix n st v = Ok (w, st') -> more (fst st').
  Proof.
    induction n as [|n IH]; intros st v w st' M H; [discriminate|]. rewrite copy_S in H.
    assert (Cl : forall l st ws st', more (fst st) -> copy_list n st l = Ok (ws, st') -> more (fst st')).
    { induction l as [|x r IHl]; intros s ws s' Ms E; cbn [copy_list] in E; [inversion E; subst; auto|].
      destruct (copy _ _ _ _ n s x) as [[y s1]|] eqn:E1; [|discriminate]. cbn [bind] in E. destruct (copy_list n s1 r) as [[ys s2]|] eqn:E2; [|discriminate]. inversion E. subst. eauto. }
    assert (Cp : forall l st ws st', more (fst st) -> copy_pairs n st l = Ok (ws, st') -> more (fst st')).
    { induction l as [|[k x] r IHl]; intros s ws s' Ms E; cbn [copy_pairs] in E; [inversion E; subst; auto|].
      destruct (copy _ _ _ _ n s x) as [[y s1]|] eqn:E1; [|discriminate]. cbn [bind] in E. destruct (copy_pairs n s1 r) as [[ys s2]|] eqn:E2; [|discriminate]. inversion E. subst. eauto. }
    assert (Mk : forall st d w st', more (fst st) -> copy_made n st d = Ok (w, st') -> more (fst st')).
    { intros s d w0 s' Ms E. unfold copy_made in E. destruct (copy_pairs n s d) as [[d' s1]|] eqn:E1; [|discriminate]. cbn [bind] in E. destruct (rebuild _ _ _ _ _) as [[w1 h2]|] eqn:E2; [|discriminate]. cbn in E.
      inversion E. subst. cbn. apply rebuild_more in E2 as [A _]; eauto. }
    destruct (match v with PTuple _ => _ | _ => _ end); [discriminate|]. destruct (memo_get _ _); [inversion H; subst; auto|].
    assert (Mr : more (fst (snd (pointed st v)))) by (unfold pointed; destruct v; auto). destruct (pointed st v) as [r s]. cbn [snd] in Mr.
    destruct (copy_to n s r) as [[w1 s1]|] eqn:D; [|discriminate]. cbn [bind] in H. inversion H. subst. cbn [fst].
    unfold copy_to in D. destruct r; try (inversion D; subst; auto; fail); eauto.
    - destruct (copy_list n s l) as [[ws s2]|] eqn:E; [|discriminate]. inversion D. subst. eauto.
    - destruct (copy_list n s l) as [[ws s2]|] eqn:E; [|discriminate]. inversion D. subst. eauto.
    - destruct (copy_pairs n s l) as [[ws s2]|] eqn:E; [|discriminate]. inversion D. subst. eauto.
  Qed.

  (** The links whose entities are being copied. *)
  Definition pending (P : list pv) (v : pv) : Prop := exists p, In p P /\ key_eq p v = true.
  Definition remembered (P : list pv) (m : memo) : Prop := forall v w, memo_get m v = Some w -> fresh w \/ pending P v.
  Definition bare (v : pv) : Prop := match v with PList _ | PDict _ => True | _ => False end.

  Lemma bare_key : forall v u, bare v -> key_eq v u = false.
  Proof. intros v u B. destruct v; try destruct B; reflexivity. Qed.
  Lemma remember : forall P m v w, remembered P m -> fresh w \/ bare v -> remembered P ((v, w) :: m).
  Proof.
    intros P m v w R F u x H. unfold memo_get in H. cbn [find fst] in H. destruct (key_eq v u) eqn:K; [|apply R; exact H].
    cbn in H. inversion H. subst. destruct F as [F|B]; auto. rewrite bare_key in K by auto. discriminate.
  Qed.
  Lemma remember_pending : forall P m v r, remembered P m -> remembered (v :: P) ((v, r) :: m).
  Proof.
    intros P m v r R u x H. unfold memo_get in H. cbn [find fst] in H. destruct (key_eq v u) eqn:K.
    - right. exists v. split; auto. now left.
    - destruct (R u x H) as [F|(p & I & Q)]; auto. right. exists p. split; auto. now right.
  Qed.
  Lemma remember_done : forall P m v w, remembered (v :: P) m -> fresh w -> remembered P ((v, w) :: m).
  Proof.
    intros P m v w R F u x H. unfold memo_get in H. cbn [find fst] in H. destruct (key_eq v u) eqn:K.
    - cbn in H. inversion H. subst. auto.
    - destruct (R u x H) as [Fx|(p & [<-|I] & Q)]; auto; [congruence|]. right. exists p. auto.
  Qed.

  Lemma pointed_remembered : forall P st v r s, remembered P (snd st) -> pointed st v = (r, s) ->
    fst s = fst st /\ ((r = v /\ remembered P (snd s)) \/ (exists o, r = PRef o /\ snd s = (v, r) :: snd st)).
  Proof.
    intros P st v r s R H. unfold pointed in H. destruct v; inversion H; subst; split; auto. destruct (index_get ix scope id); [right; eauto|left].
    split; auto. cbn. apply remember; auto. left. intros x Q. inversion Q.
  Qed.

  Lemma copy_fresh : forall n P st v w st', more (fst st) -> remembered P (snd st) -> copy lower known construct ix n st v = Ok (w, st') ->
    remembered P (snd st') /\ (fresh w \/ pending P v \/ bare v /\ P <> []).
  Proof.
    induction n as [|n IH]; intros P st v w st' M R H; [discriminate|]. rewrite copy_S in H.
    assert (Cl : forall P l st ws st', more (fst st) -> remembered P (snd st) -> copy_list n st l = Ok (ws, st') ->
      remembered P (snd st') /\ (P = [] -> forall w, In w ws -> fresh w)).
    { clear - IH. intros P. induction l as [|x r IHl]; intros s ws s' Ms Rs E; cbn [copy_list] in E; [inversion E; subst; split; auto; intros _ w []|].
      destruct (copy _ _ _ _ n s x) as [[y s1]|] eqn:E1; [|discriminate]. cbn [bind] in E. destruct (copy_list n s1 r) as [[ys s2]|] eqn:E2; [|discriminate]. inversion E. subst.
      destruct (IH _ _ _ _ _ Ms Rs E1) as [R1 F1]. apply copy_more in E1; auto. destruct (IHl _ _ _ E1 R1 E2) as [R2 F2]. split; auto.
      intros -> w [<-|I]; auto. destruct F1 as [F1|[(p & [] & _)|[_ F1]]]; auto. congruence. }
    assert (Cp : forall P l st ws st', more (fst st) -> remembered P (snd st) -> copy_pairs n st l = Ok (ws, st') ->
      remembered P (snd st') /\ (P = [] -> forall k w, In (k, w) ws -> fresh w)).
    { clear - IH. intros P. induction l as [|[k x] r IHl]; intros s ws s' Ms Rs E; cbn [copy_pairs] in E; [inversion E; subst; split; auto; intros _ k w []|].
      destruct (copy _ _ _ _ n s x) as [[y s1]|] eqn:E1; [|discriminate]. cbn [bind] in E. destruct (copy_pairs n s1 r) as [[ys s2]|] eqn:E2; [|discriminate]. inversion E. subst.
      destruct (IH _ _ _ _ _ Ms Rs E1) as [R1 F1]. apply copy_more in E1; auto. destruct (IHl _ _ _ E1 R1 E2) as [R2 F2]. split; auto.
      intros -> k' w [Q|I]; eauto. inversion Q. subst. destruct F1 as [F1|[(p & [] & _)|[_ F1]]]; auto. congruence. }
    assert (Pm : forall l st ws st', more (fst st) -> copy_pairs n st l = Ok (ws, st') -> more (fst st')).
    { induction l as [|[k x] r IHl]; intros s ws s' Ms E; cbn [copy_pairs] in E; [inversion E; subst; auto|].
      destruct (copy _ _ _ _ n s x) as [[y s1]|] eqn:E1; [|discriminate]. cbn [bind] in E. destruct (copy_pairs n s1 r) as [[ys s2]|] eqn:E2; [|discriminate]. inversion E. subst.
      apply copy_more in E1; eauto. }
    assert (Mk : forall P st d w st', more (fst st) -> remembered P (snd st) -> copy_made n st d = Ok (w, st') -> remembered P (snd st') /\ fresh w).
    { intros Q s d w0 s' Ms Rs E. unfold copy_made in E. destruct (copy_pairs n s d) as [[d' s1]|] eqn:E1; [|discriminate]. cbn [bind] in E. destruct (rebuild _ _ _ _ _) as [[w1 h2]|] eqn:E2; [|discriminate]. cbn in E.
      inversion E. subst. cbn. split; [eapply Cp; eauto|]. exact (proj2 (rebuild_more _ _ _ _ (Pm _ _ _ _ Ms E1) E2)). }
    destruct (match v with PTuple _ => _ | _ => _ end); [discriminate|]. destruct (memo_get _ _) eqn:Mg.
    { inversion H. subst. split; auto. destruct (R _ _ Mg); auto. }
    destruct (pointed st v) as [r s] eqn:Pt. destruct (copy_to n s r) as [[w1 s1]|] eqn:D; [|discriminate]. cbn [bind] in H. inversion H. subst. cbn [snd].
    destruct (pointed_remembered _ _ _ _ _ R Pt) as [Fs [[-> Rs]|(o & -> & Es)]].
    - assert (Ms : more (fst s)) by now rewrite Fs. enough (remembered P (snd s1) /\ (fresh w \/ bare v /\ P <> [])) as [A B].
      { split; [|tauto]. apply remember; tauto. }
      unfold copy_to in D. destruct v; try (inversion D; subst; split; [auto|left; intros x Q; inversion Q]; fail).
      + destruct (Mk _ _ _ _ _ Ms Rs D) as [A B]. auto.
      + destruct (copy_list n s l) as [[ws s2]|] eqn:E; [|discriminate]. inversion D. subst. destruct (Cl _ _ _ _ _ Ms Rs E) as [A B]. split; auto.
        destruct P; [left|right; split; [exact I|discriminate]]. intros x Q. inversion Q. subst. eapply B; eauto.
      + destruct (copy_list n s l) as [[ws s2]|] eqn:E; [|discriminate]. inversion D. subst. destruct (Cl _ _ _ _ _ Ms Rs E) as [A B]. split; auto.
        left. intros x Q. inversion Q.
      + destruct (copy_pairs n s l) as [[ws s2]|] eqn:E; [|discriminate]. inversion D. subst. destruct (Cp _ _ _ _ _ Ms Rs E) as [A B]. split; auto.
        destruct P; [left|right; split; [exact I|discriminate]]. intros x Q. inversion Q. subst. eapply B; eauto.
      + destruct (Mk _ _ _ _ _ Ms Rs D) as [A B]. auto.
    - cbn [copy_to] in D. destruct (Mk (v :: P) _ _ _ _ ltac:(now rewrite Fs) ltac:(rewrite Es; now apply remember_pending) D) as [A B].
      split; auto. now apply remember_done.
  Qed.
End Reading.

Lemma more_refl : forall h, more h h.
Proof. intros. split; auto. Qed.
Lemma remembered_nil : forall h0, remembered h0 [] [].
Proof. intros h0 v w H. discriminate. Qed.
