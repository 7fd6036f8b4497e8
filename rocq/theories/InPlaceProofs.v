From Coq Require Import String List Bool Arith Lia.
From Verif Require Import Base BaseFacts GraphModel GraphSpec GraphProofs EqModel EqSpec EqProofs TravModel TravSpec SerialModel SerialSpec SerialProofs LoadLinkProofs InPlaceModel InPlaceSpec.
Import ListNotations.
Open Scope string_scope.
Open Scope list_scope.
Open Scope nat_scope.

(** ** Values *)

Lemma replace_ext : forall g1 g2 v, (forall o, mentions v o -> g1 (PRef o) = g2 (PRef o)) -> (forall s i, within (PLink s i) v -> g1 (PLink s i) = g2 (PLink s i)) -> replace g1 v = replace g2 v.
Proof.
  intros g1 g2 v. induction v using pv_ind2; intros A B; cbn [replace]; auto.
  - apply B. constructor.
  - apply A. constructor.
  - f_equal. apply map_ext_in. intros x I. rewrite Forall_forall in H. apply H; auto; intros; [apply A; econstructor|apply B; econstructor]; eauto.
  - f_equal. apply map_ext_in. intros x I. rewrite Forall_forall in H. apply H; auto; intros; [apply A; eapply m_tuple|apply B; eapply w_tuple]; eauto.
  - f_equal. apply map_ext_in. intros [k x] I. rewrite Forall_forall in H. cbn. f_equal. apply (H (k, x)); auto; intros; [apply A; eapply m_dict|apply B; eapply w_dict]; eauto.
  - f_equal. apply map_ext_in. intros [k x] I. rewrite Forall_forall in H. cbn. f_equal. apply (H (k, x)); auto; intros; [apply A; eapply EqSpec.m_obj|apply B; eapply w_obj]; eauto.
Qed.

Definition is_ref (v : pv) : Prop := (exists o, v = PRef o) \/ exists s i, v = PLink s i.

Lemma replace_comp : forall g1 g2 v, (forall r, is_ref r -> is_ref (g1 r)) -> replace g2 (replace g1 v) = replace (fun r => g2 (g1 r)) v.
Proof.
  intros g1 g2 v G. induction v using pv_ind2; cbn [replace]; auto.
  - destruct (G (PLink s i)) as [[o ->]|(s' & i' & ->)]; [right; eauto| |]; reflexivity.
  - destruct (G (PRef o)) as [[o' ->]|(s' & i' & ->)]; [left; eauto| |]; reflexivity.
  - f_equal. rewrite map_map. apply map_ext_in. intros x I. rewrite Forall_forall in H. auto.
  - f_equal. rewrite map_map. apply map_ext_in. intros x I. rewrite Forall_forall in H. auto.
  - f_equal. rewrite map_map. apply map_ext_in. intros [k x] I. rewrite Forall_forall in H. cbn. f_equal. apply (H (k, x)); auto.
  - f_equal. rewrite map_map. apply map_ext_in. intros [k x] I. rewrite Forall_forall in H. cbn. f_equal. apply (H (k, x)); auto.
Qed.

Lemma replace_same : forall g v, (forall o, mentions v o -> g (PRef o) = PRef o) -> (forall s i, within (PLink s i) v -> g (PLink s i) = PLink s i) -> replace g v = v.
Proof.
  intros g v. induction v using pv_ind2; intros A B; cbn [replace]; auto.
  - apply B. constructor.
  - apply A. constructor.
  - f_equal. rewrite <- (map_id l) at 2. apply map_ext_in. intros x I. rewrite Forall_forall in H. apply H; auto; intros; [apply A; econstructor|apply B; econstructor]; eauto.
  - f_equal. rewrite <- (map_id l) at 2. apply map_ext_in. intros x I. rewrite Forall_forall in H. apply H; auto; intros; [apply A; eapply m_tuple|apply B; eapply w_tuple]; eauto.
  - f_equal. rewrite <- (map_id l) at 2. apply map_ext_in. intros [k x] I. rewrite Forall_forall in H. cbn. f_equal. apply (H (k, x)); auto; intros; [apply A; eapply m_dict|apply B; eapply w_dict]; eauto.
  - f_equal. rewrite <- (map_id l) at 2. apply map_ext_in. intros [k x] I. rewrite Forall_forall in H. cbn. f_equal. apply (H (k, x)); auto; intros; [apply A; eapply EqSpec.m_obj|apply B; eapply w_obj]; eauto.
Qed.

Lemma within_trans : forall a b c, within a b -> within b c -> within a c.
Proof. intros a b c H K. induction K; auto; [eapply w_list|eapply w_tuple|eapply w_dict|eapply w_obj]; eauto. Qed.

Lemma mentions_within : forall v o, mentions v o <-> within (PRef o) v.
Proof.
  intros v o. split; intros H.
  - induction H; [constructor|eapply w_list|eapply w_tuple|eapply w_dict|eapply w_obj]; eauto.
  - remember (PRef o) as r. induction H; subst; [constructor|eapply m_list|eapply m_tuple|eapply m_dict|eapply EqSpec.m_obj]; eauto.
Qed.

(** ** Keys of the table *)

Definition clean (v : pv) : Prop :=
  (forall a, within (PAtom a) v -> exists s, a = AStr s) /\ (forall l s i, within (PTuple l) v -> l <> [PAtom (AStr s); PAtom (AStr i)]).

Lemma clean_member : forall l x, In x l -> clean (PTuple l) -> clean x.
Proof. intros l x I [A B]. split; intros; [apply A|eapply B]; eapply w_tuple; eauto. Qed.

Lemma two_strings_some : forall l s i, two_strings l = Some (s, i) -> l = [PAtom (AStr s); PAtom (AStr i)].
Proof. intros l s i H. unfold two_strings in H. repeat break_match; try discriminate. now inv H. Qed.

Lemma key_eq_clean : forall a b, clean a -> clean b -> key_eq a b = true -> a = b.
Proof.
  intros a. induction a using pv_ind2; intros b Ca Cb Q; destruct b; cbn [key_eq] in Q; try discriminate; auto.
  - destruct (proj1 Ca a) as [s ->]; [constructor|]. destruct (proj1 Cb a0) as [s' ->]; [constructor|]. cbn in Q. apply String.eqb_eq in Q. now subst.
  - apply andb_prop in Q as [Q1 Q2]. apply String.eqb_eq in Q1. apply String.eqb_eq in Q2. now subst.
  - destruct (two_strings l) as [[s' i']|] eqn:T; [|discriminate]. apply two_strings_some in T. subst. exfalso. eapply (proj2 Cb); [constructor|reflexivity].
  - apply Nat.eqb_eq in Q. now subst.
  - destruct (two_strings l) as [[s' i']|] eqn:T; [|discriminate]. apply two_strings_some in T. subst. exfalso. eapply (proj2 Ca); [constructor|reflexivity].
  - f_equal. assert (Ga : forall x, In x l -> clean x) by (intros; eapply clean_member; eauto). assert (Gb : forall x, In x l0 -> clean x) by (intros; eapply clean_member; eauto).
    clear Ca Cb. revert l0 Q Gb. induction H as [|x l Hx Hl IH]; intros [|y m] Q Gb; try discriminate; auto.
    apply andb_prop in Q as [Q1 Q2]. f_equal; [apply Hx; [apply Ga; cbn; auto|apply Gb; cbn; auto|auto]|]. apply IH; auto; intros; [apply Ga|apply Gb]; cbn; auto.
Qed.

Lemma clean_ref : forall r, is_ref r -> clean r.
Proof. intros r [[o ->]|(s & i & ->)]; split; intros ? *; intros H; inversion H. Qed.

Lemma memo_get_In : forall m k w, memo_get m k = Some w -> exists k', In (k', w) m /\ key_eq k' k = true.
Proof. intros m k w H. unfold memo_get in H. destruct (find _ m) as [[k' w']|] eqn:F; [|discriminate]. cbn in H. inv H. apply find_some in F as [I Q]. eauto. Qed.

Lemma key_eq_ref : forall r, is_ref r -> key_eq r r = true.
Proof. intros r [[o ->]|(s & i & ->)]; cbn; [apply Nat.eqb_refl|now rewrite !String.eqb_refl]. Qed.

Lemma memo_get_ref : forall m r w, is_ref r -> In (r, w) m -> memo_get m r <> None.
Proof.
  intros m r w R I N. unfold memo_get in N. destruct (find _ m) eqn:F; [discriminate|]. apply (find_none _ _ F) in I. cbn in I. now rewrite key_eq_ref in I.
Qed.

(** ** Walking through a value *)
Section Generic.
  Variable lower : string -> string.
  Variable refuses : heap -> string -> list (string * pv) -> string -> pv -> option exn.
  Variable rejects : heap -> oid -> string -> pv -> option exn.
  Variable at_ref : istate -> pv -> res (pv * istate).
  Variable g : pv -> pv.
  Variable I : istate -> Prop.
  Variable le : istate -> istate -> Prop.
  Variable Good : pv -> Prop.
  Variable E : exn -> Prop.
  Variable V : istate -> oid -> Prop.

  Hypothesis le_refl : forall s, le s s.
  Hypothesis le_trans : forall a b c, le a b -> le b c -> le a c.
  Hypothesis V_le : forall s s' x, le s s' -> V s x -> V s' x.
  Hypothesis Good_in : forall v x, within x v -> Good v -> Good x.
  Hypothesis at_ok : forall st v, is_ref v -> I st -> Good v ->
    match at_ref st v with
    | Ok (w, st') => w = g v /\ I st' /\ le st st' /\ forall x, mentions w x -> V st' x
    | Err e => E e
    end.
  Hypothesis memo_ok : forall st l w, I st -> Good (PTuple l) -> memo_get (snd st) (PTuple l) = Some w ->
    w = replace g (PTuple l) /\ forall x, mentions w x -> V st x.
  Hypothesis push_ok : forall st l, I st -> Good (PTuple l) -> (forall x, mentions (replace g (PTuple l)) x -> V st x) ->
    I (fst st, (PTuple l, replace g (PTuple l)) :: snd st) /\ le st (fst st, (PTuple l, replace g (PTuple l)) :: snd st).
  Hypothesis hash_ok : forall l, Good (PTuple l) -> hashable (PTuple l) = false -> E TypeError.
  Hypothesis set_ok : forall st t fs k x e, I st -> Good (PObj t fs) -> In (k, x) fs -> refuses (fst st) t fs k (replace g x) = Some e -> E e.

  Notation chg := (change refuses at_ref).

  Definition fine (v w : pv) (st st' : istate) : Prop := w = replace g v /\ I st' /\ le st st' /\ forall x, mentions w x -> V st' x.

  Definition change_list := fix go (st : istate) (l : list pv) : res (list pv * istate) :=
    match l with
    | [] => Ok ([], st)
    | x :: r => do (y, s1) <- chg st x; do (ys, s2) <- go s1 r; Ok (y :: ys, s2)
    end.
  Definition change_pairs := fix go (st : istate) (l : list (string * pv)) : res (list (string * pv) * istate) :=
    match l with
    | [] => Ok ([], st)
    | (k, x) :: r => do (y, s1) <- chg st x; do (ys, s2) <- go s1 r; Ok ((k, y) :: ys, s2)
    end.
  Definition change_fields (t : string) (fs : list (string * pv)) := fix go (st : istate) (l : list (string * pv)) : res (list (string * pv) * istate) :=
    match l with
    | [] => Ok ([], st)
    | (k, x) :: r =>
        do (y, s1) <- chg st x;
        match (if replaced x y then refuses (fst s1) t fs k y else None) with
        | Some e => Err e
        | None => do (ys, s2) <- go s1 r; Ok ((k, y) :: ys, s2)
        end
    end.

  Lemma list_ok : forall l, Forall (fun v => forall st, I st -> Good v -> match chg st v with Ok (w, st') => fine v w st st' | Err e => E e end) l ->
    (forall x, In x l -> Good x) -> forall st, I st ->
    match change_list st l with
    | Ok (ws, st') => ws = map (replace g) l /\ I st' /\ le st st' /\ forall y x, In y ws -> mentions y x -> V st' x
    | Err e => E e
    end.
  Proof.
    induction 1 as [|x l Hx Hl IH]; intros G st Hi; cbn [change_list].
    - split; [reflexivity|]. split; [auto|]. split; [apply le_refl|]. intros y x [].
    - specialize (Hx st Hi (G x (or_introl eq_refl))). destruct (chg st x) as [[y s1]|e]; cbn [bind]; [|exact Hx]. destruct Hx as (-> & I1 & L1 & V1).
      specialize (IH (fun z J => G z (or_intror J)) s1 I1). fold change_list. destruct (change_list s1 l) as [[ys s2]|e]; cbn [bind]; [|exact IH]. destruct IH as (-> & I2 & L2 & V2).
      split; [reflexivity|]. split; [auto|]. split; [eapply le_trans; eauto|]. intros z u [<-|J] M; eauto.
  Qed.
  Lemma pairs_ok : forall l, Forall (fun kv => forall st, I st -> Good (snd kv) -> match chg st (snd kv) with Ok (w, st') => fine (snd kv) w st st' | Err e => E e end) l ->
    (forall k x, In (k, x) l -> Good x) -> forall st, I st ->
    match change_pairs st l with
    | Ok (ws, st') => ws = map (fun kv => (fst kv, replace g (snd kv))) l /\ I st' /\ le st st' /\ forall k y x, In (k, y) ws -> mentions y x -> V st' x
    | Err e => E e
    end.
  Proof.
    induction 1 as [|[k x] l Hx Hl IH]; intros G st Hi; cbn [change_pairs].
    - split; [reflexivity|]. split; [auto|]. split; [apply le_refl|]. intros k y x [].
    - cbn [snd] in Hx. specialize (Hx st Hi (G k x (or_introl eq_refl))). destruct (chg st x) as [[y s1]|e]; cbn [bind]; [|exact Hx]. destruct Hx as (-> & I1 & L1 & V1).
      specialize (IH (fun k z J => G k z (or_intror J)) s1 I1). fold change_pairs. destruct (change_pairs s1 l) as [[ys s2]|e]; cbn [bind]; [|exact IH]. destruct IH as (-> & I2 & L2 & V2).
      split; [reflexivity|]. split; [auto|]. split; [eapply le_trans; eauto|]. intros k' z u [J|J] M; [inv J|]; eauto.
  Qed.
  Lemma fields_ok : forall t fs, Good (PObj t fs) -> forall l, incl l fs -> Forall (fun kv => forall st, I st -> Good (snd kv) -> match chg st (snd kv) with Ok (w, st') => fine (snd kv) w st st' | Err e => E e end) l ->
    (forall k x, In (k, x) l -> Good x) -> forall st, I st ->
    match change_fields t fs st l with
    | Ok (ws, st') => ws = map (fun kv => (fst kv, replace g (snd kv))) l /\ I st' /\ le st st' /\ forall k y x, In (k, y) ws -> mentions y x -> V st' x
    | Err e => E e
    end.
  Proof.
    intros t fs Go. induction l as [|[k x] l IH]; intros Sub F G st Hi; cbn [change_fields].
    - split; [reflexivity|]. split; [auto|]. split; [apply le_refl|]. intros k y x [].
    - inversion F as [|? ? Hx Hl]; subst. cbn [snd] in Hx. specialize (Hx st Hi (G k x (or_introl eq_refl))). destruct (chg st x) as [[y s1]|e]; cbn [bind]; [|exact Hx]. destruct Hx as (-> & I1 & L1 & V1).
      destruct (if replaced x (replace g x) then _ else None) as [e|] eqn:R.
      { destruct (replaced x (replace g x)); [|discriminate]. eapply set_ok; eauto. apply Sub. left. reflexivity. }
      specialize (IH (fun z J => Sub z (or_intror J)) Hl (fun k z J => G k z (or_intror J)) s1 I1). fold (change_fields t fs). destruct (change_fields t fs s1 l) as [[ys s2]|e]; cbn [bind]; [|exact IH]. destruct IH as (-> & I2 & L2 & V2).
      split; [reflexivity|]. split; [auto|]. split; [eapply le_trans; eauto|]. intros k' z u [J|J] M; [inv J|]; eauto.
  Qed.

  Lemma change_ok : forall v st, I st -> Good v -> match chg st v with Ok (w, st') => fine v w st st' | Err e => E e end.
  Proof.
    intros v. induction v using pv_ind2; intros st Hi Hg.
    - split; [reflexivity|]. split; [auto|]. split; [apply le_refl|]. intros x M. inversion M.
    - split; [reflexivity|]. split; [auto|]. split; [apply le_refl|]. intros x M. inversion M.
    - apply at_ok; auto. right. eauto.
    - apply at_ok; auto. left. eauto.
    - change (match (do (vs, st') <- change_list st l; Ok (PList vs, st')) with Ok (w, st') => fine (PList l) w st st' | Err e => E e end).
      assert (X := list_ok l H (fun x J => Good_in _ _ (w_list _ _ _ J (w_self x)) Hg) st Hi). destruct (change_list st l) as [[ws s1]|e]; cbn [bind]; [|exact X].
      destruct X as (-> & I1 & L1 & V1). split; [reflexivity|]. split; [auto|]. split; [auto|]. intros x M. inversion M; subst. eauto.
    - change (match (if negb (hashable (PTuple l)) then Err TypeError else match memo_get (snd st) (PTuple l) with Some w => Ok (w, st) | None =>
        do (vs, st') <- change_list st l; Ok (PTuple vs, (fst st', (PTuple l, PTuple vs) :: snd st')) end) with Ok (w, st') => fine (PTuple l) w st st' | Err e => E e end).
      destruct (hashable (PTuple l)) eqn:Hh; cbn [negb]; [|eapply hash_ok; eauto].
      destruct (memo_get (snd st) (PTuple l)) as [w|] eqn:Mg. { destruct (memo_ok _ _ _ Hi Hg Mg) as [-> Vw]. split; [auto|]. split; [auto|]. split; [apply le_refl|]. auto. }
      assert (X := list_ok l H (fun x J => Good_in _ _ (w_tuple _ _ _ J (w_self x)) Hg) st Hi). destruct (change_list st l) as [[ws s1]|e]; cbn [bind]; [|exact X].
      destruct X as (-> & I1 & L1 & V1). assert (Vt : forall x, mentions (replace g (PTuple l)) x -> V s1 x) by (intros x M; cbn in M; inversion M; subst; eauto).
      destruct (push_ok s1 l I1 Hg Vt) as [Ip Lp]. split; [reflexivity|]. split; [exact Ip|]. split; [eapply le_trans; eauto|]. intros x M. eapply V_le; eauto.
    - change (match (do (vs, st') <- change_pairs st l; Ok (PDict vs, st')) with Ok (w, st') => fine (PDict l) w st st' | Err e => E e end).
      assert (X := pairs_ok l H (fun k x J => Good_in _ _ (w_dict _ _ _ _ J (w_self x)) Hg) st Hi). destruct (change_pairs st l) as [[ws s1]|e]; cbn [bind]; [|exact X].
      destruct X as (-> & I1 & L1 & V1). split; [reflexivity|]. split; [auto|]. split; [auto|]. intros x M. inversion M; subst. eauto.
    - change (match (do (vs, st') <- change_fields t l st l; Ok (PObj t vs, st')) with Ok (w, st') => fine (PObj t l) w st st' | Err e => E e end).
      assert (X := fields_ok t l Hg l (incl_refl l) H (fun k x J => Good_in _ _ (w_obj _ _ _ _ _ J (w_self x)) Hg) st Hi). destruct (change_fields t l st l) as [[ws s1]|e]; cbn [bind]; [|exact X].
      destruct X as (-> & I1 & L1 & V1). split; [reflexivity|]. split; [auto|]. split; [auto|]. intros x M. inversion M; subst. eauto.
  Qed.

  (** ** The attributes of an entity *)
  Variable o : oid.
  Variable Q : istate -> string -> pv -> Prop.
  Variable P : istate -> string -> pv -> Prop.
  Hypothesis Q_le : forall s s' f v, le s s' -> Q s f v -> Q s' f v.
  Hypothesis Q_good : forall s f v, Q s f v -> Good v.
  Hypothesis item_ok : forall st f l x e, I st -> Q st f (PList l) -> In x l -> rejects (fst st) o f (replace g x) = Some e -> E e.

  Lemma items_ok : forall f l0 l, incl l l0 -> forall st, I st -> Q st f (PList l0) ->
    match change_items refuses rejects at_ref o f st l with
    | Ok (ws, st') => ws = map (replace g) l /\ I st' /\ le st st' /\ forall y x, In y ws -> mentions y x -> V st' x
    | Err e => E e
    end.
  Proof.
    intros f l0. induction l as [|x l IH]; intros Sub st Hi Hq; cbn [change_items].
    - split; [reflexivity|]. split; [auto|]. split; [apply le_refl|]. intros y x [].
    - assert (Gx : Good x) by (apply (Good_in (PList l0)); [eapply w_list; [apply Sub; left; reflexivity|constructor]|eauto]).
      assert (Hx := change_ok x st Hi Gx). destruct (chg st x) as [[y s1]|e]; cbn [bind]; [|exact Hx].
      destruct Hx as (-> & I1 & L1 & V1). assert (Q1 := Q_le _ _ _ _ L1 Hq).
      destruct (rejects (fst s1) o f (replace g x)) as [e|] eqn:R. { eapply item_ok; eauto. apply Sub. left. reflexivity. }
      specialize (IH (fun z J => Sub z (or_intror J)) s1 I1 Q1). destruct (change_items _ _ _ o f s1 l) as [[ys s2]|e]; cbn [bind]; [|exact IH]. destruct IH as (-> & I2 & L2 & V2).
      split; [reflexivity|]. split; [auto|]. split; [eapply le_trans; eauto|]. intros z u [<-|J] M; eauto.
  Qed.

  Lemma attr_ok : forall f v st, I st -> Q st f v -> match change_attr refuses rejects at_ref o f st v with Ok (w, st') => fine v w st st' | Err e => E e end.
  Proof.
    intros f v st Hi Hq. unfold change_attr. destruct v; try (apply change_ok; eauto; fail).
    assert (X := items_ok f l l (incl_refl l) st Hi Hq). destruct (change_items _ _ _ o f st l) as [[ws s1]|e]; cbn [bind]; [|exact X].
    destruct X as (-> & I1 & L1 & V1). split; [reflexivity|]. split; [auto|]. split; [auto|]. intros x M. inversion M; subst. eauto.
  Qed.

  Hypothesis P_le : forall s s' f v, le s s' -> P s f v -> P s' f v.
  Hypothesis store_ok : forall st f v, I st -> Q st f v -> (forall x, mentions (replace g v) x -> V st x) ->
    match store lower refuses (fst st) o f v (replace g v) with
    | Ok h2 => I (h2, snd st) /\ le st (h2, snd st) /\ P (h2, snd st) f v
    | Err e => E e
    end.

  Lemma attrs_ok : forall fs st, I st -> (forall f v, In (f, v) fs -> Q st f v) ->
    match change_attrs lower refuses rejects at_ref o st fs with
    | Ok st' => I st' /\ le st st' /\ (forall f v, In (f, v) fs -> P st' f v /\ forall x, mentions (replace g v) x -> V st' x)
    | Err e => E e
    end.
  Proof.
    induction fs as [|[f v] fs IH]; intros st Hi Hq; cbn [change_attrs].
    - split; [auto|]. split; [apply le_refl|]. intros f v [].
    - assert (Qv := Hq f v (or_introl eq_refl)). assert (X := attr_ok f v st Hi Qv).
      destruct (change_attr _ _ _ o f st v) as [[w s1]|e]; cbn [bind]; [|exact X]. destruct X as (-> & I1 & L1 & V1).
      assert (Y := store_ok s1 f v I1 (Q_le _ _ _ _ L1 Qv) V1). destruct (store lower refuses (fst s1) o f v (replace g v)) as [h2|e]; cbn [bind]; [|exact Y].
      destruct Y as (I2 & L2 & P2). specialize (IH (h2, snd s1) I2). assert (L3 : le st (h2, snd s1)) by (eapply le_trans; eauto).
      assert (Hq2 : forall f0 v0, In (f0, v0) fs -> Q (h2, snd s1) f0 v0) by (intros f0 v0 J; eapply Q_le; [exact L3|apply Hq; right; exact J]).
      specialize (IH Hq2). destruct (change_attrs _ _ _ _ o (h2, snd s1) fs) as [s3|e]; [|exact IH]. destruct IH as (I3 & L4 & P3).
      split; [auto|]. split; [eapply le_trans; eauto|]. intros f0 v0 [J|J]; [inv J|auto]. split; [eapply P_le; eauto|]. intros x M. eapply V_le; [|eauto]. eapply le_trans; eauto.
  Qed.
End Generic.
