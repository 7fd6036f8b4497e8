(** Proofs for C50: the case-insensitive dictionary refines its full specification. *)
From Coq Require Import String List Bool Lia.
From Verif Require Import Base BaseFacts CidModel CidSpec CidProofs CidFullSpec.
Import ListNotations.
Open Scope list_scope.

Section CidFullProofs.
  Variable lower : string -> string.
  Variable V : Type.
  Notation cdict := (cdict V).
  Notation seen_as := (seen_as lower V).
  Notation reveal := (reveal lower V).
  Notation full_step := (full_step lower V).
  Notation full_run := (full_run lower V).
  Notation sound := (sound lower V).

  (** The dictionary that stands for [d]. *)
  Definition index (vis : list string) : list (string * string) := map (fun k => (lower k, k)) vis.
  Definition impl (d : cdict) : cid V := mkCid (stored d) (index (visible d)).

  Lemma get_index : forall k vis, dict_get (lower k) (index vis) = find (same_key lower k) vis.
  Proof. intros k vis. induction vis as [|x r IH]; cbn; auto. unfold same_key at 1. destruct (String.eqb (lower k) (lower x)); auto. Qed.
  Lemma mem_index : forall k vis, dict_mem (lower k) (index vis) = match find (same_key lower k) vis with Some _ => true | None => false end.
  Proof. intros. unfold dict_mem. now rewrite get_index. Qed.
  Lemma seen_In : forall k d k', seen_as k d = Some k' -> In k' (visible d) /\ lower k' = lower k.
  Proof. intros k d k' H. apply find_some in H as [H E]. split; auto. unfold same_key in E. now apply String.eqb_eq in E. Qed.
  Lemma seen_none : forall k d, seen_as k d = None -> ~ In (lower k) (map lower (visible d)).
  Proof.
    intros k d H I. apply in_map_iff in I as [x [E I]]. apply (find_none _ _ H) in I. unfold same_key in I. rewrite E, String.eqb_refl in I. discriminate.
  Qed.
  Lemma index_new : forall k d, seen_as k d = None -> dict_set (lower k) k (index (visible d)) = index (visible d ++ [k]).
  Proof.
    intros k d H. rewrite dict_set_new; [unfold index; now rewrite map_app|]. unfold keys, index. rewrite map_map. now apply seen_none.
  Qed.
  Lemma index_old : forall k d k', seen_as k d = Some k' -> k' = k -> dict_set (lower k) k (index (visible d)) = index (visible d).
  Proof. intros k d k' H ->. apply dict_set_idem. rewrite get_index. exact H. Qed.
  Lemma index_drop : forall k k' vis, NoDup (map lower vis) -> In k' vis -> lower k = lower k' -> dict_del (lower k) (index vis) = index (drop k' vis).
  Proof.
    intros k k' vis. induction vis as [|x r IH]; intros N I E; [contradiction|]. cbn in N. inversion N as [|? ? Nx Nr]; subst. cbn.
    destruct (String.eqb (lower k) (lower x)) eqn:Ex; str_eq.
    - assert (k' = x) as ->. { destruct I as [->|I]; auto. exfalso. apply Nx. rewrite <- Ex, E. now apply in_map. }
      rewrite String.eqb_refl. cbn. f_equal. symmetry. apply filter_all. intros y Iy. apply negb_true_iff, String.eqb_neq. intros ->. apply Nx. now apply in_map.
    - destruct I as [->|I]; [congruence|]. replace (String.eqb k' x) with false by (symmetry; apply String.eqb_neq; congruence). cbn. f_equal. auto.
  Qed.

  Lemma NoDup_snoc : forall A (l : list A) x, NoDup l -> ~ In x l -> NoDup (l ++ [x]).
  Proof. intros A l x N I. apply NoDup_rev in N. rewrite <- (rev_involutive (l ++ [x])). apply NoDup_rev. rewrite rev_app_distr. cbn. constructor; auto. now rewrite <- in_rev. Qed.
  Lemma map_drop : forall k vis, NoDup (map lower vis) -> NoDup (map lower (drop k vis)).
  Proof.
    intros k vis. induction vis as [|x r IH]; intros N; cbn; [constructor|]. cbn in N. inversion N as [|? ? Nx Nr]; subst.
    destruct (negb (String.eqb k x)); cbn; auto. constructor; auto. intros I. apply Nx. apply in_map_iff in I as [y [E I]]. apply filter_In in I as [I _]. rewrite <- E. now apply in_map.
  Qed.
  Lemma In_drop : forall k x vis, In x (drop k vis) <-> In x vis /\ x <> k.
  Proof. intros. unfold drop. rewrite filter_In, negb_true_iff, String.eqb_neq. split; intros [? ?]; auto. Qed.
  Lemma keys_del_iff : forall k x (t : list (string * V)), NoDup (keys t) -> (In x (keys (dict_del k t)) <-> In x (keys t) /\ x <> k).
  Proof.
    intros k x t N. split.
    - intros I. split; [eapply In_keys_del; eauto|]. intros ->. assert (G := dict_get_del_same k t N). apply dict_get_None in G. contradiction.
    - intros [I Nx]. destruct (dict_get_Some_key _ _ I) as [v G]. rewrite <- (dict_get_del_other x k t Nx) in G. apply dict_get_In in G. now apply (in_map fst) in G.
  Qed.

  (** Registering keys. *)
  Lemma register_reveal : forall ks d, let (d', x) := reveal ks d in
    exists e, register_all lower ks (index (visible d)) = (index (visible d'), e) /\ x = of_opt V e /\ stored d' = stored d.
  Proof.
    induction ks as [|k r IH]; intros d; cbn [CidFullSpec.reveal register_all]; [eauto|].
    unfold register_key. rewrite get_index. fold (seen_as k d). destruct (seen_as k d) as [k'|] eqn:S.
    - destruct (String.eqb k' k) eqn:E; [|eauto]. apply String.eqb_eq in E. rewrite (index_old _ _ _ S E). apply IH.
    - rewrite (index_new _ _ S). specialize (IH (mkD (stored d) (visible d ++ [k]))). cbn [visible stored] in IH. exact IH.
  Qed.
  Lemma reveal_sound : forall ks d, incl ks (map fst (stored d)) -> sound d -> sound (fst (reveal ks d)).
  Proof.
    induction ks as [|k r IH]; intros d I D; cbn [CidFullSpec.reveal fst]; auto. destruct (seen_as k d) as [k'|] eqn:S.
    - destruct (String.eqb k' k); auto. apply IH; auto. intros x Ix. apply I. now right.
    - apply IH; [intros x Ix; apply I; now right|]. destruct D as (D1 & D2 & D3). repeat split; cbn [stored visible]; auto.
      + rewrite map_app. apply NoDup_snoc; auto. now apply seen_none.
      + intros x Ix. apply in_app_iff in Ix as [Ix|[<-|[]]]; auto. apply I. now left.
  Qed.

  Lemma update_keys : forall items (t : list (string * V)) k, In k (keys (dict_update items t)) <-> In k (keys items) \/ In k (keys t).
  Proof.
    induction items as [|[a b] r IH]; intros t k; [cbn; tauto|].
    change (dict_update ((a, b) :: r) t) with (dict_update r (dict_set a b t)). rewrite IH, In_keys_set. change (keys ((a, b) :: r)) with (a :: keys r). cbn [In].
    split; intros H; repeat destruct H as [H|H]; auto.
  Qed.
  Lemma update_sound : forall d items, sound d -> sound (mkD (dict_update items (stored d)) (visible d)).
  Proof.
    intros d items (D1 & D2 & D3). repeat split; cbn [stored visible]; auto; [now apply NoDup_keys_update|]. intros x I. apply update_keys. right. now apply D3.
  Qed.
  Lemma remove_sound : forall d k, sound d -> sound (mkD (dict_del k (stored d)) (drop k (visible d))).
  Proof.
    intros d k (D1 & D2 & D3). repeat split; cbn [stored visible]; [now apply NoDup_keys_del | now apply map_drop|].
    intros x I. apply In_drop in I as [I N]. apply keys_del_iff; auto.
  Qed.

  Lemma last_rev : forall A (l : list A) x r d, rev l = x :: r -> last l d = x /\ removelast l = rev r.
  Proof. intros A l x r d H. apply rev_snoc_form in H. subst l. now rewrite last_last, removelast_last. Qed.

  Lemma step_full : forall d o, sound d ->
    step lower V (impl d) o = (impl (fst (full_step d o)), snd (full_step d o)) /\ sound (fst (full_step d o)).
  Proof.
    intros d o D. assert (D' := D). destruct D' as (D1 & D2 & D3).
    assert (Got : forall k k', seen_as k d = Some k' -> exists v, dict_get k' (stored d) = Some v).
    { intros k k' S. apply seen_In in S as [I _]. apply dict_get_Some_key. now apply D3. }
    destruct o as [k v|k|k df| | | |items|k|k df|k| | |k v|items]; cbn [step CidFullSpec.full_step].
    - (* set *) unfold setitem, register_key. cbn [impl low tbl]. rewrite get_index. fold (seen_as k d). destruct (seen_as k d) as [k'|] eqn:S.
      + destruct (String.eqb k' k) eqn:E; [|split; auto]. apply String.eqb_eq in E. rewrite (index_old _ _ _ S E). split; [reflexivity|].
        exact (update_sound d [(k, v)] D).
      + rewrite (index_new _ _ S). split; [reflexivity|]. cbn [fst]. repeat split; cbn [stored visible].
        * apply (update_sound d [(k, v)] D).
        * rewrite map_app. apply NoDup_snoc; auto. now apply seen_none.
        * intros x I. apply in_app_iff in I as [I|[<-|[]]]; [apply (update_sound d [(k, v)] D); auto|]. apply In_keys_set. now left.
    - (* del *) unfold delitem. cbn [impl low tbl]. rewrite get_index. fold (seen_as k d). destruct (seen_as k d) as [k'|] eqn:S.
      + destruct (Got _ _ S) as [v G]. apply seen_In in S as [I E]. unfold dict_mem at 1. rewrite G. rewrite mem_index.
        destruct (find (same_key lower k') (visible d)) as [k2|] eqn:F; [|exfalso; apply (seen_none k' d F); now apply in_map].
        rewrite (index_drop k' k') by auto. split; [reflexivity|]. now apply remove_sound.
      + unfold dict_mem at 1. destruct (dict_get k (stored d)) eqn:G.
        * rewrite mem_index. fold (seen_as k d). rewrite S. split; [reflexivity|]. cbn [fst]. repeat split; cbn [stored visible]; auto.
          -- now apply NoDup_keys_del.
          -- intros x I. apply keys_del_iff; auto. split; [now apply D3|]. intros ->. apply (seen_none _ _ S). now apply in_map.
        * apply dict_get_None in G. rewrite dict_del_not_in by auto. destruct d. split; auto.
    - (* pop *) unfold pop. cbn [impl low tbl]. unfold contains. cbn [impl low]. rewrite mem_index, get_index. fold (seen_as k d). destruct (seen_as k d) as [k'|] eqn:S.
      + destruct (Got _ _ S) as [v G]. apply seen_In in S as [I E]. rewrite G.
        destruct df; (rewrite (index_drop k k') by auto; split; [reflexivity | now apply remove_sound]).
      + destruct df; (split; [destruct d; reflexivity | auto]).
    - (* popitem *) unfold popitem. cbn [impl low tbl]. destruct (rev (stored d)) as [|[k v] r] eqn:R.
      + apply (f_equal (@rev _)) in R. rewrite rev_involutive in R. rewrite R. split; auto.
      + destruct (stored d) as [|x0 t0] eqn:St; [discriminate|]. rewrite <- St in *.
        destruct (last_rev _ _ _ _ x0 R) as [L RL]. rewrite L, RL. rewrite mem_index. fold (seen_as k d).
        assert (Sx : stored d = rev r ++ [(k, v)]) by (now apply rev_snoc_form). rewrite Sx in D1, D3. rewrite map_app in D1, D3. cbn in D1, D3.
        assert (ND : NoDup (map fst (rev r)) /\ ~ In k (map fst (rev r))).
        { apply NoDup_remove in D1. rewrite app_nil_r in D1. tauto. } destruct ND as [N1 N2].
        destruct (seen_as k d) as [k'|] eqn:S.
        * apply seen_In in S as [I E]. rewrite (index_drop k k') by auto. split; [reflexivity|]. cbn [fst]. repeat split; cbn [stored visible]; auto; [now apply map_drop|].
          intros x Ix. apply In_drop in Ix as [Ix Nx]. assert (J := D3 _ Ix). apply in_app_iff in J as [J|[<-|[]]]; auto. exfalso. apply Nx.
          clear - D2 I Ix E. revert D2 I Ix. generalize (visible d). intros l. induction l as [|y l IH]; intros N I J; [contradiction|]. cbn in N. inversion N as [|? ? Ny Nl]; subst.
          destruct I as [->|I], J as [->|J]; auto; exfalso; apply Ny; [rewrite E | rewrite <- E]; now apply in_map.
        * split; [reflexivity|]. cbn [fst]. repeat split; cbn [stored visible]; auto. intros x Ix. assert (J := D3 _ Ix). apply in_app_iff in J as [J|[<-|[]]]; auto.
          exfalso. apply (seen_none _ _ S). now apply in_map.
    - (* clear *) split; [reflexivity|]. repeat split; cbn; auto; try constructor. intros x [].
    - (* copy *) unfold copy, init. cbn [impl tbl].
      assert (U : forall q p : list (string * V), NoDup (keys (p ++ q)) -> dict_update q p = p ++ q).
      { clear. intros q; induction q as [|[k v] r IH]; intros p N; [cbn; now rewrite app_nil_r|].
        change (dict_update ((k, v) :: r) p) with (dict_update r (dict_set k v p)). rewrite dict_set_new.
        - rewrite IH; rewrite <- app_assoc; auto.
        - unfold keys in N. rewrite map_app in N. apply NoDup_remove_2 in N. intros I. apply N. apply in_or_app. now left. }
      rewrite (U (stored d) []) by exact D1. cbn [app]. change (@nil (string * string)) with (index (visible (mkD (stored d) []))).
      assert (R := register_reveal (map fst (stored d)) (mkD (stored d) [])).
      assert (SR := reveal_sound (map fst (stored d)) (mkD (stored d) [])). unfold keys.
      destruct (reveal (map fst (stored d)) (mkD (stored d) [])) as [d' x]. destruct R as (e & R & -> & St). rewrite R.
      destruct e as [e|]; cbn [of_opt].
      + split; auto.
      + split; [unfold impl; cbn [fst snd]; rewrite St; reflexivity|]. apply SR; [apply incl_refl|]. repeat split; cbn; auto; [constructor | intros y []].
    - (* update *) unfold update. cbn [impl tbl low].
      assert (B : existsb (update_blocked lower V (impl d)) (keys items)
        = existsb (fun kv => match seen_as (fst kv) d with Some k' => negb (String.eqb k' (fst kv)) | None => false end) items).
      { clear. unfold keys. induction items as [|[k v] r IH]; cbn; auto. rewrite IH. f_equal. unfold update_blocked. cbn [impl low]. now rewrite get_index. }
      rewrite B. destruct (existsb _ items); [split; auto|].
      assert (R := register_reveal (map fst items) (mkD (dict_update items (stored d)) (visible d))).
      assert (SR := reveal_sound (map fst items) (mkD (dict_update items (stored d)) (visible d))).
      destruct (reveal (map fst items) (mkD (dict_update items (stored d)) (visible d))) as [d' x]. destruct R as (e & R & -> & St). cbn [visible stored] in R, St. unfold keys. rewrite R.
      split; [unfold impl; cbn [fst snd]; rewrite St; reflexivity|]. apply SR; [|now apply update_sound]. cbn [stored]. intros k I. apply update_keys. now left.
    - split; auto. unfold getitem. cbn [impl low tbl]. rewrite get_index. fold (seen_as k d). destruct (seen_as k d) as [k'|] eqn:S; auto. destruct (Got _ _ S) as [v ->]. reflexivity.
    - split; auto. unfold get, contains, getitem. cbn [impl low tbl]. rewrite mem_index, get_index. fold (seen_as k d). destruct (seen_as k d) as [k'|] eqn:S; auto. destruct (Got _ _ S) as [v ->]. reflexivity.
    - split; auto. unfold contains. cbn [impl low]. now rewrite mem_index.
    - split; auto.
    - split; auto.
    - (* setdefault *) unfold setdefault. cbn [impl tbl low]. destruct (dict_get k (stored d)) eqn:G; [split; auto|].
      apply dict_get_None in G. rewrite dict_set_new by auto. split; [reflexivity|]. assert (X := update_sound d [(k, v)] D). cbn in X. rewrite dict_set_new in X by auto. exact X.
    - (* ior *) split; [reflexivity|]. now apply update_sound.
  Qed.

  Lemma run_full : forall ops d, sound d ->
    run lower V (impl d) ops = (impl (fst (full_run d ops)), snd (full_run d ops)) /\ sound (fst (full_run d ops)).
  Proof.
    induction ops as [|o r IH]; intros d D; cbn [run CidFullSpec.full_run]; [split; auto|].
    destruct (step_full d o D) as [E D1]. rewrite E. destruct (full_step d o) as [d1 x]. cbn [fst snd] in *.
    destruct (IH d1 D1) as [E2 D2]. rewrite E2. destruct (full_run d1 r) as [d2 xs]. split; auto.
  Qed.

  (** Construction. *)
  Lemma init_full : forall seq c, init lower V seq = Ok c -> exists d, c = impl d /\ sound d /\ visible d = map fst (stored d).
  Proof.
    intros seq c H. destruct (store_all lower V [] seq) as [s|] eqn:E; [|rewrite (init_err lower V seq E) in H; discriminate].
    destruct (init_ok lower V seq s E) as [I D]. rewrite I in H. injection H as <-. exists (mkD s (map fst s)). split; [|split; auto].
    - unfold impl, index, idx. cbn [stored visible]. now rewrite map_map.
    - repeat split; cbn [stored visible]; [now apply (distinct_NoDup lower V) | now rewrite map_map | apply incl_refl].
  Qed.

  (** What raises although it has changed something. *)
  Lemma reveal_error : forall ks d e, snd (reveal ks d) = RExn e -> NoDup (map lower (visible d)) ->
    (forall k k', In k ks -> seen_as k d = Some k' -> k' = k) -> exists k k', In k ks /\ In k' ks /\ lower k = lower k' /\ k <> k'.
  Proof.
    induction ks as [|k r IH]; intros d e H N F; cbn [CidFullSpec.reveal snd] in H; [discriminate|]. destruct (seen_as k d) as [k'|] eqn:S.
    - assert (k' = k) by (apply F; [now left | auto]). subst k'. rewrite String.eqb_refl in H.
      destruct (IH d e H N) as (a & b & I & J & E & Nab); [intros; apply F; auto; now right|]. exists a, b. repeat split; auto; now right.
    - destruct (in_dec String.string_dec (lower k) (map lower (filter (fun x => negb (String.eqb k x)) r))) as [I|NI].
      + apply in_map_iff in I as [x [E I]]. apply filter_In in I as [I X]. apply negb_true_iff, String.eqb_neq in X. exists k, x. repeat split; auto; [now left | now right].
      + destruct (IH (mkD (stored d) (visible d ++ [k])) e H) as (a & b & I & J & E & Nab).
        * cbn [visible]. rewrite map_app. apply NoDup_snoc; auto. now apply seen_none.
        * intros x x' Ix Sx. apply seen_In in Sx as [Jx Ex]. cbn [visible] in Jx. apply in_app_iff in Jx as [Jx|[<-|[]]].
          -- destruct (seen_as x d) as [y|] eqn:Sy; [|exfalso; apply (seen_none _ _ Sy); rewrite <- Ex; now apply in_map].
             assert (y = x) by (apply F; [now right | auto]). subst y. apply seen_In in Sy as [Iy _].
             clear - N Jx Iy Ex. revert N Jx Iy. generalize (visible d). intros l. induction l as [|z l IH]; intros N I J; [contradiction|]. cbn in N. inversion N as [|? ? Nz Nl]; subst.
             destruct I as [->|I], J as [->|J]; auto; exfalso; apply Nz; [rewrite Ex | rewrite <- Ex]; now apply in_map.
          -- destruct (String.string_dec x k) as [|Nx]; auto. exfalso. apply NI. rewrite Ex. apply in_map. apply filter_In. split; auto. apply negb_true_iff, String.eqb_neq. congruence.
        * exists a, b. repeat split; auto; now right.
  Qed.

  Lemma full_raise : forall d o e, sound d -> snd (full_step d o) = RExn e -> fst (full_step d o) = d \/ raises_late lower V d o.
  Proof.
    intros d o e (D1 & D2 & D3) H. destruct o as [k v|k|k df| | | |items|k|k df|k| | |k v|items]; cbn [CidFullSpec.full_step] in *; auto.
    - destruct (seen_as k d) as [k'|]; [destruct (String.eqb k' k)|]; cbn in *; try discriminate; auto.
    - destruct (seen_as k d) as [k'|] eqn:S; cbn in *; [discriminate|]. destruct (in_dec String.string_dec k (keys (stored d))) as [I|N].
      + right. split; auto. split; auto. intros J. apply (seen_none _ _ S). now apply in_map.
      + left. rewrite dict_del_not_in by auto. destruct d; auto.
    - destruct (seen_as k d); [discriminate|]. destruct df; [discriminate|]. now left.
    - destruct (stored d) as [|x t] eqn:St; [now left|]. rewrite <- St in *. destruct (last (stored d) x) as [k v] eqn:L.
      destruct (seen_as k d) as [k'|] eqn:S; [discriminate|]. right. exists k, v.
      assert (Sx : exists p, stored d = p ++ [(k, v)]).
      { exists (removelast (stored d)). rewrite <- L. apply app_removelast_last. rewrite St. discriminate. }
      destruct Sx as [p Sx]. rewrite Sx. split; [|split; auto].
      + rewrite map_app. cbn. now rewrite last_last.
      + split; [rewrite Sx, map_app, in_app_iff; right; now left|]. intros J. apply (seen_none _ _ S). now apply in_map.
    - discriminate.
    - destruct (reveal (map fst (stored d)) (mkD (stored d) [])) as [d' [| | | | | |x]]; auto. discriminate.
    - destruct (existsb _ items) eqn:B; [now left|]. right. intros C.
      assert (Fk : forall k k', In k (map fst items) -> seen_as k d = Some k' -> k' = k).
      { intros k k' I S. apply in_map_iff in I as [[k2 v] [<- I]]. cbn [fst] in *.
        assert (X : (fun kv => match seen_as (fst kv) d with Some k' => negb (String.eqb k' (fst kv)) | None => false end) (k2, v) = false).
        { destruct ((fun kv => match seen_as (fst kv) d with Some k' => negb (String.eqb k' (fst kv)) | None => false end) (k2, v)) eqn:Y; auto.
          assert (Z : existsb (fun kv => match seen_as (fst kv) d with Some k' => negb (String.eqb k' (fst kv)) | None => false end) items = true) by (apply existsb_exists; eauto).
          congruence. }
        cbn [fst] in X. rewrite S in X. apply negb_false_iff, String.eqb_eq in X. auto. }
      destruct (reveal_error _ _ _ H D2 Fk) as (a & b & I & J & E & Nab). apply in_map_iff in I as [[a' va] [<- I]]. apply in_map_iff in J as [[b' vb] [<- J]].
      apply Nab. cbn in *. eapply C; eauto.
    - destruct (dict_get k (stored d)); discriminate.
    - discriminate.
  Qed.
End CidFullProofs.
