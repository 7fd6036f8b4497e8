(** Proofs for C52. *)
From Coq Require Import String Ascii List Bool ZArith QArith Qabs Lia Lqa.
From Verif Require Import Base BaseFacts PyStr BoundsModel BoundsSpec ValuesModel ValuesSpec ValuesProofs TextModel TextSpec.
Import ListNotations.
Open Scope list_scope.

(** ** Enumerations *)
Lemma match_reads_as : forall m s, existsb (String.eqb (strip (lower s))) (matches m) = true <-> reads_as s m.
Proof.
  intros m s. rewrite matches_iff. split.
  - intros (t & I & E). exists t. assert (T : trimmed t).
    { apply trimmed_lower. rewrite E. destruct (strip_split (lower s)) as (a & b & _ & _ & _ & T). exact T. }
    repeat split; auto; try apply T. apply reads_iff; auto.
  - intros (t & I & T & R). exists t. split; auto. apply reads_iff in R; auto.
Qed.
Lemma find_reading : forall cls s m, find (fun m => existsb (String.eqb (strip (lower s))) (matches m)) cls = Some m <-> first_reading cls s m.
Proof.
  intros cls s m. rewrite find_first. split; intros (l1 & l2 & E & X & H); exists l1, l2; (split; [exact E|]).
  - split; [now apply match_reads_as|]. intros m' I R. apply match_reads_as in R. rewrite H in R; auto; discriminate.
  - split; [now apply match_reads_as|]. intros m' I. destruct (existsb _ _) eqn:Q; auto. apply match_reads_as in Q. exfalso. eapply H; eauto.
Qed.
Lemma find_unread : forall cls s, find (fun m => existsb (String.eqb (strip (lower s))) (matches m)) cls = None <-> unread cls s.
Proof.
  intros cls s. split.
  - intros E m I R. apply match_reads_as in R. pose proof (find_none _ _ E m I) as Q. cbn beta in Q. congruence.
  - intros U. destruct (find _ cls) as [m|] eqn:E; auto. apply find_some in E as [I E]. apply match_reads_as in E. exfalso. exact (U m I E).
Qed.
Lemma from_str_cases : forall cls s, (exists m, first_reading cls s m /\ forall ex, from_str cls (Some s) ex = Ok (Some m))
  \/ (unread cls s /\ forall ex : bool, from_str cls (Some s) ex = if ex then Err ValueError else Ok None).
Proof.
  intros cls s. unfold from_str. destruct (find _ cls) as [m|] eqn:E.
  - left. exists m. split; [now apply find_reading|]. now intros [].
  - right. split; [now apply find_unread|]. now intros [].
Qed.
Lemma first_not_unread : forall cls s m, first_reading cls s m -> ~ unread cls s.
Proof. intros cls s m (l1 & l2 & -> & R & _) U. exact (U m (in_elt m l1 l2) R). Qed.
Lemma first_reading_fun : forall cls s m m', first_reading cls s m -> first_reading cls s m' -> m = m'.
Proof. intros cls s m m' A B. apply find_reading in A, B. congruence. Qed.

Lemma add_member_cases : forall cls m,
  (unread cls (mvalue m) /\ (forall m', In m' cls -> mvalue m' <> mvalue m) /\ add_member cls m = Ok (cls ++ [m]))
  \/ (unread cls (mvalue m) /\ (exists m', In m' cls /\ mvalue m' = mvalue m) /\ add_member cls m = Ok cls)
  \/ (~ unread cls (mvalue m) /\ add_member cls m = Err ValueError).
Proof.
  intros cls m. unfold add_member. destruct (from_str_cases cls (mvalue m)) as [(m' & F & E)|[U E]]; rewrite E.
  - right. right. split; auto. eapply first_not_unread; eauto.
  - destruct (existsb _ cls) eqn:X.
    + right. left. split; auto. split; auto. apply existsb_exists in X as (m' & I & X). apply String.eqb_eq in X. eauto.
    + left. split; auto. split; auto. intros m' I Q.
      assert (existsb (fun m' => String.eqb (mvalue m') (mvalue m)) cls = true); [|congruence]. apply existsb_exists. exists m'. split; auto. now apply String.eqb_eq.
Qed.
Lemma define_enum_app : forall ms1 ms2 cls, define_enum cls (ms1 ++ ms2) = bind (define_enum cls ms1) (fun c => define_enum c ms2).
Proof.
  induction ms1 as [|m r IH]; intros ms2 cls; cbn; auto. destruct (add_member cls m); cbn; auto.
Qed.
Lemma define_declares : forall ms, 
  (exists cls, define_enum [] ms = Ok cls /\ declares ms cls)
  \/ (define_enum [] ms = Err ValueError /\ exists ms1 m ms2 cls, ms = ms1 ++ m :: ms2 /\ declares ms1 cls /\ ~ unread cls (mvalue m)).
Proof.
  intros ms. induction ms as [|m ms IH] using rev_ind.
  - left. exists []. split; auto. constructor.
  - rewrite define_enum_app. destruct IH as [(cls & -> & D)|(-> & ms1 & m0 & ms2 & cls & -> & D & N)].
    + cbn [bind define_enum]. destruct (add_member_cases cls m) as [(U & X & ->)|[(U & (m' & I & X) & ->)|(U & ->)]]; cbn [bind].
      * left. exists (cls ++ [m]). split; auto. now constructor.
      * left. exists cls. split; auto. eapply declares_alias; eauto.
      * right. split; auto. exists ms, m, [], cls. auto.
    + right. split; auto. exists ms1, m0, (ms2 ++ [m]), cls. split; auto. now rewrite <- app_assoc.
Qed.
Lemma snoc_inj : forall (A : Type) (l l' : list A) x x', l ++ [x] = l' ++ [x'] -> l = l' /\ x = x'.
Proof. intros. now apply app_inj_tail. Qed.
Lemma declares_fun : forall ms cls, declares ms cls -> define_enum [] ms = Ok cls.
Proof.
  intros ms cls D. induction D as [|ms cls m D IH U X|ms cls m m' D IH U I X]; auto; rewrite define_enum_app, IH; cbn [bind define_enum].
  - destruct (add_member_cases cls m) as [(_ & _ & ->)|[(_ & (m' & I & Q) & _)|(N & _)]]; auto; [exfalso; eapply X; eauto | tauto].
  - destruct (add_member_cases cls m) as [(_ & Q & _)|[(_ & _ & ->)|(N & _)]]; auto; [exfalso; eapply Q; eauto | tauto].
Qed.

Lemma declares_nodup : forall ms cls, declares ms cls -> NoDup (map mvalue cls).
Proof.
  intros ms cls D. induction D as [|ms cls m D IH U X|]; auto; [constructor|]. rewrite map_app. cbn.
  apply NoDup_rev in IH. rewrite <- (rev_involutive (map mvalue cls ++ [mvalue m])). apply NoDup_rev. rewrite rev_app_distr. cbn. constructor; auto.
  rewrite <- in_rev. intros H. apply in_map_iff in H as (m' & E & I). exact (X m' I E).
Qed.
Lemma declares_sub : forall ms cls, declares ms cls ->
  (forall m, In m cls -> In m ms) /\ forall m, In m ms -> exists m', In m' cls /\ mvalue m' = mvalue m.
Proof.
  intros ms cls D. induction D as [|ms cls m D [A B] U X|ms cls m m' D [A B] U I X].
  - split; intros ? [].
  - split.
    + intros y [H|[<-|[]]]%in_app_iff; apply in_or_app; [left; auto | right; now left].
    + intros y [H|[<-|[]]]%in_app_iff; [destruct (B y H) as (z & Z & E); exists z; split; auto; apply in_or_app; auto | exists m; split; auto; apply in_elt].
  - split.
    + intros y H. apply in_or_app. auto.
    + intros y [H|[<-|[]]]%in_app_iff; eauto.
Qed.

Lemma call_cases : forall cls s, NoDup (map mvalue cls) ->
  (exists m, member_for cls s m /\ enum_call cls s = Ok m /\ forall m', member_for cls s m' -> m' = m)
  \/ ((forall m, ~ member_for cls s m) /\ enum_call cls s = Err ValueError).
Proof.
  intros cls s N. unfold enum_call. destruct (find (fun m => String.eqb (mvalue m) s) cls) as [m|] eqn:F.
  - apply find_some in F as [I E]. apply String.eqb_eq in E. left. exists m. split; [left; auto|]. split; auto.
    intros m' [[I' E']|[X _]]; [|exfalso; eapply X; eauto]. assert (Q : mvalue m' = mvalue m) by congruence.
    clear - N I I' Q. induction cls as [|x r IH]; [destruct I|]. cbn in N. inv N.
    destruct I as [->|I], I' as [->|I']; auto; exfalso; [apply H1; rewrite <- Q; now apply in_map | apply H1; rewrite Q; now apply in_map].
  - assert (X : forall m', In m' cls -> mvalue m' <> s).
    { intros m' I E. pose proof (find_none _ _ F m' I) as Q. cbn in Q. rewrite E, String.eqb_refl in Q. discriminate. }
    destruct (from_str_cases cls s) as [(m & R & E)|[U E]]; rewrite E.
    + left. exists m. split; [right; auto|]. split; auto. intros m' [[I Q]|[_ R']]; [exfalso; eapply X; eauto|]. eapply first_reading_fun; eauto.
    + right. split; auto. intros m [[I Q]|[_ R]]; [exfalso; eapply X; eauto|]. eapply first_not_unread; eauto.
Qed.

(** ** Replacement *)
Lemma slen_app : forall a b : string, String.length (a ++ b) = (String.length a + String.length b)%nat.
Proof. intros a b; induction a; cbn; auto. Qed.
Lemma occurs_cons : forall old c r, occurs old (String c r) -> startswith old (String c r) = true \/ occurs old r.
Proof.
  intros old c r (a & b & E). destruct a as [|d a].
  - left. apply startswith_iff. exists b. exact E.
  - right. cbn in E. inv E. exists a, b. reflexivity.
Qed.
Lemma replace_step : forall old new c r, startswith old (String c r) = false -> replace old new (String c r) = String c (replace old new r).
Proof. intros old new c r E. unfold replace. cbn [replace_go]. now rewrite E. Qed.
Lemma replaced_replace_n : forall c o new n s, (String.length s <= n)%nat -> replaced (String c o) new s (replace (String c o) new s).
Proof.
  intros c o new n; induction n as [|n IH]; intros s L.
  - destruct s; [|cbn in L; lia]. apply replaced_none. intros (a & b & E). destruct a; discriminate.
  - destruct (startswith (String c o) s) eqn:P.
    + apply startswith_iff in P as [r ->]. rewrite replace_at_start.
      apply (replaced_first (String c o) new "" r).
      * intros x y _. cbn. lia.
      * apply IH. cbn in L. rewrite slen_app in L. lia.
    + destruct s as [|d r]; [apply replaced_none; intros (a & b & E); destruct a; discriminate|].
      rewrite replace_step by exact P. cbn in L. assert (R := IH r ltac:(lia)).
      remember (replace (String c o) new r) as t eqn:T. destruct R as [s N|a rest t F R].
      * apply replaced_none. intros O. apply occurs_cons in O as [O|O]; [congruence|auto].
      * apply (replaced_first (String c o) new (String d a) rest t); auto.
        intros x y E. destruct x as [|e x].
        -- exfalso. cbn [append] in E. change (String d (a ++ String c o ++ rest) = (String c o ++ y)%string) in E.
           assert (Q : startswith (String c o) (String d (a ++ String c o ++ rest)) = true); [|congruence]. apply startswith_iff. exists y. exact E.
        -- cbn [append] in E. injection E as -> E. apply F in E. cbn. lia.
Qed.
Lemma replaced_replace : forall c o new s t, replaced (String c o) new s t <-> t = replace (String c o) new s.
Proof.
  intros c o new s t. split; [|intros ->; now apply (replaced_replace_n c o new (String.length s))].
  intros R. induction R as [s N|a rest t F R ->]; [symmetry; now apply replace_absent|].
  induction a as [|d a IH].
  - symmetry. apply replace_at_start.
  - cbn [append]. rewrite replace_step.
    + f_equal. apply IH. intros x y E. assert (Q : (String.length (String d a) <= String.length (String d x))%nat).
      { apply (F (String d x) y). change (String d (a ++ String c o ++ rest) = String d (x ++ String c o ++ y)). now rewrite E. }
      cbn in Q. lia.
    + destruct (startswith _ _) eqn:P; auto. apply startswith_iff in P as [y P]. assert (Q : (String.length (String d a) <= String.length "")%nat); [apply (F ""%string y); exact P | cbn in Q; lia].
Qed.

Lemma lower_slash : forall c, lower_char c = "/"%char -> c = "/"%char.
Proof.
  intros c H. pose proof (lower_char_spec c) as P. cbn zeta in P. rewrite H in P. change (nat_of_ascii "/") with 47%nat in P.
  rewrite <- (ascii_nat_embedding c). destruct ((65 <=? nat_of_ascii c)%nat && (nat_of_ascii c <=? 90)%nat) eqn:Q; [lia|]. now rewrite <- P.
Qed.
Lemma normal_one : forall p body, lower p = "1s"%string -> normal_inchi (p ++ "/" ++ body) = ("InChI=1S" ++ replace p "InChI=1S" ("/" ++ body))%string.
Proof.
  intros p body L. destruct p as [|c1 [|c2 [|]]]; try discriminate. unfold normal_inchi.
  rewrite lower_app, L, (lower_app "/" body). change (lower "/") with "/"%string.
  change (startswith "1s/" ("1s" ++ "/" ++ lower body)) with (startswith "1s/" ("1s/" ++ lower body)). rewrite startswith_app.
  change (take 2 (String c1 (String c2 "") ++ "/" ++ body)) with (String c1 (String c2 "")). apply replace_at_start.
Qed.
Lemma normal_case : forall p body, lower p = "inchi"%string -> p <> "InChI"%string -> normal_inchi (p ++ body) = ("InChI" ++ replace p "InChI" body)%string.
Proof.
  intros p body L N. unfold normal_inchi. rewrite lower_app, L. change (startswith "1s/" ("inchi" ++ lower body)) with false. cbn iota. rewrite startswith_app. cbn [negb].
  destruct p as [|c1 [|c2 [|c3 [|c4 [|c5 [|]]]]]]; try discriminate.
  destruct (startswith "InChI" _) eqn:E; cbn [negb].
  - apply startswith_iff in E as [r E]. cbn in E. inv E. now destruct N.
  - change (take 5 (String c1 (String c2 (String c3 (String c4 (String c5 "")))) ++ body)) with (String c1 (String c2 (String c3 (String c4 (String c5 ""))))). apply replace_at_start.
Qed.
Lemma inchi_exactly : forall s t, inchi_of s t <-> t = normal_inchi s.
Proof.
  intros s t. split.
  - intros [p body t' L R|s' A B|body|p body t' L N R].
    + rewrite normal_one by auto. destruct p as [|c o]; [discriminate|]. apply replaced_replace in R. now subst.
    + unfold normal_inchi. destruct (startswith "1s/" (lower s')) eqn:X.
      * apply startswith_iff in X as [r X]. apply lower_split in X as (a & b & -> & X & _). destruct a as [|c1 [|c2 [|c3 [|]]]]; try discriminate.
        exfalso. cbn in X. injection X as X1 X2 X3. apply lower_slash in X3 as ->. apply (A (String c1 (String c2 "")) b); [reflexivity|]. cbn. congruence.
      * destruct (startswith "inchi" (lower s')) eqn:Y; auto. apply startswith_iff in Y as [r Y]. apply lower_split in Y as (a & b & -> & Y & _). exfalso. eapply B; eauto.
    + reflexivity.
    + rewrite normal_case by auto. destruct p as [|c o]; [discriminate|]. apply replaced_replace in R. now subst.
  - intros ->. destruct (startswith "1s/" (lower s)) eqn:X.
    + apply startswith_iff in X as [r X]. apply lower_split in X as (a & b & -> & X & _). destruct a as [|c1 [|c2 [|c3 [|]]]]; try discriminate.
      cbn in X. injection X as X1 X2 X3. apply lower_slash in X3 as ->.
      change (String c1 (String c2 (String "/" "")) ++ b)%string with (String c1 (String c2 "") ++ "/" ++ b)%string.
      assert (L : lower (String c1 (String c2 "")) = "1s"%string) by (cbn; congruence).
      rewrite normal_one by auto. apply inchi_one; auto. now apply replaced_replace.
    + destruct (startswith "inchi" (lower s)) eqn:Y.
      * apply startswith_iff in Y as [r Y]. apply lower_split in Y as (a & b & -> & Y & _).
        destruct (string_dec a "InChI") as [->|N]; [apply inchi_exact|]. rewrite normal_case by auto. apply inchi_case; auto. destruct a; [discriminate|]. now apply replaced_replace.
      * unfold normal_inchi. rewrite X, Y. cbn [negb]. apply inchi_bare.
        -- intros p body -> L. rewrite lower_app, L, (lower_app "/" body) in X. change (lower "/") with "/"%string in X.
           change (startswith "1s/" ("1s" ++ "/" ++ lower body)) with (startswith "1s/" ("1s/" ++ lower body)) in X. rewrite startswith_app in X. discriminate.
        -- intros p body -> L. rewrite lower_app, L, startswith_app in Y. discriminate.
Qed.

(** ** Sums *)
Definition as_float (x : pynum) : pynum := match x with PyInt z => PyFloat (inject_Z z) | _ => x end.
Lemma num_sum_missing : forall l acc, In PyNone l -> num_sum acc l = Err TypeError.
Proof.
  induction l as [|x l IH]; intros acc I; [destruct I|]. cbn. destruct I as [->|I]; [now destruct acc|].
  destruct (num_add acc x) as [s|e] eqn:E; cbn; auto. destruct acc, x; cbn in E; congruence.
Qed.
Lemma num_sum_ok : forall l acc, acc <> PyNone -> ~ In PyNone l -> exists s, num_sum acc l = Ok s.
Proof.
  induction l as [|x l IH]; intros acc A N; cbn; eauto.
  assert (x <> PyNone) by (intros ->; apply N; now left).
  destruct (num_add acc x) as [s|e] eqn:E; cbn; [|destruct acc, x; cbn in E; congruence].
  apply IH; [destruct acc, x; cbn in E; congruence | intros I; apply N; now right].
Qed.
Lemma sum_single : forall x, x <> PyNone -> sum_is [x] (as_float x).
Proof.
  intros [| | | | |] N; try congruence; cbn.
  - eapply sum_finite; [repeat constructor|]. cbn. lra.
  - eapply sum_finite; [repeat constructor|]. cbn. lra.
  - apply sum_nan; cbn; intuition discriminate.
  - apply sum_inf; cbn; intuition discriminate.
  - apply sum_neg; cbn; intuition discriminate.
Qed.
Lemma sum_fold : forall x y t l s, num_add x y = Ok t -> sum_is (t :: l) s -> sum_is (x :: y :: l) s.
Proof.
  intros x y t l s A H. inversion H as [l' N C|l' N M I J|l' N M I J|l' qs q F Q]; subst.
  - apply sum_nan; destruct x, y; cbn in A; inv A; cbn in *; intuition congruence.
  - apply sum_inf; destruct x, y; cbn in A; inv A; cbn in *; intuition congruence.
  - apply sum_neg; destruct x, y; cbn in A; inv A; cbn in *; intuition congruence.
  - inversion F as [|? a ? qs' Ha Hr]; subst. destruct (num_add_inv _ _ _ _ A Ha) as (b & c & B & C & E).
    eapply (sum_finite _ (b :: c :: qs')); [constructor; auto|]. cbn in *. lra.
Qed.

Lemma num_sum_is : forall l acc s, acc <> PyNone -> num_sum acc l = Ok s -> sum_is (acc :: l) (as_float s).
Proof.
  induction l as [|x l IH]; intros acc s A; cbn.
  - intros [= <-]. now apply sum_single.
  - destruct (num_add acc x) as [t|] eqn:E; cbn; [|discriminate]. intros H. eapply sum_fold; eauto. apply IH; auto. destruct acc, x; cbn in E; congruence.
Qed.
Lemma sum_zero : forall l s, sum_is (PyInt 0 :: l) s -> sum_is l s.
Proof.
  intros l s H. inversion H as [l' N C|l' N M I J|l' N M I J|l' qs q F Q]; subst.
  - apply sum_nan; cbn in *; intuition congruence.
  - apply sum_inf; cbn in *; intuition congruence.
  - apply sum_neg; cbn in *; intuition congruence.
  - inversion F as [|? a ? qs' Ha Hr]; subst. inv Ha. eapply (sum_finite _ qs'); eauto. cbn in Q. change (inject_Z 0) with 0 in Q. lra.
Qed.
Lemma finite_in : forall l qs, Forall2 (fun x a => num_value x = Some a) l qs -> forall x, In x l -> exists a, num_value x = Some a.
Proof. intros l qs F. induction F; intros z []; subst; eauto. Qed.
Lemma finite_fun : forall l qs qs', Forall2 (fun x a => num_value x = Some a) l qs -> Forall2 (fun x a => num_value x = Some a) l qs' -> qs = qs'.
Proof. intros l qs qs' F. revert qs'. induction F; intros qs' F'; inversion F'; subst; auto. f_equal; [congruence|auto]. Qed.
(** The sum is determined, up to equality of rationals. *)
Lemma sum_fun : forall l s s', sum_is l s -> sum_is l s' -> (near_one s <-> near_one s').
Proof.
  intros l s s' A B.
  destruct A as [l N C|l N M I J|l N M I J|l qs q F Q]; inversion B as [l' N' C'|l' N' M' I' J'|l' N' M' I' J'|l' qs' q' F' Q']; subst; try tauto;
    try (exfalso; assert (X := finite_in _ _ F'); destruct C as [C|[C _]]; destruct (X _ C) as [? Y]; discriminate);
    try (exfalso; destruct (finite_in _ _ F' _ I) as [? Y]; discriminate);
    try (exfalso; assert (X := finite_in _ _ F); destruct C' as [C'|[C' _]]; destruct (X _ C') as [? Y]; discriminate);
    try (exfalso; destruct (finite_in _ _ F _ I') as [? Y]; discriminate).
  assert (qs' = qs) by (eapply finite_fun; eauto). subst qs'. assert (E : q == q') by lra.
  unfold near_one. split; intros [X|(r & X & L)]; try discriminate; inv X; right; eexists; split; eauto; [now rewrite <- E | now rewrite E].
Qed.
Lemma off_one_iff : forall s, s <> PyNone -> (off_one s = false <-> near_one (as_float s)).
Proof.
  intros s N. unfold near_one. destruct s; try congruence; cbn; rewrite ?negb_false_iff, ?Qle_bool_iff; split; auto; try discriminate;
    try (intros [X|(r & X & L)]; try discriminate; inv X; auto); eauto.
Qed.
Lemma sum_no_none : forall l s, sum_is l s -> ~ In PyNone l.
Proof. intros l s [l' N C|l' N M I J|l' N M I J|l' qs q F Q]; auto. intros I. destruct (finite_in _ _ F _ I) as [? Y]. discriminate. Qed.

Lemma keys_cases : forall d, (exists l, d = map (fun kv => (OStr (fst kv), snd kv)) l /\ validate_keys d = Ok l) \/ (In ONotStr (map fst d) /\ validate_keys d = Err TypeError).
Proof.
  induction d as [|[[k|] v] d IH]; [left; exists []; auto | | right; cbn; auto]. cbn.
  destruct IH as [(l & E & ->)|[I ->]]; cbn; [left; exists ((k, v) :: l); cbn; split; congruence | right; auto].
Qed.
Lemma assigned_iff : forall old a p e, assigned old a p e <-> set_probabilities old a = (p, e).
Proof.
  intros old a p e. split.
  - intros [|s| |d I|d s H N|d s H N I|l s H N]; try reflexivity.
    + cbn. now rewrite num_sum_missing.
    + cbn. destruct (num_sum_ok (map snd d) (PyInt 0)) as [z Z]; [discriminate | eapply sum_no_none; eauto|]. rewrite Z.
      assert (A : sum_is (map snd d) (as_float z)) by (apply sum_zero; apply num_sum_is; [discriminate|auto]).
      replace (off_one z) with true; auto. symmetry. apply not_false_iff_true. rewrite off_one_iff by (intros ->; inversion A).
      intros X. apply N. now apply (sum_fun _ _ _ A H).
    + cbn. destruct (num_sum_ok (map snd d) (PyInt 0)) as [z Z]; [discriminate | eapply sum_no_none; eauto|]. rewrite Z.
      assert (A : sum_is (map snd d) (as_float z)) by (apply sum_zero; apply num_sum_is; [discriminate|auto]).
      replace (off_one z) with false. 2:{ symmetry. apply off_one_iff; [intros ->; inversion A|]. now apply (sum_fun _ _ _ A H). }
      destruct (keys_cases d) as [(l & -> & _)|[_ ->]]; auto. exfalso. rewrite map_map in I. apply in_map_iff in I as (x & X & _). discriminate.
    + cbn. rewrite map_map. cbn [snd]. destruct (num_sum_ok (map snd l) (PyInt 0)) as [z Z]; [discriminate | eapply sum_no_none; eauto|].
      change (map (fun x : string * pynum => snd x) l) with (map snd l). rewrite Z.
      assert (A : sum_is (map snd l) (as_float z)) by (apply sum_zero; apply num_sum_is; [discriminate|auto]).
      replace (off_one z) with false. 2:{ symmetry. apply off_one_iff; [intros ->; inversion A|]. now apply (sum_fun _ _ _ A H). }
      replace (validate_keys _) with (@Ok (list (string * pynum)) l); auto. clear. induction l as [|[k v] l IH]; cbn; auto. now rewrite <- IH.
  - intros E. destruct a as [|s|d|]; cbn in E; try (inv E; constructor).
    destruct (in_dec (fun x y : pynum => ltac:(decide equality; [apply Z.eq_dec | destruct q, q0; decide equality; [apply Pos.eq_dec | apply Z.eq_dec]]) : {x = y} + {x <> y}) PyNone (map snd d)) as [I|I].
    + rewrite num_sum_missing in E by auto. inv E. now constructor.
    + destruct (num_sum_ok (map snd d) (PyInt 0)) as [z Z]; [discriminate | auto|]. rewrite Z in E.
      assert (A : sum_is (map snd d) (as_float z)) by (apply sum_zero; apply num_sum_is; [discriminate|auto]).
      assert (Nz : z <> PyNone) by (intros ->; inversion A).
      destruct (off_one z) eqn:O.
      * inv E. eapply as_off; eauto. rewrite <- off_one_iff by auto. congruence.
      * apply off_one_iff in O; auto. destruct (keys_cases d) as [(l & -> & V)|[K V]]; rewrite V in E; inv E.
        -- rewrite map_map in A. cbn [snd] in A. eapply as_stored; eauto.
        -- eapply as_key; eauto.
Qed.
