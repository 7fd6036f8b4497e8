(** What the model makes of a block is what the specification says of a factor. *)
From Coq Require Import String Ascii List Bool Arith ZArith QArith Qpower Lia.
From Verif Require Import Base PyStr ScaleModel ScaleSpec ScaleUnmangle ScaleShow ScaleMangle ScaleParse LexSpec LexProofs LexBlocks.
Import ListNotations.
Open Scope list_scope.
Open Scope nat_scope.

(** ** Numerals *)
Lemma digits_value_of : forall s, digits_value 0 s = digits_of s.
Proof.
  assert (H : forall s a, digits_value a s = fold_left (fun a c => (a * 10 + (Z.of_nat (nat_of_ascii c) - 48))%Z) (filter is_digit s) a).
  { induction s as [|c s IH]; intros a; cbn [digits_value filter]; auto. destruct (is_digit c); cbn [fold_left]; apply IH. }
  intros s. apply H.
Qed.
Lemma filter_twice : forall (f : ascii -> bool) s, filter f (filter f s) = filter f s.
Proof. induction s as [|c s IH]; cbn [filter]; auto. destruct (f c) eqn:E; cbn [filter]; rewrite ?E; now rewrite ?IH. Qed.
Lemma run_clean : forall w, absent_or (run is_digit) w -> Forall (fun c => negb (is_e c) = true) w /\ Forall (fun c => negb (Ascii.eqb c dot) = true) w.
Proof.
  assert (D : forall c, is_digit c = true -> negb (is_e c) = true /\ negb (Ascii.eqb c dot) = true).
  { intros c C. split; [now rewrite digit_not_e|]. apply negb_true_iff, Ascii.eqb_neq. intros ->. discriminate. }
  intros w [-> |R]; [split; constructor|]. induction R as [c C|c w C R [A B]|c w C R [A B]]; destruct (D c C); split; repeat constructor; auto.
Qed.
Definition fraction_part (f : text) : Prop := f = [] \/ exists d, f = dot :: d /\ absent_or (run is_digit) d.
Lemma float_parts : forall w f e, absent_or (run is_digit) w -> fraction_part f -> absent_or exponent_part e ->
  float_of (w ++ f ++ e) = (digits_of (w ++ f), (exponent_value e - Z.of_nat (length (filter is_digit f)))%Z).
Proof.
  intros w f e W F E. unfold float_of. destruct (run_clean w W) as [We Wd].
  assert (Fe : Forall (fun c => negb (is_e c) = true) f) by (destruct F as [-> |(d & -> & D)]; constructor; auto; now apply run_clean).
  rewrite app_assoc. rewrite span_app; cycle 1.
  - now apply Forall_app.
  - destruct E as [-> |(x & sg & d & -> & [-> | ->] & _)]; [exact I|reflexivity|reflexivity].
  - rewrite span_app; cycle 1; [auto|destruct F as [-> |(d & -> & D)]; [exact I|reflexivity]|].
    f_equal.
    + rewrite digits_value_of. unfold digits_of. now rewrite !filter_app, filter_twice.
    + f_equal. unfold exponent_value. destruct e as [|x [|c r]]; auto. rewrite !digits_value_of. reflexivity.
Qed.
Lemma numeral_float : forall w q, numeral_value w q -> (q == inject_Z (fst (float_of w)) * 10 ^ (snd (float_of w)))%Q.
Proof.
  intros w q V. destruct V as [w R|w R _|w e R E|w f e R F E|f e R E].
  - assert (Z : forall u, run is_zero u -> digits_of u = 0%Z).
    { intros u. unfold digits_of. induction 1 as [c C|c u C R' IH|c u C R' IH]; apply Ascii.eqb_eq in C; subst c; auto. }
    rewrite <- (app_nil_r w), <- (app_nil_r (w ++ [])), <- app_assoc. rewrite float_parts; [|right; eapply run_mono; [apply zero_digit|exact R]|now left|now left].
    cbn [fst snd]. rewrite app_nil_r, Z by auto. reflexivity.
  - rewrite <- (app_nil_r w) at 2 3. rewrite <- (app_nil_r (w ++ [])), <- app_assoc. rewrite float_parts; [|now right|now left|now left].
    cbn [fst snd]. rewrite app_nil_r. change (10 ^ (exponent_value [] - Z.of_nat (length (filter is_digit []))))%Q with 1%Q. ring.
  - change (w ++ e) with (w ++ [] ++ e). rewrite float_parts; [|now right|now left|now right]. reflexivity.
  - change (w ++ dot :: f ++ e) with (w ++ (dot :: f) ++ e). rewrite float_parts; [|now right|right; eauto|auto]. cbn [fst snd]. unfold decimal_value.
    replace (digits_of (w ++ dot :: f)) with (digits_of (w ++ f)); [reflexivity|]. unfold digits_of. rewrite !filter_app. reflexivity.
  - change (dot :: f ++ e) with ([] ++ (dot :: f) ++ e). rewrite float_parts; [|now left|right; eexists; split; [reflexivity|now right]|auto]. reflexivity.
Qed.
Lemma ten_pos : forall e, ~ (10 ^ e == 0)%Q.
Proof.
  intros e H. assert (X : (10 ^ e * 10 ^ (- e) == 1)%Q) by (rewrite <- Qpower_plus by discriminate; replace (e + - e)%Z with 0%Z by lia; reflexivity).
  rewrite H in X. rewrite Qmult_0_l in X. discriminate.
Qed.
Lemma zero_iff : forall w q, numeral_value w q -> (float_is_zero w = true <-> q == 0)%Q.
Proof.
  intros w q V. rewrite (numeral_float w q V). unfold float_is_zero. generalize (fst (float_of w)) (snd (float_of w)). intros m e. rewrite Z.eqb_eq. split.
  - intros ->. ring.
  - intros H. apply Qmult_integral in H as [H|H]; [|now apply ten_pos in H]. unfold Qeq in H. cbn in H. lia.
Qed.
Lemma one_iff : forall w q, numeral_value w q -> (float_is_one w = true <-> q == 1)%Q.
Proof.
  intros w q V. rewrite (numeral_float w q V). unfold float_is_one. destruct (float_of w) as [m e]. cbn [fst snd]. destruct (0 <=? e)%Z eqn:E.
  - apply Z.leb_le in E. rewrite Z.eqb_eq. change (10 ^ e)%Q with (inject_Z 10 ^ e)%Q. rewrite <- Zpower_Qpower by auto. rewrite <- inject_Z_mult. split.
    + now intros ->.
    + intros H. unfold Qeq in H. cbn in H. lia.
  - apply Z.leb_gt in E. rewrite Z.eqb_eq. split.
    + intros ->. change 10%Q with (inject_Z 10). rewrite (Zpower_Qpower 10 (- e)) by lia. rewrite <- Qpower_plus by discriminate. replace (- e + e)%Z with 0%Z by lia. reflexivity.
    + intros H. assert (X : (inject_Z m == inject_Z (10 ^ (- e)))%Q).
      { rewrite Zpower_Qpower by lia. setoid_replace (inject_Z m) with (inject_Z m * 10 ^ e * inject_Z 10 ^ (- e))%Q.
        - rewrite H. ring.
        - rewrite <- Qmult_assoc. change (10 ^ e)%Q with (inject_Z 10 ^ e)%Q. rewrite <- Qpower_plus by discriminate. replace (e + - e)%Z with 0%Z by lia. cbn. ring. }
      unfold Qeq in X. cbn in X. lia.
Qed.
Lemma numeral_worth : forall w, numeral w -> exists q, numeral_value w q.
Proof. intros w N. destruct N; eexists; [apply nv_zero|apply nv_whole|apply nv_power|apply nv_point|apply nv_fraction]; eauto. Qed.

(** ** Factors *)
Lemma power_in : forall k, is_power (tstring k) = true <-> In (tstring k) (map t ["**"; "^"]%string).
Proof.
  intros k. unfold is_power. rewrite orb_true_iff. cbn [map In]. split.
  - intros [H|H]; apply teqb_eq in H; auto.
  - intros [H|[H|[]]]; rewrite <- H; auto.
Qed.
Lemma no_power : forall l, no_power_in l -> forall k, In k l -> is_power (tstring k) = false.
Proof. intros l H k K. destruct (is_power (tstring k)) eqn:E; auto. exfalso. apply (H k K). now apply power_in. Qed.
Lemma a_power : forall p, ~ no_power_in [p] -> is_power (tstring p) = true.
Proof. intros p H. destruct (is_power (tstring p)) eqn:E; auto. exfalso. apply H. intros k [<-|[]] K. apply power_in in K. congruence. Qed.
Lemma no_numbers : forall l, no_number l -> forall k, In k l -> is_number k = false.
Proof. intros l H k K. specialize (H k K). unfold is_number. destruct (tkind k); congruence. Qed.
Lemma no_names : forall l, no_name l -> forall k, In k l -> is_name k = false.
Proof. intros l H k K. specialize (H k K). unfold is_name. destruct (tkind k); congruence. Qed.
Lemma number_is : forall k, tkind k = NUMBER -> is_number k = true. Proof. intros k H. unfold is_number. now rewrite H. Qed.
Lemma name_is : forall k, tkind k = NAME -> is_name k = true. Proof. intros k H. unfold is_name. now rewrite H. Qed.

Definition after_power (after : list token) : Prop := after = [] \/ exists p r, after = p :: r /\ ~ no_power_in [p].
Definition numbered (i : nat) (l : list token) : list (nat * token) := filter (fun p => is_number (snd p)) (enumerate_from i l).
Lemma enum_bound : forall A (x : list A) i p, In p (enumerate_from i x) -> i <= fst p < i + length x.
Proof. induction x as [|a x IH]; intros i p H; cbn in H; [contradiction|]. destruct H as [<-|H]; cbn [fst length]; [lia|]. specialize (IH _ _ H). lia. Qed.
Lemma i_exp_is : forall before after, no_power_in before -> after_power after ->
  match index_of (fun k => is_power (tstring k)) (before ++ after) with Some i => i | None => length (before ++ after) end = length before.
Proof.
  intros before after P A. rewrite index_skip by (now apply no_power). destruct A as [-> |(p & r & -> & Pp)].
  - cbn [index_of option_map]. now rewrite app_nil_r.
  - cbn [index_of]. rewrite a_power by auto. cbn [option_map]. lia.
Qed.
Lemma filter_ext_in' : forall A (f g : A -> bool) l, (forall a, In a l -> f a = g a) -> filter f l = filter g l.
Proof. intros A f g l. induction l as [|a l IH]; intros H; cbn [filter]; auto. rewrite (H a) by (now left). rewrite IH by (intros; apply H; now right). reflexivity. Qed.
Lemma numbers_are : forall before after,
  filter (fun p => is_number (snd p) && Nat.ltb (fst p) (length before)) (enumerate_from 0 (before ++ after)) = numbered 0 before.
Proof.
  intros before after. rewrite enum_app, filter_app. rewrite (filter_none _ _ (enumerate_from (0 + length before) after)); [rewrite app_nil_r|].
  - apply filter_ext_in'. intros p H. apply enum_bound in H. assert (E : Nat.ltb (fst p) (length before) = true) by (apply Nat.ltb_lt; lia). now rewrite E, andb_true_r.
  - intros p H. apply enum_bound in H. assert (E : Nat.ltb (fst p) (length before) = false) by (apply Nat.ltb_ge; lia). now rewrite E, andb_false_r.
Qed.
Lemma numbered_app : forall a b i, numbered i (a ++ b) = numbered i a ++ numbered (i + length a) b.
Proof. intros a b i. unfold numbered. now rewrite enum_app, filter_app. Qed.
Lemma numbered_none : forall l i, no_number l -> numbered i l = [].
Proof. intros l i H. apply filter_none. intros p P. apply enum_in in P. now apply (no_numbers l). Qed.
Lemma numbered_cons : forall k l i, tkind k = NUMBER -> numbered i (k :: l) = (i, k) :: numbered (S i) l.
Proof. intros k l i K. unfold numbered. cbn [enumerate_from filter snd]. now rewrite number_is. Qed.

(** The function in terms of what stands before the first power. *)
Lemma factor_cases : forall input before after, no_power_in before -> after_power after ->
  factor_of input (before ++ after) =
  match numbered 0 before with
  | [] => Ok []
  | [(position, k)] =>
      let value := tstring k in
      let block := before ++ after in
      if negb (Nat.eqb (length before) (length block)) then Err ValueError
      else if match index_of is_name block with Some i => Nat.ltb i position | None => false end then Err ValueError
      else if negb (float_is_one value) && negb (float_is_zero value) then
        match nth_error block 0, nth_error block (length block - 1) with
        | Some b0, Some bl =>
            Ok [mkScaled (slice (tstart b0) (tend bl) input) value
                  (match index_of is_name block with
                   | None => None
                   | Some i => match nth_error block (position + 1), nth_error block i with
                               | Some b1, Some bn => Some (slice (tstart b1) (tend bn) input)
                               | _, _ => None
                               end
                   end)]
        | _, _ => Ok []
        end
      else Ok []
  | _ => Err ValueError
  end.
Proof. intros input before after P A. unfold factor_of. cbv zeta. rewrite i_exp_is by auto. rewrite numbers_are. reflexivity. Qed.

Lemma index_first : forall A (f : A -> bool) x u y, (forall a, In a x -> f a = false) -> f u = true -> index_of f (x ++ u :: y) = Some (length x).
Proof. intros A f x u y H U. rewrite index_skip by auto. cbn [index_of]. rewrite U. cbn [option_map]. f_equal. lia. Qed.
Lemma nth_last : forall A (x : list A) a last, hd_error (rev (a :: x)) = Some last -> forall pre, nth_error (pre ++ a :: x) (length (pre ++ a :: x) - 1) = Some last.
Proof.
  intros A x a last H pre. destruct (rev (a :: x)) as [|l r] eqn:E; [discriminate|]. injection H as ->.
  assert (X : a :: x = rev r ++ [last]) by (rewrite <- (rev_involutive (a :: x)), E; reflexivity). rewrite X, app_assoc, app_length. cbn [length].
  rewrite nth_error_app2 by lia. replace (_ - _) with 0 by lia. reflexivity.
Qed.
Lemma nth_first : forall A (x : list A) a y first, hd_error (x ++ [a]) = Some first -> nth_error (x ++ a :: y) 0 = Some first.
Proof. intros A [|b x] a y first H; exact H. Qed.
Lemma nth_at : forall A (x : list A) u y, nth_error (x ++ u :: y) (length x) = Some u.
Proof. intros. rewrite nth_error_app2 by lia. now rewrite Nat.sub_diag. Qed.
Lemma nil_after : after_power []. Proof. now left. Qed.

Theorem judged_sound : forall input l r, judged input l r -> factor_of input l = r.
Proof.
  intros input l r J. destruct J as [before after P A N|x a y b z after P A Ka Kb|x a y p r P Pp Ka|x u y a z P Ku Ka
    |x a y q P Ka Nx Ny Mx V T|x a y q first last P Ka Nx Ny Mx My V V0 V1 F L|x a y u z q first next last P Ka Nx Ny Mx My Ku V V0 V1 F X L].
  - rewrite factor_cases by auto. now rewrite numbered_none.
  - rewrite factor_cases by auto. rewrite numbered_app, numbered_cons, numbered_app, numbered_cons by auto.
    destruct (numbered 0 x) as [|[? ?] [|? ?]]; cbn [app]; auto. destruct (numbered (S (0 + length x)) y) as [|[? ?] ?]; cbn [app]; reflexivity.
  - assert (A : after_power (p :: r)) by (right; eauto). rewrite factor_cases by auto. rewrite numbered_app, numbered_cons by auto.
    assert (L : Nat.eqb (length (x ++ a :: y)) (length ((x ++ a :: y) ++ p :: r)) = false) by (apply Nat.eqb_neq; rewrite (app_length _ (p :: r)); cbn [length]; lia).
    destruct (numbered 0 x) as [|[? ?] [|? ?]]; cbn [app]; auto; destruct (numbered (S (0 + length x)) y) as [|[? ?] ?]; cbv zeta; cbn [app] in *; rewrite ?L; reflexivity.
  - assert (L : forall pre m k, numbered 0 (x ++ u :: y ++ a :: z) = pre -> pre = [(m, k)] -> Nat.ltb (length x) m = true).
    { intros pre m k <- E. change (x ++ u :: y ++ a :: z) with (x ++ (u :: y) ++ a :: z) in E. rewrite app_assoc, numbered_app, numbered_cons in E by auto. cbn [Nat.add] in E.
      destruct (numbered 0 (x ++ u :: y)) as [|? [|? ?]]; [|discriminate|discriminate]. injection E as <- _ _. apply Nat.ltb_lt. rewrite app_length. cbn [length]. lia. }
    assert (I : exists i, index_of is_name (x ++ u :: y ++ a :: z) = Some i /\ i <= length x).
    { clear - Ku. induction x as [|b x IH]; cbn [app index_of].
      - rewrite name_is by auto. exists 0. split; auto.
      - destruct (is_name b); [exists 0; split; [auto|cbn [length]; lia]|]. destruct IH as (i & -> & H). exists (S i). split; auto. cbn [length]. lia. }
    rewrite <- (app_nil_r (x ++ u :: y ++ a :: z)) at 1. rewrite factor_cases by (auto using nil_after).
    destruct (numbered 0 (x ++ u :: y ++ a :: z)) as [|[m k] [|? ?]] eqn:E; auto.
    + exfalso. change (x ++ u :: y ++ a :: z) with (x ++ (u :: y) ++ a :: z) in E. rewrite app_assoc, numbered_app, numbered_cons in E by auto. now apply app_eq_nil in E as [_ E].
    + cbv zeta. rewrite app_nil_r, Nat.eqb_refl. cbn [negb]. destruct I as (i & -> & Hi). specialize (L _ m k eq_refl eq_refl). apply Nat.ltb_lt in L.
      assert (Li : Nat.ltb i m = true) by (apply Nat.ltb_lt; lia). now rewrite Li.
  - rewrite <- (app_nil_r (x ++ a :: y)). rewrite factor_cases by (auto using nil_after). rewrite numbered_app, numbered_cons, !numbered_none by auto. cbn [app]. cbv zeta.
    rewrite app_nil_r, Nat.eqb_refl. cbn [negb]. rewrite index_skip by (now apply no_names). cbn [index_of].
    assert (Na : is_name a = false) by (unfold is_name; now rewrite Ka). rewrite Na.
    assert (Tr : negb (float_is_one (tstring a)) && negb (float_is_zero (tstring a)) = false).
    { destruct T as [T|T]; [apply (zero_iff _ _ V) in T|apply (one_iff _ _ V) in T]; rewrite T; [apply andb_false_r|reflexivity]. }
    rewrite Tr. destruct (index_of is_name y) as [i|]; cbn [option_map]; auto.
    assert (Li : Nat.ltb (length x + S i) (0 + length x) = false) by (apply Nat.ltb_ge; lia). now rewrite Li.
  - rewrite <- (app_nil_r (x ++ a :: y)) at 1. rewrite factor_cases by (auto using nil_after). rewrite numbered_app, numbered_cons, !numbered_none by auto. cbn [app]. cbv zeta.
    rewrite app_nil_r, Nat.eqb_refl. cbn [negb]. assert (Na : is_name a = false) by (unfold is_name; now rewrite Ka).
    rewrite index_none by (intros k K; apply in_app_iff in K as [K|[<-|K]]; auto; [now apply (no_names x)|now apply (no_names y)]).
    assert (E0 : float_is_zero (tstring a) = false) by (destruct (float_is_zero (tstring a)) eqn:E; auto; apply (zero_iff _ _ V) in E; contradiction).
    assert (E1 : float_is_one (tstring a) = false) by (destruct (float_is_one (tstring a)) eqn:E; auto; apply (one_iff _ _ V) in E; contradiction).
    rewrite E0, E1. cbn [negb andb]. rewrite (nth_first _ x a y first F), (nth_last _ y a last L x). reflexivity.
  - rewrite <- (app_nil_r (x ++ a :: y ++ u :: z)) at 1. rewrite factor_cases by (auto using nil_after). rewrite numbered_app, numbered_cons, !numbered_none by auto. cbn [app]. cbv zeta.
    rewrite app_nil_r, Nat.eqb_refl. cbn [negb]. assert (Na : is_name a = false) by (unfold is_name; now rewrite Ka).
    assert (Sh : x ++ a :: y ++ u :: z = (x ++ a :: y) ++ u :: z) by (rewrite <- app_assoc; reflexivity).
    rewrite Sh at 1. rewrite index_first; [|intros k K; apply in_app_iff in K as [K|[<-|K]]; auto; [now apply (no_names x)|now apply (no_names y)]|now apply name_is].
    assert (Li : Nat.ltb (length (x ++ a :: y)) (0 + length x) = false) by (apply Nat.ltb_ge; rewrite app_length; cbn [length]; lia). rewrite Li.
    assert (E0 : float_is_zero (tstring a) = false) by (destruct (float_is_zero (tstring a)) eqn:E; auto; apply (zero_iff _ _ V) in E; contradiction).
    assert (E1 : float_is_one (tstring a) = false) by (destruct (float_is_one (tstring a)) eqn:E; auto; apply (one_iff _ _ V) in E; contradiction).
    rewrite E0, E1. cbn [negb andb]. rewrite (nth_first _ x a (y ++ u :: z) first F).
    assert (Lst : nth_error (x ++ a :: y ++ u :: z) (length (x ++ a :: y ++ u :: z) - 1) = Some last) by (rewrite Sh; now apply nth_last). rewrite Lst.
    rewrite Sh, index_first; [|intros k K; apply in_app_iff in K as [K|[<-|K]]; auto; [now apply (no_names x)|now apply (no_names y)]|now apply name_is].
    rewrite nth_at. rewrite <- Sh. assert (Nx1 : nth_error (x ++ a :: y ++ u :: z) (0 + length x + 1) = Some next).
    { rewrite nth_error_app2 by lia. replace (0 + length x + 1 - length x) with 1 by lia. cbn [nth_error]. rewrite <- (nth_first _ y u z next X). destruct y; reflexivity. }
    rewrite Nx1. reflexivity.
Qed.

(** ** Every factor is judged *)
Lemma split_power : forall l, exists before after, l = before ++ after /\ no_power_in before /\ after_power after.
Proof.
  induction l as [|k l (b & a & -> & P & A)]; [exists [], []; repeat split; [intros k []|now left]|]. destruct (is_power (tstring k)) eqn:E.
  - exists [], (k :: b ++ a). repeat split; [intros x []|]. right. exists k, (b ++ a). split; auto. intros N. apply (N k); [now left|now apply power_in].
  - exists (k :: b), a. repeat split; auto. intros x [<-|X]; [intros H; apply power_in in H; congruence|auto].
Qed.
Lemma split_kind : forall (f : token -> bool) l, (forall k, In k l -> f k = false) \/ exists x a y, l = x ++ a :: y /\ f a = true /\ forall k, In k x -> f k = false.
Proof.
  induction l as [|k l IH]; [left; intros k []|]. destruct (f k) eqn:E; [right; exists [], k, l; repeat split; auto; intros x []|].
  destruct IH as [H|(x & a & y & -> & A & H)]; [left; intros z [<-|Z]; auto|right; exists (k :: x), a, y; repeat split; auto]. intros z [<-|Z]; auto.
Qed.
Lemma is_number_kind : forall k, is_number k = true -> tkind k = NUMBER. Proof. intros k. unfold is_number. destruct (tkind k); auto; discriminate. Qed.
Lemma is_name_kind : forall k, is_name k = true -> tkind k = NAME. Proof. intros k. unfold is_name. destruct (tkind k); auto; discriminate. Qed.
Lemma none_number : forall l, (forall k, In k l -> is_number k = false) -> no_number l.
Proof. intros l H k K E. specialize (H k K). rewrite number_is in H by auto. discriminate. Qed.
Lemma none_name : forall l, (forall k, In k l -> is_name k = false) -> no_name l.
Proof. intros l H k K E. specialize (H k K). rewrite name_is in H by auto. discriminate. Qed.
Lemma hd_some : forall A (x : list A) a, exists b, hd_error (x ++ [a]) = Some b. Proof. intros A [|b x] a; eexists; reflexivity. Qed.
Lemma rev_some : forall A (x : list A) a, exists b, hd_error (rev (a :: x)) = Some b. Proof. intros A x a. cbn [rev]. apply hd_some. Qed.

Theorem judged_total : forall input l, (forall k, In k l -> tkind k = NUMBER -> numeral (tstring k)) -> exists r, judged input l r.
Proof.
  intros input l N. destruct (split_power l) as (before & after & -> & P & A).
  destruct (split_kind is_number before) as [H|(x & a & y & -> & Ka & Hx)]; [eexists; eapply jd_none; eauto; now apply none_number|]. apply is_number_kind in Ka. apply none_number in Hx.
  destruct A as [-> |(p & r & -> & Pp)]; [|eexists; eapply jd_power; eauto]. rewrite app_nil_r in *.
  destruct (split_kind is_number y) as [Hy|(y1 & b & z & -> & Kb & Hy)].
  2: { apply is_number_kind in Kb. eexists. rewrite <- (app_nil_r (x ++ a :: y1 ++ b :: z)). eapply jd_two; eauto using nil_after. }
  apply none_number in Hy. destruct (numeral_worth (tstring a)) as (q & V); [apply N; auto; apply in_or_app; right; now left|].
  destruct (split_kind is_name x) as [Mx|(x1 & u & x2 & -> & Ku & _)].
  2: { apply is_name_kind in Ku. rewrite <- app_assoc in *. cbn [app] in *. eexists. eapply jd_follows; eauto. }
  apply none_name in Mx. destruct (Qeq_dec q 0) as [Q0|Q0]; [eexists; eapply jd_trivial; eauto|]. destruct (Qeq_dec q 1) as [Q1|Q1]; [eexists; eapply jd_trivial; eauto|].
  destruct (hd_some _ x a) as (first & F). destruct (split_kind is_name y) as [My|(y1 & u & z & -> & Ku & My)].
  - apply none_name in My. destruct (rev_some _ y a) as (last & L). eexists. eapply jd_alone; eauto.
  - apply none_name in My. apply is_name_kind in Ku. destruct (rev_some _ z u) as (last & L). destruct (hd_some _ y1 u) as (next & X). eexists. eapply jd_scaled; eauto.
Qed.

Theorem all_judged_sound : forall input fs r, all_judged input fs r -> identify_factors input fs = r.
Proof.
  intros input fs r H. induction H as [|f fs x y J H IH|f fs e J|f fs x e J H IH]; cbn [identify_factors]; auto; rewrite (judged_sound _ _ _ J); rewrite ?IH; reflexivity.
Qed.
Theorem all_judged_total : forall input fs, (forall f k, In f fs -> In k f -> tkind k = NUMBER -> numeral (tstring k)) -> exists r, all_judged input fs r.
Proof.
  intros input fs. induction fs as [|f fs IH]; intros N; [eexists; constructor|].
  destruct (judged_total input f) as ([x|e] & J); [intros k; apply N; now left| |eexists; eapply aj_first; eauto].
  destruct IH as ([y|e] & H); [intros g k G; apply N; now right|eexists; eapply aj_more; eauto|eexists; eapply aj_later; eauto].
Qed.
