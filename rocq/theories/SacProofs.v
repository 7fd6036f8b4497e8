(** Proofs about SacModel.v. *)
From Coq Require Import String Ascii List Bool Arith ZArith QArith Lia.
From Verif Require Import Base BaseFacts PyStr SacModel SacSpec.
Import ListNotations.
Open Scope string_scope.
Open Scope list_scope.
Open Scope nat_scope.

(** ** minimal_subset *)
Lemma existsb_in : forall x l, existsb (String.eqb x) l = true <-> In x l.
Proof.
  intros x l. rewrite existsb_exists. split.
  - intros (y & H & E). apply String.eqb_eq in E. subst y. exact H.
  - intros H. exists x. split; [exact H|apply String.eqb_refl].
Qed.
Lemma existsb_out : forall x l, existsb (String.eqb x) l = false <-> ~ In x l.
Proof. intros x l. rewrite <- existsb_in. destruct (existsb _ _); split; intuition congruence. Qed.
Lemma sapp_assoc : forall a b c : string, ((a ++ b) ++ c = a ++ (b ++ c))%string.
Proof. induction a; intros; cbn; [reflexivity|f_equal; auto]. Qed.
Lemma quoted_inj : forall n n' r r', ~ has_char "'" n -> ~ has_char "'" n' -> (n ++ String "'" r = n' ++ String "'" r')%string -> n = n' /\ r = r'.
Proof.
  induction n as [|c n IH]; intros [|c' n'] r r' Q Q' E; cbn in *.
  - inversion E. split; reflexivity.
  - inversion E; subst. exfalso. apply Q'. left; reflexivity.
  - inversion E; subst. exfalso. apply Q. left; reflexivity.
  - inversion E; subst. destruct (IH n' r r') as (-> & ->); [tauto|tauto|assumption|]. split; reflexivity.
Qed.
Section Subset.
  Context {A : Type} (name : A -> string) (Q : forall x, ~ has_char "'" (name x)).
  Let type_text (x : A) : string := class_text (name x).
  Lemma fingerprint_inj : forall a b, fingerprint type_text a = fingerprint type_text b -> map name a = map name b.
  Proof.
    induction a as [|x a IH]; intros [|y b] E; cbn in E; try discriminate; [reflexivity|].
    unfold fingerprint in E. cbn in E. injection E as E. rewrite !sapp_assoc in E. cbn in E.
    apply quoted_inj in E; [|apply Q|apply Q]. destruct E as (E1 & E2). injection E2 as E2. cbn. rewrite E1. f_equal. apply IH. exact E2.
  Qed.
  Lemma fingerprint_eq : forall a b, map name a = map name b -> fingerprint type_text a = fingerprint type_text b.
  Proof.
    induction a as [|x a IH]; intros [|y b] E; cbn in E; try discriminate; [reflexivity|]. injection E as E1 E2.
    unfold fingerprint in *. cbn. rewrite (IH _ E2). unfold type_text, class_text. rewrite E1. reflexivity.
  Qed.
  Let fp := fingerprint type_text.
  Lemma subset_sub : forall t seen, subsequence (subset_from type_text seen t) t.
  Proof. induction t as [|r t IH]; intros seen; cbn; [constructor|]. destruct (existsb _ _); constructor; apply IH. Qed.
  Lemma subset_covers : forall t seen r, In r t -> In (fp r) seen \/ exists r', In r' (subset_from type_text seen t) /\ fp r' = fp r.
  Proof.
    induction t as [|x t IH]; intros seen r; [intros []|]. cbn [subset_from]. fold fp. cbv zeta.
    destruct (existsb (String.eqb (fp x)) seen) eqn:E.
    - intros [->|H]; [left; apply existsb_in; exact E|apply IH; exact H].
    - intros [->|H]; [right; exists r; split; [left; reflexivity|reflexivity]|].
      destruct (IH (fp x :: seen) r H) as [[K|K]|(r' & I & K)].
      + right. exists x. split; [left; reflexivity|exact K].
      + left; exact K.
      + right. exists r'. split; [right; exact I|exact K].
  Qed.
  Lemma subset_new : forall t seen r, In r (subset_from type_text seen t) -> ~ In (fp r) seen.
  Proof.
    induction t as [|x t IH]; intros seen r; cbn [subset_from]; [intros []|]. fold fp. cbv zeta.
    destruct (existsb (String.eqb (fp x)) seen) eqn:E; [apply IH|].
    intros [->|H]; [apply existsb_out; exact E|]. intros K. apply (IH _ _ H). right; exact K.
  Qed.
  Lemma subset_nodup : forall t seen, NoDup (map fp (subset_from type_text seen t)).
  Proof.
    induction t as [|x t IH]; intros seen; cbn [subset_from]; [constructor|]. fold fp. cbv zeta.
    destruct (existsb (String.eqb (fp x)) seen) eqn:E; [apply IH|]. cbn [map]. constructor; [|apply IH].
    intros K. apply in_map_iff in K. destruct K as (r & K & I). apply subset_new in I. apply I. left. symmetry; exact K.
  Qed.
  Lemma subset_first : forall a x b seen, ~ In (fp x) seen -> (forall y, In y a -> fp y <> fp x) -> In x (subset_from type_text seen (a ++ x :: b)).
  Proof.
    induction a as [|y a IH]; intros x b seen N F; cbn [app subset_from]; fold fp; cbv zeta.
    - rewrite (proj2 (existsb_out _ _) N). left; reflexivity.
    - assert (F' : forall z, In z a -> fp z <> fp x) by (intros z H; apply F; right; exact H).
      destruct (existsb _ _); [apply IH; assumption|]. right. apply IH; [|exact F'].
      intros [K|K]; [apply (F y (or_introl eq_refl) K)|apply N; exact K].
  Qed.
  Lemma nodup_names : forall l, NoDup (map fp l) -> NoDup (map (map name) l).
  Proof.
    induction l as [|x l IH]; cbn; intros H; [constructor|]. inversion H; subst. constructor; [|apply IH; assumption].
    intros K. apply in_map_iff in K. destruct K as (y & K & I). apply H2. apply in_map_iff. exists y. split; [apply fingerprint_eq; exact K|exact I].
  Qed.
  Lemma minimal_subset_all : forall table, let out := minimal_subset type_text table in
    subsequence out table
    /\ (forall row, In row table -> exists row', In row' out /\ map name row' = map name row)
    /\ NoDup (map (map name) out)
    /\ (forall a row b, table = a ++ row :: b -> (forall r, In r a -> map name r <> map name row) -> In row out)
    /\ (forall other, (forall row, In row table -> exists row', In row' other /\ map name row' = map name row) -> length out <= length other).
  Proof.
    intros table out. assert (S1 : subsequence out table) by apply subset_sub.
    assert (C1 : forall row, In row table -> exists row', In row' out /\ map name row' = map name row).
    { intros r H. destruct (subset_covers table [] r H) as [[]|(r' & I & K)]. exists r'. split; [exact I|apply fingerprint_inj; exact K]. }
    assert (N1 : NoDup (map (map name) out)) by (apply nodup_names, subset_nodup).
    repeat split; try assumption.
    - intros a row b -> F. apply subset_first; [intros []|]. intros y I K. apply (F y I). apply fingerprint_inj. exact K.
    - intros other C. rewrite <- (map_length (map name) out), <- (map_length (map name) other). apply NoDup_incl_length; [exact N1|].
      intros k K. apply in_map_iff in K. destruct K as (r & <- & I).
      assert (I' : In r table). { clear -S1 I. induction S1; [destruct I|destruct I as [->|I]; [left; reflexivity|right; auto]|right; auto]. }
      destruct (C r I') as (r' & I2 & E). apply in_map_iff. exists r'. split; [exact E|exact I2].
  Qed.
End Subset.

(** ** Lists of results *)
Lemma each_iff : forall A B (f : A -> res B) (R : A -> B -> Prop), (forall x y, f x = Ok y <-> R x y) ->
  forall l ys, each f l = Ok ys <-> Forall2 R l ys.
Proof.
  intros A B f R H. induction l as [|x l IH]; intros ys; cbn.
  - split; [intros E; inversion E; constructor|intros F; inversion F; reflexivity].
  - split.
    + destruct (f x) as [y|] eqn:E; cbn; [|discriminate]. destruct (each f l) as [zs|] eqn:E2; cbn; [|discriminate].
      intros K. inversion K; subst. constructor; [apply H; exact E|apply IH; reflexivity].
    + intros F. inversion F; subst. apply H in H2. rewrite H2. cbn. apply IH in H4. rewrite H4. reflexivity.
Qed.
Lemma Forall2_length : forall A B (R : A -> B -> Prop) l m, Forall2 R l m -> length l = length m.
Proof. induction 1; cbn; [reflexivity|f_equal; assumption]. Qed.
Arguments Forall2_length {A B R l m}.
Lemma item_ok : forall A (o : option A) e a, item o e = Ok a <-> o = Some a.
Proof. intros A [x|] e a; cbn; split; intros H; inversion H; reflexivity. Qed.
Lemma attribute_ok : forall A (o : option A) a, attribute o = Ok a <-> o = Some a.
Proof. intros A [x|] a; cbn; split; intros H; inversion H; reflexivity. Qed.
Lemma bind_ok : forall A B (r : res A) (f : A -> res B) b, bind r f = Ok b <-> exists a, r = Ok a /\ f a = Ok b.
Proof.
  intros A B [a|e] f b; cbn; split.
  - intros H. exists a. split; [reflexivity|exact H].
  - intros (a' & H & K). inversion H; subst. exact K.
  - discriminate.
  - intros (a' & H & _). discriminate.
Qed.

(** ** make_display_table *)
Lemma tilde_cons : forall x y l, tilde (x :: y :: l) = (x ++ "~" ++ tilde (y :: l))%string. Proof. reflexivity. Qed.
Lemma tilde_joined : forall l, l <> [] -> joined l (tilde l).
Proof.
  induction l as [|x [|y l] IH]; intros H; [destruct (H eq_refl)|constructor|]. rewrite tilde_cons. apply join_more. apply IH. discriminate.
Qed.
Lemma joined_tilde : forall l s, joined l s -> s = tilde l.
Proof. induction 1; [reflexivity|]. rewrite tilde_cons, <- IHjoined. reflexivity. Qed.
Lemma heading_iff : forall h s, header_text h = Ok s <-> heading h s.
Proof.
  intros h s. unfold header_text, heading. split.
  - intros H. destruct (h_bounds h) as [[u|cs| |n]|]; cbn in H; try discriminate; injection H as H; subst s;
      (eexists; split; [constructor|apply tilde_joined; destruct (h_name h); discriminate]).
  - intros (k & K & J). apply joined_tilde in J. subst s. destruct K; reflexivity.
Qed.
Lemma startswith_iff : forall p s, startswith p s = true <-> exists b, s = (p ++ b)%string.
Proof.
  induction p as [|c p IH]; intros s; cbn.
  - split; [intros _; exists s; reflexivity|reflexivity].
  - destruct s as [|d s]; [split; [discriminate|intros (b & H); discriminate]|].
    rewrite andb_true_iff, IH. split.
    + intros (E & b & ->). apply Ascii.eqb_eq in E. subst d. exists b. reflexivity.
    + intros (b & H). inversion H; subst. split; [apply Ascii.eqb_refl|exists b; reflexivity].
Qed.
Lemma occurs_iff : forall p s, occurs p s = true <-> exists a b, s = (a ++ p ++ b)%string.
Proof.
  intros p. induction s as [|c s IH]; cbn [occurs]; rewrite orb_true_iff, startswith_iff.
  - split.
    + intros [(b & H)|H]; [exists "", b; exact H|discriminate].
    + intros (a & b & H). left. exists b. destruct a; [exact H|discriminate].
  - rewrite IH. split.
    + intros [(b & H)|(a & b & ->)]; [exists "", b; exact H|exists (String c a), b; reflexivity].
    + intros (a & b & H). destruct a as [|d a]; cbn in H; [left; exists b; exact H|]. inversion H; subst. right. exists a, b. reflexivity.
Qed.
Lemma mentions_iff : forall s, occurs "Band gap" s = true <-> mentions_band_gap s.
Proof. intros s. apply occurs_iff. Qed.
Lemma first_index_iff : forall A (f : A -> bool) l i, first_index f l = Some i <->
  exists a x b, l = a ++ x :: b /\ length a = i /\ f x = true /\ Forall (fun y => f y = false) a.
Proof.
  intros A f. induction l as [|x l IH]; intros i; cbn.
  - split; [discriminate|intros ([|] & y & b & H & _); discriminate].
  - destruct (f x) eqn:E.
    + split.
      * intros H. inversion H; subst. exists [], x, l. repeat split; [assumption|constructor].
      * intros ([|z a] & y & b & H & L & T & F); cbn in *; [subst; reflexivity|]. inversion H; subst. inversion F; subst. congruence.
    + split.
      * destruct (first_index f l) as [j|] eqn:K; [|discriminate]. intros H. inversion H; subst.
        destruct (proj1 (IH j) eq_refl) as (a & y & b & -> & <- & T & F). exists (x :: a), y, b. repeat split; [assumption|]. constructor; assumption.
      * intros ([|z a] & y & b & H & L & T & F); cbn in *; inversion H; subst; [congruence|]. inversion F; subst.
        rewrite (proj2 (IH (length a))); [reflexivity|]. exists a, y, b. repeat split; assumption.
Qed.
Lemma content_iff : forall c s, content c = Ok s <-> shows c s.
Proof. intros c s. split; [destruct c; cbn; intros H; inversion H; constructor|intros []; reflexivity]. Qed.
Lemma uncert_iff : forall c s, uncert c = Ok s <-> deviates c s.
Proof. intros c s. split; [destruct c; cbn; intros H; inversion H; constructor|intros []; reflexivity]. Qed.
Lemma insert_behind : forall A (a : list A) x y b, insert_at (length a + 1) y (a ++ x :: b) = a ++ x :: y :: b.
Proof.
  intros A a x y b. unfold insert_at. change (x :: b) with ([x] ++ b). rewrite app_assoc.
  replace (length a + 1) with (length (a ++ [x])) by (rewrite app_length; reflexivity).
  rewrite firstn_app, firstn_all, Nat.sub_diag, skipn_app, skipn_all, Nat.sub_diag. cbn. rewrite app_nil_r, <- app_assoc. reflexivity.
Qed.
Lemma display_row_iff : forall i row out, display_row i row = Ok out <-> row_shown i row out.
Proof.
  intros i row out. unfold display_row. split.
  - intros H. apply bind_ok in H. destruct H as (xs & E & H). apply bind_ok in H. destruct H as (c & I & H). apply item_ok in I.
    apply bind_ok in H. destruct H as (u & U & H). injection H as H. subst out.
    apply (proj1 (each_iff _ _ _ _ content_iff _ _)) in E. apply nth_error_split in I. destruct I as (a & b & -> & L).
    apply Forall2_app_inv_l in E. destruct E as (sa & sb & Fa & Fb & ->). inversion Fb as [|? sc ? sb' Sc Fb']; subst.
    exists a, c, b, sa, sc, u, sb'. repeat split; try assumption; [|apply uncert_iff; exact U].
    rewrite (Forall2_length Fa). apply insert_behind.
  - intros (a & c & b & sa & sc & sd & sb & -> & L & -> & Fa & Sc & D & Fb). subst i.
    assert (E : each content (a ++ c :: b) = Ok (sa ++ sc :: sb)).
    { apply (each_iff _ _ _ _ content_iff). apply Forall2_app; [exact Fa|constructor; assumption]. }
    rewrite E. cbn [bind]. rewrite nth_error_app2, Nat.sub_diag by lia. cbn [nth_error item bind]. rewrite (proj2 (uncert_iff _ _) D). cbn [bind].
    rewrite (Forall2_length Fa), insert_behind. reflexivity.
Qed.
Lemma not_mentions : forall l, Forall (fun y => occurs "Band gap" y = false) l <-> Forall (fun s => ~ mentions_band_gap s) l.
Proof.
  induction l as [|x l IH]; split; intros H; [constructor|constructor| |]; inversion H; subst; constructor; try tauto.
  - rewrite <- mentions_iff. congruence.
  - rewrite <- mentions_iff in H2. destruct (occurs _ x); [destruct (H2 eq_refl)|reflexivity].
Qed.
Lemma display_all : forall t out, make_display_table t = Ok out <->
  exists A col B u HA hc sd HB rows, s_headers t = A ++ col :: B /\ h_bounds col = Some (RealB u)
    /\ Forall2 heading A HA /\ heading col hc /\ Forall2 heading B HB
    /\ mentions_band_gap hc /\ Forall (fun s => ~ mentions_band_gap s) HA
    /\ joined (h_name col ++ [("Std Deviation(" ++ u ++ ")")%string]) sd
    /\ Forall2 (row_shown (length A)) (s_content t) rows
    /\ out = map ShText (HA ++ hc :: sd :: HB) :: rows.
Proof.
  intros t out. unfold make_display_table. split.
  - intros H. apply bind_ok in H. destruct H as (hs & E & H). apply bind_ok in H. destruct H as (i & I & H). apply item_ok in I.
    apply bind_ok in H. destruct H as (col & C & H). apply item_ok in C. apply bind_ok in H. destruct H as (u & U & H).
    apply bind_ok in H. destruct H as (rows & R & H). injection H as H. subst out.
    apply (proj1 (each_iff _ _ _ _ heading_iff _ _)) in E. apply first_index_iff in I. destruct I as (HA & hc & HB & -> & L & T & F).
    apply Forall2_app_inv_r in E. destruct E as (A & B' & Fa & Fb & EH). inversion Fb as [|col' ? B ? Hc FB]; subst.
    rewrite EH in C. rewrite nth_error_app2 in C by (rewrite (Forall2_length Fa); lia). rewrite (Forall2_length Fa), Nat.sub_diag in C. cbn in C. injection C as ->.
    assert (Ub : h_bounds col = Some (RealB u)).
    { destruct (h_bounds col) as [[]|]; cbn in U; try discriminate. injection U as ->. reflexivity. }
    exists A, col, B, u, HA, hc, (tilde (h_name col ++ [("Std Deviation(" ++ u ++ ")")%string])), HB, rows.
    repeat split; try assumption.
    + apply mentions_iff; exact T.
    + apply not_mentions; exact F.
    + apply tilde_joined. destruct (h_name col); discriminate.
    + rewrite (Forall2_length Fa). apply (each_iff _ _ _ _ (display_row_iff (length HA))). exact R.
    + rewrite insert_behind. reflexivity.
  - intros (A & col & B & u & HA & hc & sd & HB & rows & EH & Ub & Fa & Hc & FB & T & F & J & R & ->).
    rewrite EH. assert (E : each header_text (A ++ col :: B) = Ok (HA ++ hc :: HB)).
    { apply (each_iff _ _ _ _ heading_iff). apply Forall2_app; [exact Fa|constructor; assumption]. }
    rewrite E. cbn [bind]. rewrite (proj2 (first_index_iff _ _ _ (length HA))).
    2:{ exists HA, hc, HB. repeat split; [apply mentions_iff; exact T|apply not_mentions; exact F]. }
    cbn [item bind]. rewrite nth_error_app2 by (rewrite (Forall2_length Fa); lia). rewrite (Forall2_length Fa), Nat.sub_diag. cbn [nth_error item bind].
    rewrite Ub. cbn [default_units bind]. rewrite <- (Forall2_length Fa). rewrite (proj2 (each_iff _ _ _ _ (display_row_iff (length A)) _ _) R). cbn [bind].
    rewrite (Forall2_length Fa), insert_behind. apply joined_tilde in J. subst sd. reflexivity.
Qed.

(** ** make_strehlow_table *)
Lemma holds_iff : forall name l v, first_value name l = v <-> holds name l v.
Proof.
  intros name. unfold first_value. induction l as [|a l IH]; intros v; cbn.
  - split; [intros <-; right; split; [intros b []|reflexivity]|].
    intros [([|] & b & y & H & _)|(_ & ->)]; [discriminate|discriminate|reflexivity].
  - destruct (String.eqb (ta_name a) name) eqn:E.
    + apply String.eqb_eq in E. split.
      * intros <-. left. exists [], a, l. repeat split; [assumption|intros b []].
      * intros [([|z x] & b & y & H & N & -> & F)|(F & _)]; cbn in *.
        -- inversion H; subst. reflexivity.
        -- inversion H; subst. destruct (F z (or_introl eq_refl) eq_refl).
        -- destruct (F a (or_introl eq_refl) E).
    + apply String.eqb_neq in E. rewrite IH. split.
      * intros [(x & b & y & -> & N & -> & F)|(F & ->)].
        -- left. exists (a :: x), b, y. repeat split; [assumption|]. intros c [->|H]; [exact E|apply F; exact H].
        -- right. split; [|reflexivity]. intros c [->|H]; [exact E|apply F; exact H].
      * intros [([|z x] & b & y & H & N & -> & F)|(F & ->)]; cbn in *.
        -- inversion H; subst. congruence.
        -- inversion H; subst. left. exists x, b, y. repeat split. intros c K. apply F. right; exact K.
        -- right. split; [|reflexivity]. intros c K. apply F. right; exact K.
Qed.
Lemma dict_update_get : forall (items d : list (string * cbounds)) k,
  dict_get k (dict_update items d) = match dict_get k (rev items) with Some v => Some v | None => dict_get k d end.
Proof.
  unfold dict_update. intros items. induction items as [|(k', v') items IH]; intros d k; cbn [fold_left rev fst snd]; [reflexivity|].
  rewrite IH.
  assert (X : forall a b : list (string * cbounds), dict_get k (a ++ b) = match dict_get k a with Some v => Some v | None => dict_get k b end).
  { induction a as [|(k2, v2) a IHa]; intros b; cbn; [reflexivity|]. destruct (String.eqb k k2); [reflexivity|apply IHa]. }
  rewrite X. destruct (dict_get k (rev items)); [reflexivity|]. cbn.
  destruct (String.eqb k k') eqn:E.
  - apply String.eqb_eq in E. subst k'. clear. induction d as [|(a, b) d IH]; cbn; [rewrite String.eqb_refl; reflexivity|].
    destruct (String.eqb k a) eqn:E; cbn; rewrite E; [reflexivity|exact IH].
  - clear -E. induction d as [|(a, b) d IH]; cbn; [rewrite E; reflexivity|].
    destruct (String.eqb k' a) eqn:E2; cbn; [apply String.eqb_eq in E2; subst a; rewrite E; reflexivity|]. destruct (String.eqb k a); [reflexivity|exact IH].
Qed.
Lemma dict_get_first : forall (l : list (string * cbounds)) k v, dict_get k l = Some v <-> exists x y, l = x ++ (k, v) :: y /\ ~ In k (map fst x).
Proof.
  induction l as [|(k', v') l IH]; intros k v; cbn.
  - split; [discriminate|intros ([|] & y & H & _); discriminate].
  - destruct (String.eqb k k') eqn:E.
    + apply String.eqb_eq in E. subst k'. split.
      * intros H. inversion H; subst. exists [], l. split; [reflexivity|intros []].
      * intros ([|(a, b) x] & y & H & N); cbn in *; inversion H; subst; [reflexivity|]. destruct N. left; reflexivity.
    + apply String.eqb_neq in E. rewrite IH. split.
      * intros (x & y & -> & N). exists ((k', v') :: x), y. split; [reflexivity|]. cbn. intros [H|H]; [congruence|exact (N H)].
      * intros ([|(a, b) x] & y & H & N); cbn in *; inversion H; subst; [congruence|]. exists x, y. split; [reflexivity|]. intros K. apply N. right; exact K.
Qed.
Lemma templates_iff : forall m term b, dict_get term (templates_by_name m) = Some b <-> bounds_of term (mt_properties m ++ mt_conditions m ++ mt_parameters m) b.
Proof.
  intros m term b. unfold templates_by_name. rewrite dict_update_get. set (l := mt_properties m ++ mt_conditions m ++ mt_parameters m).
  assert (X : match dict_get term (rev l) with Some v => Some v | None => dict_get term [] end = dict_get term (rev l)) by (destruct (dict_get term (rev l)); reflexivity).
  rewrite X, dict_get_first. unfold bounds_of. split.
  - intros (x & y & H & N). exists (rev y), (rev x). split.
    + rewrite <- (rev_involutive l), H, rev_app_distr. cbn. rewrite <- app_assoc. reflexivity.
    + rewrite map_rev, <- in_rev. exact N.
  - intros (x & y & H & N). exists (rev y), (rev x). split.
    + rewrite H, rev_app_distr. cbn. rewrite <- app_assoc. reflexivity.
    + rewrite map_rev, <- in_rev. exact N.
Qed.
Lemma first_template_iff : forall l t, first_template l = Ok t <-> first_property l t.
Proof.
  induction l as [|c l IH]; intros t; cbn [first_template].
  - split; [discriminate|intros ([|] & x & y & s & a & k & H & _); discriminate].
  - destruct (c_spec c) as [s|] eqn:E.
    + destruct (ms_properties s) as [|(a, t') k] eqn:P.
      * rewrite IH. split.
        -- intros (b & d & r & s' & a & k & -> & D & M & F). exists (c :: b), d, r, s', a, k. repeat split; try assumption.
           intros x [->|H]; [exists s; split; assumption|apply F; exact H].
        -- intros ([|z b] & d & r & s' & a & k & H & D & M & F); cbn in H; inversion H; subst; [congruence|].
           exists b, d, r, s', a, k. repeat split; try assumption. intros x K. apply F. right; exact K.
      * split.
        -- intros H. inversion H; subst. exists [], c, l, s, a, k. repeat split; try assumption. intros x [].
        -- intros ([|z b] & d & r & s' & a' & k' & H & D & M & F); cbn in H; inversion H; subst.
           ++ rewrite E in D. injection D as <-. rewrite P in M. injection M as _ <- _. reflexivity.
           ++ destruct (F z (or_introl eq_refl)) as (s2 & E2 & P2). rewrite E in E2. injection E2 as <-. congruence.
    + split; [discriminate|].
      intros ([|z b] & d & r & s' & a' & k' & H & D & M & F); cbn in H; inversion H; subst; [congruence|].
      destruct (F z (or_introl eq_refl)) as (s2 & E2 & P2). congruence.
Qed.
Lemma each_const : forall A B (f : A -> B) l, each (fun x => Ok (f x)) l = Ok (map f l).
Proof. induction l; cbn; [reflexivity|]. rewrite IHl. reflexivity. Qed.
Lemma row_iff : forall chem c row, comp_row chem c = Ok row <-> row_of chem c row.
Proof.
  intros chem c row. unfold comp_row, row_of. destruct (c_spec c) as [s|]; cbn [attribute bind].
  2:{ split; [discriminate|intros (s & m & ms & v & vs & H & _); discriminate]. }
  destruct (c_measurements c) as [|m ms]; cbn [hd_error item bind].
  - split; [cbn; discriminate|intros (s' & m & ms & v & vs & _ & H & _); discriminate].
  - rewrite each_const. cbn [bind]. split.
    + intros H. injection H as <-. eexists s, m, ms, _, _. repeat split; [apply holds_iff; reflexivity|].
      apply (proj1 (each_iff _ _ (fun term => Ok (first_value term (me_properties m ++ me_conditions m))) (fun term v => holds term (me_properties m ++ me_conditions m) v)
               ltac:(intros x y; rewrite <- holds_iff; split; [intros K; injection K as K; exact K|intros <-; reflexivity]) terms _)).
      apply each_const.
    + intros (s' & m' & ms' & v & vs & E1 & E2 & -> & H1 & H2). injection E1 as <-. injection E2 as <- <-.
      apply holds_iff in H1. rewrite H1. f_equal. f_equal. f_equal.
      apply (proj2 (each_iff _ _ (fun term => Ok (first_value term (me_properties m ++ me_conditions m))) (fun term v => holds term (me_properties m ++ me_conditions m) v)
               ltac:(intros x y; rewrite <- holds_iff; split; [intros K; injection K as K; exact K|intros <-; reflexivity]) terms _)) in H2.
      rewrite each_const in H2. injection H2 as H2. exact H2.
Qed.
Lemma table_all : forall compounds t, make_strehlow_table compounds = Ok t <->
  exists c0 rest s0 m0 ms mt mat chem hs rows, compounds = c0 :: rest /\ c_spec c0 = Some s0 /\ c_measurements c0 = m0 :: ms
    /\ me_template m0 = Some mt /\ ms_template s0 = Some mat /\ first_property compounds (Some chem)
    /\ Forall2 (fun term h => exists b, bounds_of term (mt_properties mt ++ mt_conditions mt ++ mt_parameters mt) b /\ h = mkH [mat; term] (Some b)) terms hs
    /\ Forall2 (row_of chem) compounds rows
    /\ t = mkS (mkH [mat; "Display name"] None :: mkH [mat; chem] (Some CompB) :: hs) rows.
Proof.
  intros compounds t. unfold make_strehlow_table.
  assert (Hh : forall mt mat x y, (do b <- item (dict_get x (templates_by_name mt)) KeyError; Ok (mkH [mat; x] (Some b))) = Ok y <->
     exists b, bounds_of x (mt_properties mt ++ mt_conditions mt ++ mt_parameters mt) b /\ y = mkH [mat; x] (Some b)).
  { intros mt mat x y. rewrite bind_ok. split.
    - intros (b & H & K). apply item_ok in H. apply templates_iff in H. exists b. split; [exact H|congruence].
    - intros (b & H & ->). exists b. split; [apply item_ok, templates_iff; exact H|reflexivity]. }
  split.
  - intros H. apply bind_ok in H. destruct H as (ct & T & H). apply bind_ok in H. destruct H as (c0 & C & H). apply item_ok in C.
    apply bind_ok in H. destruct H as (s0 & S0 & H). apply attribute_ok in S0. apply bind_ok in H. destruct H as (m0 & M & H). apply item_ok in M.
    apply bind_ok in H. destruct H as (mt & MT & H). apply attribute_ok in MT. apply bind_ok in H. destruct H as (mat & MA & H). apply attribute_ok in MA.
    apply bind_ok in H. destruct H as (chem & CH & H). apply attribute_ok in CH. apply bind_ok in H. destruct H as (hs & HS & H).
    apply bind_ok in H. destruct H as (rows & R & H). injection H as <-.
    destruct compounds as [|c rest]; [discriminate|]. injection C as ->. destruct (c_measurements c0) as [|m ms] eqn:EM; [discriminate|]. injection M as ->. subst ct.
    exists c0, rest, s0, m0, ms, mt, mat, chem, hs, rows. repeat split; try assumption.
    + apply first_template_iff; exact T.
    + apply (each_iff _ _ _ _ (Hh mt mat)). exact HS.
    + apply (each_iff _ _ _ _ (row_iff chem)). exact R.
  - intros (c0 & rest & s0 & m0 & ms & mt & mat & chem & hs & rows & E & S0 & M & MT & MA & T & HS & R & ->).
    rewrite (proj2 (first_template_iff _ _) T). cbn [bind]. pose proof (proj2 (each_iff _ _ _ _ (row_iff chem) _ _) R) as R'. subst compounds.
    cbn [hd_error item bind]. rewrite S0. cbn [attribute bind]. rewrite M. cbn [hd_error item bind]. rewrite MT. cbn [attribute bind]. rewrite MA. cbn [attribute bind].
    rewrite (proj2 (each_iff _ _ _ _ (Hh mt mat) _ _) HS). cbn [bind]. rewrite R'. reflexivity.
Qed.

(** ** make_strehlow_objects *)
Definition fresh (seen : list string) (x : pattr * string * string) : bool := negb (existsb (String.eqb (nm x)) seen).
Lemma fresh_iff : forall seen x, fresh seen x = true <-> ~ In (nm x) seen.
Proof. intros seen x. unfold fresh. rewrite negb_true_iff. apply existsb_out. Qed.
Lemma filter_filter : forall A (f g : A -> bool) l, filter f (filter g l) = filter (fun x => g x && f x) l.
Proof. induction l as [|x l IH]; cbn; [reflexivity|]. destruct (g x); cbn; [destruct (f x); rewrite IH; reflexivity|exact IH]. Qed.
Lemma kept_skip : forall seen x l, In (nm x) seen -> filter (fresh seen) (firsts (x :: l)) = filter (fresh seen) (firsts l).
Proof.
  intros seen x l I. cbn [firsts filter]. assert (F : fresh seen x = false).
  { destruct (fresh seen x) eqn:E; [|reflexivity]. apply fresh_iff in E. contradiction. }
  rewrite F, filter_filter. apply filter_ext. intros y. destruct (fresh seen y) eqn:E; [|apply andb_false_r]. rewrite andb_true_r.
  apply fresh_iff in E. destruct (String.eqb (nm y) (nm x)) eqn:K; [|reflexivity]. apply String.eqb_eq in K. rewrite K in E. contradiction.
Qed.
Lemma kept_take : forall seen x l, ~ In (nm x) seen -> filter (fresh seen) (firsts (x :: l)) = x :: filter (fresh (nm x :: seen)) (firsts l).
Proof.
  intros seen x l I. cbn [firsts filter]. rewrite (proj2 (fresh_iff seen x) I). f_equal. rewrite filter_filter. apply filter_ext. intros y.
  unfold fresh. cbn [existsb]. rewrite negb_orb. reflexivity.
Qed.
Lemma fresh_all : forall l, filter (fresh []) l = l.
Proof. induction l; cbn; [reflexivity|f_equal; assumption]. Qed.
Lemma name_map_iff : forall n m, name_map n = Some m <-> second_column n m.
Proof.
  intros n m. unfold name_map, second_column. destruct (String.eqb n "Phase") eqn:E.
  - apply String.eqb_eq in E. subst n. split; [intros H; inversion H; left; split; reflexivity|intros [(_ & ->)|(H & _)]; [reflexivity|discriminate]].
  - apply String.eqb_neq in E. destruct (String.eqb n "Transition") eqn:E2.
    + apply String.eqb_eq in E2. subst n. split; [intros H; inversion H; right; split; reflexivity|intros [(H & _)|(_ & ->)]; [discriminate|reflexivity]].
    + apply String.eqb_neq in E2. split; [discriminate|intros [(H & _)|(H & _)]; contradiction].
Qed.
Lemma template_iff : forall a name k b, template_for a = Ok (name, (k, b)) <-> destination (i_name a) (i_value a) name k b.
Proof.
  intros a name k b. unfold template_for. split.
  - intros H. apply bind_ok in H. destruct H as ((k0, b0) & T & H). apply item_ok in T. destruct (name_map (i_name a)) as [m|] eqn:M.
    + cbn [snd] in H. destruct b0 as [|cs| |]; try discriminate. apply name_map_iff in M. destruct (existsb _ cs) eqn:E.
      * injection H as <- <- <-. eapply dest_first; [exact T|exact M|apply existsb_in; exact E].
      * apply bind_ok in H. destruct H as ((k1, b1) & T1 & H). apply item_ok in T1. injection H as <- <- <-.
        eapply dest_second; [exact T|exact M|apply existsb_out; exact E|exact T1].
    + injection H as <- <- <-. apply dest_own; [exact T|]. intros m K. apply name_map_iff in K. congruence.
  - intros D. remember (i_name a) as n. remember (i_value a) as v. destruct D as [n v k b T N|n m v k cs T C I|n m v k cs k' b T C I T'].
    + rewrite T. cbn [item bind]. destruct (name_map n) as [m|] eqn:M; [apply name_map_iff in M; destruct (N m M)|reflexivity].
    + rewrite T. cbn [item bind]. rewrite (proj2 (name_map_iff _ _) C). cbn [snd]. rewrite (proj2 (existsb_in _ _) I). reflexivity.
    + rewrite T. cbn [item bind]. rewrite (proj2 (name_map_iff _ _) C). cbn [snd]. rewrite (proj2 (existsb_out _ _) I). rewrite T'. reflexivity.
Qed.
Section Objects.
  Variable to_float : string -> res Q.
  Variable convert : Q -> string -> string -> res Q.
  Variable units_error : string -> option exn.
  Variable formula_error : string -> option exn.
  Notation content_value := (content_value to_float convert units_error).
  Notation valued := (valued to_float convert units_error).
  Notation stored := (stored to_float convert units_error).
  Notation attributes_from := (attributes_from to_float convert units_error).
  Notation measurement_of := (measurement_of to_float convert units_error).
  Notation objects_from := (objects_from to_float convert units_error formula_error).
  Notation run_made := (run_made to_float convert units_error formula_error).
  Lemma with_units_ok : forall A u (x y : A), with_units units_error u x = Ok y <-> units_error u = None /\ y = x.
  Proof. intros A u x y. unfold with_units. destruct (units_error u); split; [discriminate|intros (H & _); discriminate|intros H; injection H as ->; split; reflexivity|intros (_ & ->); reflexivity]. Qed.
  Lemma valued_iff : forall b a v, content_value b a = Ok v <-> valued b a v.
  Proof.
    intros b a v. split.
    - destruct b as [u|cs| |]; cbn [SacModel.content_value]; try discriminate.
      + unfold real_mapper. destruct (i_uncertainty a) as [unc|] eqn:U.
        * intros H. apply bind_ok in H. destruct H as (w & W & H). apply item_ok in W. destruct (String.eqb w "eV") eqn:E.
          -- apply String.eqb_eq in E. subst w. apply bind_ok in H. destruct H as (x & X & H). apply bind_ok in H. destruct H as (y & Y & H).
             rewrite X in H. cbn [bind] in H. rewrite Y in H. cbn [bind] in H. apply with_units_ok in H. destruct H as (N & ->).
             eapply val_electronvolt; eassumption.
          -- apply String.eqb_neq in E. apply bind_ok in H. destruct H as (x & X & H). apply bind_ok in H. destruct H as (y & Y & H).
             apply with_units_ok in H. destruct H as (N & ->). eapply val_normal; eassumption.
        * intros H. apply bind_ok in H. destruct H as (x & X & H). apply bind_ok in H. destruct H as (w & W & H). apply item_ok in W.
          apply with_units_ok in H. destruct H as (N & ->). apply val_nominal; assumption.
      + intros H. injection H as <-. constructor.
    - intros V. destruct V as [cs a|u' a u x U W X N|u' a unc u x sd U W E X Y N|u' a unc x y U W X Y N]; cbn [SacModel.content_value]; [reflexivity| | |]; unfold real_mapper; rewrite U, W, X; cbn [item bind].
      + apply with_units_ok. split; [exact N|reflexivity].
      + rewrite (proj2 (String.eqb_neq _ _) E), Y. cbn [bind]. apply with_units_ok. split; [exact N|reflexivity].
      + cbn [String.eqb Ascii.eqb Bool.eqb]. rewrite Y. cbn [bind]. apply with_units_ok. split; [exact N|reflexivity].
  Qed.
  Fixpoint somes {A} (l : list (option A)) : list A := match l with [] => [] | Some x :: r => x :: somes r | None :: r => somes r end.
  Lemma attributes_iff : forall l seen out, attributes_from seen l = Ok out <-> exists os, Forall2 stored (filter (fresh seen) (firsts l)) os /\ out = somes os.
  Proof.
    induction l as [|((a, origin), method) l IH]; intros seen out; cbn [SacModel.attributes_from].
    - split; [intros H; injection H as <-; exists []; split; [constructor|reflexivity]|intros (os & F & ->); inversion F; reflexivity].
    - destruct (existsb (String.eqb (i_name a)) seen) eqn:E.
      + rewrite kept_skip by (apply existsb_in; exact E). apply IH.
      + rewrite kept_take by (apply existsb_out; exact E). change (nm (a, origin, method)) with (i_name a). split.
        * intros H. apply bind_ok in H. destruct H as ((name, (k, b)) & T & H). apply template_iff in T. destruct k.
          -- apply bind_ok in H. destruct H as (v & V & H). apply bind_ok in H. destruct H as (rest & R & H). injection H as <-.
             apply IH in R. destruct R as (os & F & ->). exists (Some (true, mkTA name v origin method) :: os). split; [|reflexivity].
             constructor; [|exact F]. exists name, PropertyK, b. split; [exact T|]. exists v. split; [apply valued_iff; exact V|reflexivity].
          -- apply bind_ok in H. destruct H as (v & V & H). apply bind_ok in H. destruct H as (rest & R & H). injection H as <-.
             apply IH in R. destruct R as (os & F & ->). exists (Some (false, mkTA name v origin method) :: os). split; [|reflexivity].
             constructor; [|exact F]. exists name, ConditionK, b. split; [exact T|]. exists v. split; [apply valued_iff; exact V|reflexivity].
          -- apply IH in H. destruct H as (os & F & ->). exists (None :: os). split; [|reflexivity]. constructor; [|exact F].
             exists name, ObjectK, b. split; [exact T|reflexivity].
        * intros (os & F & ->). inversion F as [|? o ? os' St F']; subst. destruct St as (name & k & b & T & K). apply template_iff in T. rewrite T. cbn [bind].
          assert (R : attributes_from (i_name a :: seen) l = Ok (somes os')) by (apply IH; exists os'; split; [exact F'|reflexivity]).
          destruct k.
          -- destruct K as (v & V & ->). apply valued_iff in V. rewrite V. cbn [bind]. rewrite R. reflexivity.
          -- destruct K as (v & V & ->). apply valued_iff in V. rewrite V. cbn [bind]. rewrite R. reflexivity.
          -- subst o. exact R.
  Qed.
  Lemma taken_somes : forall l, map snd (filter (fun x => fst x) (somes l)) = taken true l /\ map snd (filter (fun x => negb (fst x)) (somes l)) = taken false l.
  Proof.
    induction l as [|[(q, a)|] l (IH1 & IH2)]; cbn; [split; reflexivity| |split; assumption].
    destruct q; cbn; rewrite ?IH1, ?IH2; split; reflexivity.
  Qed.
  Lemma measurement_iff : forall r m, measurement_of r = Ok m <-> exists l, Forall2 stored (firsts (flat_map attributes_of (r_properties r))) l
      /\ m = mkME (Some (mkMT measurement_properties measurement_conditions [])) (taken true l) (taken false l).
  Proof.
    intros r m. unfold SacModel.measurement_of. rewrite bind_ok. split.
    - intros (out & H & K). apply attributes_iff in H. rewrite fresh_all in H. destruct H as (os & F & ->). exists os. split; [exact F|].
      destruct (taken_somes os) as (T1 & T2). injection K as <-. rewrite T1, T2. reflexivity.
    - intros (l & F & ->). exists (somes l). split; [apply attributes_iff; rewrite fresh_all; exists l; split; [exact F|reflexivity]|].
      destruct (taken_somes l) as (T1 & T2). rewrite T1, T2. reflexivity.
  Qed.
  Lemma listed_iff : forall ps x, listed ps x <-> x = flat_map attributes_of ps.
  Proof.
    assert (O : forall d o, origin_said d o <-> o = origin_of d).
    { intros d o. split.
      - intros [| |d' N1 N2]; [reflexivity|reflexivity|]. destruct d' as [t|]; [|reflexivity]. cbn. destruct (String.eqb_spec t "EXPERIMENTAL"); [congruence|]. destruct (String.eqb_spec t "COMPUTATIONAL"); [congruence|reflexivity].
      - intros ->. destruct d as [t|]; [|constructor; discriminate]. cbn. destruct (String.eqb_spec t "EXPERIMENTAL") as [->|N]; [constructor|]. destruct (String.eqb_spec t "COMPUTATIONAL") as [->|N']; [constructor|]. constructor; congruence. }
    assert (M : forall m n, method_said m n <-> n = method_of m) by (intros m n; split; [intros []; reflexivity|intros ->; destruct m; constructor]).
    induction ps as [|[a cs d m] ps IH]; intros x.
    - split; [intros H; inversion H; reflexivity|intros ->; constructor].
    - split.
      + intros H. inversion H as [|? ? ? ? o n ? l Ho Hn Hl]; subst. apply O in Ho. apply M in Hn. apply IH in Hl. subst. reflexivity.
      + intros ->. cbn. constructor; [apply O; reflexivity|apply M; reflexivity|apply IH; reflexivity].
  Qed.
  Lemma made_iff : forall r c, (do s <- spec_for formula_error (clean (r_formula r)); do m <- measurement_of r; Ok (mkC (Some s) [m])) = Ok c <-> run_made r c.
  Proof.
    intros r c. unfold SacSpec.run_made, spec_for. split.
    - destruct (formula_error (clean (r_formula r))) eqn:E; cbn [bind]; [discriminate|]. intros H. apply bind_ok in H. destruct H as (m & M & H). injection H as <-.
      apply measurement_iff in M. destruct M as (l & F & ->). eexists _, _, _, l. split; [reflexivity|]. split; [exact E|]. split; [reflexivity|]. split; [apply listed_iff; reflexivity|]. split; [exact F|reflexivity].
    - intros (f & m & x & l & -> & E & -> & X & F & M). apply listed_iff in X. subst x. rewrite E. cbn [bind]. assert (K : measurement_of r = Ok m) by (apply measurement_iff; exists l; split; assumption).
      rewrite K. reflexivity.
  Qed.
  Lemma objects_made : forall table d runs, objects_from d table = Ok runs -> Forall2 run_made table (map snd runs).
  Proof.
    induction table as [|r table IH]; intros d runs; cbn [SacModel.objects_from].
    - intros H. injection H as <-. constructor.
    - destruct (match dict_get _ d with Some n => _ | None => _ end) as (id, d'). intros H. apply bind_ok in H. destruct H as (s & S1 & H).
      apply bind_ok in H. destruct H as (m & M & H). apply bind_ok in H. destruct H as (rest & R & H). injection H as <-. cbn [map snd]. constructor; [|apply (IH d'); exact R].
      apply made_iff. rewrite S1. cbn [bind]. rewrite M. reflexivity.
  Qed.
  Lemma objects_succeed : forall table d cs, Forall2 run_made table cs -> exists runs, objects_from d table = Ok runs /\ map snd runs = cs.
  Proof.
    induction table as [|r table IH]; intros d cs F; inversion F as [|? c ? cs' M F']; subst; cbn [SacModel.objects_from]; [exists []; split; reflexivity|].
    destruct (match dict_get _ d with Some n => _ | None => _ end) as (id, d'). apply made_iff in M. apply bind_ok in M. destruct M as (s & S1 & M).
    apply bind_ok in M. destruct M as (m & M & K). injection K as <-. rewrite S1. cbn [bind]. rewrite M. cbn [bind].
    destruct (IH d' cs' F') as (runs & -> & <-). cbn [bind]. eexists. split; reflexivity.
  Qed.
  (** the dictionary of specs: different formulas have different specs *)
  Definition apart (d : list (string * nat)) : Prop :=
    (forall f n, dict_get f d = Some n -> n < length d) /\ (forall f g n, dict_get f d = Some n -> dict_get g d = Some n -> f = g).
  Lemma dict_get_snoc : forall (d : list (string * nat)) k k' v, dict_get k (d ++ [(k', v)]) = match dict_get k d with Some x => Some x | None => if String.eqb k k' then Some v else None end.
  Proof. induction d as [|(a, b) d IH]; intros k k' v; cbn; [reflexivity|]. destruct (String.eqb k a); [reflexivity|apply IH]. Qed.
  Lemma objects_ids : forall table d runs, apart d -> objects_from d table = Ok runs ->
    exists d', apart d' /\ (forall f n, dict_get f d = Some n -> dict_get f d' = Some n) /\ Forall2 (fun r x => dict_get (clean (r_formula r)) d' = Some (fst x)) table runs.
  Proof.
    induction table as [|r table IH]; intros d runs P; cbn [SacModel.objects_from].
    - intros H. injection H as <-. exists d. split; [exact P|]. split; [tauto|constructor].
    - destruct (match dict_get _ d with Some n => _ | None => _ end) as (id, d1) eqn:E. intros H. apply bind_ok in H. destruct H as (s & S1 & H).
      apply bind_ok in H. destruct H as (m & M & H). apply bind_ok in H. destruct H as (rest & R & H). injection H as <-.
      assert (X : apart d1 /\ (forall f n, dict_get f d = Some n -> dict_get f d1 = Some n) /\ dict_get (clean (r_formula r)) d1 = Some id).
      { destruct (dict_get (clean (r_formula r)) d) as [n|] eqn:G; injection E as <- <-; [repeat split; [exact (proj1 P)|exact (proj2 P)|tauto|exact G]|].
        destruct P as (P1 & P2). split; [split|split].
        - intros f n. rewrite dict_get_snoc, app_length. cbn. destruct (dict_get f d) eqn:F.
          + intros K. injection K as ->. apply P1 in F. lia.
          + destruct (String.eqb f _); [|discriminate]. intros K. injection K as <-. lia.
        - intros f g n. rewrite !dict_get_snoc. destruct (dict_get f d) eqn:F; destruct (dict_get g d) eqn:F2.
          + intros K K2. injection K as ->. injection K2 as ->. eapply P2; eassumption.
          + destruct (String.eqb g _) eqn:Eg; [|discriminate]. intros K K2. injection K as ->. injection K2 as <-. apply P1 in F. lia.
          + destruct (String.eqb f _) eqn:Ef; [|discriminate]. intros K K2. injection K2 as ->. injection K as <-. apply P1 in F2. lia.
          + destruct (String.eqb f _) eqn:Ef; [|discriminate]. destruct (String.eqb g _) eqn:Eg; [|discriminate].
            apply String.eqb_eq in Ef. apply String.eqb_eq in Eg. congruence.
        - intros f n F. rewrite dict_get_snoc, F. reflexivity.
        - rewrite dict_get_snoc, G, String.eqb_refl. reflexivity. }
      destruct X as (P1 & X1 & X2). destruct (IH d1 rest P1 R) as (d' & Pd & Y & F). exists d'. split; [exact Pd|]. split; [intros f n K; apply Y, X1, K|].
      constructor; [apply Y; exact X2|exact F].
  Qed.
  (** every value that is kept can be shown, and a band gap has a deviation *)
  Lemma destination_template : forall n v name k b, destination n v name k b -> tmpl name = Some (k, b).
  Proof. intros n v name k b D. destruct D; assumption. Qed.
  Lemma stored_values : forall l os, Forall2 stored l os -> forall p a, In a (taken p os) ->
    (exists s, shows (ta_value a) s) /\ (ta_name a = "Band gap" -> exists s, deviates (ta_value a) s).
  Proof.
    induction 1 as [|((x, origin), method) o l os St F IH]; intros p a I; [destruct I|].
    cbn [taken flat_map] in I. apply in_app_or in I. destruct I as [I|I]; [|apply (IH p); exact I].
    destruct St as (name & k & b & D & K). apply destination_template in D.
    assert (V : exists v q, valued b x v /\ o = Some (q, mkTA name v origin method)).
    { destruct k; [destruct K as (v & V & ->)|destruct K as (v & V & ->)|subst o; destruct I]; eexists _, _; split; try exact V; reflexivity. }
    destruct V as (v & q & V & ->). destruct (Bool.eqb p q); [|destruct I]. destruct I as [<-|[]]. cbn [ta_value ta_name]. split.
    - destruct V; eexists; constructor.
    - intros ->. vm_compute in D. injection D as <- <-. inversion V; subst; eexists; constructor.
  Qed.
End Objects.
