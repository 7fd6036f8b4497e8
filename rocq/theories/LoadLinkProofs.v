From Coq Require Import String List Bool Arith Lia.
From Verif Require Import Base BaseFacts GraphModel GraphSpec GraphProofs EqModel EqSpec TravSpec KeywordModel SerialModel SerialSpec SerialProofs SerialLinks SerialEntity LoadLinkSpec.
Import ListNotations.
Open Scope string_scope.
Open Scope list_scope.

(** ** Assigning the references of a new entity *)

(** [g'] is [g] but for read-only sides of references. *)
Definition keeps (g g' : heap) : Prop :=
  forall o e, hget g o = Some e -> exists e', hget g' o = Some e' /\ e_kind e' = e_kind e /\ e_uids e' = e_uids e
    /\ forall f, ~ read_only (e_kind e) f -> fget e' f = fget e f.

Lemma keeps_refl : forall g, keeps g g.
Proof. intros g o e H. exists e. auto. Qed.
Lemma keeps_trans : forall a b c, keeps a b -> keeps b c -> keeps a c.
Proof.
  intros a b c H K o e E. destruct (H _ _ E) as (e1 & E1 & A & B & C). destruct (K _ _ E1) as (e2 & E2 & A2 & B2 & C2).
  exists e2. repeat split; try congruence. intros f N. rewrite C2, C; auto. now rewrite A.
Qed.
Lemma keeps_set : forall g p f v k, kind_at g p = Some k -> read_only k f -> keeps g (set_field g p f v).
Proof.
  intros g p f v k K R o e E. unfold set_field. unfold kind_at in K. destruct (hget g p) as [x|] eqn:X; [|discriminate]. cbn in K. injection K as K.
  destruct (Nat.eq_dec p o) as [->|N].
  - rewrite E in X. injection X as <-. exists (mkE (e_kind e) (e_uids e) (dict_set f v (e_fields e))). split.
    + rewrite hget_hset, Nat.eqb_refl, E. reflexivity.
    + repeat split. intros f' N. unfold fget. cbn. rewrite dict_get_set_other; auto. intros ->. subst. contradiction.
  - exists e. split; auto. rewrite hget_hset. apply Nat.eqb_neq in N. now rewrite N.
Qed.

Lemma asked_other : forall k f, asked_kind k f k -> False.
Proof. intros k f H. unfold asked_kind in H. cbn in H. repeat destruct H as [E|H]; try contradiction; congruence. Qed.
Lemma kind_app_back : forall g k u fs p pk f, asked_kind k f pk -> is_kind (g ++ [mkE k u fs]) pk (PRef p) = true -> kind_at g p = Some pk.
Proof.
  intros g k u fs p pk f A H. apply is_kind_ref in H. assert (L := kind_lt _ _ _ H). rewrite app_length in L. cbn in L.
  destruct (Nat.eq_dec p (length g)) as [->|N].
  - rewrite kind_app2 in H. cbn in H. injection H as ->. destruct (asked_other _ _ A).
  - rewrite kind_app1 in H; auto. lia.
Qed.

Lemma assign_inv : forall eq g k u fs f v h', reference k f -> dict_get f fs = Some PNone ->
  assign eq (g ++ [mkE k u fs]) (length g) f v = (h', None) ->
  exists g1, h' = g1 ++ [mkE k u (dict_set f v fs)] /\ length g1 = length g /\ keeps g g1.
Proof.
  intros eq g k u fs f v h' [pk A] N H. unfold assign in H. rewrite kind_app2 in H. cbn [e_kind] in H.
  assert (Fv : fval (g ++ [mkE k u fs]) (length g) f = PNone) by (rewrite fval_app2; unfold fget; cbn; now rewrite N).
  assert (Easy : forall h', set_field (g ++ [mkE k u fs]) (length g) f v = h' -> exists g1, h' = g1 ++ [mkE k u (dict_set f v fs)] /\ length g1 = length g /\ keeps g g1).
  { intros h1 <-. rewrite set_field_app2. exists g. auto using keeps_refl. }
  assert (Plain : set_plain pk f (g ++ [mkE k u fs]) (length g) v = (h', None) ->
     exists g1, h' = g1 ++ [mkE k u (dict_set f v fs)] /\ length g1 = length g /\ keeps g g1).
  { intros E. unfold set_plain in E. destruct v; try break_if; try discriminate; injection E as E; auto. }
  destruct (asked_role _ _ _ A) as [R|[(R & -> & ->)|[[R ->]|(lf & R & Ls)]]]; rewrite R in H.
  - auto.
  - unfold set_ing_spec in H. rewrite Fv in H. auto.
  - unfold set_process in H. rewrite Fv in H. destruct v; try discriminate; try (injection H as H; auto; fail).
    destruct (is_kind _ _ _) eqn:K; [|discriminate]. injection H as <-. apply (kind_app_back _ _ _ _ _ _ _ A) in K.
    assert (Lp := kind_lt _ _ _ K). rewrite set_field_app1 by auto. rewrite set_field_last by apply set_field_length.
    eexists. split; [reflexivity|]. split; [apply set_field_length|]. eapply keeps_set; eauto.
    clear - A. unfold asked_kind in A. cbn in A. repeat destruct A as [E|A]; try contradiction; inv E; unfold read_only; tauto.
  - unfold set_owned in H. rewrite Fv in H. destruct v; try discriminate; try (injection H as H; auto; fail).
    destruct (is_kind _ _ _) eqn:K; [|discriminate]. apply (kind_app_back _ _ _ _ _ _ _ A) in K.
    assert (Lp := kind_lt _ _ _ K). cbv zeta in H. rewrite set_field_app2 in H. destruct (fval _ _ lf); try discriminate. injection H as <-.
    rewrite set_field_app1 by auto. eexists. split; [reflexivity|]. split; [apply set_field_length|]. eapply keeps_set; eauto.
    destruct Ls as [E|[E|E]]; inv E; unfold read_only; tauto.
Qed.

Lemma assign_all_inv : forall lower k u args g fs h', NoDup (map fst args) ->
  (forall f v, In (f, v) args -> reference k f /\ dict_get f fs = Some PNone) ->
  assign_all lower (g ++ [mkE k u fs]) (length g) args = Ok h' ->
  exists g1, h' = g1 ++ [mkE k u (dict_update args fs)] /\ length g1 = length g /\ keeps g g1.
Proof.
  intros lower k u args. induction args as [|[f v] args IH]; intros g fs h' N H E; cbn [assign_all] in E.
  - injection E as <-. exists g. auto using keeps_refl.
  - destruct (assign _ _ _ f v) as [h1 [x|]] eqn:A; [discriminate|]. destruct (H f v (or_introl eq_refl)) as [R B].
    destruct (assign_inv _ _ _ _ _ _ _ _ R B A) as (g1 & -> & Lg & K1). cbn in N. apply NoDup_cons_iff in N as [N1 N2]. rewrite <- Lg in E.
    destruct (IH g1 (dict_set f v fs) h') as (g2 & -> & L2 & K2); auto.
    + intros f' v' I. destruct (H f' v' (or_intror I)) as [R' B']. split; auto. rewrite dict_get_set_other; auto.
      intros ->. apply N1. change f with (fst (f, v')). now apply in_map.
    + exists g2. split; auto. split; [congruence|]. eapply keeps_trans; eauto.
Qed.

Lemma keys_map_pair : forall A (F : string -> A) l, map fst (map (fun f => (f, F f)) l) = l.
Proof. intros. rewrite map_map. apply map_id. Qed.
Lemma nodup_ref_args : forall k, NoDup (ref_args k).
Proof. destruct k; cbn; repeat constructor; cbn; intuition discriminate. Qed.
Lemma blank_ref : forall k f, reference k f -> dict_get f (blank k) = Some PNone.
Proof. intros k f R. apply ref_args_iff in R. destruct k; cbn in R; repeat destruct R as [<-|R]; try contradiction; reflexivity. Qed.
Lemma dict_get_pairs : forall A (F : string -> A) l f, In f l -> dict_get f (map (fun f => (f, F f)) l) = Some (F f).
Proof. induction l as [|x l IH]; intros f I; [destruct I|]. cbn. destruct (String.eqb f x) eqn:E; str_eq; auto. destruct I as [->|I]; [congruence|auto]. Qed.
Lemma dict_get_pairs_none : forall A (F : string -> A) l f, ~ In f l -> dict_get f (map (fun f => (f, F f)) l) = None.
Proof. intros. apply dict_get_None. unfold keys. now rewrite keys_map_pair. Qed.

Lemma strings_of_inv : forall d u, strings_of d = Some u -> d = map (fun p => (fst p, PAtom (AStr (snd p)))) u.
Proof.
  induction d as [|[k v] d IH]; intros u H; cbn in H; [injection H as <-; reflexivity|].
  destruct v as [|a| | | | | |]; try discriminate. destruct a; try discriminate. destruct (strings_of d) as [u'|]; [|discriminate].
  injection H as <-. cbn. now rewrite <- (IH _ eq_refl).
Qed.

Lemma given_arg : forall d f, given d f (arg d f).
Proof. intros. unfold given, arg. destruct (dict_get f d); auto. Qed.

Section Load.
  Variable lower : string -> string.
  Variable known : string -> bool.
  Variable construct : heap -> string -> list (string * pv) -> res (list (string * pv)).

  Lemma uids_written : forall v u, uids_of lower v = Ok u -> written_uids v u.
  Proof.
    intros v u H. unfold written_uids.
    assert (K : forall w, match keyword_init lower w with Ok c => Ok (CidModel.tbl c) | Err e => Err e end = Ok u ->
      ~ In "self" (keys w) /\ (forall i, In ("seq", i) w -> i = "") /\ u = dict_update (filter (fun p => negb (String.eqb (fst p) "seq")) w) []).
    { intros w. unfold keyword_init. destruct (existsb _ w) eqn:E1; [discriminate|]. destruct (existsb (fun p => String.eqb (fst p) "seq" && _) w) eqn:E2; [discriminate|].
      unfold CidModel.init. destruct (CidModel.register_all _ _ _) as [l [x|]]; [discriminate|]. intros [= <-]. split; [|split; [|reflexivity]].
      - intros I. apply in_map_iff in I as (p & E & I). apply not_true_iff_false in E1. apply E1. apply existsb_exists. exists p. split; auto. rewrite E. reflexivity.
      - intros i I. destruct (String.eqb i "") eqn:E; [now apply String.eqb_eq in E|]. apply not_true_iff_false in E2. destruct E2. apply existsb_exists. exists ("seq", i). split; auto. cbn [fst snd]. rewrite E. reflexivity. }
    destruct v as [|a|s i|o|l|l|d|t fs]; cbn [uids_of] in H; try discriminate.
    - injection H as <-. auto.
    - destruct l as [|x r]; [discriminate|]. destruct x as [|a| | | | | |]; try discriminate. destruct a; try discriminate.
      destruct r as [|x r]; [discriminate|]. destruct x as [|a| | | | | |]; try discriminate. destruct a as [| | |s']; try discriminate.
      right. exists [(s, s')]. split; [right; eauto|]. apply K. exact H.
    - destruct (strings_of d) as [w|] eqn:E; [|discriminate]. apply strings_of_inv in E. subst d. right. exists w. split; [left; reflexivity|]. apply K. exact H.
  Qed.

  Notation makes := (makes construct).

  Lemma make_entity_makes : forall g ix k d v g' ix', make_entity lower construct (g, ix) k d = Ok (v, (g', ix')) ->
    v = PRef (length g) /\ makes g k d g' /\
    exists e, hget g' (length g) = Some e /\ ix' = map (fun p => ((lower (fst p), snd p), length g)) (rev (e_uids e)) ++ ix.
  Proof.
    intros g ix k d v g' ix' H. unfold make_entity in H. destruct (uids_of lower (arg d "uids")) as [u|] eqn:U; [|discriminate]. cbn [bind] in H.
    destruct (construct _ _ _) as [fs|] eqn:C; [|discriminate]. cbn [bind] in H.
    destruct (assign_all _ _ _ _) as [h'|] eqn:A; [|discriminate]. cbn [bind] in H. injection H as <- <- <-. split; auto.
    apply assign_all_inv in A as (g1 & -> & Lg & K).
    2: now rewrite keys_map_pair; apply nodup_ref_args.
    2: { intros f v I. apply in_map_iff in I as (f' & E & I). injection E as -> _. apply ref_args_iff in I. split; auto.
         rewrite dict_get_app. now rewrite (blank_ref _ _ I). }
    assert (Hn : forall e, hget (g1 ++ [e]) (length g) = Some e) by (intros; rewrite <- Lg; apply hget_app2).
    split; [constructor|].
    - rewrite app_length. cbn. lia.
    - intros o e E. destruct (K _ _ E) as (e' & E' & X). exists e'. split; auto. rewrite hget_app1; auto. eapply hget_lt; eauto.
    - eexists. exists (arg d "uids"). split; [apply Hn|]. cbn [e_kind e_uids]. split; auto. split; [apply given_arg|].
      split; [now apply uids_written|]. split.
      + intros f R. unfold fget. cbn [e_fields]. rewrite dict_get_update by (unfold keys; rewrite keys_map_pair; apply nodup_ref_args).
        rewrite dict_get_pairs by now apply ref_args_iff. apply given_arg.
      + eexists. exists fs. split; [|split; [exact C|]].
        * intros f v. rewrite filter_In. cbn [fst]. rewrite negb_true_iff, orb_false_iff, String.eqb_neq. rewrite <- ref_args_iff.
          rewrite <- mem_str_iff. rewrite not_true_iff_false. tauto.
        * intros f R O. unfold fget. cbn [e_fields]. rewrite dict_get_update by (unfold keys; rewrite keys_map_pair; apply nodup_ref_args).
          rewrite dict_get_pairs_none by (rewrite ref_args_iff; auto). rewrite dict_get_app.
          replace (dict_get f (blank k)) with (@None pv); [apply given_arg|]. symmetry. apply dict_get_None. rewrite blank_keys. tauto.
    - eexists. split; [apply Hn|]. reflexivity.
  Qed.

  (** ** The index *)

  Definition indexed (n0 : nat) (st : state) : Prop :=
    n0 <= length (fst st) /\ forall s i,
      match index_get (snd st) (lower s) i with
      | Some c => latest lower n0 (fst st) s i c
      | None => forall c, n0 <= c -> ~ has_uid lower (fst st) c s i
      end.

  Lemma has_uid_lt : forall g c s i, has_uid lower g c s i -> c < length g.
  Proof. intros g c s i (s' & (e & E & _) & _). eapply hget_lt; eauto. Qed.

  Lemma has_uid_old : forall g k d g', makes g k d g' -> forall c s i, c < length g -> (has_uid lower g' c s i <-> has_uid lower g c s i).
  Proof.
    intros g k d g' M c s i L. destruct (hget g c) as [e|] eqn:E; [|apply nth_error_None in E; lia].
    destruct (mk_old _ _ _ _ _ M _ _ E) as (e' & E' & _ & U & _). split; intros (s' & (x & X & I) & Ls).
    - rewrite E' in X. injection X as <-. rewrite U in I. exists s'. split; auto. exists e. auto.
    - rewrite E in X. injection X as <-. rewrite <- U in I. exists s'. split; auto. exists e'. auto.
  Qed.

  Lemma index_get_app : forall (a b : index) s i, index_get (a ++ b) s i = match index_get a s i with Some c => Some c | None => index_get b s i end.
  Proof.
    intros. unfold index_get. induction a as [|x a IH]; cbn; auto. destruct (_ && _); auto.
  Qed.

  Lemma index_get_new : forall (u : list (string * string)) (n : oid) s i,
    (index_get (map (fun p => ((lower (fst p), snd p), n)) u) (lower s) i = Some n /\ exists s', In (s', i) u /\ lower s' = lower s)
    \/ (index_get (map (fun p => ((lower (fst p), snd p), n)) u) (lower s) i = None /\ ~ exists s', In (s', i) u /\ lower s' = lower s).
  Proof.
    intros u n s i. unfold index_get. induction u as [|[a b] u IH].
    - right. split; auto. intros (s' & [] & _).
    - cbn [map find fst snd]. destruct (String.eqb (lower a) (lower s) && String.eqb b i) eqn:E.
      + apply andb_prop in E as [E1 E2]. str_eq. left. split; auto. exists a. split; auto. now left.
      + destruct IH as [[X (s' & I & Ls)]|[X N]].
        * left. split; auto. exists s'. split; auto. now right.
        * right. split; auto. intros (s' & [I|I] & Ls).
          -- injection I as -> ->. rewrite Ls, !String.eqb_refl in E. discriminate.
          -- apply N. eauto.
  Qed.

  Lemma indexed_make : forall n0 g ix k d g' e, indexed n0 (g, ix) -> makes g k d g' -> hget g' (length g) = Some e ->
    indexed n0 (g', map (fun p => ((lower (fst p), snd p), length g)) (rev (e_uids e)) ++ ix).
  Proof.
    intros n0 g ix k d g' e [Ln H] M E. assert (Lg := mk_length _ _ _ _ _ M). cbn [fst snd] in *. split; cbn [fst snd]; [lia|].
    intros s i. rewrite index_get_app. specialize (H s i). assert (Old := has_uid_old _ _ _ _ M).
    assert (New : has_uid lower g' (length g) s i <-> exists s', In (s', i) (rev (e_uids e)) /\ lower s' = lower s).
    { split.
      - intros (s' & (x & X & I) & Ls). rewrite E in X. injection X as <-. exists s'. now rewrite <- in_rev.
      - intros (s' & I & Ls). rewrite <- in_rev in I. exists s'. split; auto. exists e. auto. }
    match goal with |- context [match index_get ?a ?b ?c with _ => _ end] => remember (index_get a b c) as found eqn:Fd end.
    destruct (index_get_new (rev (e_uids e)) (length g) s i) as [[Y X]|[Y X]]; change (found = index_get (map (fun p => ((lower (fst p), snd p), length g : oid)) (rev (e_uids e))) (lower s) i) in Fd; rewrite Y in Fd; subst found.
    - split; [lia|]. split; [now apply New|]. intros c' Lc Hc. apply has_uid_lt in Hc. lia.
    - destruct (index_get ix (lower s) i) as [c|].
      + destruct H as (H1 & H2 & H3). assert (Lc := has_uid_lt _ _ _ _ H2). split; auto. split; [now apply Old|].
        intros c' Lc' Hc. assert (L' := has_uid_lt _ _ _ _ Hc). destruct (Nat.eq_dec c' (length g)) as [->|Nc].
        * apply X. now apply New.
        * apply Old in Hc; [|lia]. eapply H3; eauto.
      + intros c Lc Hc. assert (L' := has_uid_lt _ _ _ _ Hc). destruct (Nat.eq_dec c (length g)) as [->|Nc].
        * apply X. now apply New.
        * apply Old in Hc; [|lia]. eapply H; eauto.
  Qed.

  Lemma kind_of_inv : forall t k, kind_of t = Some k -> t = typ_of k.
  Proof. intros t k H. unfold kind_of in H. apply find_some in H as [_ H]. str_eq. auto. Qed.

  Notation reads := (reads lower known construct).
  Notation reads_all := (reads_all lower known construct).
  Notation reads_members := (reads_members lower known construct).
  Notation hooks := (hooks lower known construct).

  Lemma hook_ok : forall n0 g ix d v g' ix', indexed n0 (g, ix) -> load_and_index lower known construct true (g, ix) d = Ok (v, (g', ix')) ->
    hooks n0 g d v g' /\ indexed n0 (g', ix').
  Proof.
    intros n0 g ix d v g' ix' X H. unfold load_and_index in H. destruct (dict_get "type" d) as [t|] eqn:T.
    - destruct t as [|a| | | | | |]; try discriminate. destruct a as [ | | |t]; try discriminate.
      destruct (String.eqb t "link_by_uid") eqn:El; str_eq.
      + unfold make_link in H. rewrite !dict_get_del_other in H by discriminate.
        destruct (dict_get "scope" d) as [sv|] eqn:Es; [|discriminate]. destruct sv as [|a| | | | | |]; try discriminate. destruct a as [ | | |s]; try discriminate.
        destruct (dict_get "id" d) as [iv|] eqn:Ei; [|discriminate]. destruct iv as [|a| | | | | |]; try discriminate. destruct a as [ | | |i]; try discriminate.
        assert (Y := proj2 X s i). cbn [fst snd] in *. destruct (index_get ix (lower s) i) as [c|] eqn:Ec; injection H as <- <- <-.
        * split; auto. eapply hk_link; eauto. left. eauto.
        * split; auto. eapply hk_link; eauto. right. auto.
      + destruct (kind_of t) as [k|] eqn:Ek.
        * assert (t = typ_of k) by now apply kind_of_inv. subst t. apply make_entity_makes in H as (-> & M & e & E & ->). split.
          -- eapply hk_entity; eauto.
          -- eapply indexed_make; eauto.
        * destruct (known t) eqn:Kn; [|discriminate]. cbn [fst] in H. destruct (construct g t (dict_del "type" d)) as [fs|] eqn:C; [|discriminate].
          injection H as <- <- <-. split; auto. eapply hk_value; eauto.
    - injection H as <- <- <-. split; auto. constructor. now apply dict_get_None.
  Qed.

  Lemma decode_reads : forall j n0 g ix v g' ix', indexed n0 (g, ix) -> decode lower known construct true (g, ix) j = Ok (v, (g', ix')) ->
    reads n0 g j v g' /\ indexed n0 (g', ix').
  Proof.
    fix IH 1. intros j n0 g ix v g' ix' X H. destruct j as [|a|l|l].
    - injection H as <- <- <-. split; auto. constructor.
    - injection H as <- <- <-. split; auto. constructor.
    - rewrite decode_arr_eq in H. destruct (decode_list _ _ _ _ _ _) as [[vs [g1 ix1]]|] eqn:E; [|discriminate]. injection H as <- <- <-.
      enough (reads_all n0 g l vs g1 /\ indexed n0 (g1, ix1)) as [A B] by (split; auto; now constructor).
      revert g ix vs X E. induction l as [|x r IHl]; intros g ix vs X E; cbn [decode_list] in E.
      + injection E as <- <- <-. split; auto. constructor.
      + destruct (decode _ _ _ _ _ x) as [[w [g2 ix2]]|] eqn:E1; [|discriminate]. cbn [bind] in E.
        destruct (decode_list _ _ _ _ _ r) as [[ws [g3 ix3]]|] eqn:E2; [|discriminate]. injection E as <- <- <-.
        destruct (IH _ _ _ _ _ _ _ X E1) as [A B]. destruct (IHl _ _ _ B E2) as [C D]. split; auto. econstructor; eauto.
    - rewrite decode_obj_eq in H. destruct (decode_pairs _ _ _ _ _ _) as [[vs [g1 ix1]]|] eqn:E; [|discriminate]. cbn [bind] in H.
      enough (reads_members n0 g l vs g1 /\ indexed n0 (g1, ix1)) as [A B].
      { apply (hook_ok _ _ _ _ _ _ _ B) in H as [H1 H2]. split; auto. econstructor; eauto. }
      clear H. revert g ix vs X E. induction l as [|[k x] r IHl]; intros g ix vs X E; cbn [decode_pairs] in E.
      + injection E as <- <- <-. split; auto. constructor.
      + destruct (decode _ _ _ _ _ x) as [[w [g2 ix2]]|] eqn:E1; [|discriminate]. cbn [bind] in E.
        destruct (decode_pairs _ _ _ _ _ r) as [[ws [g3 ix3]]|] eqn:E2; [|discriminate]. injection E as <- <- <-.
        destruct (IH _ _ _ _ _ _ _ X E1) as [A B]. destruct (IHl _ _ _ B E2) as [C D]. split; auto. econstructor; eauto.
  Qed.

  Lemma indexed_nil : forall h, indexed (length h) (h, []).
  Proof. intros h. split; auto. intros s i. cbn. intros c L H. apply has_uid_lt in H. lia. Qed.
End Load.
