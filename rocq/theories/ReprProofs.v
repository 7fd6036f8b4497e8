(** Proofs about the text shown for objects and about nested serialisation. *)
From Coq Require Import String List Bool Arith Lia Permutation.
From Verif Require Import Base BaseFacts GraphModel GraphSpec GraphProofs EqModel EqSpec EqProofs TravModel TravSpec TravProofs TravProperties InstProofs SerialModel SerialSpec SerialProofs SerialEntity FlattenProofs ViewModel ViewSpec ViewProofs ReprModel ReprSpec.
Import ListNotations.
Open Scope string_scope.
Open Scope list_scope.
Open Scope nat_scope.

(** ** Which entities attributes mention, in any history *)

(** Attributes other than references mention attribute templates only, and these mention nothing. *)
Definition data_typed (h : heap) : Prop :=
  forall o k f x, kind_at h o = Some k -> ~ reference k f -> ~ read_only k f -> mentions (fval h o f) x ->
    attribute_template h x /\ ~ In k [KPropT; KCondT; KParamT].

Definition keys_ok (h : heap) : Prop :=
  forall o e f, hget h o = Some e -> In f (keys (e_fields e)) -> f <> "uids" /\ f <> "type".

Lemma in_keys_set : forall A f g (v : A) d, In f (keys (dict_set g v d)) -> f = g \/ In f (keys d).
Proof.
  intros A f g v d. induction d as [|[k w] d IH]; cbn; [intuition|]. destruct (String.eqb g k) eqn:E; cbn; str_eq; intuition.
Qed.

Lemma keys_ok_set : forall h o f v, f <> "uids" -> f <> "type" -> keys_ok h -> keys_ok (set_field h o f v).
Proof.
  intros h o f v N1 N2 K o' e g G I. rewrite hget_set_field in G. destruct (Nat.eqb o o').
  - destruct (hget h o) as [e0|] eqn:E; [|discriminate]. inv G. cbn in I. apply in_keys_set in I as [->|I]; eauto.
  - eauto.
Qed.

Lemma keys_ok_new : forall h k u n l extra, ~ In "uids" (keys extra) -> ~ In "type" (keys extra) -> keys_ok h ->
  keys_ok (h ++ [mkE k u (blank k ++ ("name", n) :: ("labels", l) :: extra)]).
Proof.
  intros h k u n l extra N1 N2 K o e f G I. unfold hget in G. destruct (Nat.lt_ge_cases o (length h)) as [L|L].
  - rewrite nth_error_app1 in G by auto. eapply K; eauto.
  - rewrite nth_error_app2 in G by auto. destruct (o - length h) as [|j]; [|destruct j; discriminate]. inv G. cbn in I.
    unfold keys in I. rewrite map_app in I. apply in_app_or in I as [I|I].
    + destruct k; cbn in I; intuition subst; discriminate.
    + cbn in I. destruct I as [<-|[<-|I]]; try (split; discriminate). split; intros ->; auto.
Qed.

Lemma role_name : forall k f r, role_of k f = Some r -> f <> "uids" /\ f <> "type".
Proof. intros k f r H. split; intros ->; destruct k; discriminate. Qed.
Lemma role_list : forall k f pk lf, role_of k f = Some (Owned pk lf) -> lf <> "uids" /\ lf <> "type".
Proof. intros k f pk lf R. apply role_owned in R. destruct R as [R|[R|R]]; injection R; intros; subst; split; discriminate. Qed.

Section Hist.
  Variable eq : heap -> pv -> oid -> bool.

  Lemma keys_ok_assign : forall h o f v, keys_ok h -> keys_ok (fst (assign eq h o f v)).
  Proof.
    intros h o f v K. unfold assign. destruct (kind_at h o) as [k|]; auto. destruct (role_of k f) as [[pk|pk lf|pk|]|] eqn:R; auto.
    all: try assert (N := role_name _ _ _ R); try assert (L := role_list _ _ _ _ R).
    - apply role_produce in R as [-> _]. unfold set_process. cbn zeta. repeat break_match; cbn [fst]; auto; repeat (apply keys_ok_set; [discriminate | discriminate |]); auto.
    - unfold set_owned. cbn zeta. repeat (break_match; cbn [fst]; auto; try discriminate);
        repeat match goal with H : Ok _ = Ok _ |- _ => injection H as <- end;
        repeat (apply keys_ok_set; [tauto | tauto |]); auto.
    - unfold set_plain. repeat break_match; cbn [fst]; auto; apply keys_ok_set; tauto.
    - unfold set_ing_spec, set_plain. cbn zeta. repeat break_match; cbn [fst]; auto; repeat (apply keys_ok_set; [discriminate | discriminate |]); auto.
  Qed.

  Lemma keys_ok_step : forall h op, plain_data h op -> keys_ok h -> keys_ok (fst (nstep eq h op)).
  Proof.
    intros h op P K. destruct op as [k u n l extra|o f v|o v|o v|o v]; cbn [nstep].
    - destruct (construct_cases h k u n l extra) as [[e ->]|[n' [l' [-> _]]]]; cbn [fst]; auto.
      destruct P as (_ & P1 & P2 & _). now apply keys_ok_new.
    - now apply keys_ok_assign.
    - unfold set_name. repeat break_match; cbn [fst]; auto; apply keys_ok_set; auto; discriminate.
    - unfold set_labels. repeat break_match; cbn [fst]; auto; apply keys_ok_set; auto; discriminate.
    - unfold add_label. cbn zeta. repeat break_match; cbn [fst]; auto; apply keys_ok_set; auto; discriminate.
  Qed.

  (** Assignments leave all attributes but references, read-only sides, names and labels alone. *)
  Lemma assign_rest : forall h o f v o' k' f', kind_at h o' = Some k' -> ~ ref_field f' -> ~ read_only k' f' ->
    f' <> "name" -> f' <> "labels" -> fval (fst (assign eq h o f v)) o' f' = fval h o' f'.
  Proof.
    intros h o f v o' k' f' K' NR NO N1 N2. unfold assign. destruct (kind_at h o) as [k|] eqn:K; auto.
    destruct (role_of k f) as [[pk|pk lf|pk|]|] eqn:R; auto.
    - apply role_produce in R as [-> C].
      assert (D : forall g p w, (forall x, kind_at g x = kind_at h x) -> is_kind g pk (PRef p) = true ->
                 fval (set_field g p "output_material" w) o' f' = fval g o' f').
      { intros g p w Kg Ip. apply is_kind_ref in Ip. rewrite Kg in Ip. apply fval_set_other.
        destruct (Nat.eq_dec p o') as [->|]; auto. right. intros <-. rewrite K' in Ip. inv Ip. apply NO. unfold read_only.
        right. destruct C as [[_ ->]|[_ ->]]; auto. }
      assert (D2 : forall g m w, fval (set_field g m "process" w) o' f' = fval g o' f').
      { intros. apply fval_set_other. right. intros <-. apply NR. cbn. auto. }
      unfold set_process. cbn zeta.
      set (h1 := match fval h o "process" with PRef p => if is_kind h pk (PRef p) then set_field h p "output_material" PNone else h | _ => h end).
      assert (Kh : forall x, kind_at h1 x = kind_at h x).
      { intros. unfold h1. repeat break_match; auto. apply kind_set_field. }
      assert (Fh : fval h1 o' f' = fval h o' f').
      { unfold h1. destruct (fval h o "process") as [| | |p| | | | ]; auto. destruct (is_kind h pk (PRef p)) eqn:Ip; auto. }
      destruct v; cbn [fst]; rewrite ?D2; auto. destruct (is_kind h1 pk (PRef o0)) eqn:Ip; cbn [fst]; auto. rewrite D2, D; auto.
    - assert (L := proj1 (role_owned _ _ _ _) R).
      assert (Nf : f <> f') by (intros <-; apply NR; destruct L as [L|[L|L]]; injection L; intros; subst; cbn; auto).
      assert (D : forall g p w, (forall x, kind_at g x = kind_at h x) -> is_kind g pk (PRef p) = true ->
                 fval (set_field g p lf w) o' f' = fval g o' f').
      { intros g p w Kg Ip. apply is_kind_ref in Ip. rewrite Kg in Ip. apply fval_set_other.
        destruct (Nat.eq_dec p o') as [->|]; auto. right. intros <-. rewrite K' in Ip. inv Ip. apply NO. unfold read_only.
        destruct L as [L|[L|L]]; injection L; intros; subst; auto. }
      assert (D2 : forall g m w, fval (set_field g m f w) o' f' = fval g o' f') by (intros; apply fval_set_other; auto).
      unfold set_owned.
      match goal with |- context[match ?d with Ok _ => _ | Err _ => _ end] =>
        assert (HD : forall h1, d = Ok h1 -> (forall y, kind_at h1 y = kind_at h y) /\ fval h1 o' f' = fval h o' f');
        [|destruct d as [h1|e] eqn:Ed]
      end.
      { intros h1. destruct (fval h o f) as [| | |p| | | | ]; intros H; try (inv H; auto; fail).
        destruct (is_kind h pk (PRef p)) eqn:Ip; [|inv H; auto]. destruct (fval h p lf); try discriminate.
        destruct (remove eq h o l); try discriminate. inv H. split; [intros; apply kind_set_field | apply D; auto]. }
      + destruct (HD _ eq_refl) as [K1 F1]. destruct v; cbn [fst]; rewrite ?D2; auto.
        destruct (is_kind h1 pk (PRef o0)) eqn:Ip; cbn [fst]; auto. cbn zeta.
        destruct (fval (set_field h1 o f (PRef o0)) o0 lf) eqn:Fl; cbn [fst]; rewrite ?D2; auto.
        rewrite D; [now rewrite D2 | intros; now rewrite kind_set_field |].
        unfold is_kind in *. now rewrite kind_set_field.
      + reflexivity.
    - destruct (role_plain _ _ _ R) as [A _]. apply plain_frame. right. intros <-. apply NR. eapply asked_ref; eauto.
    - apply role_ing_spec in R as [-> ->]. apply ing_spec_frame. right. repeat split; auto. intros ->. apply NR. cbn. auto.
  Qed.

  Lemma attribute_step : forall h op x, attribute_template h x -> attribute_template (fst (nstep eq h op)) x.
  Proof. intros h op x [A|[A|A]]; apply (kind_step eq) with (op := op) in A; unfold attribute_template; auto. Qed.

  Lemma text_mentions : forall v x, text v -> ~ mentions v x.
  Proof. intros v x [s ->] M. inv M. Qed.
  Lemma texts_mentions : forall v x, texts v -> ~ mentions v x.
  Proof. intros v x [l ->] M. inversion M as [|? w ? I H| | |]; subst. apply in_map_iff in I as (s & <- & _). inv H. Qed.

  Lemma not_reference_blank : forall k f v, dict_get f (blank k) = Some v -> forall x, ~ mentions v x.
  Proof.
    intros k f v G x M. apply dict_get_In in G. destruct k; cbn in G; intuition; repeat match goal with H : (_, _) = (_, _) |- _ => injection H; intros; subst; clear H end; inv M; contradiction.
  Qed.

  Lemma construct_labels : forall h k u n l extra n' l',
    fst (construct h k u n l extra) = h ++ [mkE k u (blank k ++ ("name", n') :: ("labels", l') :: extra)] -> l' = PNone \/ texts l'.
  Proof.
    intros h k u n l extra n' l' E.
    assert (NE : h <> h ++ [mkE k u (blank k ++ ("name", n') :: ("labels", l') :: extra)]).
    { intros X. apply (f_equal (@length _)) in X. rewrite app_length in X. cbn in X. lia. }
    assert (T : forall a b, (b = PNone \/ texts b) -> h ++ [mkE k u (blank k ++ ("name", a) :: ("labels", b) :: extra)] = h ++ [mkE k u (blank k ++ ("name", n') :: ("labels", l') :: extra)] -> l' = PNone \/ texts l').
    { intros a b B X. apply app_inv_head in X. injection X as X. apply app_inv_head in X. injection X as _ <-. exact B. }
    unfold construct in E. cbn zeta in E.
    destruct k; cbn [is_object is_attribute_template] in E; repeat break_match; cbn [fst] in E; try (destruct (NE E)); (eapply T; [|exact E]); auto; right; eapply validate_texts; eauto.
  Qed.

  Lemma data_step : forall h op, plain_data h op -> references_typed h -> names_typed h -> data_typed h -> data_typed (fst (nstep eq h op)).
  Proof.
    intros h op P R N D o k f x K NR NO M. destruct (kind_back eq _ _ _ _ K) as [K0|[-> [u [n [l [extra [n' [l' [-> [E [En [L1 [L2 W]]]]]]]]]]]]].
    - assert (X : mentions (fval h o f) x -> attribute_template (fst (nstep eq h op)) x /\ ~ In k [KPropT; KCondT; KParamT]).
      { intros M0. destruct (D o k f x K0 NR NO M0). split; auto. now apply attribute_step. }
      destruct (string_dec f "name") as [->|N1].
      + destruct (step_name eq h op o k "name" K0 (or_introl eq_refl)) as [E|[[-> [_ [s [_ [Ks E]]]]]|[[v [-> [_ [_ [E _]]]]]|[[v [_ [D0 _]]]|[y [v [l [_ [D0 _]]]]]]]]]; try discriminate; rewrite E in M; auto.
        * destruct (text_mentions _ x (proj1 N s KIngS Ks eq_refl ltac:(discriminate)) M).
        * destruct (P x M).
      + destruct (string_dec f "labels") as [->|N2].
        * destruct (step_name eq h op o k "labels" K0 (or_intror eq_refl)) as [E|[[-> [_ [s [_ [Ks E]]]]]|[[v [_ [D0 _]]]|[[v [-> [_ [-> V]]]]|[y [v [l [-> [_ [O [Fl [Sv E]]]]]]]]]]]]; try discriminate.
          -- rewrite E in M; auto.
          -- rewrite E in M. destruct (texts_mentions _ x (proj1 (proj2 N) s Ks) M).
          -- destruct (texts_mentions _ x (validate_texts _ _ V) M).
          -- rewrite E in M. inversion M as [|? w ? I H| | |]; subst. apply in_app_or in I as [I|[<-|[]]].
             ++ apply X. rewrite Fl. econstructor; eauto.
             ++ destruct v as [|[| | |s]| | | | | | ]; try discriminate. inv H.
        * destruct (in_dec string_dec f ["process"; "spec"; "template"; "material"]) as [RF|RF].
          -- destruct (step_ref eq h op o k f K0 RF) as [E|[v [pk [-> [_ [A _]]]]]]; [rewrite E in M; auto|]. exfalso. apply NR. exists pk. exact A.
          -- apply X. revert M. destruct op as [| o1 f1 v1 | | |]; try (rewrite (step_other eq h _ o k f K0 N1 N2); auto; intros; discriminate).
             cbn [nstep]. rewrite (assign_rest h o1 f1 v1 o k f); auto.
    - rewrite E, fval_new, Nat.eqb_refl in M. unfold fget in M. cbn [e_fields] in M. rewrite dict_get_app in M.
      destruct (dict_get f (blank k)) as [w|] eqn:B; [destruct (not_reference_blank _ _ _ B x M)|].
      cbn [dict_get] in M. destruct P as (P1 & _ & _ & P4).
      destruct (String.eqb f "name") eqn:Ef; [subst n'; destruct (P1 x M)|].
      destruct (String.eqb f "labels") eqn:El.
      + cbn [nstep] in E. destruct (construct_labels h k u n l extra n' l' E) as [->|C]; [inv M | destruct (texts_mentions _ x C M)].
      + destruct (dict_get f extra) as [w|] eqn:G; [|inv M]. apply dict_get_In in G. destruct (P4 f w x G M). split; auto. now apply attribute_step.
  Qed.

  Lemma plain_reachable : forall ops h, plain_history eq h ops -> references_typed h -> names_typed h -> data_typed h -> keys_ok h ->
    references_typed (nrun eq h ops) /\ data_typed (nrun eq h ops) /\ keys_ok (nrun eq h ops).
  Proof.
    induction ops as [|op r IH]; intros h P R N D K; cbn [nrun] in *; auto. destruct P as [P1 P2].
    apply IH; auto using references_step, names_step, data_step, keys_ok_step.
  Qed.
End Hist.

(** ** References go down *)

Definition orderly (h : heap) : Prop :=
  forall o e f x, hget h o = Some e -> ~ read_only (e_kind e) f -> mentions (read h o f) x ->
    exists k, kind_at h x = Some k /\ rank k < rank (e_kind e).

Lemma orderly_of : forall h, references_typed h -> data_typed h -> orderly h.
Proof.
  intros h R D o e f x G NO M. assert (K : kind_at h o = Some (e_kind e)) by (unfold kind_at; now rewrite G).
  assert (V : forall y k, kind_at h y = Some k -> ~ read_only k f -> rank k <= rank (e_kind e) -> mentions (fval h y f) x -> exists k, kind_at h x = Some k /\ rank k < rank (e_kind e)).
  { intros y k Ky NOy Le My. destruct (in_dec string_dec f (ref_args k)) as [I|I].
    - apply ref_args_iff in I. destruct I as [pk A]. destruct (R y k f pk Ky A) as [E|[(s & i & E)|(p & E & Kp)]]; rewrite E in My; inv My.
      exists pk. split; auto. assert (Q := rank_ref _ _ _ A). lia.
    - rewrite ref_args_iff in I. destruct (D y k f x Ky I NOy My) as [At An].
      assert (0 < rank k) by (destruct k; cbn in *; try lia; tauto).
      destruct At as [At|[At|At]]; eexists; (split; [exact At|]); cbn; lia. }
  destruct (ekind_eq_dec (e_kind e) KIngR) as [Er|Nr].
  - unfold read in M. rewrite K, Er in M.
    assert (V0 := V o (e_kind e) K NO (le_n _)).
    destruct (String.eqb f "name" || String.eqb f "labels") eqn:Ef; auto.
    destruct (fval h o "spec") as [| | |s| | | | ] eqn:Fs; auto. destruct (is_kind h KIngS (PRef s)) eqn:Ks; auto.
    apply is_kind_ref in Ks. apply (V s KIngS Ks); auto; rewrite ?Er; cbn; try lia. intros [[X _]|[[X|X] _]]; discriminate.
  - rewrite (read_other h o _ f K Nr) in M. eauto.
Qed.

(** ** Showing *)

Section Shows.
  Variable h : heap.
  Variable format : pv -> string.
  Variable class_of : string -> string.

  Fixpoint show_list (nested : oid -> res rtree) (l : list pv) : res (list rtree) :=
    match l with [] => Ok [] | x :: r => do t <- show nested x; do ts <- show_list nested r; Ok (t :: ts) end.
  Fixpoint show_pairs (nested : oid -> res rtree) (l : list (string * pv)) : res (list (string * rtree)) :=
    match l with [] => Ok [] | (k, x) :: r => do t <- show nested x; do ts <- show_pairs nested r; Ok ((k, t) :: ts) end.

  Lemma show_list_eq : forall nested l, show nested (PList l) = do ts <- show_list nested l; Ok (RList ts).
  Proof. intros. cbn [show]. f_equal. induction l as [|x r IH]; cbn; auto. destruct (show nested x); cbn; auto. now rewrite IH. Qed.
  Lemma show_tuple_eq : forall nested l, show nested (PTuple l) = do ts <- show_list nested l; Ok (RTuple ts).
  Proof. intros. cbn [show]. f_equal. induction l as [|x r IH]; cbn; auto. destruct (show nested x); cbn; auto. now rewrite IH. Qed.
  Lemma show_dict_eq : forall nested l, show nested (PDict l) = do ts <- show_pairs nested l; Ok (RDict ts).
  Proof. intros. cbn [show]. f_equal. induction l as [|[k x] r IH]; cbn; auto. destruct (show nested x); cbn; auto. now rewrite IH. Qed.
  Lemma show_obj_eq : forall nested t l, show nested (PObj t l) = do ts <- show_pairs nested l; Ok (RDict (ts ++ [("type", rtext t)])).
  Proof. intros. cbn [show]. f_equal. induction l as [|[k x] r IH]; cbn; auto. destruct (show nested x); cbn; auto. now rewrite IH. Qed.

  Definition fine (nested : oid -> res rtree) (x : oid) : Prop := exists t, nested x = Ok t /\ shown h (PRef x) t.

  Lemma show_ok : forall nested v, (forall x, mentions v x -> fine nested x) -> exists t, show nested v = Ok t /\ shown h v t.
  Proof.
    intros nested. refine (pv_ind2 _ _ _ _ _ _ _ _ _).
    - intros _. eexists; split; [reflexivity|constructor].
    - intros a _. eexists; split; [reflexivity|constructor].
    - intros s i _. eexists; split; [reflexivity|constructor].
    - intros o F. exact (F o (m_ref o)).
    - intros l IH F. rewrite show_list_eq.
      assert (X : exists ts, show_list nested l = Ok ts /\ Forall2 (shown h) l ts).
      { induction l as [|v l IHl]; [exists []; split; auto|]. inversion IH as [|? ? HA HB]; subst. destruct HA as (t & E1 & S1); [intros x M; apply F; econstructor; [now left|eauto]|].
        destruct IHl as (ts & E2 & S2); [auto | intros x M; apply F; inv M; econstructor; [right; eauto | eauto] |].
        exists (t :: ts). cbn. rewrite E1, E2. cbn. auto. }
      destruct X as (ts & -> & S). eexists; split; [reflexivity|]. now constructor.
    - intros l IH F. rewrite show_tuple_eq.
      assert (X : exists ts, show_list nested l = Ok ts /\ Forall2 (shown h) l ts).
      { induction l as [|v l IHl]; [exists []; split; auto|]. inversion IH as [|? ? HA HB]; subst. destruct HA as (t & E1 & S1); [intros x M; apply F; econstructor; [now left|eauto]|].
        destruct IHl as (ts & E2 & S2); [auto | intros x M; apply F; inv M; econstructor; [right; eauto | eauto] |].
        exists (t :: ts). cbn. rewrite E1, E2. cbn. auto. }
      destruct X as (ts & -> & S). eexists; split; [reflexivity|]. now constructor.
    - intros l IH F. rewrite show_dict_eq.
      assert (X : exists ts, show_pairs nested l = Ok ts /\ keys l = keys ts /\ Forall2 (shown h) (map snd l) (map snd ts)).
      { induction l as [|[k v] l IHl]; [exists []; split; [reflexivity | split; [reflexivity | constructor]]|]. inversion IH as [|? ? HA HB]; subst. cbn in HA. destruct HA as (t & E1 & S1); [intros x M; apply F; econstructor; [now left|eauto]|].
        destruct IHl as (ts & E2 & S2 & S3); [auto | intros x M; apply F; inv M; econstructor; [right; eauto | eauto] |].
        exists ((k, t) :: ts). cbn. rewrite E1, E2. cbn. unfold keys in S2. repeat split; auto. now rewrite S2. }
      destruct X as (ts & -> & S1 & S2). eexists; split; [reflexivity|]. now constructor.
    - intros t l IH F. rewrite show_obj_eq.
      assert (X : exists ts, show_pairs nested l = Ok ts /\ keys l = keys ts /\ Forall2 (shown h) (map snd l) (map snd ts)).
      { induction l as [|[k v] l IHl]; [exists []; split; [reflexivity | split; [reflexivity | constructor]]|]. inversion IH as [|? ? HA HB]; subst. cbn in HA. destruct HA as (t' & E1 & S1); [intros x M; apply F; econstructor; [now left|eauto]|].
        destruct IHl as (ts & E2 & S2 & S3); [auto | intros x M; apply F; inv M; econstructor; [right; eauto | eauto] |].
        exists ((k, t') :: ts). cbn. rewrite E1, E2. cbn. unfold keys in S2. repeat split; auto. now rewrite S2. }
      destruct X as (ts & -> & S1 & S2). eexists; split; [reflexivity|]. now constructor.
  Qed.

  Lemma pairs_get : forall (d : list (string * pv)) (ts : list (string * rtree)) f v, keys d = keys ts -> Forall2 (shown h) (map snd d) (map snd ts) ->
    dict_get f d = Some v -> exists t, dict_get f ts = Some t /\ shown h v t.
  Proof.
    induction d as [|[k w] d IH]; intros [|[k' t] ts] f v E F G; try discriminate. cbn in *. injection E as -> E. inv F.
    destruct (String.eqb f k'); [inv G; eauto | eauto].
  Qed.

  Lemma shown_uids : forall us t, shown h (PDict (map (fun p => (fst p, str (snd p))) us)) t ->
    t = RDict (map (fun p => (fst p, RAtom (AStr (snd p)))) us).
  Proof.
    intros us t S. inversion S as [| | | | |? ts KD FD| |]; subst. f_equal. clear S. revert ts KD FD. induction us as [|[s i] us IH]; intros [|[k t] ts] E F; try discriminate; auto.
    cbn in *. injection E as <- E. inversion F as [|? ? ? ? A B]; subst. inv A. f_equal. auto.
  Qed.

  Lemma class_called : forall k, In (k, class_name k) called.
  Proof. intros k. destruct k; cbn; tauto. Qed.

  Lemma name_list : forall xs, (forall x, In x xs -> exists k, kind_at h x = Some k) ->
    exists ts, name_repr h format class_of (PList (map PRef xs)) = Ok (RList ts) /\ Forall2 (by_name h) (map PRef xs) ts.
  Proof.
    intros xs H. cbn [name_repr].
    match goal with |- context[bind (?g (map PRef xs)) _] => assert (X : exists ts, g (map PRef xs) = Ok ts /\ Forall2 (by_name h) (map PRef xs) ts) end.
    { induction xs as [|x xs IH]; [exists []; split; [reflexivity|constructor]|]. destruct (H x (or_introl eq_refl)) as [k K].
      destruct IH as (ts & E & F); [intros; apply H; now right|].
      cbn [map]. eexists (_ :: ts). rewrite E. unfold name_repr at 1. rewrite K. cbn [bind]. split; [reflexivity|].
      constructor; auto. apply bn_entity with k; auto; [apply class_called|]. intros n En. unfold name_text. now rewrite En. }
    destruct X as (ts & -> & F). exists ts. split; auto.
  Qed.

  Lemma by_name_repr : outputs_typed h -> members_typed h -> forall o e f, hget h o = Some e -> read_only (e_kind e) f ->
    exists t, name_repr h format class_of (read h o f) = Ok t /\ by_name h (read h o f) t.
  Proof.
    intros T M o e f G RO. assert (K : kind_at h o = Some (e_kind e)) by (unfold kind_at; now rewrite G).
    assert (NR : e_kind e <> KIngR) by (intros E; rewrite E in RO; destruct RO as [[X _]|[[X|X] _]]; discriminate).
    rewrite (read_other h o _ f K NR).
    assert (LL : forall ck cf pk lf, listed ck cf pk lf -> e_kind e = pk -> exists t, name_repr h format class_of (fval h o lf) = Ok t /\ by_name h (fval h o lf) t).
    { intros ck cf pk lf L Ek. rewrite Ek in K. destruct (M ck cf pk lf o L K) as (xs & E & Kx). rewrite E.
      destruct (name_list xs) as (ts & En & F); [intros x I; eexists; eauto|]. exists (RList ts). split; auto. now constructor. }
    assert (OO : forall mk pk, couple mk pk -> e_kind e = pk -> exists t, name_repr h format class_of (fval h o "output_material") = Ok t /\ by_name h (fval h o "output_material") t).
    { intros mk pk C Ek. rewrite Ek in K. destruct (T mk pk o C K) as [E|(m & E & Km)]; rewrite E.
      - exists RNone. split; [reflexivity | constructor].
      - cbn [name_repr]. rewrite Km. eexists. split; [reflexivity|]. eapply bn_entity; eauto; [apply class_called|]. intros n En. unfold name_text. now rewrite En. }
    destruct RO as [[Ek ->]|[Ek [-> | ->]]].
    - eapply LL; eauto. left; reflexivity.
    - destruct Ek as [Ek|Ek]; eapply OO; eauto; [left | right]; auto.
    - destruct Ek as [Ek|Ek]; eapply LL; eauto; [right; left | right; right]; reflexivity.
  Qed.

  Lemma skipped_keys_iff : forall k f, In f (skipped_keys k) <-> read_only k f.
  Proof.
    intros k f. unfold read_only. split.
    - destruct k; cbn; intros H; intuition subst; auto.
    - intros [[-> ->]|[[-> | ->] [-> | ->]]]; cbn; auto.
  Qed.

  Lemma add_names_ok : forall o ks ts, (forall f, In f ks -> exists t, name_repr h format class_of (read h o f) = Ok t /\ by_name h (read h o f) t) ->
    exists ts', add_names h format class_of o ks ts = Ok ts'
      /\ (forall f, In f (keys ts') <-> In f (keys ts) \/ In f ks)
      /\ (forall f, ~ In f ks -> dict_get f ts' = dict_get f ts)
      /\ (forall f, In f ks -> exists t, dict_get f ts' = Some t /\ by_name h (read h o f) t).
  Proof.
    intros o ks. induction ks as [|k ks IH]; intros ts H.
    - exists ts. cbn. intuition.
    - destruct (H k (or_introl eq_refl)) as (t & E & B). cbn [add_names]. rewrite E. cbn [bind].
      destruct (IH (dict_set k t ts)) as (ts' & E' & K' & O' & N'); [intros; apply H; now right|].
      exists ts'. split; auto. split; [|split].
      + intros f. rewrite K'. split.
        * intros [I|I]; [apply In_keys_set in I as [->|I]|]; cbn; auto.
        * intros [I|[->|I]]; auto; left; apply In_keys_set; auto.
      + intros f N. cbn in N. rewrite O' by tauto. apply dict_get_set_other. intros ->. tauto.
      + intros f [<-|I]; auto. destruct (in_dec string_dec k ks) as [I|I]; auto.
        rewrite (O' k I). exists t. split; auto. apply dict_get_set_same.
  Qed.

  Hypothesis KO : keys_ok h.
  Hypothesis OR : orderly h.
  Hypothesis OT : outputs_typed h.
  Hypothesis MT : members_typed h.

  Lemma as_dict_mentions : forall o e x, hget h o = Some e -> mentions (PDict (as_dict h o)) x ->
    exists f, ~ read_only (e_kind e) f /\ mentions (read h o f) x.
  Proof.
    intros o e x G M. rewrite (as_dict_eq h o e G) in M. inversion M as [| | |? k v ? I Mv|]; subst.
    destruct I as [I|I]; [inv I; inversion Mv as [| | |? k' v' ? I' Mv'|]; subst; apply in_map_iff in I' as (p & Ep & _); inv Ep; inv Mv'|].
    apply in_app_or in I as [I|[I|[]]]; [|inv I; inv Mv]. apply fields_of_in in I as (I & N & ->). eauto.
  Qed.

  Lemma repr_ok : forall n o k, kind_at h o = Some k -> rank k < n -> fine (repr h format class_of n) o.
  Proof.
    induction n as [|n IH]; intros o k K L; [lia|].
    unfold kind_at in K. destruct (hget h o) as [e|] eqn:G; [|discriminate]. injection K as K.
    destruct (show_ok (repr h format class_of n) (PDict (as_dict h o))) as (t & E & S).
    { intros x M. destruct (as_dict_mentions o e x G M) as (f & N & Mf). destruct (OR o e f x G N Mf) as (kx & Kx & Rx).
      apply (IH x kx Kx). subst k. lia. }
    inversion S as [| | | | |d ts KD FD| |]; subst.
    destruct (add_names_ok o (skipped_keys (e_kind e)) ts) as (ts' & E' & K' & O' & N').
    { intros f I. apply skipped_keys_iff in I. eapply by_name_repr; eauto. }
    exists (RDict ts'). split.
    { cbn [repr]. rewrite E. cbn [bind]. unfold kind_at. rewrite G. cbn [option_map]. rewrite E'. reflexivity. }
    assert (AD := as_dict_eq h o e G).
    assert (GT : forall f, f = "uids" \/ f = "type" -> ~ In f (skipped_keys (e_kind e))).
    { intros f Hf I. apply skipped_keys_iff in I. destruct I as [[_ ->]|[_ [-> | ->]]]; destruct Hf; discriminate. }
    apply sh_entity with e; auto.
    - intros f. rewrite K', <- KD, AD, <- (skipped_keys_iff (e_kind e)). cbn [keys map fst]. unfold keys. rewrite map_app. cbn [In].
      rewrite in_app_iff. cbn [map fst In]. fold (keys (fields_of h o e)). rewrite fields_of_key, <- skipped_keys_iff. fold (keys (e_fields e)).
      destruct (in_dec string_dec f (skipped_keys (e_kind e))); intuition (subst; auto).
    - rewrite O' by auto. destruct (pairs_get _ _ "type" (str (typ_of (e_kind e))) KD FD) as (t & Et & St).
      { rewrite AD. cbn [dict_get String.eqb]. cbn. rewrite dict_get_app.
        destruct (dict_get "type" (fields_of h o e)) eqn:D; [|reflexivity].
        apply dict_get_In in D. apply fields_of_in in D as (D & _). destruct (KO o e "type" G D). congruence. }
      rewrite Et. inv St. reflexivity.
    - rewrite O' by auto. destruct (pairs_get _ _ "uids" (uids_val e) KD FD) as (t & Et & St).
      { rewrite AD. reflexivity. }
      rewrite Et. f_equal. now apply shown_uids.
    - intros f I N. rewrite O' by (now rewrite skipped_keys_iff). apply (pairs_get _ _ f (read h o f) KD FD).
      destruct (KO o e f G I) as [N1 N2]. rewrite AD. cbn [dict_get]. apply String.eqb_neq in N1. rewrite N1, dict_get_app.
      destruct (dict_get f (fields_of h o e)) as [w|] eqn:D.
      + apply dict_get_In in D. apply fields_of_in in D as (_ & _ & ->). reflexivity.
      + apply dict_get_None in D. exfalso. apply D. now apply fields_of_key.
    - intros f I. apply N'. now apply skipped_keys_iff.
  Qed.
End Shows.

(** ** Nested serialisation *)

Section Writes.
  Variable h : heap.

  Lemma encode_tuple_eq : forall nested l, encode nested (PTuple l) = do js <- traverse (encode nested) l; Ok (JArr js).
  Proof.
    intros. cbn [encode]. f_equal. induction l as [|x r IH]; cbn; auto. destruct (encode nested x); cbn; auto. rewrite IH. reflexivity.
  Qed.

  Definition writes (nested : oid -> res json) (x : oid) : Prop := exists j, nested x = Ok j /\ written h (PRef x) j.

  Lemma encode_list_ok : forall nested l, Forall (fun v => (forall x, mentions v x -> writes nested x) -> exists j, encode nested v = Ok j /\ written h v j) l ->
    (forall v x, In v l -> mentions v x -> writes nested x) -> exists js, traverse (encode nested) l = Ok js /\ Forall2 (written h) l js.
  Proof.
    intros nested l IH F. induction l as [|v l IHl]; [exists []; split; [reflexivity|constructor]|].
    inversion IH as [|? ? HA HB]; subst. destruct HA as (j & E1 & W1); [intros x M; eapply F; [now left | auto]|].
    destruct IHl as (js & E2 & W2); [auto | intros w x I M; eapply F; [right; eauto | auto] |].
    exists (j :: js). cbn [traverse]. rewrite E1. cbn [bind]. rewrite E2. cbn [bind]. auto.
  Qed.

  Lemma encode_pairs_ok : forall nested l, Forall (fun kv => (forall x, mentions (snd kv) x -> writes nested x) -> exists j, encode nested (snd kv) = Ok j /\ written h (snd kv) j) l ->
    (forall k v x, In (k, v) l -> mentions v x -> writes nested x) ->
    exists js, encode_pairs nested l = Ok js /\ Forall2 (fun kv kj => fst kv = fst kj /\ written h (snd kv) (snd kj)) l js.
  Proof.
    intros nested l IH F. induction l as [|[k v] l IHl]; [exists []; split; [reflexivity|constructor]|].
    inversion IH as [|? ? HA HB]; subst. cbn in HA. destruct HA as (j & E1 & W1); [intros x M; eapply F; [now left | auto]|].
    destruct IHl as (js & E2 & W2); [auto | intros k' w x I M; eapply F; [right; eauto | auto] |].
    exists ((k, j) :: js). cbn [encode_pairs]. rewrite E1. cbn [bind]. rewrite E2. cbn [bind]. split; auto.
  Qed.

  Lemma pairs_in : forall (P : pv -> json -> Prop) (l : list (string * pv)) (js : list (string * json)), Forall2 (fun kv kj => fst kv = fst kj /\ P (snd kv) (snd kj)) l js ->
    (forall k j, In (k, j) js -> exists v, In (k, v) l /\ P v j) /\ (forall k v, In (k, v) l -> exists j, In (k, j) js /\ P v j).
  Proof.
    intros P l js F. induction F as [|[k v] [k' j] l js [E W] F [I1 I2]]; [split; intros ? ? []|]. cbn in E, W. subst k'. split.
    - intros k0 j0 [I|I]; [inv I; eexists; split; [now left|auto]|]. destruct (I1 _ _ I) as (w & Iw & Ww). eexists; split; [right; eauto | auto].
    - intros k0 v0 [I|I]; [inv I; eexists; split; [now left|auto]|]. destruct (I2 _ _ I) as (w & Iw & Ww). eexists; split; [right; eauto | auto].
  Qed.

  Lemma sorted_in : forall A (l : list (string * A)) x, In x (sort_keys l) <-> In x l.
  Proof. intros A l x. split; apply Permutation_in; [apply sort_keys_perm | symmetry; apply sort_keys_perm]. Qed.

  Lemma encode_ok : forall nested v, (forall x, mentions v x -> writes nested x) -> exists j, encode nested v = Ok j /\ written h v j.
  Proof.
    intros nested. refine (pv_ind2 _ _ _ _ _ _ _ _ _).
    - intros _. eexists; split; [reflexivity|constructor].
    - intros a _. eexists; split; [reflexivity|constructor].
    - intros s i _. eexists; split; [reflexivity|constructor].
    - intros o F. exact (F o (m_ref o)).
    - intros l IH F. rewrite encode_list_eq. destruct (encode_list_ok nested l IH) as (js & -> & W); [intros; apply F; econstructor; eauto|].
      eexists; split; [reflexivity|now constructor].
    - intros l IH F. rewrite encode_tuple_eq. destruct (encode_list_ok nested l IH) as (js & -> & W); [intros; apply F; econstructor; eauto|].
      eexists; split; [reflexivity|now constructor].
    - intros l IH F. rewrite encode_dict_eq. destruct (encode_pairs_ok nested l IH) as (js & -> & W); [intros; apply F; econstructor; eauto|].
      destruct (pairs_in _ _ _ W) as [W1 W2]. eexists; split; [reflexivity|]. constructor.
      + intros k j I. apply (proj1 (sorted_in _ _ _)) in I. auto.
      + intros k v I. destruct (W2 k v I) as (j & Ij & Wj). exists j. split; auto. now apply sorted_in.
    - intros t l IH F. rewrite encode_obj_eq. destruct (encode_pairs_ok nested l IH) as (js & -> & W); [intros; apply F; econstructor; eauto|].
      destruct (pairs_in _ _ _ W) as [W1 W2]. eexists; split; [reflexivity|]. constructor.
      + intros k j I. apply (proj1 (sorted_in _ _ _)) in I. apply in_app_or in I as [I|[I|[]]]; auto. inv I. auto.
      + intros k v I. destruct (W2 k v I) as (j & Ij & Wj). exists j. split; auto. apply sorted_in. apply in_or_app. auto.
      + apply sorted_in. apply in_or_app. right. now left.
  Qed.

  Hypothesis KO : keys_ok h.
  Hypothesis OR : orderly h.

  (** Any number that goes down with the rank bounds the depth. *)
  Lemma nested_ok : forall (m : ekind -> nat), (forall x kx k, kind_at h x = Some kx -> rank kx < rank k -> m kx < m k) ->
    forall n o k, kind_at h o = Some k -> m k < n -> writes (encode_nested h n) o.
  Proof.
    intros m Hm. induction n as [|n IH]; intros o k K L; [lia|].
    unfold kind_at in K. destruct (hget h o) as [e|] eqn:G; [|discriminate]. injection K as K.
    destruct (encode_ok (encode_nested h n) (PDict (as_dict h o))) as (j & E & W).
    { intros x M. destruct (as_dict_mentions h o e x G M) as (f & N & Mf). destruct (OR o e f x G N Mf) as (kx & Kx & Rx).
      apply (IH x kx Kx). subst k. specialize (Hm x kx _ Kx Rx). lia. }
    exists j. split; [exact E|].
    inversion W as [| | | | |d js W1 W2| |]; subst. assert (AD := as_dict_eq h o e G). rewrite AD in W1, W2.
    assert (NU : forall v, ~ In ("uids", v) (fields_of h o e)).
    { intros v I. apply fields_of_in in I as (I & _). destruct (KO o e _ G I). congruence. }
    assert (NT : forall v, ~ In ("type", v) (fields_of h o e)).
    { intros v I. apply fields_of_in in I as (I & _). destruct (KO o e _ G I). congruence. }
    apply wr_entity with e; auto.
    - intros f. split.
      + intros I. unfold keys in I. apply in_map_iff in I as ([f' j] & Ef & I). cbn in Ef. subst f'.
        destruct (W1 _ _ I) as (v & [Iv|Iv] & _); [inv Iv; auto|]. apply in_app_or in Iv as [Iv|[Iv|[]]]; [|inv Iv; auto].
        apply fields_of_in in Iv as (Iv & Nv & _). auto.
      + assert (X : forall v, In (f, v) (("uids", uids_val e) :: fields_of h o e ++ [("type", str (typ_of (e_kind e)))]) -> In f (keys js)).
        { intros v I. destruct (W2 _ _ I) as (j & Ij & _). change f with (fst (f, j)). now apply in_map. }
        intros [->|[->|[I N]]]; eapply X; [now left | right; apply in_or_app; right; now left |].
        right. apply in_or_app. left. apply fields_of_in. eauto.
    - destruct (W2 "type" (str (typ_of (e_kind e)))) as (j & Ij & Wj); [right; apply in_or_app; right; now left|]. inv Wj. auto.
    - intros f j I If N1 N2. destruct (W1 _ _ I) as (v & [Iv|Iv] & Wv); [inv Iv; congruence|].
      apply in_app_or in Iv as [Iv|[Iv|[]]]; [|inv Iv; congruence]. apply fields_of_in in Iv as (_ & _ & ->). exact Wv.
    - destruct (W2 "uids" (uids_val e)) as (j & Ij & Wj); [now left|]. inversion Wj as [| | | | |d us U1 U2| |]; subst. exists us. split; auto.
      intros s j. split.
      + intros I. destruct (U1 _ _ I) as (v & Iv & Wv). apply in_map_iff in Iv as ([s' i] & Ei & Iu). inv Ei. inv Wv. eauto.
      + intros (i & -> & I). destruct (U2 s (str i)) as (j & Ij' & Wj'). { apply in_map_iff. exists (s, i). auto. } inv Wj'. auto.
  Qed.
End Writes.

(** *** More depth changes nothing *)

Lemma encode_mono : forall n1 n2 v, (forall x j, n1 x = Ok j -> n2 x = Ok j) -> forall j, encode n1 v = Ok j -> encode n2 v = Ok j.
Proof.
  intros n1 n2 v H. revert v.
  assert (L : forall l, Forall (fun v => forall j, encode n1 v = Ok j -> encode n2 v = Ok j) l ->
    forall js, traverse (encode n1) l = Ok js -> traverse (encode n2) l = Ok js).
  { induction l as [|v l IH]; intros F js E; auto. inversion F as [|? ? FA FB]; subst. cbn [traverse] in *. destruct (encode n1 v) as [j|] eqn:E1; [|discriminate].
    rewrite (FA _ eq_refl). cbn [bind] in *. destruct (traverse (encode n1) l) as [js'|]; [|discriminate]. now rewrite (IH FB _ eq_refl). }
  assert (P : forall l, Forall (fun kv => forall j, encode n1 (snd kv) = Ok j -> encode n2 (snd kv) = Ok j) l ->
    forall js, encode_pairs n1 l = Ok js -> encode_pairs n2 l = Ok js).
  { induction l as [|[k v] l IH]; intros F js E; auto. inversion F as [|? ? FA FB]; subst. cbn [encode_pairs snd] in *. destruct (encode n1 v) as [j|] eqn:E1; [|discriminate].
    rewrite (FA _ eq_refl). cbn [bind] in *. destruct (encode_pairs n1 l) as [js'|]; [|discriminate]. now rewrite (IH FB _ eq_refl). }
  refine (pv_ind2 _ _ _ _ _ _ _ _ _); intros; auto.
  - now apply H.
  - rewrite encode_list_eq in *. destruct (traverse (encode n1) l) eqn:E; [|discriminate]. now rewrite (L _ H0 _ E).
  - rewrite encode_tuple_eq in *. destruct (traverse (encode n1) l) eqn:E; [|discriminate]. now rewrite (L _ H0 _ E).
  - rewrite encode_dict_eq in *. destruct (encode_pairs n1 l) eqn:E; [|discriminate]. now rewrite (P _ H0 _ E).
  - rewrite encode_obj_eq in *. destruct (encode_pairs n1 l) eqn:E; [|discriminate]. now rewrite (P _ H0 _ E).
Qed.

Lemma nested_mono : forall h n n', n <= n' -> forall o j, encode_nested h n o = Ok j -> encode_nested h n' o = Ok j.
Proof.
  intros h n n' L. induction L as [|n' L IH]; auto. intros o j E. apply IH in E. clear IH L. revert o j E.
  induction n' as [|m IH]; intros o j E; [discriminate|]. change (encode (encode_nested h (S m)) (PDict (as_dict h o)) = Ok j).
  eapply encode_mono; [|exact E]. exact IH.
Qed.

Lemma show_mono : forall n1 n2 v, (forall x t, n1 x = Ok t -> n2 x = Ok t) -> forall t, show n1 v = Ok t -> show n2 v = Ok t.
Proof.
  intros n1 n2 v H. revert v.
  assert (L : forall l, Forall (fun v => forall j, show n1 v = Ok j -> show n2 v = Ok j) l ->
    forall js, show_list n1 l = Ok js -> show_list n2 l = Ok js).
  { induction l as [|v l IH]; intros F js E; auto. inversion F as [|? ? FA FB]; subst. cbn [show_list] in *. destruct (show n1 v) as [j|] eqn:E1; [|discriminate].
    rewrite (FA _ eq_refl). cbn [bind] in *. destruct (show_list n1 l) as [js'|]; [|discriminate]. now rewrite (IH FB _ eq_refl). }
  assert (P : forall l, Forall (fun kv => forall j, show n1 (snd kv) = Ok j -> show n2 (snd kv) = Ok j) l ->
    forall js, show_pairs n1 l = Ok js -> show_pairs n2 l = Ok js).
  { induction l as [|[k v] l IH]; intros F js E; auto. inversion F as [|? ? FA FB]; subst. cbn [show_pairs snd] in *. destruct (show n1 v) as [j|] eqn:E1; [|discriminate].
    rewrite (FA _ eq_refl). cbn [bind] in *. destruct (show_pairs n1 l) as [js'|]; [|discriminate]. now rewrite (IH FB _ eq_refl). }
  refine (pv_ind2 _ _ _ _ _ _ _ _ _); intros; auto.
  - now apply H.
  - rewrite show_list_eq in *. destruct (show_list n1 l) eqn:E; [|discriminate]. now rewrite (L _ H0 _ E).
  - rewrite show_tuple_eq in *. destruct (show_list n1 l) eqn:E; [|discriminate]. now rewrite (L _ H0 _ E).
  - rewrite show_dict_eq in *. destruct (show_pairs n1 l) eqn:E; [|discriminate]. now rewrite (P _ H0 _ E).
  - rewrite show_obj_eq in *. destruct (show_pairs n1 l) eqn:E; [|discriminate]. now rewrite (P _ H0 _ E).
Qed.

Lemma repr_mono : forall h fm co n n', n <= n' -> forall o t, repr h fm co n o = Ok t -> repr h fm co n' o = Ok t.
Proof.
  intros h fm co n n' L. induction L as [|n' L IH]; auto. intros o t E. apply IH in E. clear IH L. revert o t E.
  induction n' as [|m IH]; intros o t E; [discriminate|]. remember (S m) as n1. cbn [repr]. rewrite Heqn1 in E. cbn [repr] in E.
  destruct (show (repr h fm co m) (PDict (as_dict h o))) as [t'|] eqn:Sh; [|discriminate].
  rewrite (show_mono _ (repr h fm co n1) _ ltac:(subst n1; exact IH) _ Sh). exact E.
Qed.

(** ** The number of entities bounds the depth *)

Definition under (h : heap) (k : ekind) : nat := length (filter (fun e => rank (e_kind e) <? rank k) h).

Lemma under_le : forall h k, under h k <= length h.
Proof. intros. unfold under. induction h as [|e h IH]; cbn [filter length]; auto. destruct (rank (e_kind e) <? rank k); cbn [length]; lia. Qed.

Lemma under_lt : forall h x kx k, kind_at h x = Some kx -> rank kx < rank k -> under h kx < under h k.
Proof.
  intros h x kx k K L.
  assert (Le : forall g, under g kx <= under g k).
  { unfold under. induction g as [|e g IH]; cbn [filter length]; auto. destruct (rank (e_kind e) <? rank kx) eqn:A, (rank (e_kind e) <? rank k) eqn:B; cbn [length]; try lia.
    apply Nat.ltb_lt in A. apply Nat.ltb_ge in B. lia. }
  revert x K. induction h as [|e h IH]; intros x K; [destruct x; discriminate|].
  unfold under in *. cbn [filter]. destruct x as [|x].
  - cbn in K. injection K as K. rewrite K. rewrite Nat.ltb_irrefl. apply Nat.ltb_lt in L as L'. rewrite L'. cbn [length]. specialize (Le h). lia.
  - change (kind_at h x = Some kx) in K. specialize (IH x K). destruct (rank (e_kind e) <? rank kx) eqn:A, (rank (e_kind e) <? rank k) eqn:B; cbn [length]; try lia.
    apply Nat.ltb_lt in A. apply Nat.ltb_ge in B. lia.
Qed.

Lemma rank_small : forall k, rank k < 6.
Proof. destruct k; cbn; lia. Qed.

(** ** What is shown depends on what is shown only *)

Lemma show_ext : forall n1 n2 v, (forall x, mentions v x -> n1 x = n2 x) -> show n1 v = show n2 v.
Proof.
  intros n1 n2.
  assert (L : forall l, Forall (fun v => (forall x, mentions v x -> n1 x = n2 x) -> show n1 v = show n2 v) l ->
    (forall v x, In v l -> mentions v x -> n1 x = n2 x) -> show_list n1 l = show_list n2 l).
  { induction l as [|v l IH]; intros F H; auto. inversion F as [|? ? FA FB]; subst. cbn [show_list].
    rewrite FA by (intros x M; apply (H v x); [now left | auto]). rewrite IH; auto. intros w x I M. apply (H w x); [now right | auto]. }
  assert (P : forall l, Forall (fun kv => (forall x, mentions (snd kv) x -> n1 x = n2 x) -> show n1 (snd kv) = show n2 (snd kv)) l ->
    (forall k v x, In (k, v) l -> mentions v x -> n1 x = n2 x) -> show_pairs n1 l = show_pairs n2 l).
  { induction l as [|[k v] l IH]; intros F H; auto. inversion F as [|? ? FA FB]; subst. cbn [show_pairs snd] in *.
    rewrite FA by (intros x M; apply (H k v x); [now left | auto]). rewrite IH; auto. intros k' w x I M. apply (H k' w x); [now right | auto]. }
  refine (pv_ind2 _ _ _ _ _ _ _ _ _); auto.
  - intros o H. apply H. constructor.
  - intros l F H. rewrite !show_list_eq, L; auto. intros; apply H; econstructor; eauto.
  - intros l F H. rewrite !show_tuple_eq, L; auto. intros; apply H; econstructor; eauto.
  - intros l F H. rewrite !show_dict_eq, P; auto. intros; apply H; econstructor; eauto.
  - intros t l F H. rewrite !show_obj_eq, P; auto. intros; apply H; econstructor; eauto.
Qed.

Lemma name_repr_ext : forall h h' fm co v, (forall y, mentions v y -> kind_at h' y = kind_at h y /\ read h' y "name" = read h y "name") ->
  name_repr h' fm co v = name_repr h fm co v.
Proof.
  intros h h' fm co. refine (pv_ind2 _ _ _ _ _ _ _ _ _); auto.
  - intros o H. destruct (H o (m_ref o)) as [H1 H2]. cbn [name_repr]. now rewrite H1, H2.
  - intros l F H. cbn [name_repr]. f_equal. induction l as [|v l IH]; auto. inversion F as [|? ? FA FB]; subst.
    rewrite FA by (intros; apply H; econstructor; [now left | auto]). rewrite IH; auto. intros y M. inv M. apply H. econstructor; [right|]; eauto.
  - intros l F H. cbn [name_repr]. f_equal. induction l as [|v l IH]; auto. inversion F as [|? ? FA FB]; subst.
    rewrite FA by (intros; apply H; econstructor; [now left | auto]). rewrite IH; auto. intros y M. inv M. apply H. econstructor; [right|]; eauto.
Qed.

Section Frame.
  Variables (h h' : heap) (o : oid) (format : pv -> string) (class_of : string -> string).
  Hypothesis SV : same_view h h' o.

  Lemma view_read : forall x f, in_full h o x -> read h' x f = read h x f.
  Proof.
    intros x f I. destruct SV as [S1 _]. assert (Gx := S1 x I). unfold read, kind_at. rewrite Gx.
    destruct (hget h x) as [e|] eqn:G; cbn [option_map]; [|unfold fval; now rewrite Gx, G].
    assert (Ff : forall g, fval h' x g = fval h x g) by (intros; unfold fval; now rewrite Gx, G).
    destruct (e_kind e) eqn:K; auto. rewrite !Ff. destruct (String.eqb f "name" || String.eqb f "labels"); auto.
    destruct (fval h x "spec") as [| | |s| | | | ] eqn:Fs; auto.
    assert (Is : in_full h o s).
    { apply if_field with x e "spec"; auto.
      - rewrite K. intros [[X _]|[[X|X] _]]; discriminate.
      - unfold read, kind_at. rewrite G. cbn [option_map]. rewrite K. cbn [String.eqb Ascii.eqb Bool.eqb orb]. rewrite Fs. constructor. }
    assert (Gs := S1 s Is). unfold is_kind, kind_at, fval. now rewrite Gs.
  Qed.

  Lemma view_dict : forall x, in_full h o x -> as_dict h' x = as_dict h x.
  Proof.
    intros x I. unfold as_dict. rewrite (proj1 SV x I). destruct (hget h x) as [e|]; auto. f_equal. f_equal.
    apply map_ext. intros kv. now rewrite view_read.
  Qed.

  Lemma repr_view : forall n x, in_full h o x -> repr h' format class_of n x = repr h format class_of n x.
  Proof.
    induction n as [|n IH]; intros x I; auto. cbn [repr]. rewrite (view_dict x I).
    destruct (hget h x) as [e|] eqn:G.
    - rewrite (show_ext (repr h' format class_of n) (repr h format class_of n)).
      2:{ intros y M. apply IH. destruct (as_dict_mentions h x e y G M) as (f & N & Mf). eapply if_field; eauto. }
      assert (K : kind_at h' x = kind_at h x) by (unfold kind_at; now rewrite (proj1 SV x I)). rewrite K.
      destruct (show (repr h format class_of n) (PDict (as_dict h x))) as [[| | | |ts]|]; cbn [bind]; auto.
      unfold kind_at. rewrite G. cbn [option_map]. f_equal.
      assert (A : forall ks ts, (forall f, In f ks -> read_only (e_kind e) f) -> add_names h' format class_of x ks ts = add_names h format class_of x ks ts).
      { induction ks as [|k ks IHk]; intros ts0 R; auto. cbn [add_names]. rewrite (view_read x k I).
        rewrite (name_repr_ext h h' format class_of (read h x k)).
        - destruct (name_repr h format class_of (read h x k)); cbn [bind]; auto. apply IHk. intros; apply R; now right.
        - intros y M. apply (proj2 SV x e k y); auto. apply R. now left. }
      apply A. intros f If. now apply skipped_keys_iff.
    - unfold as_dict. rewrite G. cbn [show bind]. assert (K : kind_at h' x = kind_at h x) by (unfold kind_at; now rewrite (proj1 SV x I)).
      rewrite K. unfold kind_at. now rewrite G.
  Qed.
End Frame.
