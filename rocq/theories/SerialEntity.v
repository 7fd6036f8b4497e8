(** Making entities while loading. *)
From Coq Require Import String List Bool Arith Lia Permutation.
From Verif Require Import Base BaseFacts CidModel KeywordModel CidSpec CidProofs GraphModel GraphSpec GraphProofs EqModel EqSpec EqProofs EqCopies TravModel TravSpec TravProofs TravProperties SerialModel SerialSpec SerialSim SerialProofs SerialLinks.
Import ListNotations.
Open Scope string_scope.
Open Scope list_scope.
Open Scope nat_scope.

(** ** Fields by class *)

Lemma ref_args_iff : forall k f, In f (ref_args k) <-> reference k f.
Proof.
  intros k f. split.
  - intros H. destruct k; cbn in H; repeat destruct H as [<-|H]; try contradiction; eexists; unfold asked_kind; cbn; tauto.
  - intros [pk H]. unfold asked_kind in H. cbn in H. repeat destruct H as [E|H]; try contradiction; inv E; cbn; tauto.
Qed.
Lemma mem_str_iff : forall s l, mem_str s l = true <-> In s l.
Proof.
  intros s l. unfold mem_str. rewrite existsb_exists. split.
  - intros (x & I & E). apply String.eqb_eq in E. now subst.
  - intros I. exists s. split; auto. apply String.eqb_refl.
Qed.
Lemma asked_role : forall k f pk, asked_kind k f pk ->
  role_of k f = Some (Plain pk) \/ (role_of k f = Some IngRunSpec /\ f = "spec" /\ pk = KIngS)
  \/ (role_of k f = Some (Produce pk) /\ f = "process") \/ (exists lf, role_of k f = Some (Owned pk lf) /\ listed k f pk lf).
Proof.
  intros k f pk H. unfold asked_kind in H. unfold listed. cbn in H. repeat destruct H as [E|H]; try contradiction; inv E; cbn; try tauto;
  right; right; right; eexists; split; try reflexivity; tauto.
Qed.
Lemma blank_keys : forall k f, In f (keys (blank k)) <-> reference k f \/ read_only k f.
Proof.
  intros k f. rewrite <- ref_args_iff, <- skipped_iff. split.
  - intros H. destruct k; cbn in H; repeat destruct H as [<-|H]; try contradiction; cbn; tauto.
  - intros [H|H].
    + destruct k; cbn in H; repeat destruct H as [<-|H]; try contradiction; cbn; tauto.
    + destruct k; cbn in H; try discriminate; try apply orb_prop in H as [H|H]; apply String.eqb_eq in H; subst; cbn; tauto.
Qed.
Lemma blank_nodup : forall k, NoDup (keys (blank k)).
Proof. intros []; cbn; repeat constructor; cbn; intuition discriminate. Qed.
Lemma ref_args_nodup : forall k, NoDup (ref_args k).
Proof. intros []; cbn; repeat constructor; cbn; intuition discriminate. Qed.
Lemma blank_ref : forall k f, reference k f -> dict_get f (blank k) = Some PNone.
Proof. intros k f H. apply ref_args_iff in H. destruct k; cbn in H; repeat destruct H as [<-|H]; try contradiction; reflexivity. Qed.
Lemma ref_not_ro : forall k f, reference k f -> ~ read_only k f.
Proof.
  intros k f H. rewrite <- skipped_iff. apply ref_args_iff in H. destruct k; cbn in H; repeat destruct H as [<-|H]; try contradiction; cbn; discriminate.
Qed.
Lemma kind_of_typ : forall k, kind_of (typ_of k) = Some k.
Proof. intros []; reflexivity. Qed.
Lemma typ_not_link : forall k, String.eqb (typ_of k) "link_by_uid" = false.
Proof. intros []; reflexivity. Qed.

(** ** Appending an entity *)

Lemma hget_app1 : forall g e o, o < length g -> hget (g ++ [e]) o = hget g o.
Proof. intros. unfold hget. now apply nth_error_app1. Qed.
Lemma hget_app2 : forall g e, hget (g ++ [e]) (length g) = Some e.
Proof. intros. unfold hget. rewrite nth_error_app2 by lia. now rewrite Nat.sub_diag. Qed.
Lemma hget_lt : forall h o e, hget h o = Some e -> o < length h.
Proof. intros h o e H. apply nth_error_Some. unfold hget in H. congruence. Qed.
Lemma kind_lt : forall h o k, kind_at h o = Some k -> o < length h.
Proof. intros h o k H. unfold kind_at in H. destruct (hget h o) eqn:E; [|discriminate]. eapply hget_lt; eauto. Qed.
Lemma hset_app1 : forall g e o x, o < length g -> hset (g ++ [e]) o x = hset g o x ++ [e].
Proof. induction g; intros e o x H; cbn in *; [lia|]. destruct o; cbn; auto. rewrite IHg; auto. lia. Qed.
Lemma hset_app2 : forall g e x, hset (g ++ [e]) (length g) x = g ++ [x].
Proof. induction g; intros; cbn; auto. now rewrite IHg. Qed.
Lemma set_field_app1 : forall g e o f v, o < length g -> set_field (g ++ [e]) o f v = set_field g o f v ++ [e].
Proof.
  intros. unfold set_field. rewrite hget_app1 by auto. destruct (hget g o) eqn:E.
  - now rewrite hset_app1.
  - exfalso. apply nth_error_None in E. lia.
Qed.
Lemma set_field_app2 : forall g k u fs f v, set_field (g ++ [mkE k u fs]) (length g) f v = g ++ [mkE k u (dict_set f v fs)].
Proof. intros. unfold set_field. rewrite hget_app2. now rewrite hset_app2. Qed.
Lemma set_field_last : forall g n k u fs f v, length g = n -> set_field (g ++ [mkE k u fs]) n f v = g ++ [mkE k u (dict_set f v fs)].
Proof. intros. subst. apply set_field_app2. Qed.
Lemma kind_app1 : forall g e o, o < length g -> kind_at (g ++ [e]) o = kind_at g o.
Proof. intros. unfold kind_at. now rewrite hget_app1. Qed.
Lemma fval_app1 : forall g e o f, o < length g -> fval (g ++ [e]) o f = fval g o f.
Proof. intros. unfold fval. now rewrite hget_app1. Qed.
Lemma fval_app2 : forall g e f, fval (g ++ [e]) (length g) f = fget e f.
Proof. intros. unfold fval. now rewrite hget_app2. Qed.
Lemma kind_app2 : forall g e, kind_at (g ++ [e]) (length g) = Some (e_kind e).
Proof. intros. unfold kind_at. now rewrite hget_app2. Qed.

Definition items (v : pv) : list pv := match v with PList l => l | _ => [] end.

(** The other side of a reference from the entity [n] of class [k]. *)
Definition back (k : ekind) (n : oid) (g : heap) (fv : string * pv) : heap :=
  match snd fv with
  | PRef p => match role_of k (fst fv) with
              | Some (Produce _) => set_field g p "output_material" (PRef n)
              | Some (Owned _ lf) => set_field g p lf (PList (items (fval g p lf) ++ [PRef n]))
              | _ => g
              end
  | _ => g
  end.

Definition fits (g : heap) (v : pv) (pk : ekind) : Prop :=
  v = PNone \/ (exists s i, v = PLink s i) \/ (exists p, v = PRef p /\ kind_at g p = Some pk).

Definition lists_ok (g : heap) : Prop :=
  forall ck cf pk lf p, listed ck cf pk lf -> kind_at g p = Some pk -> exists l, fval g p lf = PList l.

Lemma fits_is_kind : forall g p pk e, kind_at g p = Some pk -> is_kind (g ++ [e]) pk (PRef p) = true.
Proof. intros. apply is_kind_ref. rewrite kind_app1; auto. eapply kind_lt; eauto. Qed.

Lemma assign_step : forall eq g k u fs f v pk, asked_kind k f pk -> dict_get f fs = Some PNone -> fits g v pk -> lists_ok g ->
  assign eq (g ++ [mkE k u fs]) (length g) f v = (back k (length g) g (f, v) ++ [mkE k u (dict_set f v fs)], None).
Proof.
  intros eq g k u fs f v pk A N V Lk. unfold assign. rewrite kind_app2. cbn [e_kind].
  assert (Fv : fval (g ++ [mkE k u fs]) (length g) f = PNone) by (rewrite fval_app2; unfold fget; cbn; now rewrite N).
  destruct (asked_role _ _ _ A) as [R|[(R & -> & ->)|[[R ->]|(lf & R & Ls)]]]; rewrite R; unfold back; cbn [fst snd].
  - unfold set_plain. destruct V as [->|[(s & i & ->)|(p & -> & K)]]; rewrite ?set_field_app2; auto.
    rewrite (fits_is_kind _ _ _ _ K), R. reflexivity.
  - unfold set_ing_spec. rewrite Fv. unfold set_plain. destruct V as [->|[(s & i & ->)|(p & -> & K)]]; rewrite ?set_field_app2; auto.
    rewrite (fits_is_kind _ _ _ _ K), R. reflexivity.
  - unfold set_process. rewrite Fv. destruct V as [->|[(s & i & ->)|(p & -> & K)]]; rewrite ?set_field_app2; auto.
    rewrite (fits_is_kind _ _ _ _ K). rewrite set_field_app1 by (eapply kind_lt; eauto). rewrite R.
    rewrite set_field_last by apply set_field_length. reflexivity.
  - unfold set_owned. rewrite Fv. destruct V as [->|[(s & i & ->)|(p & -> & K)]]; rewrite ?set_field_app2; auto.
    rewrite (fits_is_kind _ _ _ _ K). assert (Lp := kind_lt _ _ _ K). rewrite fval_app1 by auto.
    destruct (Lk _ _ _ _ _ Ls K) as (l & El). rewrite R, El. cbn [items]. now rewrite set_field_app1.
Qed.

Lemma back_length : forall k n g fv, length (back k n g fv) = length g.
Proof. intros. unfold back. destruct (snd fv); auto. destruct (role_of k (fst fv)) as [[]|]; auto using set_field_length. Qed.
Lemma back_kind : forall k n g fv o, kind_at (back k n g fv) o = kind_at g o.
Proof. intros. unfold back. destruct (snd fv); auto. destruct (role_of k (fst fv)) as [[]|]; auto using kind_set_field. Qed.
Lemma listed_role : forall k f pk lf, role_of k f = Some (Owned pk lf) -> listed k f pk lf.
Proof.
  intros k f pk lf H. unfold listed. destruct k; cbn in H; try discriminate; repeat break_if; try discriminate; str_eq; inv H; tauto.
Qed.
Lemma listed_name : forall ck cf pk lf, listed ck cf pk lf -> lf <> "output_material" /\ (lf = "measurements" /\ pk = KMatR \/ lf = "ingredients").
Proof. intros ck cf pk lf [E|[E|E]]; inv E; split; try discriminate; tauto. Qed.

Lemma fval_set_field : forall g p f v o f', fval (set_field g p f v) o f' = v \/ fval (set_field g p f v) o f' = fval g o f'.
Proof.
  intros. destruct (Nat.eq_dec p o) as [->|N]; [|right; apply fval_set_other; auto].
  destruct (string_dec f f') as [->|N]; [|right; apply fval_set_other; auto].
  destruct (hget g o) eqn:E; [left; apply fval_set_same; congruence|right]. unfold set_field. now rewrite E.
Qed.
Lemma fval_set_field_name : forall g p f v o f', fval (set_field g p f v) o f' = fval g o f' \/ (f = f' /\ p = o /\ fval (set_field g p f v) o f' = v).
Proof.
  intros. destruct (Nat.eq_dec p o) as [->|N]; [|left; apply fval_set_other; auto].
  destruct (string_dec f f') as [->|N]; [|left; apply fval_set_other; auto].
  destruct (fval_set_field g o f' v o f'); auto.
Qed.

Lemma back_lists : forall k n g fv, lists_ok g -> lists_ok (back k n g fv).
Proof.
  intros k n g fv H ck cf pk lf p Ls K. rewrite back_kind in K. destruct (H _ _ _ _ _ Ls K) as (l & E).
  unfold back. destruct (snd fv); eauto. destruct (role_of k (fst fv)) as [[]|]; eauto.
  - destruct (fval_set_field_name g o "output_material" (PRef n) p lf) as [->|(E' & _ & _)]; eauto. apply listed_name in Ls as [N _]. congruence.
  - match goal with |- context [set_field ?a ?b ?c ?d] => destruct (fval_set_field_name a b c d p lf) as [->|(_ & _ & ->)] end; eauto.
Qed.

Lemma assign_all_fresh : forall lower k u args g fs, NoDup (map fst args) -> lists_ok g ->
  (forall f v, In (f, v) args -> exists pk, asked_kind k f pk /\ dict_get f fs = Some PNone /\ fits g v pk) ->
  assign_all lower (g ++ [mkE k u fs]) (length g) args
  = Ok (fold_left (back k (length g)) args g ++ [mkE k u (dict_update args fs)]).
Proof.
  intros lower k u args. induction args as [|[f v] args IH]; intros g fs N Lk H; [reflexivity|].
  cbn [assign_all]. destruct (H f v (or_introl eq_refl)) as (pk & A & B & C).
  rewrite (assign_step _ _ _ _ _ _ _ _ A B C Lk). cbn [fold_left]. inv N.
  assert (Len := back_length k (length g) g (f, v)).
  specialize (IH (back k (length g) g (f, v)) (dict_set f v fs)). rewrite Len in IH. rewrite IH; auto.
  - now apply back_lists.
  - intros f' v' I. destruct (H f' v' (or_intror I)) as (pk' & A' & B' & C'). exists pk'. split; auto. split.
    + rewrite dict_get_set_other; auto. intros ->. apply H2. change f with (fst (f, v')). now apply in_map.
    + destruct C' as [->|[(s & i & ->)|(p & -> & K)]]; [left; auto | right; left; eauto | right; right; exists p; split; auto; now rewrite back_kind].
Qed.

(** ** Dictionaries *)

Lemma dict_get_app : forall A f (a b : list (string * A)), dict_get f (a ++ b) = match dict_get f a with Some v => Some v | None => dict_get f b end.
Proof. induction a as [|[k v] a IH]; intros b; cbn; auto. destruct (String.eqb f k); auto. Qed.

Lemma dict_get_perm : forall A f (a b : list (string * A)), Permutation a b -> NoDup (keys a) -> dict_get f a = dict_get f b.
Proof.
  intros A f a b P N. destruct (dict_get f a) as [v|] eqn:E.
  - apply dict_get_In in E. symmetry. apply In_dict_get; [eapply perm_nodup; eauto|]. eapply Permutation_in; eauto.
  - apply dict_get_None in E. symmetry. apply dict_get_None. intros I. apply E. eapply Permutation_in; [symmetry; apply perm_keys; exact P|exact I].
Qed.

Lemma dict_get_filter : forall A (p : string -> bool) f (a : list (string * A)),
  dict_get f (filter (fun kv => p (fst kv)) a) = if p f then dict_get f a else None.
Proof.
  induction a as [|[k v] a IH]; cbn; [now destruct (p f)|]. destruct (p k) eqn:Pk; cbn; destruct (String.eqb f k) eqn:E; str_eq; auto.
  - now rewrite Pk.
  - rewrite IH, Pk. reflexivity.
Qed.

Lemma keys_filter : forall A (p : string -> bool) (a : list (string * A)) f, In f (keys (filter (fun kv => p (fst kv)) a)) <-> In f (keys a) /\ p f = true.
Proof.
  intros. unfold keys. rewrite !in_map_iff. split.
  - intros ([k v] & <- & I). apply filter_In in I as [I P]. cbn in *. split; auto. exists (k, v). auto.
  - intros [([k v] & <- & I) P]. exists (k, v). split; auto. apply filter_In. auto.
Qed.
Lemma nodup_filter : forall A (p : string -> bool) (a : list (string * A)), NoDup (keys a) -> NoDup (keys (filter (fun kv => p (fst kv)) a)).
Proof.
  induction a as [|[k v] a IH]; intros N; cbn; auto. unfold keys in N. cbn in N. inv N. destruct (p k) eqn:Pk; cbn; [|now apply IH]. constructor; [|now apply IH].
  intros I. apply keys_filter in I as [I _]. contradiction.
Qed.

Lemma dsim_filter : forall P (p : string -> bool) l m, dsim P l m -> dsim P (filter (fun kv => p (fst kv)) l) (filter (fun kv => p (fst kv)) m).
Proof.
  intros P p l m (N & M & m' & Pm & F). split; [now apply nodup_filter|]. split; [now apply nodup_filter|].
  exists (filter (fun kv => p (fst kv)) m'). split.
  - clear - Pm. induction Pm; cbn; auto.
    + destruct (p (fst x)); auto.
    + destruct (p (fst x)), (p (fst y)); auto. apply perm_swap.
    + eapply perm_trans; eauto.
  - clear - F. induction F as [|x y l m' [E H] F IH]; cbn; auto. rewrite E. destruct (p (fst y)); auto. constructor; auto. split; auto.
Qed.

Lemma dict_get_update : forall A (args : list (string * A)) fs f, NoDup (keys args) ->
  dict_get f (dict_update args fs) = match dict_get f args with Some v => Some v | None => dict_get f fs end.
Proof.
  induction args as [|[k v] args IH]; intros fs f N; [reflexivity|]. unfold keys in N. cbn in N. inv N.
  change (dict_update ((k, v) :: args) fs) with (dict_update args (dict_set k v fs)). rewrite IH by auto. cbn [dict_get].
  destruct (String.eqb f k) eqn:E; str_eq.
  - replace (dict_get k args) with (@None A); [now rewrite dict_get_set_same|]. symmetry. now apply dict_get_None.
  - destruct (dict_get f args); auto. now rewrite dict_get_set_other.
Qed.

Lemma dict_get_keys : forall A f (d : list (string * A)), In f (keys d) <-> dict_get f d <> None.
Proof.
  intros. assert (X := dict_get_None f d). split.
  - intros I E. apply X in E; auto.
  - intros H. destruct (dict_get f d) eqn:E; [|congruence]. apply dict_get_In in E. change f with (fst (f, a)). now apply in_map.
Qed.

Lemma NoDup_app_intro : forall A (a b : list A), NoDup a -> NoDup b -> (forall x, In x a -> In x b -> False) -> NoDup (a ++ b).
Proof.
  induction a as [|x a IH]; intros b Na Nb H; cbn; auto. inv Na. constructor.
  - intros I. apply in_app_or in I as [I|I]; auto. eapply H; [now left|exact I].
  - apply IH; auto. intros y Iy. apply H. now right.
Qed.

(** ** Records *)

Lemma read_fval : forall h o f k, kind_at h o = Some k -> reference k f -> read h o f = fval h o f.
Proof.
  intros h o f k K R. unfold read. rewrite K. destruct k; auto.
  destruct (String.eqb f "name" || String.eqb f "labels") eqn:E; auto. exfalso. apply ref_args_iff in R. cbn in R.
  apply orb_prop in E as [E|E]; str_eq; intuition discriminate.
Qed.

Section F.
  Variable h : heap.

  Definition uids_val (e : entity) : pv := PDict (map (fun p => (fst p, str (snd p))) (e_uids e)).
  Definition fields_of (o : oid) (e : entity) : list (string * pv) :=
    map (fun kv => (fst kv, read h o (fst kv))) (filter (fun kv => negb (skipped (e_kind e) (fst kv))) (e_fields e)).

  Lemma as_dict_eq : forall o e, hget h o = Some e -> as_dict h o = ("uids", uids_val e) :: fields_of o e ++ [("type", str (typ_of (e_kind e)))].
  Proof. intros o e H. unfold as_dict. rewrite H. reflexivity. Qed.

  Lemma fields_of_keys : forall o e, keys (fields_of o e) = keys (filter (fun kv => negb (skipped (e_kind e) (fst kv))) (e_fields e)).
  Proof. intros. unfold fields_of, keys. rewrite map_map. reflexivity. Qed.
  Lemma fields_of_key : forall o e f, In f (keys (fields_of o e)) <-> In f (keys (e_fields e)) /\ ~ read_only (e_kind e) f.
  Proof.
    intros. rewrite fields_of_keys. rewrite (keys_filter _ (fun f => negb (skipped (e_kind e) f))), negb_true_iff, <- skipped_iff.
    destruct (skipped (e_kind e) f); intuition congruence.
  Qed.
  Lemma fields_of_nodup : forall o e, NoDup (keys (e_fields e)) -> NoDup (keys (fields_of o e)).
  Proof. intros. rewrite fields_of_keys. now apply (nodup_filter _ (fun f => negb (skipped (e_kind e) f))). Qed.
  Lemma fields_of_in : forall o e f v, In (f, v) (fields_of o e) <-> In f (keys (e_fields e)) /\ ~ read_only (e_kind e) f /\ v = read h o f.
  Proof.
    intros. split.
    - intros I. assert (K : In f (keys (fields_of o e))) by (change f with (fst (f, v)); now apply in_map).
      apply fields_of_key in K as [K1 K2]. split; auto. split; auto. unfold fields_of in I. apply in_map_iff in I as (kv & E & _). now inv E.
    - intros (K1 & K2 & ->). assert (K : In f (keys (fields_of o e))) by (apply fields_of_key; auto).
      unfold keys in K. apply in_map_iff in K as ([f' v'] & E & I). cbn in E. subst f'.
      assert (v' = read h o f); [|now subst]. unfold fields_of in I. apply in_map_iff in I as (kv & E & _). now inv E.
  Qed.
End F.

Section E.
  Variable lower : string -> string.
  Variable known : string -> bool.
  Variable construct : heap -> string -> list (string * pv) -> res (list (string * pv)).
  Variable h : heap.
  Notation representable := (representable lower known construct h).

  Lemma store_all_distinct : forall (l s : list (string * string)), NoDup (map (fun p => lower (fst p)) (s ++ l)) -> store_all lower string s l = Some (s ++ l).
  Proof.
    induction l as [|[k v] l IH]; intros s N; cbn [store_all]; [now rewrite app_nil_r|].
    unfold store, entry. destruct (find _ s) as [[k' v']|] eqn:F.
    - exfalso. apply find_some in F as [I E]. unfold same_key in E. cbn in E. apply String.eqb_eq in E.
      rewrite map_app in N. cbn in N. apply NoDup_remove_2 in N. apply N. apply in_or_app. left. apply in_map_iff. exists (k', v'). auto.
    - rewrite IH; rewrite <- app_assoc; auto.
  Qed.

  Lemma strings_of_str : forall u, strings_of (map (fun p => (fst p, str (snd p))) u) = Some u.
  Proof. induction u as [|[k v] u IH]; cbn; auto. now rewrite IH. Qed.

  Lemma keyword_free : forall u, (forall p, In p u -> fst p <> "seq" /\ fst p <> "self") -> keyword_init lower u = init lower string u.
  Proof.
    intros u H. unfold keyword_init. replace (existsb (fun p => String.eqb (fst p) "self") u) with false.
    2: { symmetry. apply not_true_iff_false. rewrite existsb_exists. intros (p & I & E). apply String.eqb_eq in E. destruct (H p I). contradiction. }
    replace (existsb (fun p => String.eqb (fst p) "seq" && negb (String.eqb (snd p) "")) u) with false.
    2: { symmetry. apply not_true_iff_false. rewrite existsb_exists. intros (p & I & E). apply andb_prop in E as [E _]. apply String.eqb_eq in E. destruct (H p I). contradiction. }
    f_equal. induction u as [|p u IH]; auto. cbn [filter]. destruct (String.eqb (fst p) "seq") eqn:E; [apply String.eqb_eq in E; destruct (H p (or_introl eq_refl)); contradiction|]. cbn. f_equal. apply IH. intros q I. apply H. now right.
  Qed.

  Lemma uids_of_ok : forall L e w, sim L (uids_val e) w -> NoDup (map (fun p => lower (fst p)) (e_uids e)) -> ~ In "seq" (keys (e_uids e)) /\ ~ In "self" (keys (e_uids e)) ->
    exists u, uids_of lower w = Ok u /\ Permutation u (e_uids e).
  Proof.
    intros L e w S N (Ns & Nf). destruct w as [| | | | | |d|]; try contradiction. unfold uids_val in S. apply sim_dict in S as (_ & M & m' & Pm & F).
    assert (E : m' = map (fun p => (fst p, str (snd p))) (e_uids e)).
    { clear - F. revert m' F. induction (e_uids e) as [|[k v] u IH]; intros m' F; inv F; auto. destruct y as [k' y]. destruct H1 as [E H]. cbn in *. subst k'.
      destruct y; try contradiction. subst a. f_equal. auto. }
    subst m'. symmetry in Pm. destruct (Permutation_map_inv _ _ Pm) as (u & Ed & Pu). exists u. split; [|now symmetry]. subst d.
    cbn [uids_of]. rewrite strings_of_str. rewrite keyword_free by (intros p I; apply (Permutation_in _ (Permutation_sym Pu)) in I; apply (in_map fst) in I; unfold keys in *; split; intros E; rewrite E in I; contradiction). destruct (init_ok lower string u u) as [Ei _].
    { apply (store_all_distinct u []). cbn. eapply Permutation_NoDup; [apply Permutation_map; exact Pu|exact N]. }
    now rewrite Ei.
  Qed.

  Lemma make_entity_ok : forall g ix o e d L, hget h o = Some e -> representable o e ->
    dsim (sim L) (("uids", uids_val e) :: fields_of h o e) d ->
    (forall f a b, In f (keys (e_fields e)) -> ~ read_only (e_kind e) f -> within a (read h o f) -> L a b -> relinked h g a b) ->
    lists_ok g ->
    exists u fs, let k := e_kind e in let args := map (fun f => (f, arg d f)) (ref_args k) in let final := dict_update args (blank k ++ fs) in
      make_entity lower construct (g, ix) k d
        = Ok (PRef (length g), (fold_left (back k (length g)) args g ++ [mkE k u final], map (fun p => ((lower (fst p), snd p), length g)) (rev u) ++ ix))
      /\ Permutation u (e_uids e) /\ NoDup (keys final) /\ (forall f, In f (keys final) <-> In f (keys (e_fields e)))
      /\ (forall f, In f (keys (e_fields e)) -> ~ read_only k f -> exists v, dict_get f final = Some v /\ sim L (read h o f) v)
      /\ (forall f, read_only k f -> dict_get f final = dict_get f (blank k))
      /\ (forall f, reference k f -> sim L (fval h o f) (arg d f)).
  Proof.
    intros g ix o e d L He W D HL Lk. set (k := e_kind e).
    assert (Ko : kind_at h o = Some k) by (unfold kind_at; now rewrite He).
    (* uids *)
    assert (Du := dsim_get _ _ _ "uids" D). cbn [dict_get] in Du. rewrite String.eqb_refl in Du.
    destruct (dict_get "uids" d) as [ud|] eqn:Eud; [|contradiction].
    destruct (uids_of_ok _ _ _ Du (rp_uids _ _ _ _ _ _ W) (rp_words _ _ _ _ _ _ W)) as (u & Eu & Pu).
    (* plain fields *)
    set (p := fun f => negb (String.eqb f "uids" || mem_str f (ref_args k))).
    assert (Dp := dsim_filter _ p _ _ D). cbn [filter fst] in Dp. replace (p "uids") with false in Dp by reflexivity.
    set (pl := filter (fun kv => p (fst kv)) (fields_of h o e)) in *. set (pd := filter (fun kv => p (fst kv)) d) in *.
    assert (Pf : forall f, p f = true <-> f <> "uids" /\ ~ reference k f).
    { intros f. unfold p. rewrite negb_true_iff, orb_false_iff, String.eqb_neq. rewrite <- ref_args_iff, <- mem_str_iff. destruct (mem_str f (ref_args k)); intuition congruence. }
    assert (Acc : accepts construct h (typ_of k) pl).
    { apply (rp_plain _ _ _ _ _ _ W); [apply Dp|]. intros f v. unfold pl. rewrite filter_In, fields_of_in. cbn [fst]. rewrite Pf. fold k. split.
      - tauto.
      - intros (A & B & C & E). repeat split; auto. intros ->. apply (proj1 (rp_names _ _ _ _ _ _ W)). exact A. }
    destruct (Acc g pd) as (fs & Ec & Pc).
    { apply sim_dict. eapply dsim_mono_in; eauto. intros f x y Ix Iy S. unfold pl in Ix. apply filter_In in Ix as [Ix _]. apply fields_of_in in Ix as (A & B & ->).
      eapply sim_mono_in; eauto. }
    (* references *)
    assert (Rk : forall f, reference k f -> In f (keys (e_fields e)) /\ ~ read_only k f).
    { intros f R. split; [|now apply ref_not_ro]. apply (rp_blank _ _ _ _ _ _ W). apply blank_keys. now left. }
    assert (Ra : forall f, reference k f -> sim L (fval h o f) (arg d f)).
    { intros f R. destruct (Rk f R) as [A B]. assert (Df := dsim_get _ _ _ f D). cbn [dict_get] in Df.
      assert (N : String.eqb f "uids" = false). { apply String.eqb_neq. intros ->. now apply (proj1 (rp_names _ _ _ _ _ _ W)). }
      rewrite N in Df. rewrite (In_dict_get f (read h o f) (fields_of h o e)) in Df.
      - unfold arg. destruct (dict_get f d); [|contradiction]. now rewrite <- (read_fval h o f k).
      - apply fields_of_nodup. apply W.
      - apply fields_of_in. auto. }
    set (args := map (fun f => (f, arg d f)) (ref_args k)). set (final := dict_update args (blank k ++ fs)).
    assert (Ka : keys args = ref_args k) by (unfold args, keys; rewrite map_map; cbn; apply map_id).
    assert (Na : NoDup (keys args)) by (rewrite Ka; apply ref_args_nodup).
    assert (Nfs : NoDup (keys fs)) by (eapply perm_nodup; [symmetry; exact Pc|apply Dp]).
    assert (Kfs : forall f, In f (keys fs) <-> In f (keys (e_fields e)) /\ ~ reference k f /\ ~ read_only k f).
    { intros f. assert (X : In f (keys fs) <-> In f (keys pl)).
      { split; intros I; (eapply Permutation_in; [|exact I]).
        - rewrite (perm_keys _ _ _ Pc). symmetry. eapply dsim_keys; eauto.
        - rewrite (perm_keys _ _ _ Pc). eapply dsim_keys; eauto. }
      rewrite X. unfold pl. rewrite keys_filter, fields_of_key, Pf. fold k. split; [tauto|]. intros (A & B & C). repeat split; auto.
      intros ->. now apply (proj1 (rp_names _ _ _ _ _ _ W)). }
    assert (Gf : forall f, dict_get f final = if mem_str f (ref_args k) then Some (arg d f) else match dict_get f (blank k) with Some v => Some v | None => dict_get f fs end).
    { intros f. unfold final. rewrite dict_get_update by auto. destruct (mem_str f (ref_args k)) eqn:M.
      - apply mem_str_iff in M. rewrite (In_dict_get f (arg d f) args); auto. unfold args. apply in_map_iff. eauto.
      - replace (dict_get f args) with (@None pv); [apply dict_get_app|]. symmetry. apply dict_get_None. rewrite Ka. rewrite <- mem_str_iff, M. discriminate. }
    exists u, fs. cbv zeta. fold k. fold args. fold final. split; [|split; [auto|split; [|split; [|split; [|split; [|auto]]]]]].
    - unfold make_entity. unfold arg at 1. rewrite Eud, Eu. cbn [bind]. fold k.
      change (filter (fun kv : string * pv => negb (String.eqb (fst kv) "uids" || mem_str (fst kv) (ref_args k))) d) with pd. rewrite Ec. cbn [bind].
      fold args. rewrite assign_all_fresh; [reflexivity| | auto |].
      + exact Na.
      + intros f v I. unfold args in I. apply in_map_iff in I as (f' & E & I). inv E. apply ref_args_iff in I.
        destruct (rp_refs _ _ _ _ _ _ W f I) as (k' & pk & K' & A' & T). rewrite Ko in K'. inv K'. exists pk. split; auto. split.
        * rewrite dict_get_app, blank_ref; auto.
        * assert (S := Ra f I). destruct (Rk f I) as [A B].
          assert (HL' : forall a b, within a (fval h o f) -> L a b -> relinked h g a b).
          { intros a b Wa. apply (HL f); auto. now rewrite (read_fval h o f k). }
          destruct T as [E|[(s & i & E)|(q & E & Kq)]]; rewrite E in *.
          -- destruct (arg d f); cbn in S; try contradiction. now left.
          -- destruct (arg d f) as [| |s' i'|q| | | |] eqn:Ea; cbn in S; try contradiction.
             ++ right. left. eauto.
             ++ apply HL' in S; [|constructor]. contradiction.
          -- destruct (arg d f) as [| |s' i'|q'| | | |] eqn:Ea; cbn in S; try contradiction.
             ++ right. left. eauto.
             ++ apply HL' in S; [|constructor]. cbn in S. right. right. exists q'. split; auto. congruence.
    - unfold final. apply NoDup_keys_update. unfold keys. rewrite map_app. apply NoDup_app_intro; auto.
      + apply blank_nodup.
      + intros f I J. apply blank_keys in I. apply Kfs in J. tauto.
    - intros f. rewrite dict_get_keys, Gf. destruct (mem_str f (ref_args k)) eqn:M.
      + apply mem_str_iff, ref_args_iff in M. apply Rk in M. split; [tauto|discriminate].
      + assert (NR : ~ reference k f) by (rewrite <- ref_args_iff, <- mem_str_iff, M; discriminate).
        destruct (dict_get f (blank k)) as [v|] eqn:Eb.
        * split; [|discriminate]. intros _. apply (rp_blank _ _ _ _ _ _ W). apply dict_get_keys. fold k. congruence.
        * rewrite <- dict_get_keys, Kfs. split; [tauto|]. intros A. repeat split; auto. intros B.
          apply dict_get_None in Eb. apply Eb. apply blank_keys. auto.
    - intros f A B. rewrite Gf. destruct (mem_str f (ref_args k)) eqn:M.
      + apply mem_str_iff, ref_args_iff in M. exists (arg d f). split; auto. rewrite (read_fval h o f k); auto.
      + assert (NR : ~ reference k f) by (rewrite <- ref_args_iff, <- mem_str_iff, M; discriminate).
        replace (dict_get f (blank k)) with (@None pv).
        * assert (If : In f (keys fs)) by (apply Kfs; auto). destruct (dict_get_Some_key _ _ If) as (v & Ev). exists v. split; auto.
          assert (Ed : dict_get f pd = Some v). { rewrite <- Ev. symmetry. apply dict_get_perm; auto. }
          assert (Dg := dsim_get _ _ _ f Dp). rewrite Ed in Dg. rewrite (In_dict_get f (read h o f) pl) in Dg; auto.
          -- apply Dp.
          -- unfold pl. apply filter_In. split; [apply fields_of_in; auto|]. apply Pf. cbn [fst]. split; auto. intros E'. subst f. now apply (proj1 (rp_names _ _ _ _ _ _ W)).
        * symmetry. apply dict_get_None. intros I. apply blank_keys in I. tauto.
    - intros f B. rewrite Gf. replace (mem_str f (ref_args k)) with false.
      + destruct (dict_get f (blank k)) eqn:Eb; auto. apply dict_get_None in Eb. exfalso. apply Eb, blank_keys. auto.
      + symmetry. apply not_true_is_false. rewrite mem_str_iff, ref_args_iff. intros R. now apply (ref_not_ro k f).
  Qed.
End E.
