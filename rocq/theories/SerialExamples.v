(** Checking concrete graphs against the hypotheses of the serialisation theorems. *)
From Coq Require Import String Ascii List Bool Arith Lia Permutation ZArith QArith.
From Verif Require Import Base BaseFacts CidModel GraphModel GraphSpec GraphProofs EqModel EqSpec EqProofs EqCopies TravModel TravSpec TravProofs TravProperties SerialModel SerialSpec SerialSim SerialEntity FlattenProofs.
Import ListNotations.
Open Scope string_scope.
Open Scope list_scope.
Open Scope nat_scope.

(** A constructor that stores what it is given. *)
Definition keep_all : heap -> string -> list (string * pv) -> res (list (string * pv)) := fun _ _ d => Ok d.
Definition all_known : string -> bool := fun _ => true.

Lemma keep_all_accepts : forall h t fs, accepts keep_all h t fs.
Proof. intros h t fs g d _. exists d. split; auto. Qed.

Definition atom_dec (a b : atom) : {a = b} + {a <> b}.
Proof. decide equality; [apply bool_dec | apply Z.eq_dec | decide equality; [apply Pos.eq_dec | apply Z.eq_dec] | apply string_dec]. Defined.

Fixpoint nodupb (l : list string) : bool := match l with [] => true | x :: r => negb (mem_str x r) && nodupb r end.
Lemma nodupb_ok : forall l, nodupb l = true -> NoDup l.
Proof.
  induction l as [|x r IH]; cbn; intros H; constructor; apply andb_true_iff in H as [A B]; auto.
  intros I. apply mem_str_iff in I. rewrite I in A. discriminate.
Qed.

Fixpoint storableb (v : pv) : bool :=
  match v with
  | PNone | PAtom _ | PLink _ _ | PRef _ => true
  | PList l => (fix all (l : list pv) := match l with [] => true | x :: r => storableb x && all r end) l
  | PTuple _ => false
  | PDict d => nodupb (keys d) && negb (mem_str "type" (keys d)) &&
      (fix all (l : list (string * pv)) := match l with [] => true | (_, x) :: r => storableb x && all r end) d
  | PObj t d => nodupb (keys d) && negb (mem_str "type" (keys d)) && negb (String.eqb t "link_by_uid")
      && match kind_of t with None => true | _ => false end &&
      (fix all (l : list (string * pv)) := match l with [] => true | (_, x) :: r => storableb x && all r end) d
  end.

Lemma not_mem : forall x l, negb (mem_str x l) = true -> ~ In x l.
Proof. intros x l H I. apply mem_str_iff in I. now rewrite I in H. Qed.

Lemma storableb_ok : forall h v, storableb v = true -> storable all_known keep_all h v.
Proof.
  intros h v. induction v using pv_ind2; cbn [storableb]; intros B; try constructor; try discriminate.
  - clear - H B. induction H; constructor; apply andb_true_iff in B as [B1 B2]; auto.
  - apply nodupb_ok. apply andb_true_iff in B as [B _]. now apply andb_true_iff in B as [B _].
  - apply not_mem. apply andb_true_iff in B as [B _]. now apply andb_true_iff in B as [_ B].
  - apply andb_true_iff in B as [_ B]. clear - H B. induction H as [|[k x] l Hx H IH]; constructor; apply andb_true_iff in B as [B1 B2]; auto.
  - reflexivity.
  - apply andb_true_iff in B as [B _]. apply andb_true_iff in B as [_ B]. now destruct (kind_of t).
  - apply andb_true_iff in B as [B _]. apply andb_true_iff in B as [B _]. apply andb_true_iff in B as [_ B]. apply negb_true_iff, String.eqb_neq in B. auto.
  - apply nodupb_ok. repeat apply andb_true_iff in B as [B _]. auto.
  - apply not_mem. apply andb_true_iff in B as [B _]. apply andb_true_iff in B as [B _]. apply andb_true_iff in B as [B _]. now apply andb_true_iff in B as [_ B].
  - apply andb_true_iff in B as [_ B]. clear - H B. induction H as [|[k x] l Hx H IH]; constructor; apply andb_true_iff in B as [B1 B2]; auto.
  - apply keep_all_accepts.
Qed.

Fixpoint atoms_in (v : pv) : list atom :=
  match v with
  | PAtom a => [a]
  | PList l | PTuple l => (fix all (l : list pv) := match l with [] => [] | x :: r => atoms_in x ++ all r end) l
  | PDict l | PObj _ l => (fix all (l : list (string * pv)) := match l with [] => [] | (_, x) :: r => atoms_in x ++ all r end) l
  | _ => []
  end.
Lemma atoms_in_ok : forall v a, within (PAtom a) v -> In a (atoms_in v).
Proof.
  intros v a W. remember (PAtom a) as w. induction W; subst; cbn; auto.
  - clear W. induction l as [|x l IH]; [contradiction|]. apply in_or_app. destruct H as [->|H]; auto.
  - clear W. induction l as [|x l IH]; [contradiction|]. apply in_or_app. destruct H as [->|H]; auto.
  - clear W. induction l as [|[k' x] l IH]; [contradiction|]. apply in_or_app. destruct H as [E|H]; [inv E|]; auto.
  - clear W. induction l as [|[k' x] l IH]; [contradiction|]. apply in_or_app. destruct H as [E|H]; [inv E|]; auto.
Qed.
Definition coherentb (l : list atom) : bool := forallb (fun a => forallb (fun b => if atom_dec a b then true else negb (atom_eq a b)) l) l.
Lemma coherentb_ok : forall l, coherentb l = true -> forall a b, In a l -> In b l -> atom_eq a b = true -> a = b.
Proof.
  intros l H a b Ia Ib E. unfold coherentb in H. rewrite forallb_forall in H. specialize (H a Ia). rewrite forallb_forall in H. specialize (H b Ib).
  destruct (atom_dec a b); auto. rewrite E in H. discriminate.
Qed.

Definition askedb (k : ekind) (f : string) : option ekind :=
  option_map snd (find (fun p => (if ekind_eq_dec (fst (fst p)) k then true else false) && String.eqb (snd (fst p)) f)
    [ (KMatR, "process", KProcR); (KMatR, "spec", KMatS); (KMatS, "process", KProcS); (KMatS, "template", KMatT)
    ; (KMeasR, "material", KMatR); (KMeasR, "spec", KMeasS); (KMeasS, "template", KMeasT)
    ; (KIngR, "process", KProcR); (KIngR, "material", KMatR); (KIngR, "spec", KIngS)
    ; (KIngS, "process", KProcS); (KIngS, "material", KMatS)
    ; (KProcR, "spec", KProcS); (KProcS, "template", KProcT) ]).
Lemma askedb_ok : forall k f pk, askedb k f = Some pk -> asked_kind k f pk.
Proof.
  intros k f pk H. unfold askedb in H. match type of H with option_map snd (find ?p ?l) = _ => destruct (find p l) as [[[k0 f0] pk0]|] eqn:E; [|discriminate] end.
  cbn in H. inv H. apply find_some in E as [I E]. cbn [fst snd] in E. apply andb_true_iff in E as [E1 E2]. destruct (ekind_eq_dec k0 k); [|discriminate].
  apply String.eqb_eq in E2. subst. exact I.
Qed.

Definition well_typedb (h : heap) (o : oid) (k : ekind) (f : string) : bool :=
  match askedb k f with
  | Some pk => match fval h o f with
               | PNone | PLink _ _ => true
               | PRef p => match kind_at h p with Some k' => if ekind_eq_dec k' pk then true else false | None => false end
               | _ => false
               end
  | None => false
  end.
Lemma well_typedb_ok : forall h o k f, kind_at h o = Some k -> well_typedb h o k f = true -> well_typed h o f (fval h o f).
Proof.
  intros h o k f K H. unfold well_typedb in H. destruct (askedb k f) as [pk|] eqn:A; [|discriminate]. apply askedb_ok in A.
  exists k, pk. split; auto. split; auto. destruct (fval h o f); try discriminate; [auto | right; left; eauto |].
  right. right. exists o0. split; auto. destruct (kind_at h o0) as [k'|]; [|discriminate]. destruct (ekind_eq_dec k' pk); [now subst|discriminate].
Qed.

Definition serialised (e : entity) : list string := filter (fun f => negb (skipped (e_kind e) f)) (keys (e_fields e)).
Lemma serialised_iff : forall e f, In f (serialised e) <-> In f (keys (e_fields e)) /\ ~ read_only (e_kind e) f.
Proof. intros e f. unfold serialised. rewrite filter_In, negb_true_iff, <- skipped_iff. destruct (skipped (e_kind e) f); split; intros [A B]; split; auto; congruence. Qed.

Definition well_formedb (lower : string -> string) (h : heap) (o : oid) (e : entity) : bool :=
  nodupb (keys (e_fields e)) && negb (mem_str "uids" (keys (e_fields e))) && negb (mem_str "type" (keys (e_fields e)))
  && forallb (fun f => mem_str f (keys (e_fields e))) (keys (blank (e_kind e)))
  && nodupb (map (fun p => lower (fst p)) (e_uids e)) && negb (mem_str "type" (keys (e_uids e)))
  && negb (mem_str "seq" (keys (e_uids e))) && negb (mem_str "self" (keys (e_uids e)))
  && forallb (well_typedb h o (e_kind e)) (ref_args (e_kind e))
  && forallb (fun f => storableb (read h o f)) (serialised e)
  && coherentb (concat (map (fun f => atoms_in (read h o f)) (serialised e))).

Lemma well_formedb_ok : forall lower h o e, hget h o = Some e -> well_formedb lower h o e = true -> well_formed lower all_known keep_all h o e.
Proof.
  intros lower h o e He H. unfold well_formedb in H. repeat match type of H with (_ && _ = true) => let X := fresh "X" in apply andb_true_iff in H as [H X] end.
  assert (K : kind_at h o = Some (e_kind e)) by (unfold kind_at; now rewrite He).
  split; [split|].
  - now apply nodupb_ok.
  - split; now apply not_mem.
  - intros f I. rewrite forallb_forall in X6. specialize (X6 f I). now apply mem_str_iff.
  - now apply nodupb_ok.
  - now apply not_mem.
  - split; now apply not_mem.
  - intros f R. apply ref_args_iff in R. rewrite forallb_forall in X1. eapply well_typedb_ok; eauto.
  - intros f I R. apply storableb_ok. rewrite forallb_forall in X0. apply X0. apply serialised_iff. auto.
  - intros. apply keep_all_accepts.
  - intros a b A B. apply (coherentb_ok _ X); [destruct A as (f & I & R & W) | destruct B as (f & I & R & W)];
      apply in_concat; exists (atoms_in (read h o f)); (split; [apply in_map_iff; exists f; split; auto; now apply serialised_iff | now apply atoms_in_ok]).
Qed.

Definition graph_wellb (lower : string -> string) (h : heap) : bool :=
  forallb (fun o => match hget h o with Some e => well_formedb lower h o e | None => false end) (seq 0 (length h)).

(** No reference points outside the heap. *)
Fixpoint refs_in (v : pv) : list oid :=
  match v with
  | PRef o => [o]
  | PList l | PTuple l => (fix all (l : list pv) := match l with [] => [] | x :: r => refs_in x ++ all r end) l
  | PDict l | PObj _ l => (fix all (l : list (string * pv)) := match l with [] => [] | (_, x) :: r => refs_in x ++ all r end) l
  | _ => []
  end.
Lemma refs_in_ok : forall v o, mentions v o -> In o (refs_in v).
Proof.
  intros v o W. induction W; subst; cbn; auto.
  - clear W. induction l as [|x l IH]; [contradiction|]. apply in_or_app. destruct H as [->|H]; auto.
  - clear W. induction l as [|x l IH]; [contradiction|]. apply in_or_app. destruct H as [->|H]; auto.
  - clear W. induction l as [|[k' x] l IH]; [contradiction|]. apply in_or_app. destruct H as [E|H]; [inv E|]; auto.
  - clear W. induction l as [|[k' x] l IH]; [contradiction|]. apply in_or_app. destruct H as [E|H]; [inv E|]; auto.
Qed.
Definition closedb (h : heap) (obj : pv) : bool :=
  forallb (fun o => o <? length h) (refs_in obj ++ concat (map (fun e => concat (map (fun kv => refs_in (snd kv)) (e_fields e))) h)).

Lemma closedb_ok : forall h obj, closedb h obj = true -> forall o, reachable h obj o -> o < length h.
Proof.
  intros h obj H o R. unfold closedb in H. rewrite forallb_forall in H. apply Nat.ltb_lt. apply H. apply in_or_app. induction R as [o M|o e f v x R IH He If _ M].
  - left. now apply refs_in_ok.
  - right. apply in_concat. exists (concat (map (fun kv => refs_in (snd kv)) (e_fields e))). split.
    + apply in_map_iff. exists e. split; auto. unfold hget in He. eapply nth_error_In; eauto.
    + apply in_concat. exists (refs_in v). split; [|now apply refs_in_ok]. apply in_map_iff. exists (f, v). auto.
Qed.

Lemma graph_wellb_ok : forall lower h obj, graph_wellb lower h = true -> closedb h obj = true -> all_well_formed lower all_known keep_all h obj.
Proof.
  intros lower h obj G C o R. apply (closedb_ok _ _ C) in R. unfold graph_wellb in G. rewrite forallb_forall in G. specialize (G o).
  rewrite in_seq in G. destruct (hget h o) as [e|] eqn:He.
  - exists e. split; auto. apply well_formedb_ok; auto. apply G. lia.
  - unfold hget in He. apply nth_error_None in He. lia.
Qed.

Definition own_uidsb (fold : string -> string) (h : heap) : bool :=
  forallb (fun o => forallb (fun o' => (o =? o') || match hget h o, hget h o' with
    | Some e, Some e' => forallb (fun p => forallb (fun q => negb (String.eqb (fold (fst p)) (fold (fst q)) && String.eqb (snd p) (snd q))) (e_uids e')) (e_uids e)
    | _, _ => true end) (seq 0 (length h))) (seq 0 (length h)).
Lemma own_uidsb_ok : forall fold h obj, own_uidsb fold h = true -> own_uids fold h obj.
Proof.
  intros fold h obj H o o' s s' i _ _ (e & He & I) (e' & He' & I') E. unfold own_uidsb in H. rewrite forallb_forall in H.
  assert (Lt : forall x ex, hget h x = Some ex -> In x (seq 0 (length h))).
  { intros x ex Hx. apply in_seq. unfold hget in Hx. assert (nth_error h x <> None) by congruence. apply nth_error_Some in H0. lia. }
  specialize (H o (Lt _ _ He)). rewrite forallb_forall in H. specialize (H o' (Lt _ _ He')). apply orb_prop in H as [H|H]; [now apply Nat.eqb_eq|].
  rewrite He, He' in H. rewrite forallb_forall in H. specialize (H _ I). rewrite forallb_forall in H. specialize (H _ I').
  cbn [fst snd] in H. rewrite E, !String.eqb_refl in H. discriminate.
Qed.

Definition attributesb (h : heap) : bool :=
  forallb (fun o => match hget h o with
    | Some e => forallb (fun f => mem_str f (ref_args (e_kind e)) || skipped (e_kind e) f ||
        forallb (fun x => match kind_at h x with Some (KPropT | KCondT | KParamT) => true | _ => false end
          && match e_kind e with KPropT | KCondT | KParamT => false | _ => true end) (refs_in (read h o f))) (keys (e_fields e))
    | None => true end) (seq 0 (length h)).
Lemma attributesb_ok : forall h obj, attributesb h = true -> attributes_typed h obj.
Proof.
  intros h obj H o e f x _ He If R B M. unfold attributesb in H. rewrite forallb_forall in H.
  assert (Lt : In o (seq 0 (length h))). { apply in_seq. unfold hget in He. assert (nth_error h o <> None) by congruence. apply nth_error_Some in H0. lia. }
  specialize (H o Lt). rewrite He in H. rewrite forallb_forall in H. specialize (H f If). apply orb_prop in H as [H|H]; [apply orb_prop in H as [H|H]|].
  - apply mem_str_iff, ref_args_iff in H. contradiction.
  - apply skipped_iff in H. contradiction.
  - rewrite forallb_forall in H. specialize (H x (refs_in_ok _ _ M)). apply andb_true_iff in H as [H1 H2]. split.
    + unfold attribute_template. destruct (kind_at h x) as [[]|]; try discriminate; auto.
    + unfold attribute_template, kind_at. rewrite He. cbn [option_map]. destruct (e_kind e); try (exfalso; exact (diff_false_true H2)); intros [X|[X|X]]; discriminate.
Qed.

(** A material made by a process and measured, with a template and nested attributes; two of the
    six entities have no uid yet. *)
Definition num (z : Z) : pv := PAtom (AInt z).
Definition ex_graph : heap :=
  [ mkE KMatR [("id", "m")] [("name", str "m"); ("tags", PList [str "a"; str "b"]); ("spec", PNone); ("process", PRef 1); ("measurements", PList [PRef 2])]
  ; mkE KProcR [] [("name", str "p"); ("tags", PList []); ("spec", PLink "id" "elsewhere"); ("output_material", PRef 0); ("ingredients", PList [PRef 5]);
                   ("conditions", PList [PObj "condition" [("name", str "c"); ("template", PRef 3); ("value", PObj "nominal_integer" [("nominal", num 3)])]])]
  ; mkE KMeasR [("id", "q"); ("Other", "m")] [("name", str "q"); ("spec", PNone); ("material", PRef 0); ("file_links", PDict [("u", PNone)])]
  ; mkE KCondT [("id", "t")] [("name", str "t"); ("bounds", PObj "integer_bounds" [("lower_bound", num 0); ("upper_bound", num 9)])]
  ; mkE KMatR [] [("name", str "m2"); ("spec", PNone); ("process", PNone); ("measurements", PList [])]
  ; mkE KIngR [("id", "i")] [("name", PNone); ("labels", PNone); ("spec", PNone); ("material", PRef 4); ("process", PRef 1)] ].
Definition ex_root : pv := PList [PRef 2; PDict [("again", PRef 0)]; PLink "id" "nowhere"].

(** Uuids: "u", "uu", "uuu" ... *)
Fixpoint us (n : nat) : string := match n with O => "u" | S m => String "u"%char (us m) end.
Lemma us_length : forall n, String.length (us n) = S n.
Proof. induction n; cbn; auto. Qed.
Lemma us_inj : forall a b, us a = us b -> a = b.
Proof. intros a b E. apply (f_equal String.length) in E. rewrite !us_length in E. lia. Qed.
Lemma us_fresh : forall h obj n, forallb (fun e => forallb (fun p => match snd p with String "u"%char _ => false | _ => true end) (e_uids e)) h = true -> fresh_uuids us n h obj.
Proof.
  intros h obj n H. split; [intros; now apply us_inj|]. intros a o s _ _ (e & He & I). rewrite forallb_forall in H. specialize (H e (nth_error_In _ _ He)).
  rewrite forallb_forall in H. specialize (H _ I). cbn [snd] in H. destruct a; discriminate.
Qed.

(** ** Links *)
Fixpoint links_in (v : pv) : list (string * string) :=
  match v with
  | PLink s i => [(s, i)]
  | PList l | PTuple l => (fix all (l : list pv) := match l with [] => [] | x :: r => links_in x ++ all r end) l
  | PDict l | PObj _ l => (fix all (l : list (string * pv)) := match l with [] => [] | (_, x) :: r => links_in x ++ all r end) l
  | _ => []
  end.
Lemma links_in_ok : forall v s i, within (PLink s i) v -> In (s, i) (links_in v).
Proof.
  assert (GL : forall l x p, In x l -> In p (links_in x) -> In p ((fix all (l : list pv) := match l with [] => [] | x :: r => links_in x ++ all r end) l)).
  { induction l as [|y l IH]; intros x p I J; [contradiction|]. apply in_or_app. destruct I as [->|I]; eauto. }
  assert (GP : forall l k x p, In (k, x) l -> In p (links_in x) -> In p ((fix all (l : list (string * pv)) := match l with [] => [] | (_, x) :: r => links_in x ++ all r end) l)).
  { induction l as [|[k0 y] l IH]; intros k x p I J; [contradiction|]. apply in_or_app. destruct I as [I|I]; [inv I; auto|]. right. eapply IH; eauto. }
  intros v s i W. remember (PLink s i) as w. induction W; subst; cbn [links_in]; try (now left); eauto.
Qed.
Definition starts_u (i : string) : bool := match i with String "u"%char _ => true | _ => false end.
Definition looseb (lower : string -> string) (h : heap) (obj : pv) : bool :=
  forallb (fun p => negb (starts_u (snd p)) && forallb (fun e => forallb (fun u => negb (String.eqb (snd u) (snd p) && String.eqb (lower (fst u)) (lower (fst p)))) (e_uids e)) h)
    (links_in obj ++ flat_map (fun e => flat_map (fun kv => links_in (snd kv)) (e_fields e)) h).
Lemma looseb_ok : forall lower h obj n, looseb lower h obj = true -> loose_links lower us n h obj.
Proof.
  intros lower h obj n H s i M. unfold looseb in H. rewrite forallb_forall in H.
  assert (I : In (s, i) (links_in obj ++ flat_map (fun e => flat_map (fun kv => links_in (snd kv)) (e_fields e)) h)).
  { apply in_or_app. inversion M as [? Wi|o e f v ? R He Iv _ Wi]; subst; [left; now apply links_in_ok|]. right.
    apply in_flat_map. exists e. split; [eapply nth_error_In; eauto|]. apply in_flat_map. exists (f, v). split; auto. now apply links_in_ok. }
  apply H in I. apply andb_true_iff in I as [A B]. cbn [fst snd] in *. split.
  - intros o s' _ (e & He & Iu) E. rewrite forallb_forall in B. specialize (B e (nth_error_In _ _ He)). rewrite forallb_forall in B. specialize (B _ Iu).
    cbn in B. rewrite String.eqb_refl, E, String.eqb_refl in B. discriminate.
  - intros a _ ->. destruct a; discriminate.
Qed.

(** ** References *)
Definition fields (h : heap) : list (oid * (string * pv)) := concat (map (fun o => match hget h o with Some e => map (fun kv => (o, kv)) (e_fields e) | None => [] end) (seq 0 (length h))).
Lemma fields_ok : forall h o e kv, hget h o = Some e -> In kv (e_fields e) -> In (o, kv) (fields h).
Proof.
  intros h o e kv He I. unfold fields. apply in_concat. exists (map (fun kv => (o, kv)) (e_fields e)). split; [|now apply in_map].
  apply in_map_iff. exists o. rewrite He. split; auto. apply in_seq. apply hget_lt in He. lia.
Qed.
Definition closed_heapb (h : heap) : bool := forallb (fun p => forallb (fun x => x <? length h) (refs_in (snd (snd p)))) (fields h).
Lemma closed_heapb_ok : forall h, closed_heapb h = true -> closed h.
Proof.
  intros h H o e f v x He I M E. unfold closed_heapb in H. rewrite forallb_forall in H. specialize (H _ (fields_ok h o e (f, v) He I)). cbn in H.
  rewrite forallb_forall in H. specialize (H x (refs_in_ok v x M)). apply Nat.ltb_lt in H. apply nth_error_None in E. lia.
Qed.

Definition templateb (h : heap) (x : oid) : bool := match kind_at h x with Some KPropT | Some KCondT | Some KParamT => true | _ => false end.
Lemma templateb_ok : forall h x, templateb h x = true <-> attribute_template h x.
Proof. intros h x. unfold templateb, attribute_template. destruct (kind_at h x) as [[]|]; split; intros H; auto; try discriminate; destruct H as [H|[H|H]]; discriminate. Qed.
Definition inside (v : pv) : list oid :=
  match items_of v with
  | Some l => flat_map (fun x => match x with PRef _ => [] | _ => refs_in x end) l
  | None => match v with PRef _ => [] | _ => refs_in v end
  end.
Lemma inside_ok : forall v x, mentions_inside v x -> In x (inside v).
Proof.
  intros v x M. unfold mentions_inside, inside in *. destruct (items_of v) as [l|].
  - destruct M as (y & Iy & N & My). apply in_flat_map. exists y. split; auto. apply refs_in_ok in My. destruct y; auto. exfalso. eapply N; reflexivity.
  - destruct M as [N M]. apply refs_in_ok in M. destruct v; auto. exfalso. eapply N; reflexivity.
Qed.
Definition layeredb (h : heap) : bool :=
  forallb (fun p => forallb (templateb h) (inside (snd (snd p))) && (negb (templateb h (fst p)) || match refs_in (snd (snd p)) with [] => true | _ => false end)) (fields h).
Lemma read_a_field : forall h o f, read h o f = PNone \/ exists p e, hget h p = Some e /\ In (f, read h o f) (e_fields e) /\ (p = o \/ kind_at h o = Some KIngR).
Proof.
  intros h o f. assert (A : forall p, fval h p f = PNone \/ exists e, hget h p = Some e /\ In (f, fval h p f) (e_fields e)).
  { intros p. destruct (fval h p f) eqn:E; auto; right; (destruct (fval_in h p f _ E) as (e & He & I); [discriminate|]; eauto). }
  assert (B : fval h o f = PNone \/ exists p e, hget h p = Some e /\ In (f, fval h o f) (e_fields e) /\ (p = o \/ kind_at h o = Some KIngR)).
  { destruct (A o) as [X|(e & X)]; auto. right. exists o, e. tauto. }
  unfold read. destruct (kind_at h o) as [k|] eqn:K; auto. destruct k; auto. destruct (String.eqb f "name" || String.eqb f "labels"); auto.
  destruct (fval h o "spec") as [| | |s| | | |]; auto. destruct (is_kind h KIngS (PRef s)); auto. destruct (A s) as [X|(e & He & X)]; auto. right. exists s, e. auto.
Qed.
Lemma layeredb_ok : forall h, layeredb h = true -> layered h.
Proof.
  intros h H. unfold layeredb in H. rewrite forallb_forall in H. split.
  - intros o f x M. destruct (read_a_field h o f) as [E|(p & e & He & I & _)]; [rewrite E in M; destruct M as [_ M]; inversion M|].
    specialize (H _ (fields_ok h p e _ He I)). apply andb_true_iff in H as [H _]. rewrite forallb_forall in H. apply templateb_ok. apply H. now apply inside_ok.
  - intros o f x A M. destruct (read_a_field h o f) as [E|(p & e & He & I & Hp)]; [rewrite E in M; inversion M|].
    destruct Hp as [->|K]; [|destruct A as [A|[A|A]]; congruence].
    specialize (H _ (fields_ok h o e _ He I)). apply andb_true_iff in H as [_ H]. cbn [fst snd] in H. apply templateb_ok in A. rewrite A in H. cbn in H.
    apply refs_in_ok in M. destruct (refs_in (read h o f)); [contradiction|discriminate].
Qed.

Definition plainb (h : heap) : bool :=
  forallb (fun p => match refs_in (snd (snd p)) with [] => true | _ => negb (String.eqb (fst (snd p)) "name" || String.eqb (fst (snd p)) "labels") end) (fields h).
Lemma plainb_ok : forall h obj, plainb h = true -> plain_names h obj.
Proof.
  intros h obj H o f x _ _ Hf M. destruct (fval_in h o f _ eq_refl) as (e & He & I); [intros E; rewrite E in M; inversion M|].
  unfold plainb in H. rewrite forallb_forall in H. specialize (H _ (fields_ok h o e _ He I)). cbn [fst snd] in H. apply refs_in_ok in M.
  destruct (refs_in (fval h o f)); [contradiction|]. destruct Hf as [-> | ->]; discriminate.
Qed.

Definition uids_okb (h : heap) : bool := forallb (fun e => nodupb (keys (e_uids e))) h.
Lemma uids_okb_ok : forall h, uids_okb h = true -> uids_ok h.
Proof. intros h H o e He. unfold uids_okb in H. rewrite forallb_forall in H. apply nodupb_ok. apply H. eapply nth_error_In; eauto. Qed.

Lemma ex_mirrored : mirrored ex_graph.
Proof.
  split; [|split].
  - intros mk pk m p C. assert (X : forall o, 6 <= o -> kind_at ex_graph o = None).
    { intros o Ho. unfold kind_at, hget. replace (nth_error ex_graph o) with (@None entity); auto. symmetry. now apply nth_error_None. }
    split; intros [K F].
    + destruct (Nat.lt_ge_cases m 6) as [L|L]; [|rewrite X in K by auto; discriminate].
      do 6 (destruct m as [|m]; [cbn in K, F; destruct C as [[-> ->]|[-> ->]]; try discriminate; inv F; cbn; auto|]). lia.
    + destruct (Nat.lt_ge_cases p 6) as [L|L]; [|rewrite X in K by auto; discriminate].
      do 6 (destruct p as [|p]; [cbn in K, F; destruct C as [[-> ->]|[-> ->]]; try discriminate; inv F; cbn; auto|]). lia.
  - assert (X : forall o, 6 <= o -> kind_at ex_graph o = None).
    { intros o Ho. unfold kind_at, hget. replace (nth_error ex_graph o) with (@None entity); auto. symmetry. now apply nth_error_None. }
    intros ck cf pk lf Ls. split.
    + assert (Y : forall xs (Q : oid -> Prop), (forall c, c < 6 -> (In c xs <-> Q c)) -> (forall c, 6 <= c -> ~ Q c) -> (forall c, In c xs -> c < 6) -> forall c, In c xs <-> Q c).
      { intros xs Q A B D c. destruct (Nat.lt_ge_cases c 6); auto. split; [intros I; apply D in I; lia|intros Hq; now apply B in Hq]. }
      intros p K. destruct (Nat.lt_ge_cases p 6) as [L|L]; [|rewrite X in K by auto; discriminate].
      assert (G : exists xs, fval ex_graph p lf = PList (map PRef xs) /\ NoDup xs /\ (forall c, In c xs -> c < 6) /\ forall c, c < 6 -> (In c xs <-> kind_at ex_graph c = Some ck /\ fval ex_graph c cf = PRef p)).
      { do 6 (destruct p as [|p]; [cbn in K; destruct Ls as [E|[E|E]]; inv E; try discriminate;
          first [exists [2]; split; [reflexivity|]|exists [5]; split; [reflexivity|]|exists []; split; [reflexivity|]];
          (split; [repeat constructor; intros []|]); (split; [cbn; intros; lia|]);
          intros c Hc; do 6 (destruct c as [|c]; [cbn; split; [intros I; repeat destruct I as [I|I]; try lia; auto; try discriminate|intros [A B]; try discriminate; auto]|]); lia|]). lia. }
      destruct G as (xs & E & N & D & G). exists xs. split; auto. split; auto. apply Y; auto. intros c Hc [Kc _]. rewrite X in Kc by auto. discriminate.
    + intros c p K F. destruct (Nat.lt_ge_cases c 6) as [L|L]; [|rewrite X in K by auto; discriminate].
      do 6 (destruct c as [|c]; [cbn in K; destruct Ls as [E|[E|E]]; inv E; try discriminate; cbn in F; inv F; reflexivity|]). lia.
  - intros p [K|K]; do 6 (destruct p as [|p]; [try discriminate K; cbn; eauto|]); destruct p; discriminate.
Qed.
