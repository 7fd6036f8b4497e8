(** Theorems about substitute_objects with a copy as its result, concrete cases, and what the substitutions get wrong (C23). *)
From Coq Require Import String List Bool Arith Lia Permutation ZArith.
From Verif Require Import Base BaseFacts GraphModel GraphSpec GraphProofs GraphProperties EqModel EqSpec EqProofs EqProperties TravModel TravSpec TravProofs TravProperties SerialModel SerialSpec SerialProofs SerialExamples LoadLinkProofs InstSpec SubstProperties InPlaceModel InPlaceSpec InPlaceProofs InPlaceHeap InPlaceLinks InPlaceObjects InPlaceProperties InPlaceCopy.
Import ListNotations.
Open Scope string_scope.
Open Scope list_scope.
Open Scope nat_scope.

(** ** Copying *)

(** substitute_objects without [inplace] changes none of the entities there are, whatever it does and whatever
    the index holds. *)
Theorem substitute_objects_leaves : forall lower known construct ix n h v w h', substitute_objects lower known construct ix n h v = Ok (w, h') ->
  length h <= length h' /\ forall x, x < length h -> hget h' x = hget h x.
Proof.
  intros lower known construct ix n h v w h' H. unfold substitute_objects in H. destruct (copy _ _ _ _ _ _ _) as [[w1 [h1 m]]|] eqn:E; [|discriminate]. cbn in H. inv H.
  apply (copy_more lower known construct h ix) in E; [exact E|apply more_refl].
Qed.
Print Assumptions substitute_objects_leaves.

(** ... but the entities in its result are all new: it puts copies in place of links, never the entities of the index
    (finding). *)
Theorem substitute_objects_copies : forall lower known construct ix n h v w h', substitute_objects lower known construct ix n h v = Ok (w, h') ->
  forall x, item_of w x -> length h <= x.
Proof.
  intros lower known construct ix n h v w h' H. unfold substitute_objects in H. destruct (copy _ _ _ _ _ _ _) as [[w1 [h1 m]]|] eqn:E; [|discriminate]. cbn in H. inv H.
  apply (copy_fresh lower known construct h ix n []) in E; [|apply more_refl|apply remembered_nil]. destruct E as [_ [F|[(p & [] & _)|[_ F]]]]; auto. congruence.
Qed.
Print Assumptions substitute_objects_copies.

(** ** A graph *)

(** A material made by a process from an ingredient and measured; the process has a condition with a template. *)
Definition ip_graph : heap :=
  [ mkE KMatR [("id", "m")] [("name", str "m"); ("tags", PList [str "a"; str "b"]); ("spec", PNone); ("process", PRef 1); ("measurements", PList [PRef 2])]
  ; mkE KProcR [("id", "p")] [("name", str "p"); ("tags", PList [PTuple [str "x"; str "y"; str "z"]]); ("spec", PNone); ("output_material", PRef 0); ("ingredients", PList [PRef 5]);
                   ("conditions", PList [PObj "condition" [("name", str "c"); ("template", PRef 3); ("value", PObj "nominal_integer" [("nominal", num 3)])]])]
  ; mkE KMeasR [("id", "q"); ("Other", "m")] [("name", str "q"); ("spec", PNone); ("material", PRef 0); ("file_links", PDict [("u", PNone)])]
  ; mkE KCondT [("id", "t")] [("name", str "t"); ("bounds", PObj "integer_bounds" [("lower_bound", num 0); ("upper_bound", num 9)])]
  ; mkE KMatR [("id", "m2")] [("name", str "m2"); ("spec", PNone); ("process", PNone); ("measurements", PList [])]
  ; mkE KIngR [("id", "i")] [("name", PNone); ("labels", PNone); ("spec", PNone); ("material", PRef 4); ("process", PRef 1)] ].

Definition lax : heap -> string -> list (string * pv) -> string -> pv -> option exn := fun _ _ _ _ _ => None.
Definition lax_list : heap -> oid -> string -> pv -> option exn := fun _ _ _ _ => None.

Lemma every_value : forall (Q : pv -> Prop) h, Q PNone -> (forall e kv, In e h -> In kv (e_fields e) -> Q (snd kv)) -> forall x f, Q (fval h x f).
Proof.
  intros Q h N H x f. unfold fval, fget. destruct (hget h x) as [e|] eqn:E; auto. destruct (dict_get f (e_fields e)) as [v|] eqn:D; auto.
  apply (H e (f, v)); [eapply nth_error_In; eauto|now apply dict_get_In].
Qed.

Fixpoint tuples_in (v : pv) : list (list pv) :=
  match v with
  | PTuple l => l :: (fix all (l : list pv) := match l with [] => [] | x :: r => tuples_in x ++ all r end) l
  | PList l => (fix all (l : list pv) := match l with [] => [] | x :: r => tuples_in x ++ all r end) l
  | PDict l | PObj _ l => (fix all (l : list (string * pv)) := match l with [] => [] | (_, x) :: r => tuples_in x ++ all r end) l
  | _ => []
  end.
Lemma tuples_in_ok : forall v l, within (PTuple l) v -> In l (tuples_in v).
Proof.
  assert (GL : forall l x p, In x l -> In p (tuples_in x) -> In p ((fix all (l : list pv) := match l with [] => [] | x :: r => tuples_in x ++ all r end) l)).
  { induction l as [|y l IH]; intros x p I J; [contradiction|]. apply in_or_app. destruct I as [->|I]; eauto. }
  assert (GP : forall l k x p, In (k, x) l -> In p (tuples_in x) -> In p ((fix all (l : list (string * pv)) := match l with [] => [] | (_, x) :: r => tuples_in x ++ all r end) l)).
  { induction l as [|[k0 y] l IH]; intros k x p I J; [contradiction|]. apply in_or_app. destruct I as [I|I]; [inv I; auto|]. right. eapply IH; eauto. }
  intros v l W. remember (PTuple l) as w. induction W; subst; cbn [tuples_in]; try (now left); eauto. right. eauto.
Qed.
Definition plain_tuplesb (v : pv) : bool :=
  forallb (fun l => match two_strings l with Some _ => false | None => true end
    && forallb (fun a => match a with AStr _ => true | _ => false end) (atoms_in (PTuple l))) (tuples_in v).
Lemma plain_tuplesb_ok : forall v, plain_tuplesb v = true -> plain_tuples v.
Proof.
  intros v H l W. unfold plain_tuplesb in H. rewrite forallb_forall in H. specialize (H l (tuples_in_ok _ _ W)). apply andb_prop in H as [H1 H2]. split.
  - intros s i ->. discriminate.
  - intros a A. rewrite forallb_forall in H2. specialize (H2 a (atoms_in_ok _ _ A)). destruct a; try discriminate. eauto.
Qed.
Lemma tuples_okb_hashable : forall v, tuples_okb v = true -> hashable_in v.
Proof. intros v H l W. eapply tuples_ok_within; eauto. Qed.

Lemma ip_same : forall x f, f <> "spec" -> f <> "tags" -> fval ip_graph x f = fval ex_graph x f.
Proof.
  intros x f N M. do 6 (destruct x as [|x]; [cbn [fval hget nth_error ip_graph ex_graph fget e_fields]; unfold fval, fget; cbn -[String.eqb];
    repeat match goal with |- context [String.eqb f ?k] => destruct (String.eqb_spec f k); [congruence|] end; reflexivity|]).
  unfold fval, hget. now rewrite !(proj2 (nth_error_None _ _)) by (cbn; lia).
Qed.
Lemma ip_kinds : forall x, kind_at ip_graph x = kind_at ex_graph x.
Proof. intros x. do 6 (destruct x as [|x]; [reflexivity|]). unfold kind_at, hget. now rewrite !(proj2 (nth_error_None _ _)) by (cbn; lia). Qed.
Lemma ip_mirrored : processes_agree ip_graph /\ lists_mirror ip_graph.
Proof.
  destruct ex_mirrored as (P & L & _). split.
  - intros mk pk m p C. rewrite !ip_kinds, !ip_same by discriminate. now apply P.
  - intros ck cf pk lf Ls. destruct (L ck cf pk lf Ls) as [A B].
    assert (N : cf <> "spec" /\ cf <> "tags" /\ lf <> "spec" /\ lf <> "tags") by (destruct Ls as [E|[E|E]]; inv E; repeat split; discriminate). destruct N as (N1 & N2 & N3 & N4). split.
    + intros p K. rewrite ip_kinds in K. destruct (A p K) as (xs & E & D & I). exists xs. rewrite ip_same by auto. split; auto. split; auto. intros x. rewrite ip_kinds, ip_same by auto. apply I.
    + intros x p K. rewrite ip_kinds in K. rewrite ip_kinds, ip_same by auto. now apply B.
Qed.

Definition pvalues (h : heap) : list pv := concat (map (fun e => map snd (e_fields e)) h).
Lemma pvalues_ok : forall h (b : pv -> bool), b PNone = true -> forallb b (pvalues h) = true -> forall x f, b (fval h x f) = true.
Proof.
  intros h b N H x f. apply (every_value (fun v => b v = true)); auto. intros e kv I J. rewrite forallb_forall in H. apply H. unfold pvalues. apply in_concat.
  exists (map snd (e_fields e)). split; [apply in_map_iff; eauto|now apply in_map].
Qed.

Lemma ip_own : all_own ip_graph.
Proof.
  split; [now apply uids_okb_ok|]. intros a b ea eb A B Q.
  assert (La : a < 6) by (apply (nth_error_Some ip_graph); unfold hget in A; congruence). assert (Lb : b < 6) by (apply (nth_error_Some ip_graph); unfold hget in B; congruence).
  assert (G : forall s i, In (s, i) (e_uids ea) -> In (s, i) (e_uids eb)) by (intros s i I; now apply Q).
  do 6 (destruct a as [|a]; [cbn in A; inv A; do 6 (destruct b as [|b]; [cbn in B; inv B; try reflexivity; exfalso; specialize (G _ _ (or_introl eq_refl)); cbn in G; repeat destruct G as [G|G]; try contradiction; inv G|]); lia|]). lia.
Qed.

Lemma ip_restorable : restorable lax lax_list ip_graph.
Proof.
  destruct ip_mirrored as [P L]. constructor; auto.
  - intros o e H. apply nodupb_ok. apply (proj1 (forallb_forall (fun e => nodupb (map fst (e_fields e))) ip_graph)); [reflexivity|eapply nth_error_In; eauto].
  - apply ip_own.
  - intros o k f pk K A. apply (well_typedb_ok _ _ k); auto. assert (Lt := kind_lt _ _ _ K). cbn in Lt.
    do 6 (destruct o as [|o]; [cbn in K; inv K; unfold asked_kind in A; cbn in A; repeat destruct A as [A|A]; try contradiction; inv A; reflexivity|]). lia.
  - intros x f _. split; [apply plain_tuplesb_ok|apply tuples_okb_hashable]; apply pvalues_ok; reflexivity.
  - intros x. split; [|split]; intros; try reflexivity. intros h' t fs fs' k y _ _ _. reflexivity.
Qed.
Definition ip_index : index := [(("id", "m"), 0); (("id", "p"), 1); (("id", "q"), 2); (("id", "t"), 3); (("id", "m2"), 4); (("id", "i"), 5)].

(** The hypotheses of [made_index_restores] hold of the ingredient and of the process, and its conclusion is as computed. *)
Lemma ip_named : forall x y s i, named ip_graph x s i -> named ip_graph y s i -> x = y.
Proof.
  intros x y s i (e & E & I) (e' & E' & I').
  assert (La : x < 6) by (apply (nth_error_Some ip_graph); unfold hget in E; congruence). assert (Lb : y < 6) by (apply (nth_error_Some ip_graph); unfold hget in E'; congruence).
  do 6 (destruct x as [|x]; [cbn in E; inv E; cbn in I; do 6 (destruct y as [|y]; [cbn in E'; inv E'; cbn in I'; try reflexivity; exfalso;
    repeat destruct I as [I|I]; try contradiction; repeat destruct I' as [I'|I']; try contradiction; inv I; inv I'|]); lia|]). lia.
Qed.
Lemma ip_has_uids : forall x f o, mentions (fval ip_graph o f) x -> exists s i, named ip_graph x s i.
Proof.
  intros x f o M. assert (B : forallb (fun x => x <? 6) (refs_in (fval ip_graph o f)) = true) by (apply (pvalues_ok ip_graph (fun v => forallb (fun x => x <? 6) (refs_in v))); reflexivity).
  rewrite forallb_forall in B. specialize (B x (refs_in_ok _ _ M)). apply Nat.ltb_lt in B.
  do 6 (destruct x as [|x]; [eexists; eexists; eexists; split; [reflexivity|]; left; reflexivity|]). lia.
Qed.
Lemma ip_no_links : forall x f s i, ~ within (PLink s i) (fval ip_graph x f).
Proof.
  intros x f s i W. apply SerialExamples.links_in_ok in W. assert (B : forallb (fun _ => false) (SerialExamples.links_in (fval ip_graph x f)) = true)
    by (apply (pvalues_ok ip_graph (fun v => forallb (fun _ => false) (SerialExamples.links_in v))); reflexivity).
  rewrite forallb_forall in B. discriminate (B _ W).
Qed.

Example restored_nonvacuous : forall o, o = 5 \/ o = 1 ->
  (hashable_tuples ip_graph everything (PRef o) /\ restorable lax lax_list ip_graph /\ hget ip_graph o <> None
   /\ (forall x y s i, named ip_graph x s i -> named ip_graph y s i -> x = y)
   /\ (forall x f, field_of ip_graph o f -> mentions (fval ip_graph o f) x -> exists s i, named ip_graph x s i)
   /\ (forall x f s i, field_of ip_graph x f -> ~ within (PLink s i) (fval ip_graph x f))
   /\ forall g, to_links_of (fun s => s) ip_graph None true (fun x => x <> o /\ exists f, field_of ip_graph o f /\ mentions (fval ip_graph o f) x) g -> entity_accepts lax lax_list ip_graph g o)
  /\ exists ix h1 h2, make_index (fun l => l) ip_graph (PRef o) = Ok ix
    /\ substitute_links_in (fun s => s) lax lax_list None true ip_graph (PRef o) = Ok (PRef o, h1) /\ h1 <> ip_graph
    /\ substitute_objects_in (fun s => s) lax lax_list ix h1 (PRef o) = Ok (PRef o, h2) /\ h2 = ip_graph.
Proof.
  intros o Ho. split.
  - split; [apply hashable_tuples_check; destruct Ho as [->| ->]; reflexivity|]. split; [apply ip_restorable|]. split; [destruct Ho as [->| ->]; discriminate|].
    split; [apply ip_named|]. split; [intros x f _; apply ip_has_uids|]. split; [intros x f s i _; apply ip_no_links|].
    intros g _. split; [|split]; intros; try reflexivity. intros h' t fs fs' k y _ _ _. reflexivity.
  - destruct Ho as [->| ->]; (eexists; eexists; eexists; split; [vm_compute; reflexivity|]; split; [vm_compute; reflexivity|]; split; [discriminate|]; split; vm_compute; reflexivity).
Qed.

(** While the references of the ingredient are links, the process does not list it. *)
Example links_in_place : exists h1, substitute_links_in (fun s => s) lax lax_list None true ip_graph (PRef 5) = Ok (PRef 5, h1)
  /\ fval h1 5 "process" = PLink "id" "p" /\ fval h1 5 "material" = PLink "id" "m2" /\ fval h1 1 "ingredients" = PList []
  /\ fval ip_graph 1 "ingredients" = PList [PRef 5].
Proof. eexists. split; [vm_compute; reflexivity|]. repeat split. Qed.

Definition ip_value : pv := PList [PRef 1; PDict [("a", PRef 1)]; PTuple [PRef 3; str "a"]; PObj "condition" [("template", PRef 3)]].
Example value_restored_nonvacuous :
  (restorable lax lax_list ip_graph /\ (forall o, ip_value <> PRef o) /\ plain_tuples ip_value /\ hashable_in ip_value
   /\ (forall x, mentions ip_value x -> exists s i, link_for (fun s => s) ip_graph None true x s i)
   /\ (forall x s i, mentions ip_value x -> link_for (fun s => s) ip_graph None true x s i -> index_get ip_index s i = Some x)
   /\ forall s i, ~ within (PLink s i) ip_value)
  /\ substitute_links_in (fun s => s) lax lax_list None true ip_graph ip_value
       = Ok (PList [PLink "id" "p"; PDict [("a", PLink "id" "p")]; PTuple [PLink "id" "t"; str "a"]; PObj "condition" [("template", PLink "id" "t")]], ip_graph)
  /\ substitute_objects_in (fun s => s) lax lax_list ip_index ip_graph
       (PList [PLink "id" "p"; PDict [("a", PLink "id" "p")]; PTuple [PLink "id" "t"; str "a"]; PObj "condition" [("template", PLink "id" "t")]]) = Ok (ip_value, ip_graph).
Proof.
  split; [|split; vm_compute; reflexivity]. split; [apply ip_restorable|]. split; [discriminate|]. split; [now apply plain_tuplesb_ok|]. split; [now apply tuples_okb_hashable|].
  assert (M : forall x, mentions ip_value x -> x = 1 \/ x = 3). { intros x H. apply refs_in_ok in H. cbn in H. intuition. }
  split; [|split].
  - intros x H. destruct (M x H) as [->| ->]; eexists; eexists; eexists; (split; [reflexivity|]; eexists; reflexivity).
  - intros x s i H (e & E & r & U). destruct (M x H) as [->| ->]; cbn in E; inv E; cbn in U; inv U; reflexivity.
  - intros s i W. apply SerialExamples.links_in_ok in W. exact W.
Qed.

(** ** What the substitutions get wrong *)

(** A pair of strings is taken for a link with that scope and id, and replaced by the entity, if the link was met before. *)
Theorem pair_conflated_refuted : exists h', substitute_objects_in (fun s => s) lax lax_list ip_index ip_graph (PList [PLink "id" "m"; PTuple [str "id"; str "m"]])
  = Ok (PList [PRef 0; PRef 0], h').
Proof. eexists. vm_compute. reflexivity. Qed.

(** ... and a link is taken for a pair of strings met before: it is not replaced. *)
Theorem link_conflated_refuted : exists h', substitute_objects_in (fun s => s) lax lax_list ip_index ip_graph (PList [PTuple [str "id"; str "m"]; PLink "id" "m"])
  = Ok (PList [PTuple [str "id"; str "m"]; PTuple [str "id"; str "m"]], h').
Proof. eexists. vm_compute. reflexivity. Qed.

(** Tuples of equal numbers of different types take each other's place. *)
Theorem numbers_conflated_refuted : exists h', substitute_links_in (fun s => s) lax lax_list None true ip_graph (PList [PTuple [num 1]; PTuple [PAtom (ABool true)]])
  = Ok (PList [PTuple [num 1]; PTuple [num 1]], h').
Proof. eexists. vm_compute. reflexivity. Qed.

(** substitute_links finds a uid whatever the casing of its scope, make_index and substitute_objects do not: with another casing the
    links made stay links. *)
Definition fold_id (s : string) : string := if String.eqb s "ID" then "id" else s.
Theorem casing_not_restored_refuted : exists ix h1, make_index (fun l => l) ip_graph (PRef 5) = Ok ix
  /\ substitute_links_in fold_id lax lax_list (Some "ID") false ip_graph (PRef 5) = Ok (PRef 5, h1)
  /\ fval h1 5 "process" = PLink "ID" "p"
  /\ substitute_objects_in fold_id lax lax_list ix h1 (PRef 5) = Ok (PRef 5, h1).
Proof. eexists. eexists. split; [vm_compute; reflexivity|]. split; [vm_compute; reflexivity|]. split; vm_compute; reflexivity. Qed.

(** Without [inplace], two links to what is one object become two objects: the process that the material's copy has is not the
    copy of the process beside it. *)
Theorem copies_not_shared_refuted : exists m p h', substitute_objects (fun s => s) all_known keep_all ip_index 30 ip_graph (PList [PLink "id" "m"; PLink "id" "p"]) = Ok (PList [PRef m; PRef p], h')
  /\ fval ip_graph 0 "process" = PRef 1 /\ fval h' m "process" <> PRef p /\ fval h' p "output_material" = PNone.
Proof. eexists. eexists. eexists. split; [vm_compute; reflexivity|]. repeat split. discriminate. Qed.

(** The hypotheses of the theorems on copying are met. *)
Example copies_nonvacuous : exists w h', substitute_objects (fun s => s) all_known keep_all ip_index 30 ip_graph (PDict [("a", PList [PLink "id" "t"; PLink "id" "t"]); ("b", PLink "id" "x"); ("c", PRef 3)]) = Ok (w, h')
  /\ w = PDict [("a", PList [PRef 6; PRef 6]); ("b", PLink "id" "x"); ("c", PRef 7)].
Proof. eexists. eexists. split; vm_compute; reflexivity. Qed.

Print Assumptions pair_conflated_refuted.
Print Assumptions link_conflated_refuted.
Print Assumptions numbers_conflated_refuted.
Print Assumptions casing_not_restored_refuted.
Print Assumptions copies_not_shared_refuted.
