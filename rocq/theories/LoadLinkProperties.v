(** C25: links while loading. *)
From Coq Require Import String List Bool Arith Lia ZArith QArith.
From Verif Require PyStr.
From Verif Require Import Base BaseFacts GraphModel GraphSpec GraphProofs EqModel EqSpec TravSpec SerialModel SerialSpec SerialProofs SerialLinks SerialEntity LoadLinkSpec LoadLinkProofs SerialExamples.
Import ListNotations.
Open Scope string_scope.
Open Scope list_scope.
Open Scope nat_scope.

Section P.
  Variable lower : string -> string.
  Variable known : string -> bool.
  Variable construct : heap -> string -> list (string * pv) -> res (list (string * pv)).

  Notation reads := (reads lower known construct).
  Notation loads := (loads lower known construct).

  (** Every document that loads is read as [reads] says: at each place where it has a link, the last
      entity made so far that carries the uid (in any casing of the scope) takes its place, and the link stays if there
      is none. Entities that existed before are never used. *)
  Theorem loads_resolves : forall h j v g, loads h j = Ok (v, g) ->
    exists d, reads (length h) h j (PDict d) g /\ dict_get "object" d = Some v.
  Proof.
    intros h j v g H. unfold SerialModel.loads in H. destruct (decode _ _ _ _ _ _) as [[w [g1 ix]]|] eqn:E; [|discriminate]. cbn [bind] in H.
    destruct (decode_reads _ _ _ _ _ _ _ _ _ _ (indexed_nil lower h) E) as [A _].
    destruct w; try discriminate. destruct (dict_get "object" l) eqn:O; [|discriminate]. injection H as <- <-. eauto.
  Qed.

  (** A document that ends in a link. *)
  Definition link_doc (context : json) (s i : string) : json :=
    JObj [("context", context); ("object", JObj [("id", JAtom (AStr i)); ("scope", JAtom (AStr s)); ("type", JAtom (AStr "link_by_uid"))])].

  Lemma link_doc_eq : forall h ctx s i, loads h (link_doc ctx s i) =
    do (c, st) <- decode lower known construct true (h, []) ctx;
    Ok (match index_get (snd st) (lower s) i with Some o => PRef o | None => PLink s i end, fst st).
  Proof.
    intros. unfold SerialModel.loads, link_doc. rewrite decode_obj_eq. cbn [decode_pairs].
    destruct (decode _ _ _ _ _ ctx) as [[c st]|]; [|reflexivity]. cbn [bind decode_pairs decode fst snd]. unfold load_and_index at 1. cbn [dict_get dict_update fold_left dict_set String.eqb Ascii.eqb Bool.eqb dict_del].
    unfold make_link. cbn. destruct (index_get (snd st) (lower s) i); reflexivity.
  Qed.

  (** Reading the link in it never fails, and gives the last entity of the context that has the uid. *)
  Theorem link_read : forall h ctx s i, (exists v g, loads h (JObj [("context", ctx); ("object", JNull)]) = Ok (v, g)) ->
    exists v g, loads h (link_doc ctx s i) = Ok (v, g) /\ resolves lower (length h) g s i v.
  Proof.
    intros h ctx s i (v & g & H). rewrite link_doc_eq. unfold SerialModel.loads in H. rewrite decode_obj_eq in H. cbn [decode_pairs] in H.
    destruct (decode _ _ _ _ _ ctx) as [[c [g1 ix]]|] eqn:E; [|discriminate]. cbn [bind fst snd].
    destruct (decode_reads _ _ _ _ _ _ _ _ _ _ (indexed_nil lower h) E) as [_ [_ B]]. specialize (B s i). cbn [fst snd] in B.
    eexists. exists g1. split; [reflexivity|]. destruct (index_get ix (lower s) i) as [o|]; [left|right]; eauto.
  Qed.

  (** The casing of the scope makes no difference. *)
  Theorem link_casing : forall h ctx s s' i, lower s = lower s' ->
    match loads h (link_doc ctx s i) with
    | Ok (PLink _ _, g) => loads h (link_doc ctx s' i) = Ok (PLink s' i, g)
    | r => loads h (link_doc ctx s' i) = r
    end.
  Proof.
    intros h ctx s s' i E. rewrite !link_doc_eq. destruct (decode _ _ _ _ _ ctx) as [[c st]|]; [|reflexivity]. cbn [bind fst snd].
    rewrite E. destruct (index_get (snd st) (lower s') i); reflexivity.
  Qed.

  Definition extends (g g' : heap) : Prop :=
    length g <= length g' /\ forall c s i, c < length g -> (has_uid lower g' c s i <-> has_uid lower g c s i).
  Lemma extends_refl : forall g, extends g g.
  Proof. split; [lia|tauto]. Qed.
  Lemma extends_trans : forall a b c, extends a b -> extends b c -> extends a c.
  Proof. intros a b c [L H] [M K]. split; [lia|]. intros x s i Lx. rewrite K by lia. apply H; auto. Qed.

  Scheme reads_mut := Minimality for LoadLinkSpec.reads Sort Prop
    with reads_all_mut := Minimality for LoadLinkSpec.reads_all Sort Prop
    with reads_members_mut := Minimality for LoadLinkSpec.reads_members Sort Prop
    with hooks_mut := Minimality for LoadLinkSpec.hooks Sort Prop.

  Lemma reads_extends : forall n0 g j v g', reads n0 g j v g' -> extends g g'.
  Proof.
    intros n0. apply (reads_mut lower known construct n0 (fun g _ _ g' => extends g g') (fun g _ _ g' => extends g g')
      (fun g _ _ g' => extends g g') (fun g _ _ g' => extends g g')); intros; auto using extends_refl; try (eapply extends_trans; eauto; fail).
    split.
    - rewrite (mk_length _ _ _ _ _ H0). lia.
    - intros. eapply has_uid_old; eauto.
  Qed.

  (** Links to one uid, in any casing, become the same object, wherever they are, as long as no
      further entity with that uid is read between them.
      Missing for the full C25: documents in which two records share a uid ([links_same_object_refuted]). *)
  Theorem links_same_object_partial : forall n0 g1 j v g2 s s' i c v', reads n0 g1 j v g2 -> lower s = lower s' ->
    resolves lower n0 g1 s i (PRef c) -> resolves lower n0 g2 s' i v' ->
    v' = PRef c \/ exists c', v' = PRef c' /\ length g1 <= c' /\ has_uid lower g2 c s i /\ has_uid lower g2 c' s i.
  Proof.
    intros n0 g1 j v g2 s s' i c v' R E R1 R2. destruct (reads_extends _ _ _ _ _ R) as [L X].
    destruct R1 as [(c0 & Ec & A & B & C)|[Ec _]]; [injection Ec as <-|discriminate].
    assert (Lc := has_uid_lt _ _ _ _ _ B). assert (B2 : has_uid lower g2 c s i) by now apply X.
    assert (Sw : forall g x, has_uid lower g x s' i <-> has_uid lower g x s i).
    { intros g x. unfold has_uid. rewrite E. tauto. }
    destruct R2 as [(c' & -> & A' & B' & C')|[-> N]].
    - apply Sw in B'. destruct (Nat.lt_trichotomy c' c) as [H|[H|H]].
      + exfalso. apply (C' c H). now apply Sw.
      + left. now subst.
      + destruct (le_lt_dec (length g1) c') as [G|G]; [right; eauto 6|]. exfalso. apply (C c' H). apply X; auto.
    - exfalso. apply (N c A). now apply Sw.
  Qed.

End P.

Definition rec_ (t i : string) : json := JObj [("name", JAtom (AStr "n")); ("type", JAtom (AStr t)); ("uids", JObj [("ID", JAtom (AStr i))])].
Definition link_ (s i : string) : json := JObj [("id", JAtom (AStr i)); ("scope", JAtom (AStr s)); ("type", JAtom (AStr "link_by_uid"))].
Definition doc (l : list json) : json := JObj [("object", JArr l)].

(** A process, a material made by it through a link, and links before and after, inside other values. *)
Definition material_ : json :=
  JObj [("name", JAtom (AStr "m")); ("process", link_ "iD" "p"); ("type", JAtom (AStr "material_run")); ("uids", JObj [("id", JAtom (AStr "m"))])].
Example links_ex : exists d g,
  decode PyStr.lower all_known keep_all true ([], []) (doc [link_ "id" "p"; rec_ "process_run" "p"; material_; JArr [link_ "id" "p"; link_ "ID" "m"; link_ "x" "m"]])
    = Ok (PDict d, g)
  /\ d = [("object", PList [PLink "id" "p"; PRef 0; PRef 1; PList [PRef 0; PRef 1; PLink "x" "m"]])]
  /\ fval (fst g) 1 "process" = PRef 0 /\ fval (fst g) 0 "output_material" = PRef 1.
Proof. do 2 eexists. split; [vm_compute; reflexivity|]. repeat split. Qed.

(** The full C25 is false: when two records have the same uid, links to it become different objects. *)
Theorem links_same_object_refuted : exists g,
  loads PyStr.lower all_known keep_all [] (doc [rec_ "process_run" "p"; link_ "id" "p"; rec_ "process_run" "p"; link_ "id" "p"])
  = Ok (PList [PRef 0; PRef 0; PRef 1; PRef 1], g) /\ length g = 2.
Proof. eexists. split; [vm_compute; reflexivity|]. reflexivity. Qed.

Print Assumptions loads_resolves.
Print Assumptions link_read.
Print Assumptions link_casing.
Print Assumptions links_same_object_partial.
Print Assumptions links_same_object_refuted.
