(** C26: equality of entities on cyclic graphs; C16 again with the real equality. *)
From Coq Require Import String List Bool Arith ZArith QArith Lia Permutation.
From Verif Require Import Base BaseFacts PyStr GraphModel GraphSpec GraphProofs EqModel EqSpec EqProofs EqCopies.
Import ListNotations.
Open Scope string_scope.
Open Scope list_scope.
Open Scope nat_scope.

(** ** Termination *)

(** The recursion never goes deeper than there are pairs of entities, on any graph, cyclic or not,
    whatever the entities in it refer to; and it ends in True or False, never in "in progress". *)
Theorem equality_terminates : forall lower h eeq a b,
  exists c, cached_equals lower h eeq (depth h) [] a b = Some (TT, c)
         \/ cached_equals lower h eeq (depth h) [] a b = Some (FF, c).
Proof. intros. apply ceq_fresh. Qed.

(** ** [a == a] *)
Theorem equality_reflexive : forall lower h a, entity_eq lower h a a = true.
Proof. intros. apply equals_refl. Qed.

(** ** Different entities *)

Theorem different_type_unequal : forall lower h a b ea eb,
  hget h a = Some ea -> hget h b = Some eb -> e_kind ea <> e_kind eb -> entity_eq lower h a b = false.
Proof.
  intros lower h a b ea eb Ha Hb N. destruct (entity_eq lower h a b) eqn:E; auto.
  exfalso. apply N. eapply equals_inv; eauto.
Qed.

Theorem different_uids_unequal : forall lower h a b ea eb, uids_ok h ->
  hget h a = Some ea -> hget h b = Some eb -> ~ same_pairs (e_uids ea) (e_uids eb) -> entity_eq lower h a b = false.
Proof.
  intros lower h a b ea eb U Ha Hb N. destruct (entity_eq lower h a b) eqn:E; auto.
  exfalso. apply N. apply same_uids_iff; [eapply U; eauto | eapply U; eauto |]. eapply equals_inv in E; eauto. tauto.
Qed.

Lemma field_true_facts : forall lower h eeq rec c tu uu v w c', field_cmp lower h eeq rec c tu uu v w = Some (true, c') ->
  (v = PNone <-> w = PNone)
  /\ (forall s, v = PAtom (AStr s) <-> w = PAtom (AStr s))
  /\ (forall x, v = PAtom x -> exists y, w = PAtom y /\ atom_eq x y = true)
  /\ (forall x, v = PRef x ->
       (exists y, w = PRef y)
       \/ (exists s i, w = PLink s i /\ carries_uid lower h x s i = true)
       \/ (exists s i, w = PTuple [PAtom (AStr s); PAtom (AStr i)] /\ carries_uid lower h x s i = true)).
Proof.
  intros lower h eeq rec c tu uu v w c' Q. unfold field_cmp in Q.
  assert (At : forall a b, v = PAtom a -> w = PAtom b -> atom_eq a b = true).
  { intros a b -> ->. cbn in Q. now injection Q. }
  split; [split; intros ->|split; [|split]].
  - destruct w; cbn in Q; try discriminate Q. reflexivity.
  - destruct v as [|a|s i|o|l|l|l|t l]; try (cbn in Q; discriminate Q); auto.
    exfalso. destruct l as [|[|[]| | | | | |] [|[|[]| | | | | |] [|]]]; cbn in Q; discriminate Q.
  - intros s. split; intros ->.
    + destruct w as [|a| | | | | | ]; try (cbn in Q; discriminate Q). specialize (At _ _ eq_refl eq_refl).
      destruct a; cbn in At; try discriminate. apply String.eqb_eq in At. now subst.
    + destruct v as [|a|t i|o|l|l|l|t l]; try (cbn in Q; discriminate Q).
      * specialize (At _ _ eq_refl eq_refl). destruct a; cbn in At; try discriminate. apply String.eqb_eq in At. now subst.
      * exfalso. destruct l as [|[|[]| | | | | |] [|[|[]| | | | | |] [|]]]; cbn in Q; discriminate Q.
  - intros x ->. destruct w as [|a| | | | | | ]; try (cbn in Q; discriminate Q). eauto.
  - intros x ->. destruct w as [|a|s i|o|l|l|l|t l]; try (cbn in Q; discriminate Q); eauto.
    + right; left. exists s, i. split; auto. cbn in Q. now injection Q.
    + right; right. destruct l as [|[|[]| | | | | |] [|[|[]| | | | | |] [|]]]; cbn in Q; try discriminate Q. eexists; eexists. split; [reflexivity|]. now injection Q.
Qed.

(** Equal entities have the same type, the same uids and the same fields; a string, number or
    None held by one is held by the other (numbers up to their representation); an entity held by
    one faces an entity or a link to it. *)
Theorem equal_entities_agree : forall lower h a b ea eb, uids_ok h ->
  hget h a = Some ea -> hget h b = Some eb -> entity_eq lower h a b = true ->
  e_kind ea = e_kind eb /\ same_pairs (e_uids ea) (e_uids eb)
  /\ (forall f, f <> "output_material" -> (In f (keys (e_fields ea)) <-> In f (keys (e_fields eb))))
  /\ forall f, In f (keys (e_fields ea)) -> f <> "output_material" ->
       (read h a f = PNone <-> read h b f = PNone)
       /\ (forall s, read h a f = PAtom (AStr s) <-> read h b f = PAtom (AStr s))
       /\ (forall x, read h a f = PAtom x -> exists y, read h b f = PAtom y /\ atom_eq x y = true)
       /\ (forall x, read h a f = PRef x ->
             (exists y, read h b f = PRef y)
             \/ (exists s i, read h b f = PLink s i /\ carries_uid lower h x s i = true)
             \/ (exists s i, read h b f = PTuple [PAtom (AStr s); PAtom (AStr i)] /\ carries_uid lower h x s i = true)).
Proof.
  intros lower h a b ea eb U Ha Hb E. destruct (equals_inv lower h 1 a b ea eb E Ha Hb) as (K & Sn & Su & F).
  split; [auto|]. split; [apply same_uids_iff; eauto; eapply U; eauto|].
  split.
  - intros f N. unfold same_names in Sn. apply andb_true_iff in Sn as [S1 S2]. rewrite forallb_forall in S1, S2. split; intros I.
    + assert (In f (compared eb)) by (apply existsb_in, S1, compared_in; auto). apply compared_in in H. tauto.
    + assert (In f (compared ea)) by (apply existsb_in, S2, compared_in; auto). apply compared_in in H. tauto.
  - intros f I N. destruct (F f) as (n' & c1 & c2 & Q); [apply compared_in; auto|]. unfold field_cmp in Q.
    exact (field_true_facts _ _ _ _ _ _ _ _ _ _ Q).
Qed.

(** ** Symmetry *)

(** If no two entities have the same uids -- in particular if every entity has a uid of its own --
    equality is identity, hence symmetric and transitive.
    Missing for the full C26: graphs where entities share their uids, or have none, for which it
    is false ([symmetric_refuted]). *)
Theorem equality_symmetric_partial : forall lower h, uids_ok h ->
  (forall a b ea eb, hget h a = Some ea -> hget h b = Some eb -> same_pairs (e_uids ea) (e_uids eb) -> a = b) ->
  forall a b, (entity_eq lower h a b = true <-> a = b) /\ entity_eq lower h a b = entity_eq lower h b a.
Proof.
  intros lower h U D.
  assert (Id : forall a b, entity_eq lower h a b = true -> a = b).
  { intros a b E. destruct (hget h a) as [ea|] eqn:Ha; [destruct (hget h b) as [eb|] eqn:Hb|].
    - eapply D; eauto. eapply equal_entities_agree; eauto.
    - unfold entity_eq in E. cbn [equals_at] in E. unfold depth in E. cbn [cached_equals] in E. rewrite Ha, Hb in E.
      destruct (a =? b) eqn:Q; [now apply Nat.eqb_eq | discriminate].
    - unfold entity_eq in E. cbn [equals_at] in E. unfold depth in E. cbn [cached_equals] in E. rewrite Ha in E.
      destruct (a =? b) eqn:Q; [now apply Nat.eqb_eq | discriminate]. }
  intros a b. split.
  - split; [apply Id | intros ->; apply equality_reflexive].
  - destruct (entity_eq lower h a b) eqn:E1; destruct (entity_eq lower h b a) eqn:E2; auto.
    + apply Id in E1. subst. rewrite equality_reflexive in E2. discriminate.
    + apply Id in E2. subst. rewrite equality_reflexive in E1. discriminate.
Qed.

(** Entities that look the same are equal: if [R] relates entities that agree on type, uids and
    fields up to [R], with collections in any order, then related entities are equal, both ways. *)
Theorem copies_equal : forall lower h R, layered h -> uids_ok h -> copies h R ->
  forall a b, R a b -> entity_eq lower h a b = true /\ entity_eq lower h b a = true.
Proof.
  intros lower h R L U C a b Rab. split; eapply copies_equal_lemma; eauto. now apply C.
Qed.

(** ** How deep comparisons nest through plain values *)

(** In a graph whose attributes mention attribute templates only, two levels decide everything:
    any further level gives the same answer. *)
Theorem equality_levels : forall lower h, layered h -> forall k a b, equals_at lower h (S (S k)) a b = entity_eq lower h a b.
Proof.
  intros lower h [L1 L2] k.
  assert (Tmp : forall j x y, attribute_template h x -> attribute_template h y -> equals_at lower h (S j) x y = equals_at lower h 1 x y).
  { intros j x y Tx Ty. cbn [equals_at].
    rewrite (ceq_ext lower h (equals_at lower h j) (fun a b => a =? b) (attribute_template h)); auto.
    - intros o e f So He If z Iz. exfalso. apply (L2 o f z So). apply mentions_refs.
      unfold top in Iz. destruct (read h o f) as [| | | |l|l|l|]; cbn in Iz; try contradiction.
      + cbn. tauto.
      + rewrite refs_list. apply in_flat_map in Iz as [v [Iv Hv]]. apply in_flat_map. exists v. split; auto. destruct v; cbn in Hv; try contradiction. exact Hv.
      + rewrite refs_tuple. apply in_flat_map in Iz as [v [Iv Hv]]. apply in_flat_map. exists v. split; auto. destruct v; cbn in Hv; try contradiction. exact Hv.
      + exfalso. apply in_flat_map in Iz as [v [Iv Hv]]. apply in_map_iff in Iv as [kv [<- _]]. contradiction.
    - intros o e f o' e' f' So He If So' He' z z' Iz. exfalso. apply mentions_deep in Iz. apply (L2 o f z So).
      unfold mentions_inside in Iz. destruct (read h o f) as [| | | |l|l|l|]; cbn in Iz; try tauto.
      + destruct Iz as (v & Iv & _ & M). econstructor; eauto.
      + destruct Iz as (v & Iv & _ & M). econstructor; eauto.
      + destruct Iz as (v & Iv & _ & M). apply in_map_iff in Iv as [kv [<- _]]. inversion M. }
  assert (Gen : forall j a b, equals_at lower h (S (S j)) a b = entity_eq lower h a b); [|intros; apply Gen].
  intros j a b. unfold entity_eq. change (equals_at lower h 2 a b) with
    (match cached_equals lower h (equals_at lower h 1) (depth h) [] a b with Some (TT, _) => true | _ => false end).
  change (equals_at lower h (S (S j)) a b) with
    (match cached_equals lower h (equals_at lower h (S j)) (depth h) [] a b with Some (TT, _) => true | _ => false end).
  rewrite (ceq_ext lower h (equals_at lower h (S j)) (equals_at lower h 1) (fun _ => True)); auto.
  intros o e f o' e' f' _ He If _ He' x y Ix Iy. apply Tmp; [apply (L1 o f) | apply (L1 o' f')]; apply mentions_deep; auto.
Qed.

(** ** Non-vacuity: two copies of a cyclic graph *)

(** Entities 0-3: a material with two measurements, made by a process that lists it as output;
    4-7: a copy with the measurements in the other order. *)
Definition ex_cycle (o : nat) (ms : list nat) : heap :=
  [ mkE KMatR [("id", "m")] [("name", PAtom (AStr "m")); ("spec", PNone); ("process", PRef (o + 3)); ("measurements", PList (map PRef ms))]
  ; mkE KMeasR [("id", "a")] [("name", PAtom (AStr "x")); ("tags", PList [PAtom (AStr "t")]); ("spec", PNone); ("material", PRef o)]
  ; mkE KMeasR [("id", "b")] [("name", PAtom (AStr "x")); ("tags", PList [PAtom (AStr "t")]); ("spec", PNone); ("material", PRef o)]
  ; mkE KProcR [("id", "p")] [("name", PAtom (AStr "p")); ("spec", PNone); ("output_material", PRef o); ("ingredients", PList [])] ].
Definition ex_heap : heap := ex_cycle 0 [1; 2] ++ ex_cycle 4 [6; 5].
Definition ex_R (a b : oid) : Prop := a < 8 /\ b < 8 /\ (b = a + 4 \/ a = b + 4).

Lemma ex_fields : forall o f, read ex_heap o f = PNone \/ (exists s, read ex_heap o f = PAtom (AStr s))
  \/ (exists x, read ex_heap o f = PRef x) \/ (exists l, read ex_heap o f = PList (map PRef l)) \/ read ex_heap o f = PList [PAtom (AStr "t")].
Proof.
  intros o f. unfold read, kind_at, fval, fget.
  do 8 (destruct o as [|o]; [cbn; repeat (destruct (String.eqb _ _); eauto 6); try (right; right; right; left; exists []; reflexivity);
     try (right; right; right; left; exists [1; 2]; reflexivity); try (right; right; right; left; exists [6; 5]; reflexivity); eauto 8|]).
  cbn. destruct o; cbn; auto.
Qed.

Example copies_equal_ex : layered ex_heap /\ uids_ok ex_heap /\ copies ex_heap ex_R /\ ex_R 0 4 /\ ex_R 1 5
  /\ entity_eq lower ex_heap 0 4 = true /\ entity_eq lower ex_heap 1 2 = false /\ entity_eq lower ex_heap 0 1 = false.
Proof.
  assert (L : layered ex_heap).
  { split.
    - intros o f x M. exfalso. unfold mentions_inside in M.
      destruct (ex_fields o f) as [E|[[s E]|[[y E]|[[l E]|E]]]]; rewrite E in M; cbn in M.
      + destruct M as [_ M]. inversion M.
      + destruct M as [_ M]. inversion M.
      + destruct M as [M _]. now apply (M y).
      + destruct M as (z & I & N & _). apply in_map_iff in I as [y [<- _]]. now apply (N y).
      + destruct M as (z & [<-|[]] & _ & M). inversion M.
    - intros o f x T. exfalso. unfold attribute_template, kind_at in T.
      do 8 (destruct o as [|o]; [cbn in T; destruct T as [T|[T|T]]; discriminate|]). cbn in T. destruct o; cbn in T; destruct T as [T|[T|T]]; discriminate. }
  assert (U : uids_ok ex_heap).
  { intros o e H. do 8 (destruct o as [|o]; [cbn in H; injection H as <-; cbn; repeat constructor; auto|]). cbn in H. destruct o; discriminate. }
  assert (C : copies ex_heap ex_R).
  { split.
    - intros a b (A & B & D). unfold ex_R. split; [auto|]. split; [auto|]. tauto.
    - intros a b (A & B & D).
      assert (P1 : exists m', Permutation m' [PRef 6; PRef 5] /\ Forall2 (twin ex_R) [PRef 1; PRef 2] m').
      { exists [PRef 5; PRef 6]. split; [apply perm_swap|]. repeat constructor; cbn; unfold ex_R; lia. }
      assert (P2 : exists m', Permutation m' [PRef 1; PRef 2] /\ Forall2 (twin ex_R) [PRef 6; PRef 5] m').
      { exists [PRef 2; PRef 1]. split; [apply perm_swap|]. repeat constructor; cbn; unfold ex_R; lia. }
      assert (P3 : exists m', Permutation m' [PAtom (AStr "t")] /\ Forall2 (twin ex_R) [PAtom (AStr "t")] m').
      { exists [PAtom (AStr "t")]. split; [apply Permutation_refl|]. repeat constructor. }
      assert (P4 : exists m', Permutation m' (@nil pv) /\ Forall2 (twin ex_R) (@nil pv) m').
      { exists []. split; [apply Permutation_refl|]. constructor. }
      assert (Cases : (b = a + 4 /\ a < 4) \/ (a = b + 4 /\ b < 4)) by lia. clear D.
      assert (X4 : forall n, n < 4 -> n = 0 \/ n = 1 \/ n = 2 \/ n = 3) by (intros; lia).
      destruct Cases as [[-> X]|[-> X]]; destruct (X4 _ X) as [-> | [-> | [-> | ->]]];
        cbn; eexists; eexists; (split; [reflexivity|]); (split; [reflexivity|]);
        (split; [reflexivity|]); (split; [intros kv; reflexivity|]); (split; [intros f; reflexivity|]);
        intros f I _; cbn in I;
        repeat (destruct I as [<-|I]; [cbn; first
          [ exact Logic.I | reflexivity | unfold ex_R; lia
          | split; [assumption|]; intros x y ex ey Ix Iy Hx Hy Sp;
            cbn in Ix, Iy; repeat (destruct Ix as [Ix|Ix]); try contradiction; repeat (destruct Iy as [Iy|Iy]); try contradiction;
            try discriminate; injection Ix as <-; injection Iy as <-; auto; exfalso;
            cbn in Hx, Hy; injection Hx as <-; injection Hy as <-;
            cbn in Sp; match type of Sp with same_pairs [?p] _ => destruct (proj1 (Sp p) (or_introl eq_refl)) as [Q|[]]; discriminate end ] |]); contradiction. }
  split; [exact L|]. split; [exact U|]. split; [exact C|]. split; [unfold ex_R; lia|]. split; [unfold ex_R; lia|].
  split; [|split; vm_compute; reflexivity]. apply (copies_equal lower ex_heap ex_R L U C). unfold ex_R; lia.
Qed.

Example symmetric_ex : uids_ok (ex_cycle 0 [1; 2]) /\
  (forall a b ea eb, hget (ex_cycle 0 [1; 2]) a = Some ea -> hget (ex_cycle 0 [1; 2]) b = Some eb ->
     same_pairs (e_uids ea) (e_uids eb) -> a = b).
Proof.
  split.
  - intros o e H. do 4 (destruct o as [|o]; [cbn in H; injection H as <-; cbn; repeat constructor; auto|]). cbn in H. destruct o; discriminate.
  - intros a b ea eb Ha Hb Sp.
    do 4 (destruct a as [|a]; [cbn in Ha; injection Ha as <-;
      do 4 (destruct b as [|b]; [cbn in Hb; injection Hb as <-; try reflexivity; exfalso;
        cbn in Sp; match type of Sp with same_pairs [?p] _ => destruct (proj1 (Sp p) (or_introl eq_refl)) as [Q|[]]; discriminate end|]);
      cbn in Hb; destruct b; discriminate|]). cbn in Ha. destruct a; discriminate.
Qed.

(** ** Findings *)

(** Equality is not symmetric: members that are not entities are looked up without being crossed
    off, so tags [a, a] are found among [a, b] but not the other way round. *)
Theorem symmetric_refuted : exists h a b, entity_eq lower h a b = true /\ entity_eq lower h b a = false.
Proof.
  exists [ mkE KMeasR [] [("tags", PList [PAtom (AStr "a"); PAtom (AStr "a")])]
         ; mkE KMeasR [] [("tags", PList [PAtom (AStr "a"); PAtom (AStr "b")])] ], 0, 1.
  vm_compute. auto.
Qed.

(** ... nor transitive: with uids an empty list of measurements passes for any other. *)
Theorem transitive_refuted : exists h a b c,
  entity_eq lower h a b = true /\ entity_eq lower h b c = true /\ entity_eq lower h a c = false.
Proof.
  exists [ mkE KMatR [("id", "m")] [("measurements", PList [PRef 3])]
         ; mkE KMatR [("id", "m")] [("measurements", PList [])]
         ; mkE KMatR [("id", "m")] [("measurements", PList [PRef 4])]
         ; mkE KMeasR [] [("name", PAtom (AStr "x"))]
         ; mkE KMeasR [] [("name", PAtom (AStr "y"))] ], 0, 1, 2.
  vm_compute. auto.
Qed.

(** Without uids an entity can differ from an exact copy of itself. Ingredients 1 (tags [a, a]) and
    2 (tags [a, b]) of process 0 against their copies 4 and 5 in process 3: comparing 1 with 4
    visits the processes, where 1 = 4 is still undecided, so that 1 takes 5, and 2 finds nothing. *)
Theorem copy_unequal_refuted :
  let ing p tags := mkE KIngR [] [("tags", PList tags); ("process", PRef p)] in
  let proc l := mkE KProcR [] [("ingredients", PList l)] in
  let aa := [PAtom (AStr "a"); PAtom (AStr "a")] in
  let ab := [PAtom (AStr "a"); PAtom (AStr "b")] in
  let h := [ proc [PRef 1; PRef 2]; ing 0 aa; ing 0 ab; proc [PRef 4; PRef 5]; ing 3 aa; ing 3 ab ] in
  entity_eq lower h 1 4 = false /\ entity_eq lower h 2 5 = true.
Proof. vm_compute. auto. Qed.

(** ** C16 with the real equality *)

(** An item of a list against an entity, as [list.remove] compares them. *)
Definition item_eq (lower : string -> string) (h : heap) (v : pv) (x : oid) : bool := value_eq lower h v (PRef x).

(** Every new entity gets uids that no entity has. *)
Definition own_uids (h : heap) (op : gop) : Prop :=
  forall k u extra, op = GNew k u extra -> NoDup (keys u) /\ forall o e, hget h o = Some e -> ~ same_pairs u (e_uids e).

Lemma uids_plain : forall pk f h o v x, option_map e_uids (hget (fst (set_plain pk f h o v)) x) = option_map e_uids (hget h x).
Proof. intros. unfold set_plain. destruct v; try (break_if); cbn [fst]; now rewrite ?uids_set_field. Qed.

Lemma uids_assign : forall eq h o f v x, option_map e_uids (hget (fst (assign eq h o f v)) x) = option_map e_uids (hget h x).
Proof.
  intros. unfold assign. destruct (kind_at h o) as [k|]; auto. destruct (role_of k f) as [[pk|pk lf|pk|]|]; auto.
  - unfold set_process. repeat break_match; cbn [fst]; rewrite ?uids_set_field; auto.
  - unfold set_owned. repeat break_match; cbn [fst]; try reflexivity;
      repeat match goal with H : Ok _ = Ok _ |- _ => injection H as <- | H : Err _ = Ok _ |- _ => discriminate end;
      rewrite ?uids_set_field; auto.
  - apply uids_plain.
  - unfold set_ing_spec. rewrite uids_plain. repeat break_match; rewrite ?uids_set_field; auto.
Qed.

Definition all_own (h : heap) : Prop := uids_ok h /\
  forall a b ea eb, hget h a = Some ea -> hget h b = Some eb -> same_pairs (e_uids ea) (e_uids eb) -> a = b.

Lemma own_step : forall eq h op, all_own h -> own_uids h op -> all_own (fst (gstep eq h op)).
Proof.
  intros eq h op [U D] O. destruct op as [k u extra|o f v]; cbn [gstep fst].
  - destruct (O k u extra eq_refl) as [N F].
    assert (G : forall o e, hget (h ++ [mkE k u (blank k ++ extra)]) o = Some e -> (o = length h /\ e_uids e = u) \/ hget h o = Some e).
    { intros o e H. unfold hget in *. destruct (Nat.lt_ge_cases o (length h)).
      - right. now rewrite nth_error_app1 in H by auto.
      - left. rewrite nth_error_app2 in H by auto. destruct (o - length h) eqn:E; cbn in H.
        + injection H as <-. split; [lia | reflexivity].
        + destruct n; discriminate. }
    split.
    + intros o e H. apply G in H as [[-> ->]|H]; auto. eapply U; eauto.
    + intros a b ea eb Ha Hb Sp. apply G in Ha as [[-> Ea]|Ha]; apply G in Hb as [[-> Eb]|Hb]; auto.
      * exfalso. rewrite Ea in Sp. eapply F; eauto.
      * exfalso. rewrite Eb in Sp. eapply (F a ea Ha). intros kv. symmetry. apply Sp.
      * eapply D; eauto.
  - assert (G : forall x e, hget (fst (assign eq h o f v)) x = Some e -> exists e', hget h x = Some e' /\ e_uids e' = e_uids e).
    { intros x e H. assert (Q := uids_assign eq h o f v x). rewrite H in Q. cbn in Q. destruct (hget h x) as [e'|]; [|discriminate].
      exists e'. split; auto. cbn in Q. congruence. }
    split.
    + intros x e H. apply G in H as (e' & H & <-). eapply U; eauto.
    + intros a b ea eb Ha Hb Sp. apply G in Ha as (ea' & Ha & E1). apply G in Hb as (eb' & Hb & E2). eapply D; eauto. now rewrite E1, E2.
Qed.

(** With gemd's own equality: after any history in which every entity is given uids of its own and
    no wrongly typed value is assigned to a field that holds an object, the lists mirror the
    references. Missing for the full C16: see [lists_mirror_references_partial]. *)
Theorem lists_mirror_own_uids_partial : forall lower ops,
  throughout (item_eq lower) (fun h op => own_uids h op /\ no_reject h op) [] ops ->
  lists_mirror (grun (item_eq lower) [] ops).
Proof.
  intros lower ops.
  assert (Gen : forall ops h, all_own h -> lists_mirror h ->
    throughout (item_eq lower) (fun h op => own_uids h op /\ no_reject h op) h ops -> lists_mirror (grun (item_eq lower) h ops)).
  { induction ops0 as [|op r IH]; intros h O M T; cbn [grun]; auto. destruct T as [[T1 T2] T3].
    apply IH; auto; [now apply own_step|]. apply mirror_step; auto.
    intros x cf v ck pk lf p l y -> K L Fv Fl I N.
    destruct (M ck cf pk lf L) as [M1 M2].
    destruct (M1 p (M2 x p K Fv)) as (xs & E & _ & _). assert (l = map PRef xs) by congruence. subst l.
    apply in_map_iff in I as [z [<- Iz]]. unfold item_eq, value_eq. cbn [peq].
    destruct (equals_at lower h 2 z x) eqn:Q; auto. exfalso. apply N. f_equal.
    apply (equality_symmetric_partial lower h (proj1 O) (proj2 O)). exact Q. }
  intros T. apply Gen; auto.
  - split; [intros [] ? ?; discriminate | intros [] ? ? ? ?; discriminate].
  - intros ck cf pk lf L. split; [intros [] ?; discriminate | intros [] ? ?; discriminate].
Qed.

(** Two measurements without uids that look the same: the wrong one leaves the list. *)
Theorem equal_sibling_real_refuted : exists ops,
  let h := grun (item_eq lower) [] ops in
  graised (item_eq lower) [] ops = [] /\
  fval h 0 "measurements" = PList [PRef 2] /\ fval h 2 "material" = PNone /\ fval h 1 "material" = PRef 0.
Proof.
  exists [ GNew KMatR [] []; GNew KMeasR [] []; GNew KMeasR [] []; GSet 1 "material" (PRef 0); GSet 2 "material" (PRef 0); GSet 2 "material" PNone ].
  vm_compute. auto.
Qed.

Print Assumptions equality_terminates.
Print Assumptions equality_reflexive.
Print Assumptions different_type_unequal.
Print Assumptions different_uids_unequal.
Print Assumptions equal_entities_agree.
Print Assumptions equality_symmetric_partial.
Print Assumptions copies_equal.
Print Assumptions equality_levels.
Print Assumptions symmetric_refuted.
Print Assumptions transitive_refuted.
Print Assumptions copy_unequal_refuted.
Print Assumptions lists_mirror_own_uids_partial.
Print Assumptions equal_sibling_real_refuted.
