(** C58: the builders, for every argument. *)
From Coq Require Import String List Bool Arith ZArith QArith Lia.
From Verif Require Import Base BaseFacts PyStr BoundsModel BoundsSpec BoundsProofs ValuesModel ValuesSpec ValuesProofs ValuesProperties ValidationModel ValidationProofs.
From Verif Require Import GraphModel GraphSpec GraphProofs InstSpec InstProperties BuildModel BuildSpec BuildProofs BuildProperties BuildFullSpec.
From Verif Require ValidationSpec DictModel.
Import ListNotations.
Open Scope string_scope.
Open Scope nat_scope.
Open Scope list_scope.

(** ** make_value *)

Lemma integer_value : forall q, (Zpos (Qden (Qred q)) =? 1)%Z = true -> (q == inject_Z (Qnum (Qred q)))%Q.
Proof.
  intros q D. apply Z.eqb_eq in D. rewrite <- (Qred_correct q) at 1. unfold inject_Z. destruct (Qred q) as [a d]. cbn in *. now injection D as ->.
Qed.
Lemma between_integers : forall q, (Zpos (Qden (Qred q)) =? 1)%Z = false -> forall z, ~ (q == inject_Z z)%Q.
Proof.
  intros q D z E. apply Qred_complete in E. rewrite E in D.
  assert (X : Qred (inject_Z z) = inject_Z z).
  { unfold inject_Z, Qred. assert (G := Z.ggcd_correct_divisors z 1). assert (G1 := Z.ggcd_gcd z 1). destruct (Z.ggcd z 1) as [g [a b]]. cbn [fst snd] in *.
    rewrite Z.gcd_1_r in G1. subst g. destruct G as [-> E1]. rewrite Z.mul_1_l in E1. subst b. now rewrite Z.mul_1_l. }
  rewrite X in D. discriminate.
Qed.

(** For every number, string or other argument and all bounds: the value, or the exception. *)
Theorem make_value_outcome : forall x b,
  match make_value x b with Ok v => makes x b v | Err e => makes_none x b e end.
Proof.
  intros x b. destruct b as [lo hi u|lo hi|cs|cs|]; cbn [make_value].
  - destruct x as [n|s|]; cbn [to_float bind]; try (apply no_real; intros (n & X & _); discriminate).
    destruct n as [|z|q| | |]; cbn [to_float bind]; try (apply mk_real_float; congruence).
    + apply no_real. intros (n & X & N). congruence.
    + destruct (Z.ltb_spec (Z.abs (DictModel.round53 z)) (2 ^ 1024)); [now apply mk_real_int | now apply no_real_large].
  - destruct x as [n|s|]; try (apply no_integer; intros (n & X & _); discriminate).
    destruct n as [|z|q| | |]; cbn [int_like bind].
    + apply no_integer. intros (n & X & N). congruence.
    + now apply (mk_integer _ (inject_Z z)).
    + destruct (Zpos (Qden (Qred q)) =? 1)%Z eqn:D; cbn [bind].
      * apply (mk_integer _ q); auto. now apply integer_value.
      * apply no_integer_between. now apply between_integers.
    + constructor.
    + apply no_integer_inf. now left.
    + apply no_integer_inf. now right.
  - destruct x as [n|s|]; cbn [as_pystr]; try (now constructor); [|apply no_category; now right].
    destruct n; cbn; try (apply no_category; left; eexists; split; [reflexivity | discriminate]). constructor.
  - destruct x as [n|s|]; cbn [as_pystr].
    + destruct n; cbn; try (apply no_formula; left; eexists; split; [reflexivity | discriminate]). constructor.
    + destruct (formula_accepted_iff None s) as [[E F]|[E (t & T & N)]]; rewrite E; cbn [fresh]; [now constructor | econstructor; eauto].
    + apply no_formula. now right.
  - destruct x as [n|s|]; cbn [as_pystr].
    + destruct n; try (apply no_structure; left; eexists; split; [reflexivity | discriminate]). constructor.
    + destruct (startswith "InChI=" s) eqn:E.
      * apply startswith_iff in E as [r ->]. cbn [set_inchi fresh].
        assert (Nr : normal_inchi ("InChI=" ++ r) = ("InChI=" ++ r)%string).
        { unfold normal_inchi. change (startswith "1s/" (lower ("InChI=" ++ r))) with false. cbn iota. reflexivity. }
        rewrite Nr. constructor.
      * apply mk_smiles. intros r ->. now rewrite startswith_app in E.
    + apply no_structure. now right.
Qed.

(** The rules leave no choice. *)
Theorem make_value_determined : forall x b,
  (forall v v', makes x b v -> makes x b v' -> v = v') /\ (forall e e', makes_none x b e -> makes_none x b e' -> e = e')
  /\ (forall v e, makes x b v -> ~ makes_none x b e).
Proof.
  assert (Sym : forall s t, element_token s t -> ~ In t symbols -> (forall t, element_token s t -> In t symbols) -> False) by eauto.
  intros x b. split; [|split].
  - intros v v' M M'. destruct M; inversion M'; subst; try congruence; try (exfalso; eauto; congruence).
    2, 3: exfalso; match goal with A : forall r, _ <> _ |- _ => eapply A; reflexivity end.
    f_equal. match goal with A : num_value x = Some ?p, B : num_value x = Some ?q |- _ => rewrite A in B; injection B as -> end.
    match goal with A : (?p == _)%Q, B : (?p == _)%Q |- _ => rewrite A in B; unfold inject_Z, Qeq in B; cbn in B; lia end.
  - intros e e' M M'. destruct M; inversion M'; subst; auto;
      try match goal with A : ~ a_number (MNum ?n) |- _ => exfalso; apply A; eexists; split; [reflexivity | discriminate] end;
      try match goal with A : ~ a_number (MNum ?n), B : ?n = PyInf \/ ?n = PyNegInf |- _ => exfalso; apply A; eexists; split; [reflexivity | destruct B; subst; discriminate] end;
      try match goal with B : _ = PyInf \/ _ = PyNegInf |- _ => destruct B; discriminate end;
      try match goal with A : neither (MStr _) |- _ => destruct A as [(n & X & _)|X]; discriminate end.
  - intros v e M N. destruct M; inversion N; subst;
      try match goal with A : ~ a_number (MNum ?n) |- _ => apply A; eexists; split; [reflexivity | congruence] end;
      try match goal with A : neither (MStr _) |- _ => destruct A as [(m & X & _)|X]; discriminate end;
      try match goal with A : neither (MNum PyNone) |- _ => destruct A as [(m & X & Y)|X]; congruence end; eauto.
    all: try (exfalso; match goal with A : ~ a_number (MNum ?n) |- _ => apply A; exists n; split; [reflexivity | intros ->; discriminate] end).
    all: try congruence.
    all: try (match goal with A : forall z, PyInt ?k <> PyInt z |- _ => exfalso; now apply (A k) end).
    all: try lia.
    all: try (match goal with A : num_value (PyFloat _) = Some _ |- _ => injection A as -> end; match goal with A : forall z, ~ (_ == inject_Z z)%Q |- _ => eapply A; eauto end).
    all: try (match goal with B : _ = PyInf \/ _ = PyNegInf |- _ => destruct B; subst; discriminate end).
    all: discriminate.
Qed.

(** ** add_edge *)

Section Edges.
  Variable eq : heap -> pv -> oid -> bool.
  Variable units : pv -> res pv.
  Variable refuses : string -> pv -> option exn.
  Notation add_edge := (add_edge eq units refuses).

  (** An output that cannot take an ingredient is refused first, whatever the input. *)
  Theorem add_edge_output_first : forall h input b name mass number volume absolute u, kind_at h b = Some KMatR -> ~ can_take h b ->
    add_edge input (PRef b) name mass number volume absolute u h = (h, Err ValueError).
  Proof.
    intros h input b name mass number volume absolute u Kb N. unfold BuildModel.add_edge.
    erewrite seq_ok; [|eapply getattr_ref; eauto; discriminate]. cbn beta.
    destruct (is_kind h KMatS (fval h b "spec")) eqn:I; [|reflexivity].
    destruct (fval h b "spec") as [| | |bs| | | | ] eqn:Sb; try discriminate. apply is_kind_ref in I.
    erewrite seq_ok; [|eapply getattr_ref; eauto; discriminate]. erewrite seq_ok; [|eapply getattr_ref; eauto; discriminate].
    destruct (is_none (fval h bs "process")) eqn:X; [reflexivity|]. destruct (is_none (fval h b "process")) eqn:Y; [reflexivity|].
    destruct N. split; [auto|split; [intros E; now rewrite E in Y|exists bs; repeat split; auto; intros E; now rewrite E in X]].
  Qed.

  (** The part of [add_edge] after the output has been looked at. *)
  Definition from_input (input name sp op mass number volume absolute u : pv) : act oid :=
    input_spec <- getattr input "spec";;
    if is_none input_spec then raise ValueError
    else
      name <- (if is_none name then getattr input "name" else ret name);;
      s <- new KIngS name;; set_ref eq s "material" input_spec;; set_ref eq s "process" sp;;
      r <- new KIngR PNone;; set_ref eq r "spec" (PRef s);; set_ref eq r "material" input;; set_ref eq r "process" op;;
      edge_fraction units refuses r "mass_fraction" mass;; edge_fraction units refuses r "number_fraction" number;;
      edge_fraction units refuses r "volume_fraction" volume;;
      left <- edge_absolute units refuses r absolute u;;
      if is_none left then ret r else raise ValueError.

  Lemma to_input : forall h input b bs name mass number volume absolute u, can_take h b -> fval h b "spec" = PRef bs ->
    add_edge input (PRef b) name mass number volume absolute u h =
    from_input input name (fval h bs "process") (fval h b "process") mass number volume absolute u h.
  Proof.
    intros h input b bs name mass number volume absolute u (Kb & Pb & bs' & Sb & Kbs & Pbs) Sb'. rewrite Sb in Sb'. injection Sb' as ->. unfold BuildModel.add_edge, from_input.
    erewrite seq_ok; [|eapply getattr_ref; eauto; discriminate]. rewrite Sb.
    cbn beta. replace (is_kind h KMatS (PRef bs)) with true by (symmetry; now apply is_kind_ref).
    erewrite seq_ok; [|eapply getattr_ref; eauto; discriminate]. erewrite seq_ok; [|eapply getattr_ref; eauto; discriminate].
    rewrite (not_none _ Pbs), (not_none _ Pb). reflexivity.
  Qed.

  Lemma run_has_spec : forall k, is_run k <-> role_of k "spec" <> None.
  Proof. intros k. unfold is_run. split; [intros [<-|[<-|[<-|[<-|[]]]]]; discriminate | destruct k; cbn; intros; tauto || congruence]. Qed.

  Lemma run_spec_kind : forall k, is_run k -> k <> KMatR -> exists pk, asked_kind k "spec" pk /\ pk <> KMatS.
  Proof.
    intros k [<-|[<-|[<-|[<-|[]]]]] N; [congruence | exists KProcS | exists KMeasS | exists KIngS]; (split; [unfold asked_kind; cbn; tauto | discriminate]).
  Qed.

  (** An input that is not a material run always raises, after an output that can take an ingredient.
      Nothing of the graph changes, unless the input is another run with a link as its spec: then an
      ingredient spec with this link stays behind (finding). *)
  Theorem add_edge_other_input : forall h input b name mass number volume absolute u, sound h -> can_take h b ->
    (forall a, input = PRef a -> kind_at h a <> Some KMatR) ->
    ((forall a k, input = PRef a -> kind_at h a = Some k -> ~ is_run k) /\ add_edge input (PRef b) name mass number volume absolute u h = (h, Err AttributeError))
    \/ exists a k, input = PRef a /\ kind_at h a = Some k /\ is_run k /\ k <> KMatR /\
       ((fval h a "spec" = PNone /\ add_edge input (PRef b) name mass number volume absolute u h = (h, Err ValueError))
        \/ fval h a "spec" <> PNone /\ exists n, ingredient_called h a name n /\
           ((~ text n /\ add_edge input (PRef b) name mass number volume absolute u h = (h, Err TypeError))
            \/ (text n /\ exists p g, fval h a "spec" = PRef p /\ add_edge input (PRef b) name mass number volume absolute u h = (g, Err TypeError) /\ kept h g)
            \/ (text n /\ exists sc id g s, fval h a "spec" = PLink sc id /\ add_edge input (PRef b) name mass number volume absolute u h = (g, Err TypeError)
                /\ half_edge h b n (PLink sc id) g s))).
  Proof.
    intros h input b name mass number volume absolute u [T L] C N. assert (C' := C). destruct C' as (Kb & Pb & bs & Sb & Kbs & Pbs).
    rewrite (to_input h input b bs) by auto. unfold from_input.
    destruct input as [| | |a| | | | ]; try (left; split; [discriminate | reflexivity]).
    destruct (kind_at h a) as [k|] eqn:Ka.
    2:{ left. split; [intros a' k [= <-] E; congruence|]. erewrite seq_err; [reflexivity|]. cbn [getattr]. now rewrite Ka. }
    assert (Dec : is_run k \/ ~ is_run k).
    { rewrite run_has_spec. destruct (role_of k "spec"); [left; discriminate | right; congruence]. }
    destruct Dec as [R|R].
    2:{ left. split; [intros a' k' [= <-] E; congruence|]. erewrite seq_err; [reflexivity|]. cbn [getattr]. rewrite Ka. rewrite run_has_spec in R.
        destruct (role_of k "spec"); [destruct R; discriminate | reflexivity]. }
    assert (Nk : k <> KMatR) by (intros ->; now apply (N a)).
    right. exists a, k. split; [reflexivity|]. split; [auto|]. split; [auto|]. split; [auto|].
    erewrite seq_ok; [|eapply getattr_ref; eauto; [now apply run_has_spec | discriminate | discriminate]].
    destruct (run_spec_kind k R Nk) as (pk & As & Npk).
    assert (A1 := sound_acceptable h a k "spec" pk T Ka As).
    destruct (called_ex h a name) as [n Cn]. assert (En := edge_name_ok h a k name n Ka Cn). unfold edge_name in En.
    destruct (fval h a "spec") as [| |sc id|p| | | | ] eqn:Sa; try discriminate A1.
    - left. split; reflexivity.
    - right. split; [discriminate|]. exists n. split; [exact Cn|]. change (is_none (PLink sc id)) with false. cbv iota.
      erewrite seq_ok; [|exact En].
      destruct (text_dec n) as [[t ->]|Tn]; [right; right|left; split; auto; erewrite seq_err; [reflexivity|]; apply new_bad; auto; discriminate].
      split; [eexists; reflexivity|].
      assert (A2 : acceptable h KProcS (fval h bs "process") = true) by (eapply sound_acceptable; eauto; unfold asked_kind; cbn; tauto).
      assert (L2 : listable h "ingredients" (fval h bs "process")) by (eapply lists_listable; eauto; cbn; tauto).
      erewrite seq_ok; [|apply new_first].
      erewrite seq_ok; [|eapply (plain_ok _ _ _ 0); [reflexivity|reflexivity|reflexivity]].
      erewrite seq_ok; [|eapply (owned_ok _ _ _ 0); [reflexivity|reflexivity|reflexivity|auto|auto]].
      set (sp := fval h bs "process") in *. set (h1 := joined h (length h + 0) "ingredients" sp).
      assert (L1 : length h = length h1) by (symmetry; apply joined_length).
      assert (K1 : kind_at h1 a = Some k) by (unfold h1; now rewrite joined_kind).
      rewrite L1.
      erewrite seq_ok; [|apply new_run_ok]. cbn [app length].
      erewrite seq_ok; [|eapply (ing_spec_ok _ _ _ 1); [reflexivity|reflexivity|reflexivity|]].
      2:{ cbn [acceptable]. apply is_kind_ref. rewrite kind_app_r. reflexivity. }
      erewrite seq_err; [|eapply (plain_bad _ _ _ 1); [reflexivity|reflexivity|]].
      2:{ cbn [acceptable]. destruct (is_kind _ KMatR (PRef a)) eqn:I; auto. apply is_kind_ref in I. rewrite kind_app_l in I by (eapply kind_lt; eauto). congruence. }
      match goal with |- exists sc' id' g s, _ /\ (?G, Err TypeError) = _ /\ _ => exists sc, id, G, (length h1 + 0) end.
      split; [reflexivity|]. split; [reflexivity|].
      match goal with |- half_edge _ _ _ _ (_ ++ ?E) _ => set (es := E) end.
      assert (F : forall i f, fval (h1 ++ es) (length h1 + i) f = fval es i f) by (intros; apply fval_app_r).
      assert (K : forall i, kind_at (h1 ++ es) (length h1 + i) = kind_at es i) by (intros; apply kind_app_r).
      constructor.
      + split; [rewrite app_length, L1; unfold es; cbn; lia | now rewrite K].
      + unfold read. rewrite K. change (kind_at es 0) with (Some KIngS). cbv iota. rewrite F. reflexivity.
      + rewrite F. reflexivity.
      + intros bs' E. rewrite Sb in E. injection E as <-. rewrite F. reflexivity.
      + intros bs' q E1 E. rewrite Sb in E1. injection E1 as <-. fold sp in E. destruct (L2 q E) as [l Fl]. exists l. split; auto.
        assert (Lq : q < length h) by (rewrite E in A2; cbn [acceptable] in A2; apply is_kind_ref in A2; eapply kind_lt; eauto).
        rewrite fval_app_l by (rewrite <- L1; auto). rewrite <- L1. unfold h1. rewrite E. now apply joined_same.
      + intros o Lo'. rewrite kind_app_l, hget_app_l by (rewrite <- L1; auto). unfold h1. now rewrite joined_kind, joined_uids.
      + intros o f Lo'. rewrite fval_app_l by (rewrite <- L1; auto).
        destruct (String.eqb f "ingredients") eqn:Ef.
        * apply String.eqb_eq in Ef. subst f. destruct (pv_eq_ref sp o) as [E'|E']; [right; split; eauto|].
          left. unfold h1. now rewrite joined_other by auto.
        * apply String.eqb_neq in Ef. left. unfold h1. now rewrite joined_other by auto.
    - right. split; [discriminate|]. exists n. split; [exact Cn|]. change (is_none (PRef p)) with false. cbv iota.
      erewrite seq_ok; [|exact En].
      destruct (text_dec n) as [[t ->]|Tn]; [right; left|left; split; auto; erewrite seq_err; [reflexivity|]; apply new_bad; auto; discriminate].
      split; [eexists; reflexivity|]. exists p.
      erewrite seq_ok; [|apply new_first].
      erewrite seq_err; [|eapply (plain_bad _ _ _ 0); [reflexivity|reflexivity|]].
      2:{ cbn [acceptable] in A1 |- *. apply is_kind_ref in A1. destruct (is_kind _ KMatS (PRef p)) eqn:I; auto. apply is_kind_ref in I. rewrite kind_app_l in I by (eapply kind_lt; eauto). congruence. }
      eexists. split; [reflexivity|]. split; [reflexivity|]. apply kept_app.
  Qed.
End Edges.

(** A process run given instead of its material, with a link as its spec: the ingredient spec stays behind. *)
Definition linked_kitchen : heap := fst (set_ref no_eq 1 "spec" (PLink "id" "s1") kitchen).

Theorem add_edge_dangling : exists h a b, sound h /\ can_take h b /\ kind_at h a = Some KProcR /\
  forall eq units refuses, exists g s, add_edge eq units refuses (PRef a) (PRef b) (txt "flour") PNone PNone PNone PNone PNone h = (g, Err TypeError)
    /\ half_edge h b (txt "flour") (PLink "id" "s1") g s.
Proof.
  exists linked_kitchen, 1, 7.
  assert (S0 : sound linked_kitchen) by apply keeps_set_ref, kitchen_sound.
  assert (T0 : can_take linked_kitchen 7) by (split; [reflexivity|]; split; [discriminate|]; exists 6; repeat split; discriminate).
  split; [exact S0|]. split; [exact T0|]. split; [reflexivity|]. intros eq units refuses.
  destruct (add_edge_other_input eq units refuses linked_kitchen (PRef 1) 7 (txt "flour") PNone PNone PNone PNone PNone S0 T0)
    as [[X _]|(a & k & E & Ka & R & Nk & X)].
  - intros a [= <-]. discriminate.
  - exfalso. apply (X 1 KProcR); try reflexivity. cbn. tauto.
  - injection E as <-. destruct X as [[Y _]|(_ & n & C & [[Nt _]|[(_ & p & g & Y & _)|(_ & sc & id & g & s & Y & E & H)]])]; try discriminate.
    + exfalso. apply Nt. destruct C as [[_ ->]|[Z _]]; [eexists; reflexivity | discriminate].
    + exists g, s. destruct C as [[_ ->]|[Z _]]; [|discriminate]. injection Y as <- <-. auto.
Qed.

Example make_value_outcome_ex :
  makes (MNum (PyFloat (6#2))) (BInt 0 1) (VNominalInteger 3) /\ makes_none (MNum (PyFloat (7#2))) (BInt 0 9) TypeError
  /\ makes (MStr "InChI=1S/CH4") BMol (VInChI (Some "InChI=1S/CH4")) /\ makes_none (MStr "Xx2") (BComp []) ValueError
  /\ make_value (MNum (PyFloat (6#2))) (BInt 0 1) = Ok (VNominalInteger 3) /\ make_value (MStr "Xx2") (BComp []) = Err ValueError.
Proof.
  assert (V := fun x b => make_value_outcome x b).
  split; [exact (V (MNum (PyFloat (6#2))) (BInt 0 1))|]. split; [exact (V (MNum (PyFloat (7#2))) (BInt 0 9))|].
  split; [exact (V (MStr "InChI=1S/CH4") BMol)|]. split; [|split; vm_compute; reflexivity].
  assert (W := V (MStr "Xx2") (BComp [])). replace (make_value (MStr "Xx2") (BComp [])) with (@Err value ValueError) in W by (vm_compute; reflexivity). exact W.
Qed.

Print Assumptions make_value_outcome.
Print Assumptions make_value_determined.
Print Assumptions add_edge_output_first.
Print Assumptions add_edge_other_input.
Print Assumptions add_edge_dangling.

(** ** add_attribute *)

Lemma goes_one : forall k t f f', goes_to k t f -> goes_to k t f' -> f = f'.
Proof.
  intros k t f f' A B. unfold goes_to in A, B. cbn in A, B.
  repeat (destruct A as [A|A]; [injection A as <- <- <-; repeat (destruct B as [B|B]; [inversion B; subst; reflexivity|]); contradiction|]). contradiction.
Qed.

(** For every target and every attribute it makes, add_attribute adds it or raises the exception of [takes_not],
    and nothing else; an exception of make_attribute comes first. *)
Theorem add_attribute_outcome : forall rejects attribute h target template value, attribute_lists h ->
  match attribute h template value with
  | Err e => add_attribute rejects attribute target template value h = (h, Err e)
  | Ok (PObj t fs) => In t ["property"; "condition"; "parameter"] ->
      match add_attribute rejects attribute target template value h with
      | (g, Ok a) => a = PObj t fs /\ takes rejects h t a target
      | (g, Err e) => g = h /\ takes_not rejects h t (PObj t fs) target e
      end
  | Ok _ => True
  end.
Proof.
  intros rejects attribute h target template value L.
  destruct (attribute h template value) as [a|e] eqn:A; [|unfold add_attribute; now rewrite A].
  destruct a as [| | | | | | |t fs]; auto. intros T.
  assert (No : (forall o k, target = PRef o -> kind_at h o <> Some k) -> add_attribute rejects attribute target template value h = (h, Err ValueError)).
  { intros N. unfold add_attribute. rewrite A. destruct target; auto. destruct (kind_at h o) eqn:K; [contradiction (N o e)|]; auto. }
  destruct target as [| | |o| | | | ]; try (rewrite No by discriminate; split; auto; now apply tn_no_object).
  destruct (kind_at h o) as [k|] eqn:K.
  2:{ assert (N : forall o' k, PRef o = PRef o' -> kind_at h o' <> Some k) by (intros o' k [= <-]; congruence). rewrite No by exact N. split; auto. now apply tn_no_object. }
  rewrite (add_attribute_target rejects attribute h o k template value _ K A).
  assert (Ap : forall f v, (exists l, fval h o f = PList l) ->
    match seq (append rejects o f v) (fun _ => ret (PObj t fs)) h with
    | (g, Ok a) => a = PObj t fs /\ rejects h o f v = None
    | (g, Err e) => g = h /\ rejects h o f v = Some e
    end).
  { intros f v [l F]. unfold append, seq. rewrite F. destruct (rejects h o f v); [|unfold ret]; auto. }
  destruct (ekind_eq_dec k KMatS) as [->|Nk].
  - assert (G : forall t f, ~ goes_to KMatS t f) by (intros t' f X; unfold goes_to in X; cbn in X; repeat (destruct X as [X|X]; [discriminate|]); contradiction).
    assert (LP : exists l, fval h o "properties" = PList l) by (eapply L; eauto).
    cbn in T. destruct T as [<-|[<-|[<-|[]]]]; cbn [list_for String.eqb Ascii.eqb Bool.eqb].
    + assert (X := Ap "properties" (alone (PObj "property" fs)) LP). destruct (seq _ _ h) as [g [a|e]]; destruct X as [-> R]; split; auto;
        [eapply tk_property | eapply tn_property]; eauto.
    + destruct LP as [l F]. rewrite F. destruct l as [|p l]; split; auto; [eapply tn_condition | eapply tk_condition]; eauto.
    + split; auto. eapply tn_no_list; eauto. cbn. intros [_ [X|[X|[]]]]; discriminate.
  - set (M := match list_for (PObj t fs) with None => _ | Some lf => _ end).
    assert (E : M = match list_for (PObj t fs) with None => (h, Err ValueError)
      | Some lf => if has_list k lf then seq (append rejects o lf (PObj t fs)) (fun _ => ret (PObj t fs)) h else (h, Err ValueError) end)
      by (unfold M; destruct (list_for _); [destruct k; congruence|reflexivity]).
    rewrite E. clear E M.
    assert (exists lf, list_for (PObj t fs) = Some lf) as [lf Lf] by (cbn in T; destruct T as [<-|[<-|[<-|[]]]]; eexists; reflexivity).
    rewrite Lf. destruct (has_list k lf) eqn:H.
    + assert (G := has_list_goes k t fs lf Lf H). assert (X := Ap lf (PObj t fs) (L o k lf K (or_introl (ex_intro _ t G)))).
      destruct (seq _ _ h) as [g [a|e]]; destruct X as [-> R]; split; auto; [eapply tk_list | eapply tn_list]; eauto.
    + split; auto. eapply tn_no_list; eauto; [|now intros [-> _]].
      intros f G. destruct (goes_has_list k t fs f G) as (E & H' & _). congruence.
Qed.
Print Assumptions add_attribute_outcome.

(** The two exclude each other and the exception is determined. *)
Theorem add_attribute_determined : forall rejects h t a v,
  (forall e, takes rejects h t a v -> ~ takes_not rejects h t a v e) /\ (forall e e', takes_not rejects h t a v e -> takes_not rejects h t a v e' -> e = e').
Proof.
  assert (G : forall t f, ~ goes_to KMatS t f) by (intros t' f X; unfold goes_to in X; cbn in X; repeat (destruct X as [X|X]; [discriminate|]); contradiction).
  intros rejects h t a v. split.
  - intros e A B. destruct A; inversion B; subst;
      repeat match goal with X : kind_at h ?o = Some ?k, Y : kind_at h ?o = Some ?k' |- _ => rewrite X in Y; injection Y; intros; subst; clear Y end;
      repeat match goal with X : goes_to ?k ?t ?f, Y : goes_to ?k ?t ?f' |- _ => pose proof (goes_one _ _ _ _ X Y); subst; clear Y end;
      try (eapply G; eassumption); try congruence; eauto;
      try match goal with X : forall f, ~ goes_to _ _ f, Y : goes_to _ _ _ |- _ => eapply X; exact Y end;
      try match goal with X : ~ (_ = _ /\ _) |- _ => apply X; split; [reflexivity|cbn; tauto] end;
      try match goal with X : forall o k, _ -> kind_at h o <> Some k |- _ => eapply X; [reflexivity|eassumption] end.
  - intros e e' A B. destruct A; inversion B; subst;
      repeat match goal with X : kind_at h ?o = Some ?k, Y : kind_at h ?o = Some ?k' |- _ => rewrite X in Y; injection Y; intros; subst; clear Y end;
      repeat match goal with X : goes_to ?k ?t ?f, Y : goes_to ?k ?t ?f' |- _ => pose proof (goes_one _ _ _ _ X Y); subst; clear Y end;
      try (exfalso; eapply G; eassumption); try congruence; auto; exfalso;
      try match goal with X : forall f, ~ goes_to _ _ f, Y : goes_to _ _ _ |- _ => eapply X; exact Y end;
      try match goal with X : ~ (_ = _ /\ _) |- _ => apply X; split; [reflexivity|cbn; tauto] end;
      try match goal with X : forall o k, _ -> kind_at h o <> Some k |- _ => eapply X; [reflexivity|eassumption] end.
Qed.
Print Assumptions add_attribute_determined.

(** A condition for a material spec without properties, a property for a process and an attribute for no object are refused. *)
Example add_attribute_cases : forall rejects attribute fs, (forall h t v, attribute h t v = Ok (PObj "condition" fs)) ->
  let h := [mkE KMatS [] [("properties", PList [])]; mkE KProcR [] [("conditions", PList []); ("parameters", PList [])]] in
  (forall o f v, rejects h o f v = None) -> attribute_lists h /\
  snd (add_attribute rejects attribute (PRef 0) PNone PNone h) = Err ValueError /\
  snd (add_attribute rejects attribute (PRef 1) PNone PNone h) = Ok (PObj "condition" fs) /\
  snd (add_attribute rejects attribute PNone PNone PNone h) = Err ValueError.
Proof.
  intros rejects attribute fs A h R. split.
  - intros [|[|o]] k f K D; cbn in K; [| |destruct o; discriminate]; injection K as <-.
    + destruct D as [[t G]|[_ ->]]; [|exists []; reflexivity]. unfold goes_to in G. cbn in G. repeat (destruct G as [G|G]; [discriminate|]). contradiction.
    + destruct D as [[t G]|[X _]]; [|discriminate]. exists []. unfold goes_to in G. cbn in G.
      repeat (destruct G as [G|G]; [first [discriminate G | injection G as <- <-; reflexivity]|]). contradiction.
  - unfold add_attribute, append, seq, ret. rewrite !A. cbn [kind_at hget nth_error h option_map e_kind list_for has_list fval e_fields dict_get String.eqb Ascii.eqb Bool.eqb]. repeat split. cbn. now rewrite R.
Qed.
