(** The setters of bounds and of uniform integers are modelled twice, in BoundsModel.v and ValuesModel.v by themselves
    and in DictModel.v as part of all the classes: the two models do the same. *)
From Coq Require Import String List Bool ZArith QArith Lia Lqa.
From Verif Require Import Base BaseFacts PyStr BoundsModel BoundsProofs ValuesModel DictModel DictSpec DictProofs.
Import ListNotations.
Open Scope string_scope.
Open Scope list_scope.

Definition as_value (x : pynum) : dv :=
  match x with PyNone => DNone | PyInt z => DInt z | PyFloat q => DFloat (Fin q) | PyNaN => DFloat NaN | PyInf => DFloat Inf | PyNegInf => DFloat NegInf end.
Definition holds_int (s : vars) (a : iattr) : Prop :=
  exists l h, a = mkI (Some l) (Some h) /\ get "_lower_bound" s = Some (DInt l) /\ get "_upper_bound" s = Some (DInt h).
Definition holds_real (s : vars) (a : rattr) : Prop :=
  exists l h, rlo a = Some l /\ rhi a = Some h /\ get "_lower_bound" s = Some (DFloat (Fin l)) /\ get "_upper_bound" s = Some (DFloat (Fin h)).

(** Comparison of the argument with the other bound, given that it is a finite number. *)
Lemma whole_value : forall q, Z.eqb (Zpos (Qden (Qred q))) 1 = true -> q == inject_Z (Qnum (Qred q)).
Proof.
  intros q H. apply Z.eqb_eq in H. transitivity (Qred q); [symmetry; apply Qred_correct|]. destruct (Qred q) as [n d] eqn:E. cbn in H |- *. injection H as ->. reflexivity.
Qed.

Section Agree.
  Variable units : string -> res string.
  Variable check : dv -> dv -> option exn.
  Let setattr := setattr units check.

  Lemma int_le : forall y z, pynum_le (PyInt y) (PyInt z) = Ok (y <=? z)%Z.
  Proof. intros y z. cbn. f_equal. apply Bool.eq_true_iff_eq. now rewrite Qle_bool_iff, Z.leb_le, Zle_Qle. Qed.
  Lemma whole_le : forall q z, Z.eqb (Zpos (Qden (Qred q))) 1 = true -> pynum_le (PyFloat q) (PyInt z) = Ok (Qnum (Qred q) <=? z)%Z /\ pynum_le (PyInt z) (PyFloat q) = Ok (z <=? Qnum (Qred q))%Z.
  Proof.
    intros q z W. pose proof (whole_value q W) as E. cbn. split; f_equal; apply Bool.eq_true_iff_eq; rewrite Qle_bool_iff, Z.leb_le, Zle_Qle; split; intros X; lra.
  Qed.
  Lemma got : forall k j (w : dv) (s : vars), get k (put j w s) = if String.eqb k j then Some w else get k s.
  Proof. intros k j w s. apply get_put. Qed.

  (** IntegerBounds *)
  Theorem integer_bounds_agree : forall s a x, holds_int s a ->
    (snd (setattr IntegerBounds "lower_bound" s (as_value x)) = snd (set_ilo a x) /\ holds_int (fst (setattr IntegerBounds "lower_bound" s (as_value x))) (fst (set_ilo a x))) /\
    (snd (setattr IntegerBounds "upper_bound" s (as_value x)) = snd (set_ihi a x) /\ holds_int (fst (setattr IntegerBounds "upper_bound" s (as_value x))) (fst (set_ihi a x))).
  Proof.
    intros s a x (l & h & -> & L & H).
    change (setattr IntegerBounds "lower_bound") with (set_int "lower_bound" "_upper_bound" above). change (setattr IntegerBounds "upper_bound") with (set_int "upper_bound" "_lower_bound" below).
    unfold set_int, checked, set_ilo, set_ihi. rewrite L, H. cbn [ilo ihi].
    assert (D : holds_int s (mkI (Some l) (Some h))) by (exists l, h; auto).
    destruct x as [|z|q| | |]; cbn [as_value num bind]; try (split; split; auto; fail).
    - destruct (int_checked (PyInt z)) as [y|e] eqn:C; cbn [bind]; [|split; split; auto].
      assert (y = z) by (unfold int_checked in C; destruct (Z.abs z <? _)%Z; [|discriminate]; destruct (float_exact z); congruence). subst y. unfold above, below, py_le. cbn [num text_of]. rewrite !int_le. cbn [bind].
      rewrite <- !Z.ltb_antisym. split.
      + destruct (h <? z)%Z; cbn [bind fst snd]; split; auto. exists z, h. rewrite !got. repeat split; auto.
      + destruct (z <? l)%Z; cbn [bind fst snd]; split; auto. exists l, z. rewrite !got. repeat split; auto.
    - cbn [int_checked]. destruct (Z.eqb (Zpos (Qden (Qred q))) 1) eqn:W; cbn [bind]; [|split; split; auto]. unfold above, below, py_le. cbn [num text_of].
      rewrite (proj1 (whole_le q h W)), (proj2 (whole_le q l W)). cbn [bind]. rewrite <- !Z.ltb_antisym. split.
      + destruct (h <? Qnum (Qred q))%Z; cbn [bind fst snd]; split; auto. eexists _, h. rewrite !got. repeat split; auto.
      + destruct (Qnum (Qred q) <? l)%Z; cbn [bind fst snd]; split; auto. eexists l, _. rewrite !got. repeat split; auto.
  Qed.
  (** UniformInteger *)
  Theorem uniform_integer_agree : forall s a x, holds_int s a ->
    (snd (setattr UniformInteger "lower_bound" s (as_value x)) = snd (set_ulo a x) /\ holds_int (fst (setattr UniformInteger "lower_bound" s (as_value x))) (fst (set_ulo a x))) /\
    (snd (setattr UniformInteger "upper_bound" s (as_value x)) = snd (set_uhi a x) /\ holds_int (fst (setattr UniformInteger "upper_bound" s (as_value x))) (fst (set_uhi a x))).
  Proof.
    intros s a x (l & h & -> & L & H).
    change (setattr UniformInteger "lower_bound") with set_uniform_lower. change (setattr UniformInteger "upper_bound") with set_uniform_upper.
    unfold set_uniform_lower, set_uniform_upper, checked, set_ulo, set_uhi. rewrite L, H. cbn [ilo ihi].
    assert (D : holds_int s (mkI (Some l) (Some h))) by (exists l, h; auto).
    destruct x as [|z|q| | |]; cbn [as_value integral num int_like bind]; try (split; split; auto; fail).
    - unfold above, below, py_le. cbn [num text_of]. rewrite !int_le. cbn [bind]. rewrite <- !Z.ltb_antisym. split.
      + destruct (h <? z)%Z; cbn [bind fst snd]; split; auto. exists z, h. rewrite !got. repeat split; auto.
      + destruct (z <? l)%Z; cbn [bind fst snd]; split; auto. exists l, z. rewrite !got. repeat split; auto.
    - destruct (Z.eqb (Zpos (Qden (Qred q))) 1) eqn:W; cbn [bind]; [|split; split; auto]. unfold above, below, py_le. cbn [num text_of].
      rewrite (proj1 (whole_le q h W)), (proj2 (whole_le q l W)). cbn [bind]. rewrite <- !Z.ltb_antisym. split.
      + destruct (h <? Qnum (Qred q))%Z; cbn [bind fst snd]; split; auto. eexists _, h. rewrite !got. repeat split; auto.
      + destruct (Qnum (Qred q) <? l)%Z; cbn [bind fst snd]; split; auto. eexists l, _. rewrite !got. repeat split; auto.
  Qed.
  (** RealBounds, for arguments that are not integers (BoundsModel.v has exact arithmetic) *)
  Theorem real_bounds_agree : forall s a x, holds_real s a -> (forall z, x <> PyInt z) ->
    (snd (setattr RealBounds "lower_bound" s (as_value x)) = snd (set_rlo a x) /\ holds_real (fst (setattr RealBounds "lower_bound" s (as_value x))) (fst (set_rlo a x))) /\
    (snd (setattr RealBounds "upper_bound" s (as_value x)) = snd (set_rhi a x) /\ holds_real (fst (setattr RealBounds "upper_bound" s (as_value x))) (fst (set_rhi a x))).
  Proof.
    intros s a x (l & h & La & Ha & L & H) N.
    change (setattr RealBounds "lower_bound") with (set_real "lower_bound" "_upper_bound" above). change (setattr RealBounds "upper_bound") with (set_real "upper_bound" "_lower_bound" below).
    unfold set_real, checked, set_rlo, set_rhi. rewrite L, H, La, Ha.
    assert (D : holds_real s a) by (exists l, h; auto).
    destruct x as [|z|q| | |]; cbn [as_value isfinite finite_checked num_value bind negb]; try (split; split; auto; fail); [destruct (N z); reflexivity|].
    unfold above, below, py_le. cbn [num text_of pynum_le num_value bind negb]. split.
    - destruct (Qle_bool q h); cbn [bind fst snd negb to_float]; split; auto. exists q, h. cbn [rlo rhi]. rewrite !got. repeat split; auto.
    - destruct (Qle_bool l q); cbn [bind fst snd negb to_float]; split; auto. exists l, q. cbn [rlo rhi]. rewrite !got. repeat split; auto.
  Qed.
  (** The unit of RealBounds: a text is replaced by the unit it is parsed to, None is refused, and the bounds stay. *)
  Theorem real_unit_agree : forall s a t n u, holds_real s a -> units t = Ok n ->
    snd (setattr RealBounds "default_units" s (DStr t)) = snd (set_runit a (Some u)) /\ holds_real (fst (setattr RealBounds "default_units" s (DStr t))) (fst (set_runit a (Some u))) /\
    runit (fst (set_runit a (Some u))) = u /\ get "_default_units" (fst (setattr RealBounds "default_units" s (DStr t))) = Some (DStr n) /\
    setattr RealBounds "default_units" s DNone = (s, snd (set_runit a None)) /\ fst (set_runit a None) = a.
  Proof.
    intros s a t n u (l & h & La & Ha & L & H) U. change (setattr RealBounds "default_units") with (fun s v => checked "default_units" (parse units) s v). unfold checked. cbn [parse]. rewrite U. cbn [bind set_runit fst snd runit].
    repeat split; auto. - exists l, h. cbn [rlo rhi]. rewrite !got. auto. - rewrite got. reflexivity.
  Qed.
  (** The categories of CategoricalBounds and the components of CompositionBounds *)
  Definition as_element (o : pyobj) : dv := match o with OStr t => DStr t | ONotStr => DInt 0 end.
  Definition as_set (x : pyset) : dv := match x with SNone => DNone | SOther => DStr "text" | SCollection l => DSet (map as_element l) end.
  Theorem categories_agree : forall s old x c k, In (c, k) [(CategoricalBounds, "categories"); (CompositionBounds, "components")] ->
    get ("_" ++ k)%string s = Some (DSet (map as_element old)) ->
    snd (setattr c k s (as_set x)) = snd (set_categories old x) /\
    get ("_" ++ k)%string (fst (setattr c k s (as_set x))) = Some (DSet (map as_element (fst (set_categories old x)))).
  Proof.
    assert (T : forall l, forallb is_str (map as_element l) = forallb obj_is_str l) by (induction l as [|[t|] l IH]; cbn; auto).
    assert (X : forall s old x k, get ("_" ++ k)%string s = Some (DSet (map as_element old)) ->
      snd (set_texts k s (as_set x)) = snd (set_categories old x) /\
      get ("_" ++ k)%string (fst (set_texts k s (as_set x))) = Some (DSet (map as_element (fst (set_categories old x))))).
    { intros s old x k G. destruct x as [| |l]; cbn [as_set set_texts set_categories fst snd map forallb]; auto.
      - rewrite got, String.eqb_refl. auto.
      - rewrite T, got, String.eqb_refl. destruct (forallb obj_is_str l); auto. }
    intros s old x c k I. cbn in I. destruct I as [[= <- <-]|[[= <- <-]|[]]]; apply X.
  Qed.
End Agree.
Print Assumptions categories_agree.
Print Assumptions integer_bounds_agree. Print Assumptions uniform_integer_agree. Print Assumptions real_bounds_agree. Print Assumptions real_unit_agree.
Example holds_int_met : holds_int [("_lower_bound", DInt 0); ("_upper_bound", DInt 5)] (mkI (Some 0%Z) (Some 5%Z)) /\
  setattr (fun t => Ok t) (fun _ _ => None) UniformInteger "lower_bound" [("_lower_bound", DInt 0); ("_upper_bound", DInt 5)] (DInt 6) = ([("_lower_bound", DInt 0); ("_upper_bound", DInt 5)], Some ValueError).
Proof. split; [exists 0%Z, 5%Z; auto|vm_compute; reflexivity]. Qed.
