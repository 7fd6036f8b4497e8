(** C63: files, and what an interrupted or repeated dump leaves in them. *)
From Coq Require Import String List Bool Arith ZArith QArith Lia.
From Verif Require Import Base BaseFacts GraphModel SerialModel JtextModel JtextSpec JtextProofs JtextTree JtextProperties FileModel.
Import ListNotations.
Open Scope list_scope.
Open Scope nat_scope.

(** ** Texts of objects *)
Lemma object_shape : forall rf x l, value rf x (TObj l) -> exists y, x = 123%Z :: y ++ [125%Z].
Proof.
  intros rf x l H. inversion H as [| | | | | | | | | | |w B|w t l' B M]; subst.
  - exists w. reflexivity.
  - exists (w ++ t). cbn. rewrite <- app_assoc. reflexivity.
Qed.
Lemma object_head : forall rf x v r, value rf x v -> x = 123%Z :: r -> exists l, v = TObj l.
Proof.
  intros rf x v r H E. inversion H as [| | | | | |t z I0|t F|t s C|w B|w t l B M|w B|w t l B M]; subst; try discriminate; eauto.
  - destruct (integer_opens rf _ _ I0) as (c & y & E1 & D). inversion E1; subst. unfold digit in D. lia.
  - destruct F as (w & z & f & e & E1 & I0 & _). destruct (integer_opens rf _ _ I0) as (c & y & -> & D). cbn in E1. inversion E1; subst. unfold digit in D. lia.
Qed.
(** An object needs nothing behind it to be read. *)
Lemma scan_object : forall rf x l, value rf x (TObj l) -> forall n r, (2 * length x <= n) -> scan rf n (x ++ r) = Some (TObj l, r).
Proof.
  intros rf x l H n r L. inversion H as [| | | | | | | | | | |w B|w t l' B M]; subst.
  - destruct n as [|n]; [cbn in L; lia|]. cbn [app]. rewrite scan_eq.
    change (123 =? 34)%Z with false. change (123 =? 123)%Z with true. cbv iota. rewrite <- app_assoc. rewrite skip_app by exact B. reflexivity.
  - destruct (proj2 (proj2 (scan_complete rf)) _ _ M) as (IH & O). destruct n as [|n]; [cbn in L; lia|]. cbn [app]. rewrite scan_eq.
    change (123 =? 34)%Z with false. change (123 =? 123)%Z with true. cbv iota.
    rewrite <- !app_assoc. rewrite skip_app by exact B. rewrite opens_skip by exact O.
    assert (K : scan_members rf n (t ++ [125%Z] ++ r) = Some (l, r)).
    { apply IH. cbn [length] in L. rewrite !app_length in L. cbn [length] in L. lia. }
    destruct t as [|q t]; [destruct O|]. cbn [app] in *. destruct O as (_ & _ & O & _). rewrite (proj2 (Z.eqb_neq q 125) O), K. reflexivity.
Qed.
Lemma object_tail : forall rf x l tail, value rf x (TObj l) ->
  parse rf (x ++ tail) = match skip_ws tail with [] => Ok (TObj l) | _ => Err ValueError end.
Proof.
  intros rf x l tail H. unfold parse. rewrite opens_skip by (exact (value_opens _ _ _ H)).
  rewrite (scan_object _ _ _ H) by (rewrite app_length; lia). reflexivity.
Qed.
Lemma skip_nil : forall t, skip_ws t = [] <-> blanks t.
Proof.
  intros t. split; [|apply skip_all]. intros E. destruct (skip_split t) as (w & A & B). rewrite E, app_nil_r in A. congruence.
Qed.
Lemma object_prefix : forall rf x l p q, value rf x (TObj l) -> x = p ++ q -> q <> [] -> parse rf p = Err ValueError.
Proof.
  intros rf x l p q H E Nq. apply json_text_refused. intros v (w & y & w' & Ep & Bw & Bw' & V).
  destruct (object_shape _ _ _ H) as (z & Ez).
  pose proof (value_opens _ _ _ V) as O. destruct y as [|c y]; [destruct O|].
  assert (Hw : w = [] /\ c = 123%Z).
  { destruct w as [|b w]; [|exfalso].
    - subst p. rewrite Ez in E. cbn in E. inversion E; subst. split; reflexivity.
    - subst p. rewrite Ez in E. cbn in E. inversion E; subst. inversion Bw as [|? ? Bb _]; subst. unfold blank in Bb. lia. }
  destruct Hw as (-> & ->). cbn [app] in Ep. destruct (object_head _ _ _ y V eq_refl) as (l' & ->).
  assert (K : parse rf x = Ok (TObj l)).
  { pose proof (object_tail rf x l [] H) as K. rewrite app_nil_r in K. exact K. }
  rewrite E, Ep in K. change (123%Z :: y ++ w') with ((123%Z :: y) ++ w') in K. rewrite <- app_assoc in K. rewrite (object_tail _ _ _ _ V) in K.
  destruct (skip_ws (w' ++ q)) eqn:Es; [|discriminate]. apply skip_nil in Es. apply Forall_app in Es. destruct Es as (_ & Bq).
  destruct (exists_last Nq) as (q' & a & ->). apply Forall_app in Bq. destruct Bq as (_ & Bq). pose proof (Forall_inv Bq) as Ba.
  assert (a = 125%Z).
  { assert (R : (123%Z :: z) ++ [125%Z] = ((123%Z :: y ++ w') ++ q') ++ [a]) by (rewrite <- app_assoc, <- Ep, <- E; symmetry; exact Ez).
    apply app_inj_tail in R. symmetry. apply R. }
  subst a. unfold blank in Ba. lia.
Qed.

Section P.
  Variable show_float : Q -> text.
  Variable read_float : text -> Q.
  Variable lower : string -> string.
  Variable known : string -> bool.
  Variable construct : heap -> string -> list (string * pv) -> res (list (string * pv)).
  Notation dumps := (dumps lower known construct).
  Notation loads := (loads lower known construct).
  Notation dump := (dump show_float lower known construct).
  Notation load := (load read_float lower known construct).
  Notation readable := (readable show_float read_float).

  Lemma dumps_object : forall sorted uuid4 h n obj scope h' n' j, dumps sorted uuid4 h n obj scope = Ok (h', n', j) -> exists l, j = JObj l.
  Proof.
    intros sorted uuid4 h n obj scope h' n' j H. unfold SerialModel.dumps in H.
    repeat (match type of H with context [Base.bind ?r _] => destruct r as [?|?]; cbn [Base.bind] in H; [|discriminate] end
            || match type of H with context [let (_, _) := ?p in _] => destruct p; cbn [Base.bind] in H end).
    inversion H; subst. eauto.
  Qed.
  Lemma written : forall o j, proper o -> readable j -> value read_float (print show_float o (to_tree j)) (to_tree j).
  Proof.
    intros o j Po R. pose proof (write_value show_float read_float o Po (to_tree j)) as W.
    assert (T : tree_of code_points (shown show_float read_float) (to_tree j)) by (apply to_tree_strings; [apply lit_code_points|exact R]).
    specialize (W T O). replace (read_back o (to_tree j)) with (to_tree j) in W; [exact W|].
    symmetry. apply read_back_fixed. intros _. apply to_tree_strings; [apply lit_unsplit|]. clear - R. unfold JtextProperties.readable in R.
    induction R as [|b|z|q Fq|x|s Ps|l _ IH|l Pk _ IH]; constructor; auto.
  Qed.

  (** If [dumps] raises, nothing is written. *)
  Theorem failed_dump_writes_nothing : forall o sorted uuid4 h n obj scope f f' e,
    dump sorted uuid4 o h n obj scope f = (f', Err e) -> f' = f /\ dumps sorted uuid4 h n obj scope = Err e.
  Proof.
    intros o sorted uuid4 h n obj scope f f' e H. unfold FileModel.dump, text_dumps in H.
    destruct (dumps sorted uuid4 h n obj scope) as [[[h' n'] j]|e'] eqn:D; cbn in H; [discriminate|]. inversion H; subst. split; reflexivity.
  Qed.
  Lemma option_map_some : forall A (x : option A) a, x = Some a -> forall B (f : A -> B), option_map f x = Some (f a).
  Proof. intros A x a -> B f. reflexivity. Qed.
  Lemma load_from : forall g f t tail l, skipn (f_pos f) (f_text f) = t ++ tail -> value read_float t (to_tree (JObj l)) ->
    fst (load g f) = match skip_ws tail with [] => Some (loads g (JObj l)) | _ => Some (Err ValueError) end.
  Proof.
    intros g f t tail l E V. rewrite <- (option_map_some _ _ _ (of_to_tree (JObj l)) _ (loads g)). cbn [to_tree] in V |- *. unfold FileModel.load, f_read. cbn [fst]. rewrite E. unfold text_loads. rewrite (object_tail _ _ _ _ V).
    destruct (skip_ws tail); reflexivity.
  Qed.
  Lemma write_from : forall f t, f_pos f <= length (f_text f) -> skipn (f_pos f) (f_text (f_write f t)) = t ++ skipn (f_pos f + length t) (f_text f).
  Proof.
    intros f t L. unfold f_write. cbn [f_text]. rewrite skipn_app, skipn_firstn_comm, Nat.sub_diag.
    rewrite firstn_length_le by exact L. rewrite Nat.sub_diag. reflexivity.
  Qed.
  Lemma dump_written : forall o sorted uuid4 h n obj scope f h' n' j, dumps sorted uuid4 h n obj scope = Ok (h', n', j) ->
    dump sorted uuid4 o h n obj scope f = (f_write f (print show_float o (to_tree j)), Ok (h', n')).
  Proof. intros o sorted uuid4 h n obj scope f h' n' j D. unfold FileModel.dump, text_dumps. rewrite D. reflexivity. Qed.

  (** Otherwise one text is written at the position, over as much of what was there, and loading from there gives what loads
      gives for it if nothing but white space is left behind it in the file; else a ValueError. *)
  Theorem dump_load : forall o sorted uuid4 h n obj scope f h' n' j, proper o -> f_pos f <= length (f_text f) ->
    dumps sorted uuid4 h n obj scope = Ok (h', n', j) -> readable j ->
    exists t f', dump sorted uuid4 o h n obj scope f = (f', Ok (h', n'))
      /\ f_text f' = firstn (f_pos f) (f_text f) ++ t ++ skipn (f_pos f + length t) (f_text f) /\ f_pos f' = f_pos f + length t
      /\ text_dumps show_float lower known construct sorted uuid4 o h n obj scope = Ok (h', n', t)
      /\ forall g,
        (blanks (skipn (f_pos f + length t) (f_text f)) -> fst (load g (f_seek f' (f_pos f))) = Some (loads g j))
        /\ (~ blanks (skipn (f_pos f + length t) (f_text f)) -> fst (load g (f_seek f' (f_pos f))) = Some (Err ValueError)).
  Proof.
    intros o sorted uuid4 h n obj scope f h' n' j Po Lf D R. exists (print show_float o (to_tree j)), (f_write f (print show_float o (to_tree j))).
    split; [apply dump_written; exact D|]. split; [reflexivity|]. split; [reflexivity|].
    split; [unfold text_dumps; rewrite D; reflexivity|]. intros g.
    destruct (dumps_object _ _ _ _ _ _ _ _ _ D) as (l & ->). pose proof (written o _ Po R) as W.
    set (t := print show_float o (to_tree (JObj l))) in *.
    pose proof (load_from g (f_seek (f_write f t) (f_pos f)) t (skipn (f_pos f + length t) (f_text f)) _ (write_from f t Lf) W) as K.
    rewrite <- skip_nil. rewrite K. destruct (skip_ws _); split; (reflexivity || congruence || tauto).
  Qed.
  (** If the program stops before the last character has reached the end of a file, loading from there raises a ValueError: a
      broken text is never taken for another object. *)
  Theorem stopped_dump_refused : forall o sorted uuid4 h n obj scope f h' n' t k j, proper o -> f_pos f = length (f_text f) ->
    dumps sorted uuid4 h n obj scope = Ok (h', n', j) -> readable j ->
    text_dumps show_float lower known construct sorted uuid4 o h n obj scope = Ok (h', n', t) -> k < length t ->
    forall g, fst (load g (f_seek (f_write_stopped f t k) (f_pos f))) = Some (Err ValueError).
  Proof.
    intros o sorted uuid4 h n obj scope f h' n' t k j Po Ef D R T Lk g. unfold text_dumps in T. rewrite D in T. cbn [Base.bind] in T. injection T as T1.
    destruct (dumps_object _ _ _ _ _ _ _ _ _ D) as (l & ->). pose proof (written o _ Po R) as W. rewrite T1 in W.
    unfold FileModel.load, f_read, f_write_stopped. cbn [fst]. change (f_pos (f_seek (f_write f (firstn k t)) (f_pos f))) with (f_pos f).
    change (f_text (f_seek (f_write f (firstn k t)) (f_pos f))) with (f_text (f_write f (firstn k t))).
    rewrite write_from by lia. rewrite skipn_all2 by lia. rewrite app_nil_r. unfold text_loads.
    rewrite (object_prefix _ _ _ (firstn k t) (skipn k t) W); [reflexivity|symmetry; apply firstn_skipn|].
    intros E. apply (f_equal (@length Z)) in E. rewrite skipn_length in E. cbn in E. lia.
  Qed.
  (** Two dumps into one file: loading from the first text raises a ValueError, loading from the second gives the second. *)
  Theorem second_dump_hides_first : forall o sorted uuid4 h n obj scope h1 n1 j1 obj' scope' h2 n2 j2 f f1 f2, proper o -> f_pos f = length (f_text f) ->
    dumps sorted uuid4 h n obj scope = Ok (h1, n1, j1) -> readable j1 -> dumps sorted uuid4 h1 n1 obj' scope' = Ok (h2, n2, j2) -> readable j2 ->
    dump sorted uuid4 o h n obj scope f = (f1, Ok (h1, n1)) -> dump sorted uuid4 o h1 n1 obj' scope' f1 = (f2, Ok (h2, n2)) ->
    forall g, fst (load g (f_seek f2 (f_pos f))) = Some (Err ValueError) /\ fst (load g (f_seek f2 (f_pos f1))) = Some (loads g j2).
  Proof.
    intros o sorted uuid4 h n obj scope h1 n1 j1 obj' scope' h2 n2 j2 f f1 f2 Po Ef D1 R1 D2 R2 E1 E2 g.
    rewrite (dump_written o _ _ _ _ _ _ f _ _ _ D1) in E1. injection E1 as F1.
    rewrite (dump_written o _ _ _ _ _ _ f1 _ _ _ D2) in E2. injection E2 as F2.
    destruct (dumps_object _ _ _ _ _ _ _ _ _ D1) as (l1 & ->). destruct (dumps_object _ _ _ _ _ _ _ _ _ D2) as (l2 & ->).
    pose proof (written o _ Po R1) as W1. pose proof (written o _ Po R2) as W2.
    set (t1 := print show_float o (to_tree (JObj l1))) in *. set (t2 := print show_float o (to_tree (JObj l2))) in *.
    assert (X1 : f_text f1 = f_text f ++ t1 /\ f_pos f1 = length (f_text f1)).
    { subst f1. unfold f_write. cbn [f_text f_pos]. rewrite Ef, firstn_all, skipn_all2 by lia. rewrite app_nil_r, app_length. split; reflexivity. }
    destruct X1 as (X1 & P1).
    assert (X2 : f_text f2 = f_text f1 ++ t2).
    { subst f2. unfold f_write. cbn [f_text f_pos]. rewrite P1, firstn_all, skipn_all2 by lia. rewrite app_nil_r. reflexivity. }
    split.
    - rewrite (load_from g (f_seek f2 (f_pos f)) t1 t2 _) with (2 := W1).
      + destruct (object_shape _ _ _ W2) as (y & ->). reflexivity.
      + cbn [f_seek f_text f_pos]. rewrite X2, X1, Ef, <- app_assoc. rewrite skipn_app, skipn_all, Nat.sub_diag. reflexivity.
    - rewrite (load_from g (f_seek f2 (f_pos f1)) t2 [] _) with (2 := W2).
      + reflexivity.
      + cbn [f_seek f_text f_pos]. rewrite X2, P1, app_nil_r. rewrite skipn_app, skipn_all, Nat.sub_diag. reflexivity.
  Qed.
  (** The dump of an object is the tree that raw_dumps writes. *)
  Theorem dict_dump_tree : forall h x j, raw_dumps h (PRef x) = Ok j -> readable j -> dict_dump show_float read_float h x = Ok (to_tree j).
  Proof.
    intros h x j D R. unfold dict_dump, text_raw_dumps. rewrite D. cbn [Base.bind].
    pose proof (written default_options j (proj1 ex_proper) R) as W. apply json_text_read. exists [], (print show_float default_options (to_tree j)), [].
    rewrite app_nil_r. repeat split; try constructor. exact W.
  Qed.
End P.

(** ** Cases *)
Definition ex_dump (z : Z) (f : file) := dump ex_show (fun s => s) (fun _ => false) (fun _ _ _ => Err TypeError) (fun l => l) (fun _ => "u"%string) default_options [] 0 (PAtom (AInt z)) "auto" f.
Definition ex_load (f : file) := fst (load ex_read (fun s => s) (fun _ => false) (fun _ _ _ => Err TypeError) [] f).
Example file_ex :
  f_text (fst (ex_dump 12 (mkF [] 0))) = lit "{""context"": [], ""object"": 12}"
  /\ ex_load (f_seek (fst (ex_dump 12 (mkF [] 0))) 0) = Some (Ok (PAtom (AInt 12), []))
  /\ ex_load (f_seek (fst (ex_dump 34 (fst (ex_dump 12 (mkF [] 0))))) 0) = Some (Err ValueError)
  /\ ex_load (f_seek (fst (ex_dump 5 (f_seek (fst (ex_dump 12 (mkF [] 0))) 0))) 0) = Some (Err ValueError)
  /\ ex_load (f_seek (f_write_stopped (mkF [] 0) (lit "{""context"": [], ""object"": 12}") 28) 0) = Some (Err ValueError).
Proof. repeat split; vm_compute; reflexivity. Qed.
Example file_hyps : exists h n j, SerialModel.dumps (fun s => s) (fun _ => false) (fun _ _ _ => Err TypeError) (fun l => l) (fun _ => "u"%string) [] 0 (PAtom (AInt 12)) "auto" = Ok (h, n, j)
  /\ readable ex_show ex_read j.
Proof.
  eexists _, _, _. split; [vm_compute; reflexivity|]. unfold readable. cbn. constructor; intros k x H; each H; try exact I; constructor. intros x [].
Qed.

(** Written over an older file of the same length, a stopped dump can leave a text that loads as an object that was never
    dumped. *)
Theorem stopped_overwrite_refuted : exists old t k v,
  old = fst (ex_dump 12 (mkF [] 0)) /\ t = f_text (fst (ex_dump 34 (mkF [] 0))) /\ k < length t
  /\ ex_load (f_seek (f_write_stopped (f_seek old 0) t k) 0) = Some (Ok (PAtom (AInt v), [])) /\ v <> 12%Z /\ v <> 34%Z.
Proof.
  eexists _, _, 27, 32%Z. split; [reflexivity|]. split; [reflexivity|]. split; [vm_compute; lia|]. split; [vm_compute; reflexivity|]. lia.
Qed.

Print Assumptions failed_dump_writes_nothing.
Print Assumptions dump_load.
Print Assumptions stopped_dump_refused.
Print Assumptions second_dump_hides_first.
Print Assumptions dict_dump_tree.
Print Assumptions stopped_overwrite_refuted.
