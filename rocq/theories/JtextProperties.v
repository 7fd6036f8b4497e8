(** C62: the JSON texts written and read. *)
From Coq Require Import String Ascii List Bool ZArith QArith Lia.
From Verif Require Import Base BaseFacts GraphModel SerialModel JtextModel JtextSpec JtextProofs JtextTree.
Import ListNotations.
Open Scope list_scope.
Open Scope Z_scope.

Section P.
  Variable show_float : Q -> text.
  Variable read_float : text -> Q.

  (** A text is read exactly if the grammar derives it, as what the grammar says; anything else is refused with ValueError. *)
  Theorem json_text_read : forall t v, parse read_float t = Ok v <-> document read_float t v.
  Proof. exact (parse_iff read_float). Qed.
  Theorem json_text_refused : forall t, (forall v, ~ document read_float t v) <-> parse read_float t = Err ValueError.
  Proof.
    intros t. split.
    - intros H. destruct (parse read_float t) as [v|e] eqn:E; [exfalso; apply (H v); apply json_text_read; exact E|].
      rewrite (parse_err _ _ _ E) in *. reflexivity.
    - intros E v D. apply json_text_read in D. congruence.
  Qed.
  (** No text stands for two values. *)
  Theorem json_unambiguous : forall t v v', document read_float t v -> document read_float t v' -> v = v'.
  Proof. intros t v v' D D'. apply json_text_read in D, D'. congruence. Qed.

  (** Whatever the layout, what is written follows the grammar, and reads as the tree it was written from, except that with
      ensure_ascii every high surrogate directly before a low one has become a character with it. *)
  Theorem json_text_written : forall o t, proper o -> tree_of code_points (shown show_float read_float) t ->
    document read_float (print show_float o t) (read_back o t).
  Proof. intros o t Po H. apply json_text_read. apply print_parse; assumption. Qed.
  Theorem json_round_trip : forall o t, proper o -> tree_of code_points (shown show_float read_float) t ->
    (parse read_float (print show_float o t) = Ok t <-> (o_ascii o = true -> tree_of unsplit (fun _ => True) t)).
  Proof.
    intros o t Po H. rewrite (print_parse show_float read_float o t Po H). rewrite <- read_back_fixed. split; [congruence|intros ->; reflexivity].
  Qed.
  (** Indentation, separators and ensure_ascii do not matter to what is read. *)
  Theorem json_layout_irrelevant : forall o o' t, proper o -> proper o' -> tree_of code_points (shown show_float read_float) t ->
    tree_of unsplit (fun _ => True) t ->
    parse read_float (print show_float o t) = parse read_float (print show_float o' t).
  Proof.
    intros o o' t P P' H U. transitivity (Ok t : res jt); [|symmetry]; apply json_round_trip; auto.
  Qed.
  (** Different trees have different texts. *)
  Theorem json_text_injective : forall o t t', proper o ->
    tree_of code_points (shown show_float read_float) t -> tree_of code_points (shown show_float read_float) t' ->
    (o_ascii o = true -> tree_of unsplit (fun _ => True) t /\ tree_of unsplit (fun _ => True) t') ->
    print show_float o t = print show_float o t' -> t = t'.
  Proof.
    intros o t t' Po H H' U E. assert (A : parse read_float (print show_float o t) = Ok t) by (apply json_round_trip; auto; intros X; apply U; exact X).
    assert (B : parse read_float (print show_float o t') = Ok t') by (apply json_round_trip; auto; intros X; apply U; exact X). congruence.
  Qed.
  (** With ensure_ascii the text is printable ASCII and white space. *)
  Theorem json_text_ascii : forall o t, o_ascii o = true -> proper o -> tree_of code_points (shown show_float read_float) t ->
    Forall (fun c => 32 <= c <= 126 \/ blank c) (print show_float o t).
  Proof.
    intros o t A Po H. apply ascii_print; [exact A|exact Po|].
    induction H as [|b|z|q Fq|x|s Ps|l _ IH|l Pk _ IH]; constructor; auto. exact (proj1 Fq).
  Qed.
End P.

(** ** The functions of gemd_json.py *)
Lemma lit_small : forall s, Forall (fun c => 0 <= c < 256) (lit s).
Proof.
  induction s as [|a s IH]; cbn; constructor; [|exact IH].
  pose proof (N_ascii_bounded a). split; [apply N2Z.is_nonneg|]. change 256 with (Z.of_N 256). apply N2Z.inj_lt. exact H.
Qed.
Lemma lit_code_points : forall s, code_points (lit s).
Proof. intros s. eapply Forall_impl; [|apply lit_small]. cbn. intros c H. lia. Qed.
Lemma lit_unsplit : forall s, unsplit (lit s).
Proof.
  intros s a u v b E (Hu & _). pose proof (lit_small s) as H. rewrite E in H. apply Forall_app in H. destruct H as (_ & H).
  inversion H; subst. unfold high in Hu. lia.
Qed.
Lemma of_lit : forall s, of_text (lit s) = Some s.
Proof.
  induction s as [|a s IH]; [reflexivity|]. pose proof (lit_small (String a s)) as L. inversion L as [|? ? L1 _]; subst.
  cbn [lit of_text]. cbn [lit] in L1. rewrite (proj2 (Z.leb_le 0 _)), (proj2 (Z.ltb_lt _ 256)) by lia. cbn [andb].
  rewrite IH. cbn. rewrite N2Z.id, ascii_N_embedding. reflexivity.
Qed.
Lemma json_nested : forall P : json -> Prop, P JNull -> (forall a, P (JAtom a)) -> (forall l, (forall x, In x l -> P x) -> P (JArr l)) ->
  (forall l, (forall k x, In (k, x) l -> P x) -> P (JObj l)) -> forall j, P j.
Proof.
  intros P H0 Ha Hl Ho. fix IH 1. intros [|a|l|l]; [exact H0|apply Ha| |].
  - apply Hl. induction l as [|y l IHl]; intros x H; [destruct H|]. destruct H as [<-|H]; [apply IH|exact (IHl x H)].
  - apply Ho. induction l as [|[k' y] l IHl]; intros k x H; [destruct H|]. destruct H as [E|H]; [injection E as _ <-; apply IH|exact (IHl k x H)].
Qed.
Lemma all_some_map : forall {A B} (f : A -> option B) (g : B -> A) l, (forall x, In x l -> f (g x) = Some x) -> all_some (map f (map g l)) = Some l.
Proof. intros A B f g. induction l as [|x l IH]; intros H; [reflexivity|]. cbn. rewrite (H x (or_introl eq_refl)), IH; [reflexivity|]. intros y Hy. apply H. right. exact Hy. Qed.
Lemma of_to_tree : forall j, of_tree (to_tree j) = Some j.
Proof.
  induction j as [|[b|z|q|s]|l IH|l IH] using json_nested; try reflexivity.
  - cbn. rewrite of_lit. reflexivity.
  - cbn. rewrite (all_some_map of_tree to_tree l IH). reflexivity.
  - cbn [to_tree of_tree]. rewrite (all_some_map (fun p => match of_text (fst p), of_tree (snd p) with Some k, Some j => Some (k, j) | _, _ => None end)
      (fun p => (lit (fst p), to_tree (snd p))) l); [reflexivity|]. intros [k x] H. cbn [fst snd]. rewrite of_lit, (IH k x H). reflexivity.
Qed.
Lemma to_tree_strings : forall (P : text -> Prop) F j, (forall s, P (lit s)) -> tree_of (fun _ => True) F (to_tree j) -> tree_of P F (to_tree j).
Proof.
  intros P F j HP. induction j as [|[b|z|q|s]|l IH|l IH] using json_nested; cbn; intros H; try (constructor; auto; fail).
  - constructor. inversion H; subst. assumption.
  - inversion H as [| | | | | |? Hl|]; subst. constructor. intros x Hx. specialize (Hl x Hx). apply in_map_iff in Hx. destruct Hx as (y & <- & Hy). apply IH; assumption.
  - inversion H as [| | | | | | |? _ Hl]; subst. constructor; intros k x Hx; [|specialize (Hl k x Hx)]; apply in_map_iff in Hx; destruct Hx as ([k' y] & E & Hy); inversion E; subst; [apply HP|apply (IH k'); assumption].
Qed.

Section Gemd.
  Variable show_float : Q -> text.
  Variable read_float : text -> Q.
  Variable lower : string -> string.
  Variable known : string -> bool.
  Variable construct : heap -> string -> list (string * pv) -> res (list (string * pv)).
  Definition readable (j : json) : Prop := tree_of (fun _ => True) (shown show_float read_float) (to_tree j).

  (** The text carries the tree: whatever layout dumps is asked for, loads of the text is loads of the tree. *)
  Theorem text_carries_tree : forall o j, proper o -> readable j ->
    exists t, parse read_float (print show_float o (to_tree j)) = Ok t /\ of_tree t = Some j.
  Proof.
    intros o j Po H. exists (to_tree j). split; [|apply of_to_tree]. apply json_round_trip; [exact Po| |].
    - apply to_tree_strings; [apply lit_code_points|exact H].
    - intros _. apply to_tree_strings; [apply lit_unsplit|]. clear Po.
      unfold readable in H. induction H as [|b|z|q Fq|x|s Ps|l _ IH|l Pk _ IH]; constructor; auto.
  Qed.
  Theorem text_loads_dumps : forall o sorted uuid4 h n obj scope h' n' j, proper o ->
    dumps lower known construct sorted uuid4 h n obj scope = Ok (h', n', j) -> readable j ->
    exists t, text_dumps show_float lower known construct sorted uuid4 o h n obj scope = Ok (h', n', t)
      /\ forall g, text_loads read_float lower known construct g t = Some (loads lower known construct g j).
  Proof.
    intros o sorted uuid4 h n obj scope h' n' j Po D R. exists (print show_float o (to_tree j)). split.
    - unfold text_dumps. rewrite D. reflexivity.
    - intros g. destruct (text_carries_tree o j Po R) as (t & A & B). unfold text_loads. rewrite A, B. reflexivity.
  Qed.
  Theorem text_raw_round_trip : forall o h v j, proper o -> raw_dumps h v = Ok j -> readable j ->
    exists t, text_raw_dumps show_float o h v = Ok t
      /\ forall g, text_raw_loads read_float lower known construct g t = Some (raw_loads lower known construct g j).
  Proof.
    intros o h v j Po D R. exists (print show_float o (to_tree j)). split.
    - unfold text_raw_dumps. rewrite D. reflexivity.
    - intros g. destruct (text_carries_tree o j Po R) as (t & A & B). unfold text_raw_loads. rewrite A, B. reflexivity.
  Qed.
End Gemd.

(** ** A case, and what goes wrong *)
(** Floats with integer values. *)
Definition ex_show (q : Q) : text := write_int (Qnum q) ++ lit ".0".
Definition ex_read (t : text) : Q := match parse (fun _ => 0%Q) (removelast (removelast t)) with Ok (TInt z) => inject_Z z | _ => 0%Q end.
Definition ex_tree : jt := TObj [(lit "a", TArr [TInt (-120); TFloat (inject_Z 7); TStr [233; 128512; 34; 10; 55357]; TSpecial NaN]); (lit "b", TObj []); (lit "c", TBool true)].
Definition ex_indent : options := mkO true (Some (lit "  ")) (lit ",") (lit ": ").
Lemma ex_float : shown ex_show ex_read (inject_Z 7).
Proof.
  split; [|vm_compute; reflexivity]. exists [55], 7, [46; 48], []. repeat split; try discriminate.
  - constructor. right. exists 55, []. repeat split; try lia. constructor.
  - right. exists [48]. repeat split; try discriminate. repeat constructor; unfold digit; lia.
  - left. reflexivity.
Qed.
Lemma ex_proper : proper default_options /\ proper ex_indent.
Proof.
  split; (split; [|split]).
  - exists [], [32]. repeat split; repeat constructor.
  - exists [], [32]. repeat split; repeat constructor.
  - discriminate.
  - exists [], []. repeat split; constructor.
  - exists [], [32]. repeat split; repeat constructor.
  - intros i E. inversion E; subst. repeat constructor.
Qed.
Ltac each H := cbn in H; repeat match type of H with _ \/ _ => destruct H as [H | H] | False => destruct H end; try (injection H as <- <-); subst.
Example json_hyps : tree_of code_points (shown ex_show ex_read) ex_tree /\ tree_of unsplit (fun _ => True) ex_tree.
Proof.
  assert (U : forall s, merge s = s -> unsplit s) by exact merge_fixed.
  split.
  - constructor; intros k x H; each H; try (repeat constructor; lia).
    + constructor. intros x H0. each H0; constructor; try exact ex_float; repeat constructor; lia.
    + constructor; intros ? ? [].
  - constructor; intros k x H; each H; try (apply U; vm_compute; reflexivity); try (repeat constructor; fail).
    + constructor. intros x H0. each H0; constructor; try exact I. apply U. vm_compute. reflexivity.
    + constructor; intros ? ? [].
Qed.
Example json_ex :
  print ex_show default_options ex_tree = lit "{""a"": [-120, 7.0, ""\u00e9\ud83d\ude00\""\n\ud83d"", NaN], ""b"": {}, ""c"": true}"
  /\ parse ex_read (print ex_show ex_indent ex_tree) = Ok ex_tree
  /\ parse ex_read (lit "[1, 2,]") = Err ValueError /\ parse ex_read (lit "[01]") = Err ValueError /\ parse ex_read (lit "1 2") = Err ValueError
  /\ parse ex_read (lit " -Infinity ") = Ok (TSpecial NegInfinity).
Proof. repeat split; vm_compute; reflexivity. Qed.
Definition ex_json : json := JObj [("context"%string, JArr [JNull; JAtom (AInt 3)]); ("object"%string, JAtom (AFloat (inject_Z 7)))].
Example readable_ex : readable ex_show ex_read ex_json.
Proof.
  unfold readable. cbn. constructor; intros k x H; each H; try exact I.
  - constructor. intros x H0. each H0; constructor.
  - constructor. exact ex_float.
Qed.

(** A name made of the two halves of a surrogate pair is written and read back without an error as a different, shorter name
    with the default options, but comes back unchanged with ensure_ascii=False. *)
Theorem split_surrogates_refuted : exists s, code_points s /\ length s = 2%nat
  /\ (exists s', parse ex_read (print ex_show default_options (TStr s)) = Ok (TStr s') /\ length s' = 1%nat)
  /\ parse ex_read (print ex_show (mkO false None (lit ", ") (lit ": ")) (TStr s)) = Ok (TStr s).
Proof.
  exists [55357; 56832]. split; [repeat constructor; lia|]. split; [reflexivity|]. split; [|vm_compute; reflexivity].
  exists [128512]. split; vm_compute; reflexivity.
Qed.

Print Assumptions json_text_read.
Print Assumptions json_text_refused.
Print Assumptions json_unambiguous.
Print Assumptions json_text_written.
Print Assumptions json_round_trip.
Print Assumptions json_layout_irrelevant.
Print Assumptions json_text_injective.
Print Assumptions json_text_ascii.
Print Assumptions text_carries_tree.
Print Assumptions text_loads_dumps.
Print Assumptions text_raw_round_trip.
Print Assumptions split_surrogates_refuted.
