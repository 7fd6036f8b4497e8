(** The blocks the model makes of tokens are the factors of the specification. *)
From Coq Require Import String Ascii List Bool Arith ZArith Lia.
From Verif Require Import Base PyStr ScaleModel ScaleSpec ScaleUnmangle ScaleShow ScaleMangle ScaleParse LexSpec.
Import ListNotations.
Open Scope list_scope.
Open Scope nat_scope.

Lemma tmem_iff : forall x l, tmem x l = true <-> In x l.
Proof.
  intros x l. unfold tmem. rewrite existsb_exists. split.
  - intros (y & Y & E). apply teqb_eq in E. now subst.
  - intros H. exists x. split; auto. apply teqb_refl.
Qed.
Definition pop1 (st : list text) : list text := match st with x :: r => if is_power x then r else st | [] => [] end.
Definition pushed (s : text) (st : list text) : list text :=
  if teqb s (t "(") then t "(" :: st else if teqb s (t ")") then pop_to_open st else if is_power s then s :: s :: st else st.
Definition ctx (st : list text) : bool := existsb is_power st.

Lemma step_op : forall k fin cur st, tkind k = OP -> tmem (tstring k) allowed = true ->
  find_step (mkB fin cur st) k = Ok (if ctx st || keeps_block (tstring k) then mkB fin (cur ++ [k]) (pop1 (pushed (tstring k) st)) else mkB (fin ++ [cur]) [] (pop1 (pushed (tstring k) st))).
Proof.
  intros k fin cur st K A. unfold find_step. cbn [stack]. rewrite K. unfold handle_operator. rewrite A. cbn [negb]. fold (ctx st).
  destruct (ctx st || keeps_block (tstring k)); unfold with_stack, put, cut, pushed, pop1; cbn [finished current stack];
    match goal with |- Ok (match ?a with _ => _ end) = _ => destruct a as [|x r]; auto; destruct (is_power x); auto end.
Qed.
Lemma step_bad : forall k fin cur st, tkind k = OP -> tmem (tstring k) allowed = false -> find_step (mkB fin cur st) k = Err UndefinedUnitError.
Proof. intros k fin cur st K A. unfold find_step. cbn [stack]. rewrite K. unfold handle_operator. rewrite A. reflexivity. Qed.
Lemma step_word : forall k fin cur st, tkind k <> OP -> (tkind k = NAME -> ctx st || negb (last_is_name cur) = true) ->
  find_step (mkB fin cur st) k = Ok (mkB fin (cur ++ [k]) (pop1 st)).
Proof.
  intros k fin cur st K N. unfold find_step. cbn [stack]. fold (ctx st). destruct (tkind k) eqn:E; try congruence; unfold handle_name; cbn [current]; rewrite ?N by auto;
    unfold put, pop1; cbn [finished current stack]; destruct st as [|x r]; auto; destruct (is_power x); auto.
Qed.
Lemma step_next : forall k fin cur st, tkind k = NAME -> ctx st = false -> last_is_name cur = true ->
  find_step (mkB fin cur st) k = Ok (mkB (fin ++ [cur]) [k] (pop1 st)).
Proof.
  intros k fin cur st K N L. unfold find_step. cbn [stack]. fold (ctx st). rewrite K. unfold handle_name. cbn [current]. rewrite N, L. cbn [orb negb].
  unfold cut, pop1; cbn [finished current stack]; destruct st as [|x r]; auto; destruct (is_power x); auto.
Qed.

(** ** Which token lists are refused *)
Lemma allowed_iff : forall k, tkind k = OP -> (allowed_op k <-> tmem (tstring k) allowed = true).
Proof. intros k K. unfold allowed_op, an_op. rewrite tmem_iff. unfold allowed. tauto. Qed.
Lemma step_ok : forall k b, (tkind k = OP -> allowed_op k) -> exists b', find_step b k = Ok b'.
Proof.
  intros k [fin cur st] A. destruct (tkind k) eqn:K.
  - destruct (ctx st || negb (last_is_name cur)) eqn:C; [eexists; apply step_word; congruence|].
    apply orb_false_iff in C as [C L]. apply negb_false_iff in L. eexists. now apply step_next.
  - eexists. apply step_word; congruence.
  - eexists. apply step_op; auto. now apply allowed_iff; auto.
  - eexists. apply step_word; congruence.
Qed.
Lemma loop_app : forall a c b, find_loop (a ++ c) b = match find_loop a b with Ok b' => find_loop c b' | Err e => Err e end.
Proof. induction a as [|k a IH]; intros c b; cbn [app find_loop]; auto. destruct (find_step b k); auto. Qed.
Lemma blocks_ok : forall l b, (forall k, In k l -> tkind k = OP -> allowed_op k) -> exists b', find_loop l b = Ok b'.
Proof.
  induction l as [|k l IH]; intros b A; cbn [find_loop]; [eauto|]. destruct (step_ok k b) as (b' & ->); [intros; apply A; auto; now left|].
  apply IH. intros x X. apply A. now right.
Qed.
Lemma blocks_refused : forall l b k, In k l -> tkind k = OP -> ~ allowed_op k -> find_loop l b = Err UndefinedUnitError.
Proof.
  induction l as [|x l IH]; intros b k I K A; [destruct I|]. cbn [find_loop]. destruct (find_step b x) as [b'|e] eqn:St.
  - destruct I as [->|I]; [|eauto]. destruct b as [fin cur st]. rewrite step_bad in St; auto; [discriminate|]. destruct (tmem (tstring k) allowed) eqn:M; auto. exfalso. now apply A, allowed_iff.
  - destruct b as [fin cur st]. destruct (tkind x) eqn:X.
    + destruct (step_ok x (mkB fin cur st)) as (b' & E); [congruence|]. congruence.
    + destruct (step_ok x (mkB fin cur st)) as (b' & E); [congruence|]. congruence.
    + destruct (tmem (tstring x) allowed) eqn:M.
      * destruct (step_ok x (mkB fin cur st)) as (b' & E); [intros _; now apply allowed_iff|]. congruence.
      * rewrite step_bad in St by auto. congruence.
    + destruct (step_ok x (mkB fin cur st)) as (b' & E); [congruence|]. congruence.
Qed.

(** ** Inside an exponent *)
Definition powers (x : list text) : Prop := Forall (fun s => is_power s = true) x.
Lemma pop_powers : forall x b, powers x -> exists x', powers x' /\ pop1 (x ++ t "(" :: b) = x' ++ t "(" :: b.
Proof. intros x b P. destruct P as [|y x Y P]; [exists []; split; [constructor|reflexivity]|]. exists x. split; auto. cbn [app pop1]. now rewrite Y. Qed.
Lemma open_powers : forall x b, powers x -> pop_to_open (x ++ t "(" :: b) = b.
Proof.
  intros x b P. induction P as [|y x Y P IH]; [reflexivity|]. cbn [app pop_to_open]. destruct (teqb y (t "(")) eqn:E; auto. apply teqb_eq in E. subst y. discriminate.
Qed.
Lemma ctx_base : forall x b, ctx b = true -> ctx (x ++ t "(" :: b) = true.
Proof. intros x b C. unfold ctx in *. rewrite existsb_app. cbn [existsb]. rewrite C. now rewrite !orb_true_r. Qed.
Lemma one_op : forall k l, an_op l k -> tkind k = OP /\ In (tstring k) (map t l). Proof. intros k l H. exact H. Qed.
Lemma teqb_false : forall x y, x <> y -> teqb x y = false.
Proof. intros x y H. destruct (teqb x y) eqn:E; auto. now apply teqb_eq in E. Qed.
Lemma opening_string : forall o, opening o -> tkind o = OP /\ tstring o = t "(".
Proof. intros o [K [E|[]]]. auto. Qed.
Lemma closing_string : forall o, closing o -> tkind o = OP /\ tstring o = t ")".
Proof. intros o [K [E|[]]]. auto. Qed.

Lemma inside_group : forall a, balanced a -> forall rest fin cur x base, powers x -> ctx base = true ->
  exists x', powers x' /\ find_loop (a ++ rest) (mkB fin cur (x ++ t "(" :: base)) = find_loop rest (mkB fin (cur ++ a) (x' ++ t "(" :: base)).
Proof.
  intros a B. induction B as [|k l H NO NC B IH|o a c b O C B1 IH1 B2 IH2]; intros rest fin cur x base P CB.
  - exists x. split; auto. cbn [app]. now rewrite app_nil_r.
  - assert (St : exists x1, powers x1 /\ find_step (mkB fin cur (x ++ t "(" :: base)) k = Ok (mkB fin (cur ++ [k]) (x1 ++ t "(" :: base))).
    { assert (D : tkind k = OP \/ tkind k <> OP) by (destruct (tkind k); auto; right; discriminate). destruct D as [K|K].
      - assert (A : allowed_op k) by (destruct H as [[H _]|H]; [contradiction|auto]). rewrite step_op by (auto; now apply allowed_iff). rewrite ctx_base by auto. cbn [orb].
        unfold pushed. rewrite (teqb_false (tstring k) (t "(")) by (intros E; apply NO; split; auto; left; auto). rewrite (teqb_false (tstring k) (t ")")) by (intros E; apply NC; split; auto; left; auto).
        destruct (is_power (tstring k)) eqn:Pw.
        + exists (tstring k :: x). split; [constructor; auto|]. cbn [pop1]. now rewrite Pw.
        + destruct (pop_powers x base P) as (x1 & P1 & ->). eauto.
      - rewrite step_word by (auto; intros _; now rewrite ctx_base). destruct (pop_powers x base P) as (x1 & P1 & ->). eauto. }
    destruct St as (x1 & P1 & St). cbn [app find_loop]. rewrite St. destruct (IH rest fin (cur ++ [k]) x1 base P1 CB) as (x' & P' & E). exists x'. split; auto. now rewrite E, <- app_assoc.
  - destruct (opening_string o O) as [KO SO]. destruct (closing_string c C) as [KC SC].
    cbn [app find_loop]. rewrite step_op by (auto; rewrite SO; reflexivity). rewrite ctx_base by auto. cbn [orb]. rewrite SO. change (pop1 (pushed (t "(") ?s)) with (t "(" :: s).
    rewrite <- app_assoc. cbn [app].
    destruct (IH1 (c :: b ++ rest) fin (cur ++ [o]) [] (x ++ t "(" :: base) (Forall_nil _) (ctx_base x base CB)) as (x1 & P1 & E). cbn [app] in E. rewrite E.
    cbn [find_loop]. rewrite step_op by (auto; rewrite SC; reflexivity). rewrite (ctx_base x1) by (now apply ctx_base). cbn [orb]. rewrite SC. change (pushed (t ")") ?s) with (pop_to_open s). rewrite open_powers by auto.
    destruct (pop_powers x base P) as (x2 & P2 & E2). rewrite E2. destruct (IH2 rest fin ((cur ++ [o]) ++ a ++ [c]) x2 base P2 CB) as (x' & P' & E'). exists x'. split; auto.
    rewrite <- app_assoc in E'. rewrite <- !app_assoc in *. cbn [app] in *. rewrite E'. rewrite <- ?app_assoc. reflexivity.
Qed.

(** ** At the outside *)
Definition opens (st : list text) : Prop := Forall (fun s => s = t "(") st.
Lemma opens_ctx : forall st, opens st -> ctx st = false.
Proof. intros st O. induction O as [|s st -> O IH]; auto. Qed.
Lemma opens_pop : forall st, opens st -> pop1 st = st.
Proof. intros st O. destruct O as [|s st -> O]; auto. Qed.
Lemma opens_close : forall st, opens st -> opens (pop_to_open st).
Proof. intros st O. destruct O as [|s st -> O]; [constructor|exact O]. Qed.

Lemma power_step : forall p e rest fin cur st, power p -> exponent_of e -> opens st ->
  find_loop ((p :: e) ++ rest) (mkB fin cur st) = find_loop rest (mkB fin (cur ++ p :: e) st).
Proof.
  intros p e rest fin cur st (K & P) X O. cbn [app find_loop].
  assert (PS : is_power (tstring p) = true) by (destruct P as [<-|[<-|[]]]; reflexivity).
  assert (St : find_step (mkB fin cur st) p = Ok (mkB fin (cur ++ [p]) (tstring p :: st))).
  { rewrite step_op; auto; [|destruct P as [<-|[<-|[]]]; reflexivity]. rewrite opens_ctx by auto.
    assert (KB : keeps_block (tstring p) = true) by (destruct P as [<-|[<-|[]]]; reflexivity). rewrite KB. cbn [orb].
    unfold pushed. rewrite PS. rewrite (teqb_false _ (t "(")) by (intros E; rewrite E in PS; discriminate). rewrite (teqb_false _ (t ")")) by (intros E; rewrite E in PS; discriminate).
    cbn [pop1]. now rewrite PS. }
  rewrite St. assert (C : ctx (tstring p :: st) = true) by (unfold ctx; cbn [existsb]; now rewrite PS). destruct X as [k H|o a c Ho Hc B].
  - cbn [app find_loop]. replace (cur ++ [p; k]) with ((cur ++ [p]) ++ [k]) by (rewrite <- app_assoc; reflexivity).
    assert (D : tkind k = OP \/ tkind k <> OP) by (destruct (tkind k); auto; right; discriminate). destruct D as [KO|KO].
    + assert (S1 : In (tstring k) (map t ["."; "-"; "+"; "*"; "/"; "//"]%string)).
      { destruct H as [[[H _]|(_ & H)]|(_ & H)]; [contradiction| |]; cbn [map In] in *; tauto. }
      rewrite step_op; auto; [|cbn [map In] in S1; repeat destruct S1 as [<-|S1]; try reflexivity; destruct S1]. rewrite C. cbn [orb].
      assert (E : pushed (tstring k) (tstring p :: st) = tstring p :: st) by (cbn [map In] in S1; repeat destruct S1 as [<-|S1]; try reflexivity; destruct S1).
      rewrite E. cbn [pop1]. now rewrite PS.
    + rewrite step_word by (auto; intros _; now rewrite C). cbn [pop1]. now rewrite PS.
  - destruct (opening_string o Ho) as [KO SO]. destruct (closing_string c Hc) as [KC SC]. cbn [app find_loop]. rewrite step_op by (auto; rewrite SO; reflexivity). rewrite C. cbn [orb]. rewrite SO.
    change (pop1 (pushed (t "(") ?s)) with (t "(" :: s). rewrite <- app_assoc. cbn [app].
    destruct (inside_group a B (c :: rest) fin ((cur ++ [p]) ++ [o]) [] (tstring p :: st) (Forall_nil _) C) as (x & Px & E). cbn [app] in E. rewrite E.
    cbn [find_loop]. rewrite step_op by (auto; rewrite SC; reflexivity). rewrite ctx_base by auto. cbn [orb]. rewrite SC. change (pushed (t ")") ?s) with (pop_to_open s). rewrite open_powers by auto.
    cbn [pop1]. rewrite PS. rewrite <- !app_assoc. reflexivity.
Qed.

Lemma last_name_iff : forall l, last_is_name l = true <-> ends_with_name l.
Proof.
  intros l. unfold last_is_name, ends_with_name. split.
  - intros H. destruct (rev l) as [|k r] eqn:E; [discriminate|]. exists (rev r), k. split; [rewrite <- (rev_involutive l), E; reflexivity|]. destruct (tkind k); auto; discriminate.
  - intros (x & k & -> & K). rewrite rev_app_distr. cbn. now rewrite K.
Qed.
Lemma tokens_app : forall a b, tokens_of (a ++ b) = tokens_of a ++ tokens_of b.
Proof. intros a b. unfold tokens_of. now rewrite map_app, concat_app. Qed.
Lemma tokens_cons : forall i b, tokens_of (i :: b) = flat i ++ tokens_of b. Proof. reflexivity. Qed.

Lemma plain_step : forall k fin cur st, plain k -> opens st -> (tkind k = NAME -> ~ ends_with_name cur) ->
  find_step (mkB fin cur st) k = Ok (mkB fin (cur ++ [k]) st).
Proof.
  intros k fin cur st [[K _]|(K & H)] O N.
  - rewrite step_word; auto; [now rewrite opens_pop|]. intros E. rewrite opens_ctx by auto. cbn [orb]. apply negb_true_iff. destruct (last_is_name cur) eqn:L; auto. exfalso. apply (N E). now apply last_name_iff.
  - cbn [map In] in H. rewrite step_op; auto; [|repeat destruct H as [<-|H]; try reflexivity; destruct H].
    assert (E : keeps_block (tstring k) = true) by (repeat destruct H as [<-|H]; try reflexivity; destruct H). rewrite E, orb_true_r.
    assert (E2 : pushed (tstring k) st = st) by (repeat destruct H as [<-|H]; try reflexivity; destruct H). rewrite E2, opens_pop by auto. reflexivity.
Qed.
Lemma factor_loop : forall y x rest fin st, Forall good_piece y -> factor (x ++ y) -> opens st ->
  find_loop (tokens_of y ++ rest) (mkB fin (tokens_of x) st) = find_loop rest (mkB fin (tokens_of (x ++ y)) st).
Proof.
  induction y as [|i y IH]; intros x rest fin st G F O; [now rewrite app_nil_r|]. inversion G as [|? ? Gi Gy]; subst.
  rewrite tokens_cons, <- app_assoc. assert (Ex : x ++ i :: y = (x ++ [i]) ++ y) by (rewrite <- app_assoc; reflexivity).
  assert (St : find_loop (flat i ++ tokens_of y ++ rest) (mkB fin (tokens_of x) st) = find_loop (tokens_of y ++ rest) (mkB fin (tokens_of (x ++ [i])) st)).
  { destruct i as [k|k|p e]; cbn [flat good_piece] in *.
    - exfalso. destruct F as [F _]. apply (F k). apply in_or_app. right. now left.
    - cbn [app find_loop]. rewrite plain_step; auto.
      + now rewrite tokens_app.
      + destruct F as [_ F]. eapply F. reflexivity.
    - destruct Gi as [P X]. rewrite power_step by auto. rewrite tokens_app. change (tokens_of [Power p e]) with ((p :: e) ++ []). now rewrite app_nil_r. }
  rewrite St, Ex. apply IH; auto. now rewrite <- Ex.
Qed.

Lemma separator_step : forall k fin cur st, separator k -> opens st -> exists st', opens st' /\ find_step (mkB fin cur st) k = Ok (mkB (fin ++ [cur]) [] st').
Proof.
  intros k fin cur st (K & H) O. exists (pushed (tstring k) st). rewrite step_op; auto; [|cbn [map In] in H; repeat destruct H as [<-|H]; try reflexivity; destruct H].
  rewrite opens_ctx by auto. assert (E : keeps_block (tstring k) = false) by (cbn [map In] in H; repeat destruct H as [<-|H]; try reflexivity; destruct H). rewrite E. cbn [orb].
  assert (Op : opens (pushed (tstring k) st)).
  { cbn [map In] in H. repeat destruct H as [<-|H]; try exact O; try destruct H; [constructor; auto|]. change (pushed (t ")") st) with (pop_to_open st). now apply opens_close. }
  split; auto. now rewrite opens_pop.
Qed.

Theorem blocks_of_product : forall ps fs, product ps fs -> Forall good_piece ps -> find_blocks (tokens_of ps) = Ok (map tokens_of fs).
Proof.
  intros ps fs H G. assert (X : forall fin st, opens st -> exists b, find_loop (tokens_of ps) (mkB fin [] st) = Ok b /\ finished b ++ [current b] = fin ++ map tokens_of fs).
  { revert G. induction H as [f F|f k r fs F H IH|f k r fs F E K H IH]; intros G fin st O.
    - exists (mkB fin (tokens_of f) st). split; auto. rewrite <- (app_nil_r (tokens_of f)) at 1. change (@nil token) with (tokens_of []) at 2. now rewrite factor_loop.
    - apply Forall_app in G as [Gf G]. inversion G as [|? ? Gk Gr]; subst. rewrite tokens_app. change (@nil token) with (tokens_of []). rewrite factor_loop by auto. cbn [app]. rewrite tokens_cons. cbn [flat app find_loop].
      destruct (separator_step k fin (tokens_of f) st Gk O) as (st' & O' & ->). destruct (IH Gr (fin ++ [tokens_of f]) st' O') as (b & -> & Eb). exists b. split; auto. rewrite Eb, <- app_assoc. reflexivity.
    - apply Forall_app in G as [Gf G]. rewrite tokens_app. change (@nil token) with (tokens_of []). rewrite factor_loop by auto. cbn [app]. rewrite tokens_cons. cbn [flat app find_loop].
      rewrite step_next; auto; [|now apply opens_ctx|now apply last_name_iff]. rewrite opens_pop by auto.
      destruct (IH G (fin ++ [tokens_of f]) st O) as (b & L & Eb). exists b. split; [|rewrite Eb, <- app_assoc; reflexivity].
      rewrite tokens_cons in L. cbn [flat app find_loop] in L. inversion G; subst. rewrite plain_step in L; auto. intros _ (x & k' & Z & _). destruct x; discriminate. }
  destruct (X [] [] (Forall_nil _)) as (b & Eb & Fb). unfold find_blocks. rewrite Eb. cbn [app] in Fb. now rewrite Fb.
Qed.

(** Every expression is a product. *)
Lemma flat_last : forall i, ends_with_name (flat i) \/ ~ ends_with_name (flat i).
Proof. intros i. destruct (last_is_name (flat i)) eqn:E; [left; now apply last_name_iff|right; intros H; apply last_name_iff in H; congruence]. Qed.
Lemma ends_app : forall x y, y <> [] -> (ends_with_name (x ++ y) <-> ends_with_name y).
Proof.
  intros x y N. rewrite <- !last_name_iff. unfold last_is_name. rewrite rev_app_distr. destruct (rev y) as [|k r] eqn:E; [|reflexivity].
  exfalso. apply N. rewrite <- (rev_involutive y), E. reflexivity.
Qed.
Lemma flat_some : forall i, flat i <> []. Proof. intros []; discriminate. Qed.
Lemma tokens_some : forall i x, tokens_of (i :: x) <> [].
Proof. intros i x E. rewrite tokens_cons in E. apply app_eq_nil in E as [E _]. now apply flat_some in E. Qed.
Theorem product_exists : forall ps, exists fs, product ps fs.
Proof.
  assert (Z : ~ ends_with_name []) by (intros (x & k & E & _); destruct x; discriminate).
  induction ps as [|i ps (fs & IH)].
  - exists [[]]. constructor. split; [intros k []|]. intros x k y E. destruct x; discriminate.
  - assert (Nil : factor []) by (split; [intros k []|]; intros x k y E; destruct x; discriminate).
    assert (One : forall j, (forall k, j <> Sep k) -> factor [j]).
    { intros j J. split; [intros k [E|[]]; now apply (J k)|]. intros x k y E _. destruct x as [|x [|]]; [exact Z|discriminate|discriminate]. }
    destruct i as [k|k|p e]; [exists ([] :: fs); exact (pr_sep [] k ps fs Nil IH)| |].
    all: match goal with |- exists _, product (?j :: _) _ => set (i := j) in * end; assert (Ni : forall k, i <> Sep k) by (intros ? E; discriminate).
    all: destruct (flat_last i) as [L|L].
    all: assert (Keep : (forall k ps', ps = Plain k :: ps' -> tkind k = NAME -> ~ ends_with_name (flat i)) -> exists fs, product (i :: ps) fs).
    1,3,5,7: intros H; assert (Fac : forall f g, ps = f ++ g -> factor f -> factor (i :: f));
      [ intros f g E (F1 & F2); split;
        [ intros k' [E'|E']; [now apply (Ni k')|now apply (F1 k')]
        | intros x k' y Ex Nk En; destruct x as [|i' x]; [exact (Z En)|]; injection Ex as <- Ex; rewrite tokens_cons in En;
          destruct x as [|i2 x]; [cbn [app] in Ex; subst f; unfold tokens_of in En; cbn [map concat] in En; rewrite app_nil_r in En; exact (H k' (y ++ g) E Nk En)|];
          apply (proj1 (ends_app _ _ (tokens_some i2 x))) in En; exact (F2 _ _ _ Ex Nk En) ]
      | destruct IH as [f F|f k' r fs F P|f k' r fs F En Nk P];
        [ exists [i :: f]; constructor; apply (Fac f []); [now rewrite app_nil_r|auto]
        | exists ((i :: f) :: fs); apply (pr_sep (i :: f)); [now apply (Fac f (Sep k' :: r))|auto]
        | exists ((i :: f) :: fs); apply (pr_names (i :: f)); auto; [now apply (Fac f (Plain k' :: r))|];
          rewrite tokens_cons; destruct f as [|i2 f]; [exfalso; exact (Z En)|]; apply (proj2 (ends_app _ _ (tokens_some i2 f))); exact En ] ].
    all: try (apply Keep; intros; assumption).
    all: destruct ps as [|[k'|k'|p' e'] ps']; try (apply Keep; discriminate).
    all: destruct (tkind k') eqn:Nk; try (apply Keep; intros k2 ps2 E2; injection E2 as <- <-; congruence).
    all: exists ([i] :: fs); apply (pr_names [i]); auto; unfold tokens_of; cbn [map concat]; now rewrite app_nil_r.
Qed.
