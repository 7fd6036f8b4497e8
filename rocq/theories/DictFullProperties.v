(** C55: what every assignment and every constructor of the serialisable value, bounds and attribute classes does. *)
From Coq Require Import String List Bool ZArith QArith Qabs Lia.
From Verif Require Import Base BaseFacts PyStr BoundsModel ValuesModel ValuesSpec TextSpec DictModel DictSpec DictFloat DictProofs DictFullSpec DictRound DictFullProofs DictUnique.
Import ListNotations.
Open Scope string_scope.
Open Scope list_scope.

(** Whatever the object has been through, all its fields can be read, and an assignment to one of them stores and raises
    what the rule of the field says; no other field changes. *)
Theorem assignment_outcome : forall units check c s k v, object units check c s -> In k (fields c) -> real_float v ->
  exists read st,
    (forall j, In j (fields c) -> reads units check c s j (read j)) /\
    does units check (rule_of c k) read v st (snd (setattr units check c k s v)) /\
    forall j, In j (fields c) -> reads units check c (fst (setattr units check c k s v)) j
      (match st with Some w => if String.eqb j k then w else read j | None => read j end).
Proof.
  intros units check c s k v (kw & s0 & ops & F & C & O & ->) K R.
  assert (H : shape units c (history units check c s0 ops)) by (apply history_shape; auto; now apply (call_shape units check c kw s0 F C)).
  set (s := history units check c s0 ops) in *.
  set (read := fun j => match getattr units check c j s with Ok w => w | Err _ => DNone end).
  assert (G : forall j, In j (fields c) -> getattr units check c j s = Ok (read j)).
  { intros j J. destruct (shape_reads units check c s j H J) as [w W]. unfold read. now rewrite W. }
  destruct (assigns units check c s k v read H K R G) as (st & D & A). exists read, st. repeat split; auto.
Qed.
Print Assumptions assignment_outcome.

(** The rules leave no choice: what is raised is determined, and what is stored is determined up to writing the same
    number or the same table differently. *)
Theorem rule_unique : forall units check r read v st e st' e', does units check r read v st e -> does units check r read v st' e' ->
  e = e' /\ match st, st' with Some w, Some w' => same_stored w w' | None, None => True | _, _ => False end.
Proof. intros units check r read v st e st' e' A B. exact (does_fun units check r read v st e st' e' A B). Qed.
Print Assumptions rule_unique.

(** A constructor refuses arguments that do not fit its signature with a TypeError; else it gives the fields, in its
    order, to their rules, and stops at the first one refused. *)
Theorem construction_outcome : forall units check c kw, NoDup (map fst kw) -> Forall (fun p => real_float (snd p)) kw ->
  (~ fits c kw -> call units check c kw = Err TypeError) /\
  (forall args, fits c kw -> arguments c kw args -> exists o, constructs units check c args o /\
     match call units check c kw, o with
     | Ok s, Ok read => forall j, In j (fields c) -> reads units check c s j (read j)
     | Err e, Err e' => e = e'
     | _, _ => False
     end).
Proof. intros units check c kw N F. exact (called units check c kw N F). Qed.
Print Assumptions construction_outcome.
(** Such arguments there always are. *)
Theorem arguments_exist : forall c kw, exists args, arguments c kw args.
Proof.
  intros c kw. exists (fun f => match get f kw with Some v => v | None => default c f end). intros f _. destruct (get f kw) as [v|] eqn:E.
  - left. revert E. induction kw as [|[k w] kw IH]; cbn [get]; [discriminate|]. destruct (String.eqb f k) eqn:K; [apply String.eqb_eq in K; intros [= ->]; subst; now left|intros E; right; auto].
  - right. split; auto. revert E. induction kw as [|[k w] kw IH]; cbn [get map fst In]; [auto|]. destruct (String.eqb f k) eqn:K; [discriminate|]. apply String.eqb_neq in K. intros E [I|I]; [congruence|now apply IH].
Qed.
Print Assumptions arguments_exist.

(** The name, template, origin and value of a property with conditions cannot be assigned. *)
Theorem derived_read_only : forall units check s k v, rule_of PropertyAndConditions k = ReadOnly ->
  setattr units check PropertyAndConditions k s v = (s, Some AttributeError).
Proof.
  intros units check s k v H.
  assert (I : In k ["name"; "template"; "origin"; "value"]).
  { cbn [In]. destruct (string_dec "name" k); auto. destruct (string_dec "template" k); auto. destruct (string_dec "origin" k); auto. destruct (string_dec "value" k); auto.
    exfalso. revert H. unfold rule_of.
    repeat match goal with |- context [match ?x with _ => _ end] => destruct x; try discriminate; try congruence end. }
  cbn in I. repeat (destruct I as [<-|I]; [reflexivity|]). contradiction.
Qed.
Print Assumptions derived_read_only.

(** ** The hypotheses are met *)
Definition some_units (s : string) : res string := if String.eqb s "metre" then Ok "m" else if String.eqb s "m" then Ok "m" else Err UndefinedUnitError.
Definition lenient (t v : dv) : option exn := None.
Definition bounds_args : vars := [("lower_bound", DInt 0); ("upper_bound", DInt (2 ^ 60)); ("default_units", DStr "metre")].
Definition some_bounds : vars := match call some_units lenient RealBounds bounds_args with Ok s => s | Err _ => [] end.
Example bounds_made : call some_units lenient RealBounds bounds_args = Ok some_bounds /\ object some_units lenient RealBounds some_bounds.
Proof.
  split; [vm_compute; reflexivity|]. exists bounds_args, some_bounds, []. split; [repeat constructor|]. split; [vm_compute; reflexivity|]. split; [constructor|reflexivity].
Qed.
(** 2^53 + 1 is between two doubles and goes to the even one. *)
Example odd_rounds : let o := setattr some_units lenient RealBounds "lower_bound" some_bounds (DInt (2 ^ 53 + 1)) in
  snd o = None /\ getattr some_units lenient RealBounds "lower_bound" (fst o) = Ok (DFloat (Fin (inject_Z (2 ^ 53)))) /\
  getattr some_units lenient RealBounds "default_units" (fst o) = Ok (DStr "m").
Proof. vm_compute. auto. Qed.
Example odd_is_stored : exists w, does some_units lenient (AReal (NotAbove "upper_bound")) (fun j => if String.eqb j "upper_bound" then DFloat (Fin (inject_Z (2 ^ 60))) else DNone)
  (DInt (2 ^ 53 + 1)) (Some w) None.
Proof.
  assert (P : rounds_to (2 ^ 53 + 1) (inject_Z (round53 (2 ^ 53 + 1)))) by (apply round53_rounds; vm_compute; reflexivity).
  eexists. eapply real_stored; [right; eexists; eauto| | |right; do 2 eexists; repeat split; try reflexivity; apply P].
  - intros (z & [= <-] & L). apply L. vm_compute. reflexivity.
  - intros (p & [E|(z & E & _)] & L); [|discriminate]. injection E as <-. apply Qlt_not_le in L. apply L. vm_compute. discriminate.
Qed.
Example unit_refused : snd (setattr some_units lenient RealBounds "default_units" some_bounds (DStr "metres")) = Some UndefinedUnitError /\
  snd (setattr some_units lenient RealBounds "upper_bound" some_bounds (DInt (-1))) = Some ValueError.
Proof. vm_compute. auto. Qed.
(** A set of categories with something that is no text is stored before it is refused. *)
Definition some_categories : vars := match call some_units lenient CategoricalBounds [("categories", DList [DStr "a"])] with Ok s => s | Err _ => [] end.
Example stored_and_refused : object some_units lenient CategoricalBounds some_categories /\
  let o := setattr some_units lenient CategoricalBounds "categories" some_categories (DTuple [DStr "b"; DInt 1]) in
  snd o = Some ValueError /\ getattr some_units lenient CategoricalBounds "categories" (fst o) = Ok (DSet [DStr "b"; DInt 1]).
Proof.
  split; [|vm_compute; auto]. exists [("categories", DList [DStr "a"])], some_categories, []. split; [repeat constructor|]. split; [vm_compute; reflexivity|]. split; [constructor|reflexivity].
Qed.
(** The first field in the order of the constructor decides: an unknown unit is found before the bounds that are not in order. *)
Example order_matters :
  call some_units lenient UniformReal [("lower_bound", DInt 2); ("upper_bound", DInt 1); ("units", DStr "?")] = Err UndefinedUnitError /\
  call some_units lenient UniformReal [("lower_bound", DInt 2); ("upper_bound", DInt 1); ("units", DStr "m")] = Err AssertionError /\
  call some_units lenient UniformReal [("lower_bound", DInt 2); ("upper_bound", DStr "1"); ("units", DStr "m")] = Err TypeError.
Proof. vm_compute. auto. Qed.
Example fits_args : fits UniformReal [("lower_bound", DInt 2); ("upper_bound", DInt 1); ("units", DStr "m")] /\ ~ fits RealBounds [("lower_bound", DInt 2)].
Proof.
  split; [split; cbn; intuition congruence|]. intros [_ H]. specialize (H "upper_bound"). cbn in H. intuition congruence.
Qed.
(** An assignment to the nominal of a real value is not checked, though the constructor checks it. *)
Example nominal_unchecked : call some_units lenient NominalReal [("nominal", DStr "x"); ("units", DStr "m")] = Err AssertionError /\
  exists s, call some_units lenient NominalReal [("nominal", DInt 1); ("units", DStr "m")] = Ok s /\
    snd (setattr some_units lenient NominalReal "nominal" s (DStr "x")) = None.
Proof. split; [vm_compute; reflexivity|]. eexists. split; vm_compute; reflexivity. Qed.
