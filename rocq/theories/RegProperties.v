(** C34: the type registry. *)
From Coq Require Import String List Bool Arith Lia.
From Verif Require Import Base BaseFacts RegModel RegSpec RegProofs.
Import ListNotations.
Open Scope string_scope.
Open Scope list_scope.
Open Scope nat_scope.

(** After any history, a type name that some class claims belongs to exactly one class: the one claimant that
    descends from all claimants. A name nobody claims belongs to nobody. *)
Theorem registry_most_derived : forall ops t, let w := run start ops in
  (forall c, holder w t = Some c <-> claims w c t /\ forall a, claims w a t -> descends w c a) /\
  (forall c, claims w c t -> exists c', holder w t = Some c').
Proof.
  intros ops t w. pose proof (inv_reachable ops) as V. fold w in V.
  assert (Le : forall c a, descends w c a -> a <= c).
  { intros c a D. induction D as [c N|c k b a K I D IH]; auto. pose proof (i_bases w V _ _ _ K I). lia. }
  split.
  - intros c. split.
    + intros H. split; [now apply (i_holder w V)|]. intros a Ca. destruct (i_claims w V _ _ Ca) as (c' & H' & D). congruence.
    + intros [C H]. destruct (i_claims w V _ _ C) as (c' & H' & D). rewrite H'. f_equal. apply Nat.le_antisymm.
      * apply Le. apply H. now apply (i_holder w V).
      * now apply Le.
  - intros c C. destruct (i_claims w V _ _ C) as (c' & H & _). eauto.
Qed.

(** A name changes hands only through the definition of a class that claims it, and goes to that class, which
    descends from the class that held it; nothing ever gives up a name. *)
Theorem takeover_from_ancestor : forall ops o t c, let w := run start ops in
  holder w t = Some c -> holder (step w o) t <> Some c ->
  exists e b s c', o = Define e b (Some t) s /\ class_at w c' = None /\ holder (step w o) t = Some c' /\ descends (step w o) c' c.
Proof.
  intros ops o t c w H N. pose proof (inv_reachable ops) as V. fold w in V. pose proof (inv_step w o V) as V'.
  destruct o as [e b ty s| |n k x|n k|n]; try (exfalso; apply N; cbn [step]; unfold holder; rewrite ?dicts_handle by auto; exact H).
  - cbn [step] in *. destruct (snd (define w e b ty s)) as [x|] eqn:E; [rewrite (define_err _ _ _ _ _ _ E) in N; contradiction|].
    destruct (define_inv _ _ _ _ _ V E) as (k & Hc & Eb & Eg & Ek & L & M & F1 & Hh & P & Sk & T).
    set (w' := fst (define w e b ty s)) in *. clearbody w'. destruct ty as [u|].
    + destruct T as (_ & Hd & T). unfold holder in N |- *. rewrite (registry_put w _ (i_dicts w V) w' Hd) in *.
      destruct (string_dec t u) as [->|D]; [|rewrite dict_get_set_other in N by auto; contradiction].
      exists e, b, s, (length (classes w)). split; auto. split; [apply nth_error_None; auto|]. split; [apply dict_get_set_same|].
      apply (descends_new w w' k Hc (i_bases w V)); [rewrite Eb; auto|]. right. rewrite Eb. now apply T.
    + destruct T as [_ Hd]. exfalso. apply N. unfold holder. now rewrite (registry_same w w' Hd).
  - exfalso. apply N. unfold holder, registry, dict_at. cbn [step fst class_mapping dicts]. rewrite app_nth1 by apply V. exact H.
Qed.

(** A definition that raises leaves everything as it was. *)
Theorem rejected_definition_unchanged : forall w e b t s x, snd (define w e b t s) = Some x -> fst (define w e b t s) = w.
Proof. exact define_err. Qed.

(** A definition is rejected if it claims a name that is held by a class it does not descend from, and that is
    the only reason for a ValueError. *)
Theorem stealing_rejected : forall ops e b t s, let w := run start ops in
  (forall c, holder w t = Some c -> (forall x, In x b -> ~ descends w x c) -> snd (define w e b (Some t) s) <> None) /\
  (snd (define w e b (Some t) s) = Some ValueError -> exists c, holder w t = Some c /\ forall x, In x b -> ~ descends w x c).
Proof.
  intros ops e b t s w. pose proof (inv_reachable ops) as V. fold w in V. split.
  - intros c H N E. destruct (define_inv _ _ _ _ _ V E) as (k & Hc & Eb & Eg & Ek & L & M & F1 & Hh & P & Sk & T).
    destruct T as (_ & _ & T). destruct (T _ H) as (x & I & D). exact (N _ I D).
  - unfold define. destruct (negb (forallb (fun x => x <? length (classes w)) b)) eqn:B; [discriminate|]. apply negb_false_iff in B. rewrite forallb_forall in B.
    destruct (merge _ _) as [rest|] eqn:M; [|discriminate].
    destruct (e || _); [|discriminate]. unfold holder.
    destruct (dict_get t (registry w)) as [c|] eqn:G; [|discriminate]. destruct (negb (mem c (length (classes w) :: rest))) eqn:N; [|discriminate].
    intros _. exists c. split; auto. intros x I D. apply negb_true_iff in N.
    assert (X : mem c (length (classes w) :: rest) = true); [|congruence]. apply mem_In. right. apply (merge_elements _ _ _ M).
    apply in_mros; auto; [intros y J; apply Nat.ltb_lt; auto|]. eauto.
Qed.

(** The unserialised fields of a class are those that it or any of its ancestors names. *)
Theorem skip_accumulates : forall ops c k x, let w := run start ops in
  class_at w c = Some k -> (In x (c_skip k) <-> exists a, descends w c a /\ keeps_out w a x).
Proof. intros ops c k x w K. exact (i_skip _ (inv_reachable ops) _ _ x K). Qed.

(** What an instance of a class writes as its type is a name that an ancestor of the class claimed, and it
    belongs to a class that descends from that ancestor; a class that claims a name writes that name. *)
Theorem type_written_is_registered : forall ops c t, let w := run start ops in
  (typ_of_class w c = Some t -> exists a c', descends w c a /\ claims w a t /\ holder w t = Some c' /\ descends w c' a) /\
  (claims w c t -> typ_of_class w c = Some t).
Proof.
  intros ops c t w. pose proof (inv_reachable ops) as V. fold w in V. unfold typ_of_class, mro_of. split.
  - intros H. destruct (typ_in _ _) as [[u|]|] eqn:T; try discriminate. injection H as ->. destruct (typ_in_claimed w _ _ V T) as (a & I & C).
    destruct (i_claims w V _ _ C) as (c' & Hh & D). exists a, c'. split; auto. destruct (class_at w c) as [k|] eqn:K; [|destruct I]. now apply (i_mro w V _ _ a K).
  - intros (k & K & G). rewrite K. destruct (i_first w V _ _ K) as (r & ->). cbn [typ_in]. rewrite K. apply (i_typ w V _ _ t K) in G. now rewrite G.
Qed.

(** The mapping that is returned holds what the registry holds then. *)
Theorem mapping_is_registry : forall ops, let w := run start ops in
  dict_at (fst (class_mapping w)) (snd (class_mapping w)) = registry w.
Proof. intros ops w. unfold dict_at, class_mapping. cbn [fst snd dicts]. rewrite app_nth2 by auto. now rewrite Nat.sub_diag. Qed.

(** Whatever the program does to the mappings it is given, the registry, and so every later definition, is the
    same as if it had left them alone. *)
Theorem mapping_is_copy : forall ops, let w := run start ops in let w' := run start (filter leaves_mappings ops) in
  registry w = registry w' /\ classes w = classes w'.
Proof.
  intros ops w w'. destruct (run_alike ops start start inv_start inv_start) as (A & B & _); [unfold alike; auto|]. auto.
Qed.

(** DictSerializable; a mixin; a class "m" with a skipped field; a subclass taking "m"; a stranger refused; a mapping
    cleared; a subclass of the first taking "n", and one of the first and a mixin refused "m". *)
Definition ex_reg : list op :=
  [ Define true [] None []; Define false [] None []; Define false [0; 1] (Some "m") ["_x"]; Define false [2] (Some "m") ["_y"];
    Define false [0] (Some "m") []; Ask; Clear 0; Store 0 "n" 1; Define false [2; 1] (Some "n") []; Define false [2] (Some "m") [];
    Define false [3] None ["_z"]; Define false [1; 0; 2] None [] ].
Example registry_ex :
  registry (run start ex_reg) = [("m", 3); ("n", 4)] /\ length (classes (run start ex_reg)) = 6 /\
  snd (define (run start ex_reg) false [0] (Some "m") []) = Some ValueError /\
  snd (define (run start ex_reg) false [0; 2] None []) = Some TypeError /\
  typ_of_class (run start ex_reg) 5 = Some "m" /\ typ_of_class (run start ex_reg) 4 = Some "n" /\
  option_map c_skip (class_at (run start ex_reg) 5) = Some ["_x"; "_y"; "_z"] /\
  dict_at (run start ex_reg) 1 = [("n", 1)] /\
  claims (run start ex_reg) 2 "m" /\ claims (run start ex_reg) 3 "m".
Proof. repeat split; try (vm_compute; reflexivity); (eexists; split; [vm_compute; reflexivity|reflexivity]). Qed.

Print Assumptions registry_most_derived.
Print Assumptions takeover_from_ancestor.
Print Assumptions rejected_definition_unchanged.
Print Assumptions stealing_rejected.
Print Assumptions skip_accumulates.
Print Assumptions type_written_is_registered.
Print Assumptions mapping_is_registry.
Print Assumptions mapping_is_copy.
