(** Texts whose answers do not depend on what was read before. *)
From Coq Require Import String Ascii List Bool Arith QArith Lia.
From Verif Require Import Base PyStr ScaleModel ScaleSpec ScaleUnmangle ScaleShow ScaleMangle ScaleParse ScaleWhole CacheModel CacheSpec CacheProofs.
Import ListNotations.
Open Scope list_scope.
Open Scope nat_scope.

(** The words of a text. *)
Definition flush (w : text) : list text := match w with [] => [] | _ => [w] end.
Fixpoint words_from (cur s : text) : list text :=
  match s with
  | [] => flush cur
  | c :: r => if is_word c then words_from (cur ++ [c]) r else flush cur ++ words_from [] r
  end.
Definition words (s : text) : list text := words_from [] s.

Lemma words_in : forall w cur s, Forall (fun c => is_word c = true) w -> words_from cur (w ++ s) = words_from (cur ++ w) s.
Proof.
  induction w as [|c w IH]; intros cur s W; cbn [app]; [now rewrite app_nil_r|]. inversion W; subst. cbn [words_from]. rewrite H1, IH by auto. now rewrite <- app_assoc.
Qed.
Lemma words_out : forall b s, Forall (fun c => is_word c = false) b -> words_from [] (b ++ s) = words_from [] s.
Proof. induction b as [|c b IH]; intros s B; cbn [app]; auto. inversion B; subst. cbn [words_from]. rewrite H1. cbn [flush app]. auto. Qed.
Lemma words_two : forall lead b w, identifier lead -> b <> [] -> Forall (fun c => is_word c = false) b -> Forall (fun c => is_word c = true) w -> w <> [] ->
  words (lead ++ b ++ w) = [lead; w].
Proof.
  intros lead b w L N B W Nw. unfold words. rewrite words_in by (now apply identifier_words). cbn [app]. destruct b as [|c b]; [congruence|]. inversion B; subst. cbn [app words_from]. rewrite H1.
  rewrite words_out by auto. rewrite <- (app_nil_r w) at 1. rewrite words_in by auto. cbn [app words_from]. destruct L as (a & r & -> & _). destruct w; [congruence|]. reflexivity.
Qed.

(** Names tell numbers and units apart. *)
Lemma inner_inj : forall l l' f f', good_literal l -> good_literal l' -> identifier f -> identifier f' ->
  inner (Scaled l (Some f)) = inner (Scaled l' (Some f')) -> shown l = shown l' /\ f = f'.
Proof.
  intros l l' f f' G G' F F' H. cbn [inner] in H.
  pose proof (match_marked l (us :: f) G (tail_of_unit f F)) as A. pose proof (match_marked l' (us :: f') G' (tail_of_unit f' F')) as B.
  rewrite H, B in A. cbn [tail_match tail_shown] in A.
  assert (M : marked l' ++ [us] = marked l ++ [us]) by congruence. assert (S : shown l' ++ [blank] = shown l ++ [blank]) by congruence.
  apply app_inj_tail in M as (M & _). apply app_inj_tail in S as (S & _). split; auto. rewrite M in H. apply app_inv_head in H. congruence.
Qed.

Section Texts.
  Context (E : engine).
  (** What pint makes of a number and a unit depends on the number and the unit, not on their spelling. *)
  Definition spelling_free : Prop := exists f : defs E -> text -> text -> res (value E),
    forall d l gap u full, good_literal l -> blanks gap -> identifier u -> ungrouped u -> long_name E d u = Ok full ->
      evaluate E d (spelled l ++ gap ++ u) = f d (shown l) full.

  (** No scaled unit and no internal name, ... *)
  Definition plain_text (s : text) : Prop := scaled_in s = [] /\ forall w, In w (words (scientific s)) -> own_name w = false.
  (** ... or one scaled unit, its number with digits on both sides of the point. *)
  Definition one_factor (d : defs E) (s : text) : Prop :=
    exists lead sp1 sp2 gap u full op l,
      s = (lead ++ sp1 ++ op :: sp2) ++ spelled l ++ gap ++ u
      /\ identifier lead /\ blanks sp1 /\ blanks sp2 /\ blanks gap /\ good_op op
      /\ good_literal l /\ hd_error (signs l) <> Some " "%char /\ python_number l
      /\ identifier u /\ split_off l gap u /\ ungrouped u /\ apart l u
      /\ long_name E d u = Ok full /\ identifier full
      /\ ~ (worth l == 0)%Q /\ ~ (worth l == 1)%Q /\ contains (spelled l ++ gap ++ u) (lead ++ sp1) = false.
  Definition standard (d : defs E) (s : text) : Prop := plain_text s \/ one_factor d s.

  Lemma one_factor_scaled : forall d s, one_factor d s -> exists l gap u full,
    good_literal l /\ blanks gap /\ identifier u /\ ungrouped u /\ long_name E d u = Ok full /\ identifier full
    /\ scaled_in s = [mkScaled (spelled l ++ gap ++ u) (unsigned l) (Some u)]
    /\ internal_name E d (mkScaled (spelled l ++ gap ++ u) (unsigned l) (Some u)) (inner (Scaled l (Some full)))
    /\ (forall x n, preprocessed E d s x -> In n (words x) -> own_name n = true -> n = inner (Scaled l (Some full))).
  Proof.
    intros d s (lead & sp1 & sp2 & gap & u & full & op & l & -> & H1 & H2 & H3 & H4 & H5 & H6 & H7 & H8 & H9 & H10 & H11 & H12 & H13 & H14 & H15 & H16 & H17).
    exists l, gap, u, full. repeat (split; [assumption|]).
    assert (M : internal_name E d (mkScaled (spelled l ++ gap ++ u) (unsigned l) (Some u)) (inner (Scaled l (Some full)))) by (now apply mangled_unit).
    split; [|split; [exact M|]].
    - unfold scaled_in. rewrite scientific_id by (now apply whole_no_power).
      pose proof (scaling_todo lead sp1 sp2 gap u op l H1 H2 H3 H4 H5 H6 H7 H8 H9 H10 H15 H16) as T.
      destruct (find_blocks _) as [bs|e]; [|discriminate]. rewrite T. reflexivity.
    - intros x n X I O. unfold preprocessed in X. rewrite (preprocess_whole lead sp1 sp2 gap u op l) with (full := full) in X by auto. cbn [lookup_name] in X.
      destruct (evaluate E d (spelled l ++ gap ++ u)); [|discriminate]. cbn [snd] in X.
      assert (Ex : x = lead ++ (sp1 ++ op :: sp2) ++ inner (Scaled l (Some full))) by (rewrite <- ?app_assoc in X; cbn [app] in X; rewrite <- ?app_assoc; cbn [app]; congruence).
      rewrite Ex in I. rewrite words_two in I.
      + destruct I as [<-|[I|[]]]; auto. exfalso. destruct H1 as (a0 & r & -> & A & _). cbn in O. apply Ascii.eqb_eq in O. subst a0. discriminate.
      + exact H1.
      + destruct sp1; discriminate.
      + assert (Bw : forall s, blanks s -> Forall (fun c => is_word c = false) s).
        { intros s B. eapply Forall_impl; [|exact B]. intros c C. cbn beta. destruct (is_word c) eqn:Q; auto. apply space_not_word in Q. congruence. }
        apply Forall_app. split; [auto|]. constructor; [destruct H5 as [-> | ->]; reflexivity|auto].
      + cbn [inner]. destruct (mark_words (Scaled l None) (marked l) (conj H6 Logic.I) eq_refl) as (W & _). apply Forall_app. split; [exact W|].
        constructor; [reflexivity|now apply identifier_words].
      + cbn [inner]. unfold marked. discriminate.
  Qed.

  Theorem standard_ok : spelling_free -> texts_ok E words standard.
  Proof.
    intros (f & Hf). constructor.
    - intros d s x n [(Z & W)|O] X I N.
      + exfalso. assert (Ex : x = scientific s).
        { unfold preprocessed, preprocess, scaling in X. unfold scaled_in in Z. destruct (find_blocks _) as [bs|]; [|discriminate]. destruct (identify_factors _ _) as [l|]; [|discriminate]. subst l. cbn in X. congruence. }
        rewrite Ex in I. rewrite (W n I) in N. discriminate.
      + destruct (one_factor_scaled d s O) as (l & gap & u & full & _ & _ & _ & _ & _ & _ & S & M & U). rewrite S. eexists. split; [now left|]. rewrite (U x n X I N). exact M.
    - intros d s s' a b n [(Z & _)|O] [(Z' & _)|O'] A B Na Nb; rewrite ?Z in A; rewrite ?Z' in B; try contradiction.
      destruct (one_factor_scaled d s O) as (l & gap & u & full & G & Bl & U & Ug & L & F & S & M & _).
      destruct (one_factor_scaled d s' O') as (l' & gap' & u' & full' & G' & Bl' & U' & Ug' & L' & F' & S' & M' & _).
      rewrite S in A. rewrite S' in B. destruct A as [<-|[]], B as [<-|[]]. cbn [term]. unfold internal_name in *.
      assert (Q : inner (Scaled l (Some full)) = inner (Scaled l' (Some full'))) by congruence.
      apply inner_inj in Q as (Q1 & Q2); auto. rewrite (Hf d l gap u full), (Hf d l' gap' u' full') by auto. now rewrite Q1, Q2.
  Qed.
End Texts.
