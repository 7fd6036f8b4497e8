(** C64: the tables of the Strehlow & Cook demo. *)
From Coq Require Import String Ascii List Bool Arith ZArith QArith Lia.
From Verif Require Import Base BaseFacts PyStr SacModel SacSpec SacProofs.
Import ListNotations.
Open Scope string_scope.
Open Scope list_scope.
Open Scope nat_scope.

(** minimal_subset keeps, in their order, the first row of each sequence of classes, and no fewer rows would do. *)
Theorem minimal_subset_rows : forall (A : Type) (name : A -> string), (forall x, ~ has_char "'" (name x)) ->
  forall table, let out := minimal_subset (fun x => class_text (name x)) table in
    subsequence out table
    /\ (forall row, In row table -> exists row', In row' out /\ map name row' = map name row)
    /\ NoDup (map (map name) out)
    /\ (forall a row b, table = a ++ row :: b -> (forall r, In r a -> map name r <> map name row) -> In row out)
    /\ (forall other, (forall row, In row table -> exists row', In row' other /\ map name row' = map name row) -> length out <= length other).
Proof. intros A name Q table. apply (minimal_subset_all name Q). Qed.
(** Of records, which are dictionaries, only the keys are looked at, and these are all texts: of records with equally many
    keys only the first is kept, whatever they hold. *)
Theorem minimal_subset_records_refuted : forall (r : list string) rest, (forall r', In r' rest -> length r' = length r) ->
  minimal_subset (fun _ => class_text "str") (r :: rest) = [r].
Proof.
  intros r rest H. unfold minimal_subset. cbn [subset_from existsb].
  set (fp := fingerprint (fun _ : string => class_text "str")).
  assert (E : forall a b : list string, length a = length b -> fp a = fp b).
  { induction a as [|x a IH]; intros [|y b] L; try discriminate; [reflexivity|]. injection L as L. unfold fp, fingerprint in *. cbn [map fold_right]. rewrite (IH b L). reflexivity. }
  cbv zeta. f_equal. fold fp.
  induction rest as [|r' rest IH]; [reflexivity|]. cbn [subset_from existsb]. cbv zeta. fold fp.
  rewrite (E r' r) by (apply H; left; reflexivity). rewrite String.eqb_refl. cbn [orb]. apply IH. intros r2 I. apply H. right; exact I.
Qed.

(** make_display_table succeeds exactly if every column has a heading, every row reaches to the first column with "Band gap" in its
    heading, which has real bounds, and every value can be shown; then it shows the rows in order, each value in the place of its
    heading, and the deviation of the band gap right behind it. *)
Theorem display_table_exact : forall t out, make_display_table t = Ok out <->
  exists A col B u HA hc sd HB rows, s_headers t = A ++ col :: B /\ h_bounds col = Some (RealB u)
    /\ Forall2 heading A HA /\ heading col hc /\ Forall2 heading B HB
    /\ mentions_band_gap hc /\ Forall (fun s => ~ mentions_band_gap s) HA
    /\ joined (h_name col ++ [("Std Deviation(" ++ u ++ ")")%string]) sd
    /\ Forall2 (row_shown (length A)) (s_content t) rows
    /\ out = map ShText (HA ++ hc :: sd :: HB) :: rows.
Proof. exact display_all. Qed.
(** A table with no band gap is refused with an AssertionError, and nothing else is. *)
Theorem display_no_band_gap : forall t, make_display_table t = Err AssertionError <->
  exists hs, Forall2 heading (s_headers t) hs /\ Forall (fun s => ~ mentions_band_gap s) hs.
Proof.
  intros t. unfold make_display_table. split.
  - destruct (each header_text (s_headers t)) as [hs|e] eqn:E; cbn [bind].
    + intros H. exists hs. split; [apply (each_iff _ _ _ _ heading_iff); exact E|]. apply not_mentions.
      destruct (first_index (occurs "Band gap") hs) as [i|] eqn:I; cbn [item bind] in H.
      * exfalso. destruct (nth_error (s_headers t) i) as [col|]; cbn [item bind] in H; [|discriminate].
        destruct (h_bounds col) as [[]|]; cbn [default_units bind] in H; try discriminate.
        assert (X : forall l, each (display_row i) l <> Err AssertionError).
        { induction l as [|row l IH]; cbn; [discriminate|]. unfold display_row at 1.
          destruct (each content row) as [xs|e] eqn:C; cbn [bind].
          - destruct (nth_error row i) as [c|]; cbn [item bind]; [|discriminate]. destruct c; cbn [uncert bind]; try discriminate; destruct (each _ l) as [|e']; cbn [bind]; try discriminate; intros K; injection K as ->; apply IH; reflexivity.
          - intros K. injection K as ->. clear -C. induction row as [|c row IHr]; [discriminate|]. cbn in C. destruct c; cbn [content bind] in C; try discriminate; destruct (each content row) as [|e]; cbn [bind] in C; try discriminate; injection C as ->; apply IHr; reflexivity. }
        destruct (each (display_row i) (s_content t)) as [|e] eqn:R; cbn [bind] in H; [discriminate|]. injection H as ->. exact (X _ R).
      * clear -I. induction hs as [|h hs IH]; [constructor|]. cbn [first_index] in I. destruct (occurs "Band gap" h) eqn:O; [discriminate|].
        constructor; [exact O|]. apply IH. destruct (first_index _ hs); [discriminate|reflexivity].
    + intros H. injection H as ->. exfalso. clear -E. induction (s_headers t) as [|h l IH]; [discriminate|]. cbn in E. unfold header_text in E at 1.
      destruct (h_bounds h) as [[]|]; cbn [header_kind bind] in E; try discriminate; destruct (each header_text l) as [|e]; cbn [bind] in E; try discriminate; injection E as ->; apply IH; reflexivity.
  - intros (hs & F & N). apply (proj2 (each_iff _ _ _ _ heading_iff _ _)) in F. rewrite F. cbn [bind]. apply not_mentions in N.
    assert (I : first_index (occurs "Band gap") hs = None). { clear F. induction N as [|h hs O N IH]; [reflexivity|]. cbn [first_index]. rewrite O, IH. reflexivity. }
    rewrite I. reflexivity.
Qed.

(** make_strehlow_table succeeds exactly under the conditions listed here, and then gives a row for each compound, in order, with its name,
    its formula, and for each of the seventeen terms the first value of that name, or None. *)
Theorem strehlow_table_exact : forall compounds t, make_strehlow_table compounds = Ok t <->
  exists c0 rest s0 m0 ms mt mat chem hs rows, compounds = c0 :: rest /\ c_spec c0 = Some s0 /\ c_measurements c0 = m0 :: ms
    /\ me_template m0 = Some mt /\ ms_template s0 = Some mat /\ first_property compounds (Some chem)
    /\ Forall2 (fun term h => exists b, bounds_of term (mt_properties mt ++ mt_conditions mt ++ mt_parameters mt) b /\ h = mkH [mat; term] (Some b)) terms hs
    /\ Forall2 (row_of chem) compounds rows
    /\ t = mkS (mkH [mat; "Display name"] None :: mkH [mat; chem] (Some CompB) :: hs) rows.
Proof. exact table_all. Qed.
(** Every row is as long as the headings. *)
Theorem strehlow_table_rectangular : forall compounds t, make_strehlow_table compounds = Ok t ->
  length (s_headers t) = 19 /\ length (s_content t) = length compounds /\ Forall (fun row => length row = 19) (s_content t).
Proof.
  intros compounds t H. apply table_all in H. destruct H as (c0 & rest & s0 & m0 & ms & mt & mat & chem & hs & rows & E & S0 & M & MT & MA & T & HS & R & ->).
  cbn [s_headers s_content length]. rewrite <- (Forall2_length HS). split; [reflexivity|]. split; [symmetry; apply (Forall2_length R)|].
  clear -R. induction R as [|c row l rows K R IH]; constructor; [|exact IH]. destruct K as (s & m & ms & v & vs & _ & _ & -> & _ & F). cbn [length]. rewrite <- (Forall2_length F). reflexivity.
Qed.
(** The templates: "Band gap measurement" has one for every term. *)
Theorem strehlow_templates : forall term, In term terms -> exists k b, tmpl term = Some (k, b) /\ k <> ObjectK
  /\ bounds_of term (measurement_properties ++ measurement_conditions ++ []) b
  /\ match k with PropertyK => In (term, b) measurement_properties | _ => In (term, b) measurement_conditions end.
Proof.
  intros term H. repeat (destruct H as [<-|H]; [eexists _, _; split; [vm_compute; reflexivity|]; split; [discriminate|];
    split; [apply (proj1 (templates_iff (mkMT measurement_properties measurement_conditions []) _ _)); vm_compute; reflexivity|vm_compute; tauto]|]). destruct H.
Qed.

Section P.
  Variable to_float : string -> res Q.
  Variable convert : Q -> string -> string -> res Q.
  Variable units_error : string -> option exn.
  Variable formula_error : string -> option exn.
  Notation make_strehlow_objects := (make_strehlow_objects to_float convert units_error formula_error).
  Notation run_made := (run_made to_float convert units_error formula_error).

  (** make_strehlow_objects succeeds exactly if a run can be made of every record, and gives these runs in order. *)
  Theorem strehlow_objects_exact : forall table cs, (exists runs, make_strehlow_objects table = Ok runs /\ map snd runs = cs) <-> Forall2 run_made table cs.
  Proof.
    intros table cs. split.
    - intros (runs & H & <-). eapply objects_made. exact H.
    - apply objects_succeed.
  Qed.
  (** Runs share their spec exactly if the cleaned formulas are equal. *)
  Theorem strehlow_specs_shared : forall table runs, make_strehlow_objects table = Ok runs -> forall i j r r' x x',
    nth_error table i = Some r -> nth_error table j = Some r' -> nth_error runs i = Some x -> nth_error runs j = Some x' ->
    (fst x = fst x' <-> clean (r_formula r) = clean (r_formula r')).
  Proof.
    intros table runs H i j r r' x x' Hi Hj Xi Xj.
    destruct (objects_ids to_float convert units_error formula_error table [] runs) as (d & (P1 & P2) & _ & F); [split; [intros f n K; discriminate|intros f g n K; discriminate]|exact H|].
    assert (G : forall i r x, nth_error table i = Some r -> nth_error runs i = Some x -> dict_get (clean (r_formula r)) d = Some (fst x)).
    { clear -F. induction F as [|r x table runs K F IH]; intros [|i] r0 x0 A B; cbn in *; try discriminate; [injection A as <-; injection B as <-; exact K|eapply IH; eassumption]. }
    pose proof (G _ _ _ Hi Xi) as G1. pose proof (G _ _ _ Hj Xj) as G2. split.
    - intros E. rewrite <- E in G2. apply (P2 _ _ _ G1 G2).
    - intros E. rewrite E in G1. congruence.
  Qed.
  (** What is kept of the attributes of a record: the first of each name. *)
  Theorem strehlow_attributes_first : forall l, subsequence (firsts l) l /\ NoDup (map nm (firsts l))
    /\ (forall a x b, l = a ++ x :: b -> (forall y, In y a -> nm y <> nm x) -> In x (firsts l)).
  Proof.
    assert (Fs : forall A (f : A -> bool) k l, subsequence k l -> subsequence (filter f k) l).
    { intros A f k l H. induction H; cbn; [constructor|destruct (f x); constructor; assumption|constructor; assumption]. }
    assert (Fi : forall (f : pattr * string * string -> bool) k, NoDup (map nm k) -> NoDup (map nm (filter f k))).
    { intros f k. induction k as [|x k IH]; cbn; intros N; [constructor|]. inversion N; subst. destruct (f x); [|apply IH; assumption]. cbn. constructor; [|apply IH; assumption].
      intros K. apply in_map_iff in K. destruct K as (y & E & I). apply filter_In in I. apply H1. apply in_map_iff. exists y. split; [exact E|apply I]. }
    induction l as [|x l (IH1 & IH2 & IH3)]; cbn [firsts].
    - split; [constructor|]. split; [constructor|]. intros [|] x b H; discriminate.
    - split; [constructor; apply Fs; exact IH1|]. split.
      + cbn. constructor; [|apply Fi; exact IH2]. intros K. apply in_map_iff in K. destruct K as (y & E & I). apply filter_In in I. destruct I as (_ & I). rewrite E, String.eqb_refl in I. discriminate.
      + intros [|z a] y b H N; cbn in H; inversion H; subst; [left; reflexivity|]. right. apply filter_In. split.
        * eapply IH3; [reflexivity|]. intros w I. apply N. right; exact I.
        * destruct (String.eqb (nm y) (nm z)) eqn:E; [|reflexivity]. apply String.eqb_eq in E. destruct (N z (or_introl eq_refl)). symmetry; exact E.
  Qed.

  Definition display_head : list string :=
    ["Chemical~Display name~Label"; "Chemical~Formula~Formula"; "Chemical~Band gap~Mean(eV)"; "Chemical~Band gap~Std Deviation(eV)";
     "Chemical~Temperature derivative of band gap~Mean(eV/K)"; "Chemical~Temperature~Mean(K)"; "Chemical~Color~Category"; "Chemical~Lasing~Category";
     "Chemical~Cathodoluminescence~Category"; "Chemical~Mechanical luminescence~Category"; "Chemical~Photoluminescence~Category";
     "Chemical~Electroluminescence~Category"; "Chemical~Thermoluminescence~Category"; "Chemical~Transition~Category"; "Chemical~Bands~Category";
     "Chemical~Electric field polarization~Category"; "Chemical~Crystallinity~Category"; "Chemical~Morphology~Category"; "Chemical~Phase~Category";
     "Chemical~Crystal system~Category"].
  (** The row shown for a run: name, formula, band gap and its deviation, then the other terms. *)
  Definition run_shown (c : comp) (row : list shown) : Prop :=
    exists s m ms f bg sbg sd rest, c_spec c = Some s /\ c_measurements c = m :: ms
      /\ holds "Formula" (map fst (ms_properties s)) (CFormula f)
      /\ holds "Band gap" (me_properties m ++ me_conditions m) bg /\ shows bg sbg /\ deviates bg sd
      /\ Forall2 (fun term out => exists v, holds term (me_properties m ++ me_conditions m) v /\ shows v out) (tl terms) rest
      /\ row = ShText (ms_name s) :: ShText f :: sbg :: sd :: rest.
  Lemma holds_shows : forall name l, (forall a, In a l -> exists s, shows (ta_value a) s) -> exists v s, holds name l v /\ shows v s.
  Proof.
    intros name l H. exists (first_value name l). pose proof (proj1 (holds_iff name l _) eq_refl) as Hv.
    assert (X : exists s, shows (first_value name l) s).
    { destruct Hv as [(x & a & y & -> & _ & -> & _)|(_ & ->)]; [|exists (ShText ""); constructor]. apply H. apply in_or_app. right; left; reflexivity. }
    destruct X as (s & X). exists s. split; assumption.
  Qed.
  (** Whatever the records, if runs can be made of them they are shown: one row of twenty entries for each record, in order, under these
      headings. *)
  Theorem strehlow_shown : forall table runs, table <> [] -> make_strehlow_objects table = Ok runs ->
    exists t rows, make_strehlow_table (map snd runs) = Ok t /\ make_display_table t = Ok (map ShText display_head :: rows)
      /\ Forall2 run_shown (map snd runs) rows /\ length rows = length table /\ Forall (fun row => length row = 20) rows.
  Proof.
    intros table runs N H. apply objects_made in H. set (cs := map snd runs) in *.
    assert (Rw : forall c, (exists r, run_made r c) -> exists row out, row_of "Formula" c row /\ row_shown 2 row out /\ run_shown c out).
    { intros c (r & f & m & xs & l & -> & _ & -> & _ & F & ->).
      set (ps := taken true l). set (qs := taken false l).
      assert (V : forall a, In a (ps ++ qs) -> (exists s, shows (ta_value a) s) /\ (ta_name a = "Band gap" -> exists s, deviates (ta_value a) s)).
      { intros a I. apply in_app_or in I. destruct I as [I|I]; eapply stored_values; eassumption. }
      assert (Sh : forall name, exists v s, holds name (ps ++ qs) v /\ shows v s) by (intros name; apply holds_shows; intros a I; apply V; exact I).
      assert (Tl : forall ts, exists vs ss, Forall2 (fun term v => holds term (ps ++ qs) v) ts vs /\ Forall2 shows vs ss
                 /\ Forall2 (fun term out => exists v, holds term (ps ++ qs) v /\ shows v out) ts ss).
      { induction ts as [|term ts (vs & ss & A & B & C)]; [exists [], []; repeat split; constructor|]. destruct (Sh term) as (v & s & Hv & Hs).
        exists (v :: vs), (s :: ss). repeat split; constructor; try assumption. exists v. split; assumption. }
      destruct (Tl (tl terms)) as (vs & ss & A & B & C).
      destruct (Sh "Band gap") as (bg & sbg & Hb & Sb).
      assert (D : exists sd, deviates bg sd).
      { destruct Hb as [(x & a & y & E & Na & -> & _)|(_ & ->)]; [|exists (ShText ""); constructor]. apply (V a); [rewrite E; apply in_or_app; right; left; reflexivity|exact Na]. }
      destruct D as (sd & D).
      exists (CStr (latex (clean (r_formula r))) :: CFormula (clean (r_formula r)) :: bg :: vs), (ShText (latex (clean (r_formula r))) :: ShText (clean (r_formula r)) :: sbg :: sd :: ss).
      assert (Hf : holds "Formula" (map fst [(mkTA "Formula" (CFormula (clean (r_formula r))) "unknown" "", Some "Formula")]) (CFormula (clean (r_formula r)))).
      { left. eexists [], _, []. split; [reflexivity|]. split; [reflexivity|]. split; [reflexivity|]. intros b []. }
      split; [|split].
      - eexists _, _, _, _, _. split; [reflexivity|]. split; [reflexivity|]. split; [reflexivity|]. split; [exact Hf|]. change terms with ("Band gap" :: tl terms). constructor; assumption.
      - exists [CStr (latex (clean (r_formula r))); CFormula (clean (r_formula r))], bg, vs, [ShText (latex (clean (r_formula r))); ShText (clean (r_formula r))], sbg, sd, ss.
        repeat split; try assumption. repeat constructor.
      - eexists _, _, _, (clean (r_formula r)), bg, sbg, sd, ss. split; [reflexivity|]. split; [reflexivity|]. split; [exact Hf|]. split; [exact Hb|]. split; [exact Sb|].
        split; [exact D|]. split; [exact C|reflexivity]. }
    assert (Rs : exists rows outs, Forall2 (row_of "Formula") cs rows /\ Forall2 (row_shown 2) rows outs /\ Forall2 run_shown cs outs).
    { clear N. induction H as [|r c table cs0 M H IH]; [exists [], []; repeat split; constructor|]. destruct IH as (rows & outs & A & B & C).
      destruct (Rw c (ex_intro _ r M)) as (row & out & A1 & B1 & C1). exists (row :: rows), (out :: outs). repeat split; constructor; assumption. }
    destruct Rs as (rows & outs & A & B & C).
    destruct table as [|r table]; [contradiction|]. destruct cs as [|c cs0] eqn:Ecs; [inversion H|]. inversion H as [|? ? ? ? M Hs]; subst.
    pose proof M as (f & m & xs & l & Ef & _ & Ec & _ & _ & Em).
    pose (mt := mkMT measurement_properties measurement_conditions []).
    pose (hs := map (fun term => mkH ["Chemical"; term] (dict_get term (templates_by_name mt))) terms).
    exists (mkS (mkH ["Chemical"; "Display name"] None :: mkH ["Chemical"; "Formula"] (Some CompB) :: hs) rows), outs.
    assert (T : make_strehlow_table (c :: cs0) = Ok (mkS (mkH ["Chemical"; "Display name"] None :: mkH ["Chemical"; "Formula"] (Some CompB) :: hs) rows)).
    { apply table_all. exists c, cs0. subst c. eexists _, m, [], mt, "Chemical", "Formula", hs, rows. split; [reflexivity|]. split; [reflexivity|]. split; [reflexivity|].
      split; [subst m; reflexivity|]. split; [reflexivity|]. split.
      - eexists [], _, cs0, _, _, []. split; [reflexivity|]. split; [reflexivity|]. split; [reflexivity|]. intros d [].
      - split; [|split; [exact A|reflexivity]]. unfold hs.
        assert (X : forall ts, (forall term, In term ts -> exists b, dict_get term (templates_by_name mt) = Some b) ->
          Forall2 (fun term h => exists b, bounds_of term (mt_properties mt ++ mt_conditions mt ++ mt_parameters mt) b /\ h = mkH ["Chemical"; term] (Some b)) ts
            (map (fun term => mkH ["Chemical"; term] (dict_get term (templates_by_name mt))) ts)).
        { induction ts as [|term ts IH]; intros K; cbn [map]; constructor; [|apply IH; intros x I; apply K; right; exact I].
          destruct (K term (or_introl eq_refl)) as (b & E). exists b. split; [apply templates_iff; exact E|rewrite E; reflexivity]. }
        apply X. intros term I. destruct (strehlow_templates term I) as (k & b & _ & _ & Bo & _). exists b. apply templates_iff. exact Bo. }
    split; [exact T|]. split; [|split; [exact C|split]].
    - unfold make_display_table. cbn [s_headers s_content].
      assert (E1 : each header_text (mkH ["Chemical"; "Display name"] None :: mkH ["Chemical"; "Formula"] (Some CompB) :: hs) = Ok (firstn 3 display_head ++ skipn 4 display_head)) by (vm_compute; reflexivity).
      rewrite E1. cbn [bind]. assert (E2 : first_index (occurs "Band gap") (firstn 3 display_head ++ skipn 4 display_head) = Some 2) by (vm_compute; reflexivity).
      rewrite E2. cbn [item bind]. change (nth_error _ 2) with (hd_error hs). assert (E3 : hd_error hs = Some (mkH ["Chemical"; "Band gap"] (Some (RealB "eV")))) by (vm_compute; reflexivity).
      rewrite E3. cbn [item bind h_bounds default_units h_name].
      rewrite (proj2 (each_iff _ _ _ _ (display_row_iff 2) _ _) B). cbn [bind]. reflexivity.
    - rewrite <- (Forall2_length C). symmetry. apply (Forall2_length H).
    - clear -C. induction C as [|c1 row l1 rows1 K R IH]; constructor; [|exact IH]. destruct K as (s & m & ms & f & bg & sbg & sd & rest & _ & _ & _ & _ & _ & _ & F & ->).
      cbn [length]. rewrite <- (Forall2_length F). reflexivity.
  Qed.

  (** The standard deviation kept for a value in eV is the value: its reported uncertainty is never read. *)
  Theorem band_gap_deviation_refuted : forall p x sd u unc, i_uncertainty p = Some unc -> i_units p = Some "eV" ->
    real_mapper to_float convert units_error p = Ok (CNormal x sd u) -> sd = x
      /\ forall unc', real_mapper to_float convert units_error (mkPA (i_name p) (i_value p) (Some unc') (i_units p)) = Ok (CNormal x sd u).
  Proof.
    intros p x sd u unc U W H. assert (V : content_value to_float convert units_error (RealB "") p = Ok (CNormal x sd u)) by exact H. split.
    - apply valued_iff in V. inversion V; subst; [congruence|reflexivity].
    - intros unc'. rewrite <- H. unfold real_mapper. cbn [i_uncertainty i_units i_value]. rewrite U, W. reflexivity.
  Qed.
End P.

(** ** Cases *)
Definition ex_float (s : string) : res Q := if String.eqb s "7.95" then Ok (795 # 100) else if String.eqb s "80" then Ok (80 # 1) else if String.eqb s "0.1" then Ok (1 # 10) else Err ValueError.
Definition ex_convert (x : Q) (a b : string) : res Q := Ok (x * (16 # 100))%Q.
Definition ex_objects := make_strehlow_objects ex_float ex_convert (fun _ => None) (fun _ => None).
(** the fourth record of strehlow_and_cook_small.pif *)
Definition ex_record : record := mkR "Li1Br1"
  [ mkP (mkPA "Crystallinity" "Polycrystalline" None None) [] None None;
    mkP (mkPA "Morphology" "Thin film" None None) [] None None;
    mkP (mkPA "Band gap" "7.95" None (Some "eV"))
        [mkPA "Transition" "G15 to G1" None None; mkPA "Transition" "Direct" None None; mkPA "Temperature" "80" None (Some "K")]
        (Some "EXPERIMENTAL") (Some "Absorption") ].
Example sac_ex : exists runs t, ex_objects [ex_record] = Ok runs /\ make_strehlow_table (map snd runs) = Ok t
  /\ make_display_table t = Ok [map ShText display_head;
       [ShText "LiBr"; ShText "LiBr"; ShNum (795 # 100); ShText ""; ShText ""; ShNum (80 # 1); ShText ""; ShText ""; ShText ""; ShText ""; ShText ""; ShText ""; ShText "";
        ShText ""; ShText "G15 to G1"; ShText ""; ShText "Polycrystalline"; ShText "Thin film"; ShText ""; ShText ""]].
Proof. eexists _, _. split; [vm_compute; reflexivity|]. split; vm_compute; reflexivity. Qed.
Example sac_subset_ex : minimal_subset (fun x : bool => class_text (if x then "str" else "int")) [[true; false]; [true]; [true; false]; [false; true]; []]
  = [[true; false]; [true]; [false; true]; []].
Proof. vm_compute. reflexivity. Qed.
Example sac_hyps : (forall x : bool, ~ has_char "'" (if x then "str" else "int")) /\ (exists runs, ex_objects [ex_record; ex_record; mkR "Li1F1" []] = Ok runs /\ map fst runs = [0; 0; 1]).
Proof. split; [intros []; cbn; intuition discriminate|]. eexists. split; vm_compute; reflexivity. Qed.

(** Transitions are split into two columns so that a record may have both, but as both are named "Transition" the second one is dropped:
    "Direct" in the record above has a column of its own and is lost. *)
Theorem second_transition_lost_refuted : exists r p a v w m l,
  r_properties r = [p] /\ p_conditions p = [a; mkPA "Transition" v None None] /\ i_name a = "Transition" /\ i_value a = w
  /\ tmpl "Bands" = Some (ConditionK, CatB l) /\ In w l
  /\ (exists l', tmpl "Transition" = Some (ConditionK, CatB l') /\ In v l' /\ ~ In w l')
  /\ measurement_of ex_float ex_convert (fun _ => None) r = Ok m
  /\ holds "Bands" (me_properties m ++ me_conditions m) (CCategory w) /\ holds "Transition" (me_properties m ++ me_conditions m) CNone.
Proof.
  exists (mkR "Li1Br1" [mkP (mkPA "Band gap" "7.95" None (Some "eV")) [mkPA "Transition" "G15 to G1" None None; mkPA "Transition" "Direct" None None] None None]).
  eexists _, _, "Direct", "G15 to G1", _, _. split; [reflexivity|]. split; [reflexivity|]. split; [reflexivity|]. split; [reflexivity|]. split; [vm_compute; reflexivity|].
  split; [cbn; tauto|]. split.
  - eexists. split; [vm_compute; reflexivity|]. split; [cbn; tauto|]. cbn. intuition discriminate.
  - split; [vm_compute; reflexivity|]. split; apply holds_iff; vm_compute; reflexivity.
Qed.

Print Assumptions minimal_subset_rows.
Print Assumptions minimal_subset_records_refuted.
Print Assumptions display_table_exact.
Print Assumptions display_no_band_gap.
Print Assumptions strehlow_table_exact.
Print Assumptions strehlow_table_rectangular.
Print Assumptions strehlow_templates.
Print Assumptions strehlow_objects_exact.
Print Assumptions strehlow_specs_shared.
Print Assumptions strehlow_attributes_first.
Print Assumptions strehlow_shown.
Print Assumptions band_gap_deviation_refuted.
Print Assumptions second_transition_lost_refuted.
