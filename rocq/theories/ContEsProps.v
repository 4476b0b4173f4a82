(** C105, C106: continuous treatment, event-study aggregation. *)
From Verif Require Import Base ListLib ReduceModel DrdidModel DrdidSpec SplineModel SplineSpec SplineProps ContModel ContSpec ContSpec2 ContProofs ContProofs2 ContProofs3 ContProofs4 ContProofs5 ContProofs6 ContProofs11 ContWitness ContProps ContProps2 ContEsModel ContEsSpec ContEsProofs ContEsProofs2 ContEsProofs3 ContEsProofs4 Witness.
From Coq Require Import Sorting.Sorted.

(** * C105: the level effect of a cell *)
(** A dose above one in the cohort: the cohort's mean change is weighted by dose. *)
Theorem C105_dose_weighted : forall orc o eo T us cells r g t,
  panel_ok (co_ant o) T us -> co_univ o = false -> cont_did_event orc o eo false (rows T us) = EsOk cells r ->
  In g (cohorts us) -> (2 <= t <= Z.of_nat T)%Z -> comparison (co_nyt o) us g t <> [] ->
  (exists u, In u (cohort us g) /\ 1 < k_dose u) ->
  estimate cells g t = dose_mean (change (co_ant o) g t) (cohort us g) - wmean (change (co_ant o) g t) (comparison (co_nyt o) us g t).
Proof.
  intros orc o eo T us cells r g t Ok V Run Hg Ht Cp Ab. destruct (reg_cell orc o T us Ok V eo cells r Run g t Hg Ht Cp (reg_above o us g t Ab)) as [E _]. exact E.
Qed.
Print Assumptions C105_dose_weighted.
(** Doses up to one: the cohort itself is part of the comparison, with weight one minus dose. *)
Theorem C105_fractional : forall orc o eo T us cells r g t,
  panel_ok (co_ant o) T us -> co_univ o = false -> cont_did_event orc o eo false (rows T us) = EsOk cells r ->
  In g (cohorts us) -> (2 <= t <= Z.of_nat T)%Z -> comparison (co_nyt o) us g t <> [] ->
  (forall u, In u (cohort us g) -> k_dose u <= 1) ->
  mean k_dose (members (co_nyt o) us g t) <= Q2Qc (99 # 100) -> dose_share (members (co_nyt o) us g t) < Q2Qc (995 # 1000) ->
  estimate cells g t = dose_mean (change (co_ant o) g t) (cohort us g) - rest_mean (change (co_ant o) g t) (members (co_nyt o) us g t) /\
  sumf (influence cells g t) (seq 0 (length us)) = 0.
Proof.
  intros orc o eo T us cells r g t Ok V Run Hg Ht Cp Le M P. split.
  - destruct (dr_cell orc o T us Ok V eo cells r Run g t Hg Ht Cp (dr_below o us g t Le M) P (Qc_pos_neq0 _ (rest_pos o T us Ok g t Cp Le))) as [E _]. exact E.
  - exact (fractional_inf orc o T us Ok V eo cells r Run g t Hg Ht Cp Le M P).
Qed.
Print Assumptions C105_fractional.
(** A binary treatment: the weighted difference in differences, with its usual influence function. *)
Theorem C105_binary : forall orc o eo T us cells r g t,
  panel_ok (co_ant o) T us -> co_univ o = false -> cont_did_event orc o eo false (rows T us) = EsOk cells r ->
  In g (cohorts us) -> (2 <= t <= Z.of_nat T)%Z -> comparison (co_nyt o) us g t <> [] ->
  (forall u, In u (cohort us g) -> k_dose u = 1) ->
  let D := change (co_ant o) g t in let G := cohort us g in let C := comparison (co_nyt o) us g t in
  estimate cells g t = wmean D G - wmean D C /\
  sumf (influence cells g t) (seq 0 (length us)) = 0 /\
  forall i u, nth_error us i = Some u ->
    (In u G -> influence cells g t i = qn (length us) * (k_w u * (D u - wmean D G) / sumf k_w G)) /\
    (In u C -> influence cells g t i = - (qn (length us) * (k_w u * (D u - wmean D C) / sumf k_w C))) /\
    (~ In u G -> ~ In u C -> influence cells g t i = 0).
Proof.
  intros orc o eo T us cells r g t Ok V Run Hg Ht Cp One D G C. destruct (ones_cell orc o T us Ok V eo cells r Run g t Hg Ht Cp One) as [E I].
  split; [exact E|]. split; [exact (ones_inf orc o T us Ok V eo cells r Run g t Hg Ht Cp One)|]. intros i u Hu.
  assert (Iu := nth_error_In _ _ Hu). rewrite (I i u Hu).
  assert (S1 : sumf (fun v => k_w v * k_dose v) (cohort us g) = sumf k_w G) by (apply sumf_ext; intros v Hv; rewrite (One v Hv); ring).
  assert (S2 := ones_rest_sum o us g t One).
  unfold dose_term, rest_term. rewrite S1, S2. fold D C G.
  split; [|split].
  - intros J. assert (Gt : in_gt o g t u = true) by (apply filter_In in J; destruct J as [_ J]; rewrite (in_gt_split o us g t u Iu), J; reflexivity).
    assert (Di : dose_in g u = 1) by (rewrite <- (One u J); unfold dose_in, og_eqb; apply filter_In in J; destruct J as [_ J]; now rewrite J).
    rewrite Gt, Di. unfold Qcdiv. ring.
  - intros J. apply filter_In in J. destruct J as [_ J]. rewrite (in_gt_split o us g t u Iu), J, orb_true_r.
    assert (Di : dose_in g u = 0). { unfold dose_in, og_eqb. destruct (k_g u) as [h|]; [|reflexivity]. apply andb_prop in J. destruct J as [_ J]. now destruct (h =? g)%Z. }
    rewrite Di. unfold Qcdiv. ring.
  - intros N1 N2. rewrite (in_gt_split o us g t u Iu).
    destruct (match k_g u with Some h => (h =? g)%Z | None => false end) eqn:M1; [exfalso; apply N1; apply filter_In; auto|].
    destruct (match k_g u with None => true | Some h => co_nyt o && (t <? h)%Z && negb (h =? g)%Z end) eqn:M2; [exfalso; apply N2; apply filter_In; auto|]. reflexivity.
Qed.
Print Assumptions C105_binary.
(** Parallel trends and a dose response [f]: zero before adoption, the dose-weighted mean of [f] after. *)
Theorem C105_dose_response : forall orc o eo T us cells r g t f,
  panel_ok (co_ant o) T us -> co_univ o = false -> cont_did_event orc o eo false (rows T us) = EsOk cells r ->
  In g (cohorts us) -> (2 <= t <= Z.of_nat T)%Z -> comparison (co_nyt o) us g t <> [] ->
  (exists u, In u (cohort us g) /\ 1 < k_dose u) -> dose_response us f ->
  estimate cells g t = if (g <=? t)%Z then dose_mean (fun u => f (k_dose u)) (cohort us g) else 0.
Proof.
  intros orc o eo T us cells r g t f Ok V Run Hg Ht Cp Ab DR. exact (two_way orc o T us Ok V eo cells r Run g t Hg Ht Cp f DR Ab).
Qed.
Print Assumptions C105_dose_response.

(** * C106: aggregation by event time *)
Lemma ok_pairs o T us g t : panel_ok (co_ant o) T us -> In g (cohorts us) -> (2 <= t <= Z.of_nat T)%Z -> In (g, t) (pairs T us).
Proof. intros Ok Hg Ht. apply (pair_in o T us Ok). auto. Qed.
Theorem C106_event_means : forall orc o eo slope T us cells r,
  panel_ok (co_ant o) T us -> co_univ o = false -> cont_did_event orc o eo slope (rows T us) = EsOk cells r ->
  StronglySorted Z.lt (es_events r) /\
  (forall e, In e (es_events r) <-> event_cohorts eo T us e <> [] /\ in_window eo T e) /\
  es_att r = map (fun e => cohort_mean us (event_cohorts eo T us e) (fun g => estimate cells g (g + e))) (es_events r) /\
  es_overall r = (match filter (fun e => (0 <=? e)%Z) (es_events r) with [] => None
                  | post => Some (mean (fun e => cohort_mean us (event_cohorts eo T us e) (fun g => estimate cells g (g + e))) post) end).
Proof.
  intros orc o eo slope T us cells r Ok V Run. destruct (es_inv orc o T us Ok V eo slope cells r Run) as [Cne [-> [-> _]]].
  set (F := run_F orc o T us slope). assert (K := run_F_key orc o T us slope). fold F in K.
  destruct (fields o T us Ok Cne eo F K) as [-> [-> [_ [-> _]]]].
  assert (Q : forall e, In e (events_list T us eo F) -> att' T us eo F e = cohort_mean us (event_cohorts eo T us e) (fun g => estimate (map F (pairs T us)) g (g + e))).
  { intros e He. apply (events_in o T us Ok eo F K) in He. exact (att_eq o T us Ok Cne eo F K e (proj1 He)). }
  split; [apply events_sorted|]. split; [intros e; apply (events_in o T us Ok eo F K)|]. split; [apply map_ext_in; exact Q|].
  assert (Q2 : forall e, In e (filter (fun e => (0 <=? e)%Z) (events_list T us eo F)) -> att' T us eo F e = cohort_mean us (event_cohorts eo T us e) (fun g => estimate (map F (pairs T us)) g (g + e))).
  { intros e He. apply filter_In in He. now apply Q. }
  destruct (filter (fun e => (0 <=? e)%Z) (events_list T us eo F)) as [|e0 q]; [reflexivity|]. f_equal. apply mean_ext. exact Q2.
Qed.
Print Assumptions C106_event_means.
(** With a balancing horizon the same cohorts, with the same weights, are behind every event time from 0 to the horizon. *)
Theorem C106_balanced : forall orc o eo b slope T us cells r e,
  panel_ok (co_ant o) T us -> co_univ o = false -> cont_did_event orc o eo slope (rows T us) = EsOk cells r ->
  eo_balance eo = Some b -> In e (es_events r) -> (0 <= e)%Z ->
  (e <= b)%Z /\ nth_error (es_att r) (Z.to_nat (index_of e (es_events r))) =
    Some (cohort_mean us (filter (fun g => (g + b <=? Z.of_nat T)%Z) (cohorts us)) (fun g => estimate cells g (g + e))).
Proof.
  intros orc o eo b slope T us cells r e Ok V Run B Ie E0. destruct (C106_event_means orc o eo slope T us cells r Ok V Run) as [_ [Ev [-> _]]].
  assert (W := proj1 (Ev e) Ie). destruct W as [_ [_ [_ W]]]. rewrite B in W. split; [lia|].
  assert (Ix : nth_error (es_events r) (Z.to_nat (index_of e (es_events r))) = Some e).
  { clear -Ie. induction (es_events r) as [|x l IH]; [easy|]. cbn [index_of]. destruct (Z.eqb_spec x e) as [->|N]; [reflexivity|]. destruct Ie as [->|Ie]; [tauto|].
    assert (P : (0 <= index_of e l)%Z) by (clear; induction l as [|y l IH]; cbn [index_of]; [lia|]; destruct (y =? e)%Z; lia).
    replace (Z.to_nat (1 + index_of e l)) with (S (Z.to_nat (index_of e l))) by lia. now apply IH. }
  erewrite map_nth_error by exact Ix. do 2 f_equal. unfold event_cohorts. apply filter_ext_in'. intros g Hg. assert (Bg := g_bounds' o T us Ok g Hg). assert (A0 := proj1 (proj2 Ok)).
  unfold kept. rewrite B. apply Bool.eq_iff_eq_true. rewrite !andb_true_iff, !Z.leb_le. lia.
Qed.
Print Assumptions C106_balanced.
(** The slope cells are those of the dose aggregation. *)
Theorem C106_slope_cells : forall orc o eo T us cells r r0 c e,
  panel_ok (co_ant o) T us -> co_univ o = false ->
  cont_did_event orc o eo true (rows T us) = EsOk cells r -> cont_did orc o (rows T us) = ContOk r0 ->
  In c (r_cells r0) -> pc_out c = CEst e -> estimate cells (pc_g c) (pc_t c) = e_acrt e.
Proof.
  intros orc o eo T us cells r r0 c e Ok V Run Run0 Ic E. destruct (es_inv orc o T us Ok V eo true cells r Run) as [Cne [-> _]].
  destruct (cells_inv orc o T us Ok V r0 Run0 c Ic) as [g [t [Hg [Ht [-> [-> Ec]]]]]].
  destruct (estimate_eq T us (run_F orc o T us true) (run_F_key orc o T us true) g t (ok_pairs o T us g t Ok Hg Ht)) as [-> _]. cbn [run_F slope_F ec_att fst snd].
  rewrite Ec in E. now rewrite E.
Qed.
Print Assumptions C106_slope_cells.
(** Polynomial dose responses: no slope before adoption, the cohorts' mean derivative after. *)
Theorem C106_slope_recovery : forall orc o eo T us cells r r0 a,
  panel_ok (co_ant o) T us -> co_univ o = false -> lstsq_ok (co_lstsq orc) -> cinv_ok (co_inv orc) ->
  (length a <= co_deg o + 1)%nat -> dose_response us (poly a) -> (exists u, In u us /\ k_g u = None) ->
  cont_did_event orc o eo true (rows T us) = EsOk cells r -> cont_did orc o (rows T us) = ContOk r0 ->
  (forall c, In c (r_cells r0) -> exists e, pc_out c = CEst e) ->
  es_att r = map (fun e => if (0 <=? e)%Z then cohort_mean us (event_cohorts eo T us e) (fun g => mean (fun u => poly' a (k_dose u)) (cohort us g)) else 0) (es_events r).
Proof.
  intros orc o eo T us cells r r0 a Ok V L Iv La DR Nv Run Run0 All. destruct (C106_event_means orc o eo true T us cells r Ok V Run) as [_ [Ev [-> _]]].
  apply map_ext_in. intros e He. apply Ev in He. destruct He as [Ne _].
  assert (A : forall g, In g (event_cohorts eo T us e) -> estimate cells g (g + e)%Z = if (0 <=? e)%Z then mean (fun u => poly' a (k_dose u)) (cohort us g) else 0).
  { intros g Hg. unfold event_cohorts in Hg. apply filter_In in Hg. destruct Hg as [Hg K]. rewrite !andb_true_iff, !Z.leb_le in K. destruct K as [K _].
    assert (Ic := cells_all orc o T us Ok V r0 Run0 g (g + e)%Z Hg K). destruct (All _ Ic) as [x Ex].
    assert (Q := C106_slope_cells orc o eo T us cells r r0 _ x Ok V Run Run0 Ic Ex). cbn [pc_g pc_t process_cell] in Q. rewrite Q. clear Q Ic.
    destruct DR as [al [la F]]. assert (B := g_bounds' o T us Ok g Hg). assert (A0 : (0 <= co_ant o)%Z) by apply Ok.
    set (t := (g + e)%Z) in *. set (b := reference (co_ant o) g t) in *. set (c := la t - la b).
    assert (Hb : (b < t)%Z /\ (b < g)%Z) by (unfold b, reference; destruct (Z.ltb_spec t (g - co_ant o)); lia).
    assert (Cne : comparison (co_nyt o) us g t <> []).
    { destruct Nv as [n [I N]]. intros C. assert (J : In n (comparison (co_nyt o) us g t)) by (apply filter_In; rewrite N; auto). now rewrite C in J. }
    assert (Tr : forall u, In u (cohort us g) -> change (co_ant o) g t u = (if (0 <=? e)%Z then poly a (k_dose u) else 0) + c).
    { intros u Hu. apply filter_In in Hu. destruct Hu as [Hu P]. unfold change. fold b. rewrite !F by exact Hu. unfold c. destruct (k_g u) as [h|]; [|discriminate].
      apply Z.eqb_eq in P. subst h. destruct (Z.leb_spec g b); [lia|]. replace (g <=? t)%Z with (0 <=? e)%Z; [destruct (0 <=? e)%Z; ring|].
      apply Bool.eq_iff_eq_true. rewrite !Z.leb_le. unfold t. lia. }
    destruct (0 <=? e)%Z.
    - destruct (poly_shift a c) as [a' [L' [P1 P2]]].
      destruct (cell_poly orc o T us Ok V L g t Hg K Iv _ _ x a' (mean (change (co_ant o) g t) (comparison (co_nyt o) us g t)) Ex) as [_ [_ [_ [E4 _]]]]; [lia| |exact Cne|reflexivity|].
      { intros u Hu. rewrite P1. now apply Tr. }
      rewrite E4. apply mean_ext. intros; apply P2.
    - destruct (poly_nil_shift c) as [P1 P2].
      destruct (cell_poly orc o T us Ok V L g t Hg K Iv _ _ x [c] (mean (change (co_ant o) g t) (comparison (co_nyt o) us g t)) Ex) as [_ [_ [_ [E4 _]]]]; [cbn; lia| |exact Cne|reflexivity|].
      { intros u Hu. rewrite P1, (Tr u Hu). ring. }
      rewrite E4. apply mean_const'; [|intros; apply P2]. exact (cohort_ne us g Hg). }
  unfold cohort_mean. destruct (0 <=? e)%Z.
  - f_equal. apply sumf_ext. intros g Hg. now rewrite (A g Hg).
  - rewrite sumf_zero; [unfold Qcdiv; ring|]. intros g Hg. rewrite (A g Hg). ring.
Qed.
Print Assumptions C106_slope_recovery.
(** Influence values: the cells' influence values, averaged like the estimates, plus the weight-estimation term. *)
Theorem C106_influence : forall orc o eo slope T us cells r j e i u v l,
  panel_ok (co_ant o) T us -> co_univ o = false -> cont_did_event orc o eo slope (rows T us) = EsOk cells r ->
  nth_error (es_events r) j = Some e -> nth_error (es_inf r) j = Some l ->
  nth_error us i = Some u -> nth_error (by_cohort us) i = Some v ->
  nth i l 0 = cohort_mean us (event_cohorts eo T us e) (fun g => influence cells g (g + e) i)
    + sumf k_w (adopters us) / qn (length us) * weight_effect us (event_cohorts eo T us e) (fun g => estimate cells g (g + e)) v.
Proof.
  intros orc o eo slope T us cells r j e i u v l Ok V Run Hj Hl Hu Hv. destruct (es_inv orc o T us Ok V eo slope cells r Run) as [Cne [-> [-> _]]].
  set (F := run_F orc o T us slope) in *. assert (K := run_F_key orc o T us slope). fold F in K.
  destruct (fields o T us Ok Cne eo F K) as [E1 [_ [E2 _]]]. rewrite E1 in Hj. rewrite E2 in Hl.
  rewrite (map_nth_error (inf' T us eo F) j _ Hj) in Hl. injection Hl as <-.
  assert (Ne : event_cohorts eo T us e <> []) by (apply (events_in o T us Ok eo F K); eapply nth_error_In; exact Hj).
  exact (inf_eq o T us Ok Cne eo F K e i u v Ne Hu Hv).
Qed.
Print Assumptions C106_influence.
Theorem C106_influence_mean_zero : forall orc o eo T us cells r l,
  panel_ok (co_ant o) T us -> co_univ o = false -> lstsq_ok (co_lstsq orc) -> cont_did_event orc o eo true (rows T us) = EsOk cells r ->
  In l (es_inf r) -> length l = length us /\ qsum l = 0.
Proof.
  intros orc o eo T us cells r l Ok V L Run Hl. destruct (es_inv orc o T us Ok V eo true cells r Run) as [Cne [-> [-> _]]].
  set (F := run_F orc o T us true) in *. assert (K := run_F_key orc o T us true). fold F in K.
  destruct (fields o T us Ok Cne eo F K) as [_ [_ [E2 _]]]. rewrite E2 in Hl. apply in_map_iff in Hl. destruct Hl as [e [<- He]].
  assert (Ne : event_cohorts eo T us e <> []) by (now apply (events_in o T us Ok eo F K)). split; [apply inf_len|].
  apply (inf_sum_zero o T us Ok Cne eo F K e Ne). intros g Hg. apply (ec_in o T us Ok eo F e g) in Hg. destruct Hg as [Hg [Hp _]].
  rewrite (sumf_ext _ (fun i => nth i (ec_inf (F (g, (g + e)%Z))) 0)) by (intros i _; apply (estimate_eq T us F K g (g + e)%Z Hp)).
  unfold F. cbn [run_F slope_F ec_inf fst snd]. assert (Ht := proj2 (proj1 (pair_in o T us Ok _) Hp)). cbn [snd] in Ht.
  assert (X := cell_inf orc o T us Ok V (run_knots o T us) (run_grid o T us) g (g + e)%Z Hg Ht). cbv zeta in X. rewrite map_length in X. destruct X as [f [-> S]].
  set (h := fun u : cunit => if match k_g u with Some h => (h =? g)%Z | None => false end then f u else 0).
  assert (Le : length us = length (map h us)) by (now rewrite map_length). rewrite Le, sum_nth. refine (eq_trans _ (S L)).
  exact (sumf_filter_ind (fun u => match k_g u with Some h => (h =? g)%Z | None => false end) f us).
Qed.
Print Assumptions C106_influence_mean_zero.

(** * Examples and refutations *)
Definition is_es (x : es_out) : bool := match x with EsOk _ _ => true | _ => false end.
Definition cells_of (x : es_out) : list ecell := match x with EsOk c _ => c | _ => [] end.
Definition es_of (x : es_out) : es_result :=
  match x with EsOk _ r => r | _ => {| es_events := []; es_att := []; es_inf := []; es_overall := None; es_overall_inf := None |} end.
Lemma is_es_ok x : is_es x = true -> x = EsOk (cells_of x) (es_of x).
Proof. destruct x; try discriminate. reflexivity. Qed.
Definition no_window : eopts := {| eo_balance := None; eo_min := None; eo_max := None |}.
Notation lvl o T us := (cont_did_event exact o no_window false (rows T us)) (only parsing).
Notation slp o eo T us := (cont_did_event exact o eo true (rows T us)) (only parsing).

(** The level effect is not the mean effect of the cohort: effects equal to the dose, doses 1 and 3, reported 5/2. *)
Definition two_doses_panel : list cunit :=
  map (fun p => let '(i, g, d) := p in mkc i g d (fun t => match g with Some g => if (g <=? t)%Z then qz d else 0 | None => 0 end)) [(1, Some 2, 1); (2, Some 2, 3); (3, None, 0)]%Z.
Definition one_knot : copts := opts false 0 1 0 [1].
Theorem C105_mean_effect_refuted :
  panel_ok 0 2 two_doses_panel /\ lvl one_knot 2 two_doses_panel = EsOk (cells_of (lvl one_knot 2 two_doses_panel)) (es_of (lvl one_knot 2 two_doses_panel)) /\
  dose_response two_doses_panel (fun d => d) /\
  estimate (cells_of (lvl one_knot 2 two_doses_panel)) 2 2 = q 5 2 /\ wmean k_dose (cohort two_doses_panel 2) = q 2 1.
Proof.
  split; [by_panel|]. split; [apply is_es_ok; vm_compute; reflexivity|]. split.
  - exists (fun _ => 0), (fun _ => 0). intros u t Hu. unfold two_doses_panel in Hu. cbn [map In] in Hu. repeat destruct Hu as [<-|Hu]; try easy; cbn; destruct t as [|[|[]|]|]; ring.
  - split; by_qc.
Qed.
Print Assumptions C105_mean_effect_refuted.
(** Nor does it survive a change of the dose's unit: doses 1/2 and 1, or the same doses in tenths. *)
Definition half_panel : list cunit :=
  map (fun p => let '(i, g, d) := p in {| k_id := i; k_g := g; k_dose := d; k_w := 1; k_y := noise i |}) [(1%Z, Some 2%Z, q 1 2); (2%Z, Some 2%Z, q 1 1); (3%Z, None, 0); (4%Z, None, 0)].
Definition tenths_panel : list cunit := map (rescale_dose (qz 10)) half_panel.
Theorem C105_dose_units_refuted :
  panel_ok 0 2 half_panel /\ panel_ok 0 2 tenths_panel /\
  lvl one_knot 2 half_panel = EsOk (cells_of (lvl one_knot 2 half_panel)) (es_of (lvl one_knot 2 half_panel)) /\
  lvl one_knot 2 tenths_panel = EsOk (cells_of (lvl one_knot 2 tenths_panel)) (es_of (lvl one_knot 2 tenths_panel)) /\
  estimate (cells_of (lvl one_knot 2 half_panel)) 2 2 <> estimate (cells_of (lvl one_knot 2 tenths_panel)) 2 2.
Proof.
  split; [by_panel|]. split; [by_panel|]. split; [apply is_es_ok; vm_compute; reflexivity|]. split; [apply is_es_ok; vm_compute; reflexivity|]. by_ne.
Qed.
Print Assumptions C105_dose_units_refuted.
(** With a dose above one the influence values do not sum to zero. *)
Theorem C105_influence_mean_zero_refuted :
  panel_ok 0 2 tenths_panel /\ lvl one_knot 2 tenths_panel = EsOk (cells_of (lvl one_knot 2 tenths_panel)) (es_of (lvl one_knot 2 tenths_panel)) /\
  sumf (influence (cells_of (lvl one_knot 2 tenths_panel)) 2 2) (seq 0 (length tenths_panel)) <> 0.
Proof. split; [by_panel|]. split; [apply is_es_ok; vm_compute; reflexivity|]. by_ne. Qed.
Print Assumptions C105_influence_mean_zero_refuted.
Example C105_fractional_example : cohort half_panel 2 <> [] /\ comparison false half_panel 2 2 <> [] /\
  mean k_dose (members false half_panel 2 2) = q 3 8 /\ dose_share (members false half_panel 2 2) = q 3 8 /\
  estimate (cells_of (lvl one_knot 2 half_panel)) 2 2 = dose_mean (change 0 2 2) (cohort half_panel 2) - rest_mean (change 0 2 2) (members false half_panel 2 2).
Proof. split; [discriminate|]. split; [discriminate|]. split; [by_qc|]. split; by_qc. Qed.
Definition binary_panel : list cunit := map (fun u => {| k_id := k_id u; k_g := k_g u; k_dose := match k_g u with Some _ => 1 | None => 0 end; k_w := k_w u; k_y := k_y u |}) wit_panel.
Example C105_binary_example : panel_ok 0 3 binary_panel /\ (forall u, In u (cohort binary_panel 2) -> k_dose u = 1) /\
  is_es (lvl one_knot 3 binary_panel) = true /\
  estimate (cells_of (lvl one_knot 3 binary_panel)) 2 3 = wmean (change 0 2 3) (cohort binary_panel 2) - wmean (change 0 2 3) (comparison false binary_panel 2 3) /\
  estimate (cells_of (lvl one_knot 3 binary_panel)) 2 3 = q (-5) 2.
Proof.
  split; [by_panel|]. split; [|split; [vm_compute; reflexivity|split; by_qc]]. intros u Hu. assert (A : forallb (fun u => Qceqb (k_dose u) 1) (cohort binary_panel 2) = true) by (vm_compute; reflexivity). rewrite forallb_forall in A. specialize (A u Hu). now destruct (Qceqb_spec (k_dose u) 1).
Qed.
Notation wit_lvl := (lvl wit_opts 3 wit_panel) (only parsing).
Lemma wit_lvl_run : cont_did_event exact wit_opts no_window false (rows 3 wit_panel) = EsOk (cells_of wit_lvl) (es_of wit_lvl).
Proof. assert (H : is_es wit_lvl = true) by (vm_compute; reflexivity). exact (is_es_ok wit_lvl H). Qed.
Example C105_dose_weighted_example :
  estimate (cells_of wit_lvl) 2 3 = dose_mean (change 0 2 3) (cohort wit_panel 2) - wmean (change 0 2 3) (comparison true wit_panel 2 3) /\
  estimate (cells_of wit_lvl) 2 3 <> wmean (change 0 2 3) (cohort wit_panel 2) - wmean (change 0 2 3) (comparison true wit_panel 2 3).
Proof.
  split; [|by_ne]. apply (C105_dose_weighted exact wit_opts no_window 3 wit_panel _ (es_of wit_lvl) 2 3 wit_ok eq_refl wit_lvl_run).
  - vm_compute. auto.
  - lia.
  - vm_compute. discriminate.
  - exists (mkc 2 (Some 2%Z) 2 (noise 2)). split; [|vm_compute; reflexivity]. unfold wit_panel. cbn [map cohort filter k_g mkc Z.eqb Pos.eqb]. right. left. reflexivity.
Qed.
Lemma dr_response : dose_response dr_panel (poly [qz 2; 0; qz 3]).
Proof. exists (fun i => qz (i * i)), (fun t => qz (t * t * 5)). intros u t Hu. unfold dr_panel in Hu. apply in_map_iff in Hu. destruct Hu as [v [<- _]]. reflexivity. Qed.
Lemma dr_never : exists u, In u dr_panel /\ k_g u = None.
Proof.
  exists (with_y (fun u t => qz (k_id u * k_id u) + qz (t * t * 5) + match k_g u with Some g => if (g <=? t)%Z then poly [qz 2; 0; qz 3] (k_dose u) else 0 | None => 0 end) (mkc 11 None 0 (noise 11))).
  split; [|reflexivity]. unfold dr_panel. apply in_map. unfold wit_panel. cbn [map]. do 10 right. left. reflexivity.
Qed.
Notation dr_lvl := (lvl wit_opts 3 dr_panel) (only parsing).
Lemma dr_lvl_run : cont_did_event exact wit_opts no_window false (rows 3 dr_panel) = EsOk (cells_of dr_lvl) (es_of dr_lvl).
Proof. assert (H : is_es dr_lvl = true) by (vm_compute; reflexivity). exact (is_es_ok dr_lvl H). Qed.
Example C105_dose_response_example : estimate (cells_of dr_lvl) 3 2 = 0 /\
  estimate (cells_of dr_lvl) 3 3 = dose_mean (fun u => poly [qz 2; 0; qz 3] (k_dose u)) (cohort dr_panel 3) /\
  dose_mean (fun u => poly [qz 2; 0; qz 3] (k_dose u)) (cohort dr_panel 3) = q 71 1.
Proof.
  assert (Ok : panel_ok 0 3 dr_panel) by by_panel.
  assert (Ab : exists u, In u (cohort dr_panel 3) /\ 1 < k_dose u).
  { exists (nth 1 (cohort dr_panel 3) (mkc 0 None 0 (noise 0))). split; [apply nth_In; vm_compute; lia|vm_compute; reflexivity]. }
  split; [|split; [|by_qc]].
  - refine (eq_trans (C105_dose_response exact wit_opts no_window 3 dr_panel (cells_of dr_lvl) (es_of dr_lvl) 3 2 (poly [qz 2; 0; qz 3]) Ok eq_refl dr_lvl_run _ _ _ Ab dr_response) _); [vm_compute; auto|lia|intros C; apply (f_equal (@length cunit)) in C; vm_compute in C; discriminate|reflexivity].
  - refine (eq_trans (C105_dose_response exact wit_opts no_window 3 dr_panel (cells_of dr_lvl) (es_of dr_lvl) 3 3 (poly [qz 2; 0; qz 3]) Ok eq_refl dr_lvl_run _ _ _ Ab dr_response) _); [vm_compute; auto|lia|intros C; apply (f_equal (@length cunit)) in C; vm_compute in C; discriminate|reflexivity].
Qed.
Notation wit_slp := (slp wit_opts no_window 3 wit_panel) (only parsing).
Lemma wit_slp_run : cont_did_event exact wit_opts no_window true (rows 3 wit_panel) = EsOk (cells_of wit_slp) (es_of wit_slp).
Proof. assert (H : is_es wit_slp = true) by (vm_compute; reflexivity). exact (is_es_ok wit_slp H). Qed.
Example C106_event_means_example : es_events (es_of wit_slp) = [-1; 0; 1]%Z /\ event_cohorts no_window 3 wit_panel 0 = [2; 3]%Z /\ event_cohorts no_window 3 wit_panel 1 = [2]%Z /\
  es_overall (es_of wit_slp) = Some (mean (fun e => cohort_mean wit_panel (event_cohorts no_window 3 wit_panel e) (fun g => estimate (cells_of wit_slp) g (g + e))) [0; 1]%Z).
Proof.
  destruct (C106_event_means exact wit_opts no_window true 3 wit_panel _ _ wit_ok eq_refl wit_slp_run) as [_ [_ [_ H]]].
  split; [vm_compute; reflexivity|]. split; [vm_compute; reflexivity|]. split; [vm_compute; reflexivity|]. rewrite H.
  replace (filter (fun e => (0 <=? e)%Z) (es_events (es_of wit_slp))) with [0; 1]%Z by (vm_compute; reflexivity). reflexivity.
Qed.
(** Balancing at horizon 1 drops the second cohort everywhere. *)
Definition balanced1 : eopts := {| eo_balance := Some 1%Z; eo_min := None; eo_max := None |}.
Notation bal_slp := (slp wit_opts balanced1 3 wit_panel) (only parsing).
Example C106_balanced_example : es_events (es_of bal_slp) = [0; 1]%Z /\ filter (fun g => (g + 1 <=? 3)%Z) (cohorts wit_panel) = [2]%Z /\
  nth_error (es_att (es_of bal_slp)) 0 = Some (cohort_mean wit_panel [2]%Z (fun g => estimate (cells_of bal_slp) g (g + 0))) /\
  nth_error (es_att (es_of bal_slp)) 0 <> nth_error (es_att (es_of wit_slp)) 1.
Proof.
  assert (H0 : is_es bal_slp = true) by (vm_compute; reflexivity). assert (R := is_es_ok bal_slp H0).
  assert (E : es_events (es_of bal_slp) = [0; 1]%Z) by (vm_compute; reflexivity).
  destruct (C106_balanced exact wit_opts balanced1 1 true 3 wit_panel _ _ 0 wit_ok eq_refl R eq_refl) as [_ H]; [rewrite E; now left|lia|].
  split; [exact E|]. split; [vm_compute; reflexivity|]. rewrite E in H. split; [exact H|]. intros C. vm_compute in C. discriminate.
Qed.
Notation dr_slp := (slp wit_opts no_window 3 dr_panel) (only parsing).
Example C106_slope_recovery_example : es_att (es_of dr_slp) = [0; q 102 5; q 96 5].
Proof.
  assert (H0 : is_es dr_slp = true) by (vm_compute; reflexivity). assert (R := is_es_ok dr_slp H0).
  refine (eq_trans (C106_slope_recovery exact wit_opts no_window 3 dr_panel _ _ dr_run [qz 2; 0; qz 3] ltac:(by_panel) eq_refl exact_lstsq_ok exact_inv_ok ltac:(cbn; lia) dr_response dr_never R (proj1 dr_est) (proj2 dr_est)) _).
  replace (es_events (es_of dr_slp)) with [-1; 0; 1]%Z by (vm_compute; reflexivity).
  apply qlist_eqb_eq. vm_compute. reflexivity.
Qed.
Example C106_influence_example : length (es_inf (es_of wit_slp)) = 3%nat /\ forall l, In l (es_inf (es_of wit_slp)) -> length l = 12%nat /\ qsum l = 0.
Proof. split; [vm_compute; reflexivity|]. intros l Hl. exact (C106_influence_mean_zero exact wit_opts no_window 3 wit_panel _ _ l wit_ok eq_refl exact_lstsq_ok wit_slp_run Hl). Qed.

(** The weight-estimation term is shrunk by the share of adopters (10 of 12 units): it is not the first-order effect of the unit on the weights. *)
Theorem C106_weight_term_refuted :
  panel_ok 0 3 wit_panel /\ cont_did_event exact wit_opts no_window true (rows 3 wit_panel) = EsOk (cells_of wit_slp) (es_of wit_slp) /\ by_cohort wit_panel = wit_panel /\
  nth_error (es_events (es_of wit_slp)) 1 = Some 0%Z /\
  exists l u, nth_error (es_inf (es_of wit_slp)) 1 = Some l /\ nth_error wit_panel 0 = Some u /\
    nth 0 l 0 <> cohort_mean wit_panel (event_cohorts no_window 3 wit_panel 0) (fun g => influence (cells_of wit_slp) g (g + 0) 0)
      + weight_effect wit_panel (event_cohorts no_window 3 wit_panel 0) (fun g => estimate (cells_of wit_slp) g (g + 0)) u.
Proof.
  split; [exact wit_ok|]. split; [exact wit_slp_run|]. split; [reflexivity|]. split; [vm_compute; reflexivity|].
  eexists. exists (mkc 1 (Some 2%Z) 1 (noise 1)). split; [vm_compute; reflexivity|]. split; [reflexivity|]. by_ne.
Qed.
Print Assumptions C106_weight_term_refuted.
(** The rows of that term are in the order of cohorts, those of the cells in the order of identifiers: a never-treated unit with the lowest identifier gets the
    adopter's weight term, although it is in no cell and no cohort's weight. *)
Definition first_never : list cunit := mkc 0 None 0 (noise 0) :: wit_panel.
Notation fn_slp := (slp wit_opts no_window 3 first_never) (only parsing).
Theorem C106_row_alignment_refuted :
  panel_ok 0 3 first_never /\ cont_did_event exact wit_opts no_window true (rows 3 first_never) = EsOk (cells_of fn_slp) (es_of fn_slp) /\
  nth_error (es_events (es_of fn_slp)) 1 = Some 0%Z /\
  exists l u, nth_error (es_inf (es_of fn_slp)) 1 = Some l /\ nth_error first_never 0 = Some u /\ k_g u = None /\
    cohort_mean first_never (event_cohorts no_window 3 first_never 0) (fun g => influence (cells_of fn_slp) g (g + 0) 0) = 0 /\
    weight_effect first_never (event_cohorts no_window 3 first_never 0) (fun g => estimate (cells_of fn_slp) g (g + 0)) u = 0 /\
    nth 0 l 0 <> 0.
Proof.
  split; [by_panel|]. split; [assert (H : is_es fn_slp = true) by (vm_compute; reflexivity); exact (is_es_ok fn_slp H)|]. split; [vm_compute; reflexivity|].
  eexists. exists (mkc 0 None 0 (noise 0)). split; [vm_compute; reflexivity|]. split; [reflexivity|]. split; [reflexivity|]. split; [by_qc|]. split; [by_qc|]. by_ne.
Qed.
Print Assumptions C106_row_alignment_refuted.
