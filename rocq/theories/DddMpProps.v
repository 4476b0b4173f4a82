(** C57-C63: multi-period triple differences (panel). *)
From Verif Require Import Base ListLib PreprocessModel PreprocessProofs AttGtModel SeModel ReduceModel Calc DrdidModel DrdidSpec DrdidWitness DrdidWitness2 Witness DddModel DddSpec DddProofs DddProofs2 DddProofs3 DddProofs5 DddWitness
  DddMpModel DddMpSpec DddMpGmm DddMpProofs1 DddMpProofs2 DddMpProofs3 DddMpProofs4 DddMpProofs5 DddMpProofs6 DddMpWitness.

(** * C57. Which cells are reported, and what they estimate. *)
(** Exactly the cells of a treated cohort and a period (not the first one, when the base varies) that have a base period and either
    are the reference period or admit a comparison with some control cohort. *)
Theorem C57_cells : forall o q k m b never data, keyed data -> forall rows cols ses g t, ddd_mp o q k m b never data = MTable rows cols ses ->
  (exists att, In (g, t, att) rows) <->
  in_grid b data g t /\ exists p, base_for b data g t p /\ (p = t \/ exists z att inf, controls_of never data g t p z /\ against o k m data g z t p att inf).
Proof.
  intros o q k m b never data K rows cols ses g t E. rewrite (cells_present o q k m b never data K rows cols ses g t E). unfold in_grid. tauto.
Qed.
Print Assumptions C57_cells.
(** It raises exactly when there is no such cell. *)
Theorem C57_raises : forall o q k m b never data, keyed data -> ddd_mp o q k m b never data = MRaise <->
  forall g t, in_grid b data g t -> ~ exists p, base_for b data g t p /\ (p = t \/ exists z att inf, controls_of never data g t p z /\ against o k m data g z t p att inf).
Proof.
  intros o q k m b never data K. rewrite (raise_iff o q k m b never data K). unfold in_grid. split.
  - intros H g t [A [B C]]. apply H; assumption.
  - intros H g t A B C. apply H. auto.
Qed.
Print Assumptions C57_raises.
Theorem C57_once : forall o q k m b never data, keyed data -> forall rows cols ses, ddd_mp o q k m b never data = MTable rows cols ses ->
  NoDup (map fst rows) /\ length cols = length rows /\ length ses = length rows.
Proof.
  intros o q k m b never data K rows cols ses E. split; [exact (rows_once o q k m b never data K rows cols ses E)|].
  destruct (table_parts o q k m b never data rows cols ses E) as [ER [EC ES]].
  set (R := map (fun j => process_cell o q k m b never data (fst j) (snd j)) (mp_jobs b data)) in *.
  assert (LE : (length rows <= length R)%nat) by (rewrite ER, map_length; apply somes_le; exact data).
  assert (L : length cols = length rows) by (rewrite EC, firstn_length, map_length; lia).
  split; [exact L|]. rewrite ES, map_length, combine_length, L, firstn_length, map_length. lia.
Qed.
Print Assumptions C57_once.
(** The reference cell is 0; with one control cohort the estimate is the two-period triple difference of C53 against that cohort; with
    several, the pooled one of C59. *)
Theorem C57_estimate : forall o q k m b never data, keyed data -> gmm_inv_ok q -> forall rows cols ses g t att ids, is_units data ids ->
  ddd_mp o q k m b never data = MTable rows cols ses -> In (g, t, att) rows ->
  exists p, base_for b data g t p /\
    ((p = t /\ att = 0) \/
     (p <> t /\ exists z inf, one_control never data g t p z /\ against o k m data g z t p att inf) \/
     (p <> t /\ several_controls never data g t p /\ exists rs inf se, all_comparisons o k m never data g t p rs /\ pooled q (length ids) rs att inf se)).
Proof.
  intros o q k m b never data K IO rows cols ses g t att ids UN E HI.
  assert (EI : mp_ids data = ids).
  { destruct (ids_units data) as [S1 H1]. destruct UN as [S2 H2]. apply (ssorted_ext Z.lt); [intros; lia|exact S1|exact S2|apply ssorted_lt_nodup, S1|apply ssorted_lt_nodup, S2|]. intros i. rewrite H1, H2. reflexivity. }
  destruct (cell_estimate o q k m b never data K rows cols ses g t att IO E HI) as [_ [p [BF C]]]. exists p. split; [exact BF|]. rewrite EI in C.
  destruct C as [C|[NP [cs [CN [CI C]]]]]; [left; exact C|]. right. destruct C as [[z [inf [EC AG]]]|[C2 [rs [inf [se [RN [RNE [RI PO]]]]]]]].
  - left. split; [exact NP|]. exists z, inf. split; [|exact AG]. intros z'. rewrite <- CI, EC. cbn. split; [intros [->|[]]; reflexivity|intros ->; left; reflexivity].
  - right. split; [exact NP|]. split.
    + destruct cs as [|z [|z' cs]]; [cbn in C2; lia|cbn in C2; lia|]. exists z, z'. split; [intros ->; inversion CN as [|? ? N _]; apply N; left; reflexivity|]. split; apply CI; [left; reflexivity|right; left; reflexivity].
    + exists rs, inf, se. split; [|exact PO]. split; [exact RNE|]. split; [exact RN|]. intros z a i. rewrite RI, CI. reflexivity.
Qed.
Print Assumptions C57_estimate.
(** Without covariates, each comparison is the triple difference of average outcome changes between the base period and t. *)
Theorem C57_no_covariates : forall o m data g z t p att inf, (forall r, In r data -> l_x r = []) -> against o 1 m data g z t p att inf ->
  exists u, is_sample data g z t p u /\ let d := fun s => sub_mean s t_dy u in att = (d 4%Z - d 3%Z) - (d 2%Z - d 1%Z).
Proof.
  intros o m data g z t p att inf NX [u [a3 [a2 [a1 [v [IS [E _]]]]]]]. exists u. split; [exact IS|]. refine (proj1 (ddd_no_cov o m u att a3 a2 a1 v _ E)).
  intros x Hx. apply IS in Hx. destruct Hx as [r1 [r0 [H1 [_ [_ [_ [_ [_ [_ [_ [_ [_ [_ [_ EX]]]]]]]]]]]]]]. rewrite EX, (NX r1 H1). reflexivity.
Qed.
Print Assumptions C57_no_covariates.
(** twelve units, three periods, cohorts 2, 3 and never treated: (2,2) is pooled over two control cohorts, the other cells have one *)
Example C57_case : keyed mp_data /\ gmm_inv_ok g_oracle /\ (forall r, In r mp_data -> l_x r = []) /\
  forall m, map fst (match ddd_mp wit_oracle3 g_oracle 1 m Varying false mp_data with MTable rows _ _ => rows | MRaise => [] end) = [(2, 2); (2, 3); (3, 2); (3, 3)]%Z /\
    map fst (match ddd_mp wit_oracle3 g_oracle 1 m Universal true mp_data with MTable rows _ _ => rows | MRaise => [] end) = [(2, 1); (2, 2); (2, 3); (3, 1); (3, 2); (3, 3)]%Z.
Proof.
  split; [exact mp_keyed|]. split; [exact g_oracle_ok|]. split; [|destruct m; split; vm_compute; reflexivity].
  intros r H. assert (X : forallb (fun r => match l_x r with [] => true | _ => false end) mp_data = true) by (vm_compute; reflexivity). rewrite forallb_forall in X. specialize (X r H). destruct (l_x r); [reflexivity|discriminate].
Qed.

(** * C58. Influence columns and standard errors belong to the cell reported at the same position. *)
(** True for every cell before which no cell of the grid is missing. *)
Theorem C58_own_column_partial : forall o q k m b never data, keyed data -> gmm_inv_ok q -> forall rows cols ses j g t att,
  ddd_mp o q k m b never data = MTable rows cols ses -> nth_error rows j = Some (g, t, att) -> no_gap_before b data rows g t ->
  exists ids col p, is_units data ids /\ nth_error cols j = Some col /\ base_for b data g t p /\
    let n := qn (length ids) in
    ((p = t /\ col = map (fun _ => 0) ids /\ nth_error ses j = Some None) \/
     (p <> t /\ exists z inf, one_control never data g t p z /\ against o k m data g z t p att inf /\ is_column ids inf col /\
        nth_error ses j = Some (reported_se2 (sum_squares col / (n * n)))) \/
     (p <> t /\ several_controls never data g t p /\ exists rs inf se, all_comparisons o k m never data g t p rs /\ pooled q (length ids) rs att inf se /\ is_placed ids inf col /\
        nth_error ses j = Some (reported_se2 se))).
Proof.
  intros o q k m b never data K IO rows cols ses j g t att E NE NG. destruct (own_column o q k m b never data K IO rows cols ses j g t att E NE NG) as [col [p [H1 [H2 H3]]]].
  exists (mp_ids data), col, p. split; [exact (ids_units data)|]. split; [exact H1|]. split; [exact H2|]. exact H3.
Qed.
Print Assumptions C58_own_column_partial.
(** A cohort treated in or before the first period shifts the columns: with T the number of attempted periods, the first T reported cells
    get a zero influence column and a missing standard error. *)
Theorem C58_displaced : forall o q k m b never data rows cols ses g j ids ts, keyed data -> is_units data ids ->
  StronglySorted Z.lt ts -> (forall s, In s ts <-> is_period data s /\ (b = Varying -> exists s', is_period data s' /\ (s' < s)%Z)) ->
  ddd_mp o q k m b never data = MTable rows cols ses -> is_cohort data g -> (forall s, is_period data s -> (g <= s)%Z) ->
  (j < length rows)%nat -> (j < length ts)%nat -> nth_error cols j = Some (map (fun _ => 0) ids) /\ nth_error ses j = Some None.
Proof.
  intros o q k m b never data rows cols ses g j ids ts K UN TS TI E GC EARLY L1 L2.
  assert (EI : mp_ids data = ids).
  { destruct (ids_units data) as [S1 H1]. destruct UN as [S2 H2]. apply (ssorted_ext Z.lt); [intros; lia|exact S1|exact S2|apply ssorted_lt_nodup, S1|apply ssorted_lt_nodup, S2|]. intros i. rewrite H1, H2. reflexivity. }
  rewrite <- EI. apply (displaced o q k m b never data rows cols ses g j E GC EARLY L1).
  assert (L : (length ts <= length (mp_tlist data) - tfac b)%nat); [|lia].
  rewrite <- (seq_length (length (mp_tlist data) - tfac b) 0). rewrite <- (map_length (fun i => nth (i + tfac b) (mp_tlist data) 0%Z)).
  apply NoDup_incl_length; [apply ssorted_lt_nodup, TS|]. intros s Hs. apply TI in Hs. apply (period_index b data s) in Hs. destruct Hs as [i [Hi ->]]. apply in_map_iff. exists i. split; [reflexivity|]. apply in_seq. lia.
Qed.
Print Assumptions C58_displaced.
(** Fourteen units, two of them treated from period 1 on, who enter no comparison. The standard error of cell (2,2) is missing, and the
    cell (3,2), which compares cohort 3 with the never treated, carries the influence values of cell (2,2): those of cohort 2 are not
    zero. Without the two units: 17/11 and zero. *)
Theorem C58_own_column_refuted :
  keyed mp_always /\ is_cohort mp_always 1 /\
  (let r := ddd_mp wit_oracle3 g_oracle 1 Dr Varying false mp_always in
   est_row r 0 = Some (2%Z, 2%Z, qz 8 / qz 3) /\ est_se r 0 = Some None /\ est_row r 2 = Some (3%Z, 2%Z, 1) /\ option_map (fun c => nth 0 c 0) (est_col r 2) = Some (qz 21 / qz 2)) /\
  (let r := ddd_mp wit_oracle3 g_oracle 1 Dr Varying false mp_data in
   est_row r 0 = Some (2%Z, 2%Z, qz 8 / qz 3) /\ est_se r 0 = Some (Some (qz 17 / qz 11)) /\ est_row r 2 = Some (3%Z, 2%Z, 1) /\ option_map (fun c => nth 0 c 0) (est_col r 2) = Some 0).
Proof.
  split; [exact mp_always_keyed|]. split.
  - split; [lia|]. exists {| l_id := 13; l_t := 1; l_g := Fin 1; l_p := 1; l_y := qz 2; l_w := 1; l_x := [] |}. split; [|reflexivity]. apply in_or_app. right. left. reflexivity.
  - split; cbn zeta; (split; [|split; [|split]]); vm_compute; by_parts.
Qed.
Print Assumptions C58_own_column_refuted.
Example C58_case : forall m, match ddd_mp wit_oracle3 g_oracle 1 m Varying false mp_data with
  | MTable rows cols ses => no_gap_before Varying mp_data rows 3 3 /\ (3 < length rows)%nat
  | MRaise => False end.
Proof.
  intros m. destruct (ddd_mp wit_oracle3 g_oracle 1 m Varying false mp_data) as [|rows cols ses] eqn:E; [destruct m; vm_compute in E; discriminate|].
  assert (R : map fst rows = [(2, 2); (2, 3); (3, 2); (3, 3)]%Z) by (destruct m; vm_compute in E; injection E as <- _ _; reflexivity).
  split; [|rewrite <- (map_length fst), R; cbn; lia].
  intros g t [GC GT] _. apply (period_index Varying mp_data t) in GT. destruct GT as [i [Hi ET]]. apply glist_in in GC. vm_compute in Hi. change (mp_glist mp_data) with [2; 3]%Z in GC. change (mp_tlist mp_data) with [1; 2; 3]%Z in ET.
  assert (X : In (g, t) (map fst rows)). { rewrite R, ET. destruct i as [|[|i]]; [| |lia]; destruct GC as [<-|[<-|[]]]; cbn; auto. }
  apply in_map_iff in X. destruct X as [[[g' t'] a] [EX HX]]. cbn in EX. injection EX as -> ->. eauto.
Qed.

(** * C59. Pooling over several control cohorts. *)
(** The weights add up to one and minimise the variance of the combined influence column among all such weights; in particular it is no
    larger than with any single control cohort. *)
Theorem C59_minimum_variance : forall q n rs att inf se ids cols, pooled q n rs att inf se -> units_of rs ids ->
  Forall2 (fun r col => is_column ids (snd (snd r)) col) rs cols -> (forall r, In r rs -> NoDup (map fst (snd (snd r)))) ->
  gm_inv q (gmm_omega cols) <> None ->
  exists w, min_variance (length ids) cols w /\ att = comb_vals w (map (fun r => fst (snd r)) rs) /\
    (forall i col, nth_error cols i = Some col -> svar (comb_cols (length ids) w cols) <= svar col).
Proof.
  intros q n rs att inf se ids cols [u [cs [US [UI [FC PO]]]]] [IS II] FC' ND NS.
  assert (u = ids). { apply (ssorted_ext Z.lt); [intros; lia|exact US|exact IS|apply ssorted_lt_nodup, US|apply ssorted_lt_nodup, IS|]. intros i. rewrite UI, II. reflexivity. } subst u.
  assert (cs = cols).
  { clear - FC FC' ND. revert cols FC'. induction FC as [|r c l l' H F IH]; intros cols FC'; inversion FC' as [|? c' ? l2 H' F']; subst; [reflexivity|]. f_equal.
    - rewrite (is_column_place ids (snd (snd r)) c (ND r (or_introl eq_refl)) H). symmetry. apply is_column_place; [apply ND; left; reflexivity|exact H'].
    - apply IH; [intros; apply ND; right; assumption|exact F']. }
  subst cs. destruct (PO NS) as [w [MV [EA _]]]. exists w. split; [exact MV|]. split; [exact EA|].
  intros i col Hi. destruct MV as [LW [SW MV]]. pose proof (nth_error_Some cols i) as LI. rewrite Hi in LI. assert (L : (i < length cols)%nat) by (apply LI; discriminate). clear LI.
  set (e := map (fun j => ind (j =? i)%nat) (seq 0 (length cols))).
  assert (LC : length col = length ids). { clear - FC Hi. revert i Hi. induction FC as [|r c l l' H F IH]; intros [|i] Hi; try discriminate; cbn in Hi; [injection Hi as <-; apply H|apply (IH i Hi)]. }
  assert (SE : forall s l, (s <= i)%nat -> (i < s + l)%nat -> sumf (fun j => ind (j =? i)%nat) (seq s l) = 1).
  { clear. intros s l. revert s. induction l as [|l IH]; intros s H1 H2; [lia|]. cbn [seq]. rewrite sumf_cons. destruct (Nat.eqb_spec s i) as [->|N].
    - rewrite sumf_zero; [cbn; ring|]. intros j Hj. apply in_seq in Hj. destruct (Nat.eqb_spec j i); [lia|reflexivity].
    - rewrite IH by lia. cbn. ring. }
  assert (EC : comb_cols (length ids) e cols = col).
  { unfold comb_cols. apply (nth_ext _ _ 0 0); [rewrite map_length, seq_length; congruence|]. intros r Hr. rewrite map_length, seq_length in Hr. rewrite nth_map_seq by exact Hr. unfold comb_vals, e.
    assert (G : forall (l : list (list Qc)) s, nth_error l (i - s) = Some col -> (s <= i)%nat -> sumf (fun p => fst p * snd p) (combine (map (fun j => ind (j =? i)%nat) (seq s (length l))) (map (fun c => nth r c 0) l)) = nth r col 0).
    { clear. induction l as [|c l IH]; intros s H1 H2; [destruct (i - s)%nat; discriminate|]. cbn [length seq map combine]. rewrite sumf_cons. cbn [fst snd]. destruct (Nat.eqb_spec s i) as [->|N].
      - rewrite Nat.sub_diag in H1. cbn in H1. injection H1 as ->. rewrite sumf_zero; [cbn; ring|]. intros [a c] Hp. pose proof (in_combine_l _ _ _ _ Hp) as Ha. apply in_map_iff in Ha. destruct Ha as [j [<- Hj]]. apply in_seq in Hj. cbn. destruct (Nat.eqb_spec j i); [lia|cbn; ring].
      - rewrite IH; [cbn; ring| |lia]. replace (i - s)%nat with (S (i - S s)) in H1 by lia. exact H1. }
    apply (G cols 0%nat); [rewrite Nat.sub_0_r; exact Hi|lia]. }
  rewrite <- EC. apply (MV e); [unfold e; rewrite map_length, seq_length; reflexivity|]. unfold e. exact (SE 0%nat (length cols) ltac:(lia) L).
Qed.
Print Assumptions C59_minimum_variance.
(** The order in which the control cohorts are listed is irrelevant. *)
Theorem C59_control_order : forall o q k m n g t p cs cs' rows, gmm_equivariant q -> keyed rows -> Permutation cs cs' ->
  multi_ddd o q k m n g t p cs rows = multi_ddd o q k m n g t p cs' rows.
Proof. intros o q k m n g t p cs cs' rows EQ K P. apply multi_perm; [exact EQ|exact K|apply Permutation_refl|exact P]. Qed.
Print Assumptions C59_control_order.
(** cell (2,2) of the example: 2 against cohort 3, 3 against the never treated, pooled 8/3 *)
Example C59_case : gmm_inv_ok g_oracle /\ gmm_equivariant g_oracle /\ forall m,
  match multi_ddd wit_oracle3 g_oracle 1 m 12 2 2 1 [Fin 3; Inf] (cell_rows false 2 2 1 mp_data), single_ddd wit_oracle3 1 m 2 2 1 (control_rows 2 (Fin 3) mp_data), single_ddd wit_oracle3 1 m 2 2 1 (control_rows 2 Inf mp_data) with
  | Some (a, _, _), Some (a1, _), Some (a2, _) => Qceqb a (qz 8 / qz 3) && Qceqb a1 (qz 2) && Qceqb a2 (qz 3) | _, _, _ => false end = true /\
  (forall cols, pool_columns wit_oracle3 1 m false mp_data 2 2 1 cols -> gm_inv g_oracle (gmm_omega cols) <> None).
Proof.
  split; [exact g_oracle_ok|]. split; [exact g_oracle_equiv|]. intros m. split; [destruct m; vm_compute; reflexivity|].
  intros cols PC. apply (mp_regular m 2 2 1 cols); [| |exact PC].
  - split; [apply glist_in; left; reflexivity|]. apply period_index. exists 0%nat. split; [vm_compute; lia|reflexivity].
  - apply latest_b. reflexivity.
Qed.

(** * C60. The standard error of a pooled cell. *)
Lemma latest_unique data s p p' : latest_before data s p -> latest_before data s p' -> p = p'.
Proof. intros [A [B C]] [A' [B' C']]. specialize (C p' A' B'). specialize (C' p A B). lia. Qed.
(** With c units in the comparisons and n in the panel, the squared standard error is c^2 / (n (c - 1)) times the one that the
    reported influence column implies (sum of squares / n^2). *)
Theorem C60_pooled_se : forall o q k m b never data, keyed data -> gmm_inv_ok q -> wls_ok o k -> forall rows cols ses j g t att p,
  ddd_mp o q k m b never data = MTable rows cols ses -> nth_error rows j = Some (g, t, att) -> no_gap_before b data rows g t ->
  base_for b data g t p -> p <> t -> several_controls never data g t p ->
  (m = Reg \/ forall z u, controls_of never data g t p z -> is_sample data g z t p u -> ddd_scores o k u) ->
  (forall cols, pool_columns o k m never data g t p cols -> gm_inv q (gmm_omega cols) <> None) ->
  exists ids rs u col v, is_units data ids /\ all_comparisons o k m never data g t p rs /\ units_of rs u /\ (2 <= length u)%nat /\
    nth_error cols j = Some col /\ nth_error ses j = Some (reported_se2 v) /\
    let n := qn (length ids) in let c := qn (length u) in v = c * c / (n * (c - 1)) * (sum_squares col / (n * n)).
Proof.
  intros o q k m b never data K IO WO rows cols ses j g t att p E NE NG BF NP SC SE REG.
  destruct (own_column o q k m b never data K IO rows cols ses j g t att E NE NG) as [col [p' [H1 [BF' H3]]]].
  assert (p' = p) by (destruct b; exact (latest_unique _ _ _ _ BF' BF)). subst p'.
  destruct H3 as [[X _]|[[_ [z [inf [OC _]]]]|[_ [_ [rs [inf [se [AC [PO [PL ES]]]]]]]]]]; [contradiction| |].
  - exfalso. destruct SC as [z1 [z2 [N [A B]]]]. apply OC in A, B. congruence.
  - set (u := zuniq (flat_map (fun r : grp * (Qc * list (Z * Qc)) => map fst (snd (snd r))) rs)).
    assert (UO : units_of rs u).
    { split; [apply zuniq_sorted|]. intros i. unfold u. rewrite zuniq_in, in_flat_map. split.
      - intros [r [Hr Hi]]. apply in_map_iff in Hi. destruct Hi as [[i' v] [EI Hi]]. cbn in EI. subst i'. eauto.
      - intros [r [v [Hr Hv]]]. exists r. split; [exact Hr|]. change i with (fst (i, v)). apply in_map, Hv. }
    exists (mp_ids data), rs, u, col, se.
    assert (CE : forall z a i, controls_of never data g t p z -> against o k m data g z t p a i -> qsum (map snd i) = 0).
    { intros z a i Cz [tu [a3 [a2 [a1 [v [IS [EE ->]]]]]]].
      destruct (ddd_centred o k m tu a a3 a2 a1 v WO) as [LV SV]; [destruct SE as [->|SE]; [left; reflexivity|right; exact (SE z tu Cz IS)]|exact EE|].
      assert (G : forall (l : list Z) (l' : list Qc), length l = length l' -> map snd (combine l l') = l') by (clear; induction l as [|x l IH]; intros [|y l'] H; try discriminate; [reflexivity|]; cbn; rewrite IH by (cbn in H; lia); reflexivity).
      rewrite G by (rewrite map_length; congruence). exact SV. }
    assert (RG : forall cols, Forall2 (fun r col => is_column u (snd (snd r)) col) rs cols -> gm_inv q (gmm_omega cols) <> None).
    { intros cs F. apply REG. split; [exact SC|]. destruct AC as [A1 [A2 A3]]. destruct UO as [U1 U2]. exists rs, u. auto 10. }
    destruct (pooled_se o q k m never data g t p rs att inf se col (length u) u PO PL AC CE RG UO eq_refl) as [C2 [_ EV]].
    split; [exact (ids_units data)|]. split; [exact AC|]. split; [exact UO|]. split; [exact C2|]. split; [exact H1|]. split; [exact ES|]. exact EV.
Qed.
Print Assumptions C60_pooled_se.
Example C60_case : keyed mp_data /\ gmm_inv_ok g_oracle /\ wls_ok wit_oracle3 1 /\ base_for Varying mp_data 2 2 1 /\ several_controls false mp_data 2 2 1 /\
  (forall cols, pool_columns wit_oracle3 1 Reg false mp_data 2 2 1 cols -> gm_inv g_oracle (gmm_omega cols) <> None) /\
  match ddd_mp wit_oracle3 g_oracle 1 Reg Varying false mp_data with MTable rows _ _ => no_gap_before Varying mp_data rows 2 2 | MRaise => False end.
Proof.
  split; [exact mp_keyed|]. split; [exact g_oracle_ok|]. split; [exact wit3_wls_ok|]. split; [apply latest_b; reflexivity|]. split.
  { exists (Fin 3), Inf. split; [discriminate|]. split; apply (cell_controls_in false 2 2 1 mp_data); vm_compute; auto. }
  split; [apply C59_case|]. destruct (ddd_mp wit_oracle3 g_oracle 1 Reg Varying false mp_data) as [|rows cols ses] eqn:E; [vm_compute in E; discriminate|].
  intros g t [GC GT] CB. exfalso. apply (period_index Varying mp_data t) in GT. destruct GT as [i [Hi ET]]. apply glist_in in GC. vm_compute in Hi. change (mp_glist mp_data) with [2; 3]%Z in GC. change (mp_tlist mp_data) with [1; 2; 3]%Z in ET.
  unfold cell_before in CB. cbn [fst snd] in CB. destruct i as [|[|i]]; [| |lia]; cbn in ET; destruct GC as [<-|[<-|[]]]; lia.
Qed.
(** Sixteen units, twelve of them in the comparisons of cell (3,3): the reported squared standard error is 9/11 of the implied one. *)
Theorem C60_se_is_of_column_refuted : keyed mp_se /\ several_controls false mp_se 3 3 2 /\ base_for Varying mp_se 3 3 2 /\
  exists att col v, let r := ddd_mp wit_oracle3 g_oracle 1 Reg Varying false mp_se in
    est_row r 3 = Some (3%Z, 3%Z, att) /\ est_col r 3 = Some col /\ est_se r 3 = Some (Some v) /\ v = qz 9 / qz 11 * (sum_squares col / (qz 16 * qz 16)) /\ v < sum_squares col / (qz 16 * qz 16).
Proof.
  split; [exact mp_se_keyed|]. split.
  { exists (Fin 4), Inf. split; [discriminate|]. split; apply (cell_controls_in false 3 3 2 mp_se); vm_compute; auto. }
  split; [apply latest_b; reflexivity|].
  destruct (ddd_mp wit_oracle3 g_oracle 1 Reg Varying false mp_se) as [|rows cols ses] eqn:E; [vm_compute in E; discriminate|].
  assert (X : match ddd_mp wit_oracle3 g_oracle 1 Reg Varying false mp_se with
    | MTable rows cols ses => match nth_error rows 3, nth_error cols 3, nth_error ses 3 with
        | Some (3%Z, 3%Z, a), Some c, Some (Some v) => Qceqb v (qz 9 / qz 11 * (sum_squares c / (qz 16 * qz 16))) && Qcltb v (sum_squares c / (qz 16 * qz 16)) | _, _, _ => false end
    | MRaise => false end = true) by (vm_compute; reflexivity).
  rewrite E in X. cbn [est_row est_col est_se].
  destruct (nth_error rows 3) as [[[g t] a]|]; [|discriminate X]. destruct (nth_error cols 3) as [c|]; [|destruct g as [|[[|[]|]|[]|]|]; try discriminate X; destruct t as [|[[|[]|]|[]|]|]; discriminate X].
  destruct (nth_error ses 3) as [[v|]|]; [|destruct g as [|[[|[]|]|[]|]|]; try discriminate X; destruct t as [|[[|[]|]|[]|]|]; discriminate X|destruct g as [|[[|[]|]|[]|]|]; try discriminate X; destruct t as [|[[|[]|]|[]|]|]; discriminate X].
  assert (g = 3 /\ t = 3)%Z as [-> ->] by (destruct g as [|[[|[]|]|[]|]|]; try discriminate X; destruct t as [|[[|[]|]|[]|]|]; try discriminate X; split; reflexivity).
  exists a, c, v. apply andb_true_iff in X. destruct X as [X1 X2]. destruct (Qceqb_spec v (qz 9 / qz 11 * (sum_squares c / (qz 16 * qz 16)))) as [EV|]; [|discriminate]. destruct (Qcltb_spec v (sum_squares c / (qz 16 * qz 16))) as [LV|]; [|discriminate]. auto.
Qed.
Print Assumptions C60_se_is_of_column_refuted.

(** * C61. The order of the rows is irrelevant. *)
Theorem C61_row_order : forall o q k m b never data data', gmm_equivariant q -> keyed data -> Permutation data data' ->
  ddd_mp o q k m b never data = ddd_mp o q k m b never data'.
Proof. exact row_order. Qed.
Print Assumptions C61_row_order.
Example C61_case : gmm_equivariant g_oracle /\ keyed mp_data /\ Permutation mp_data (rev mp_data) /\ forall m, est_se (ddd_mp wit_oracle3 g_oracle 1 m Varying false (rev mp_data)) 0 <> None.
Proof. split; [exact g_oracle_equiv|]. split; [exact mp_keyed|]. split; [apply Permutation_rev|]. destruct m; vm_compute; discriminate. Qed.

(** * C62. Sampling weights. *)
(** With more than two periods the weights have no effect at all, although C56 shows that the two-period estimator uses them. *)
Theorem C62_weights_ignored : forall h o q k m b never data, ddd_mp o q k m b never (map (set_weight h) data) = ddd_mp o q k m b never data.
Proof. intros h o q k m b never data. apply weights_ignored. Qed.
Print Assumptions C62_weights_ignored.
(** Weighting is not what is done: with weight 3 on one unit the weighted triple difference of the cell (2,3) is not the reported one. *)
Definition heavy (r : lrow) : Qc := if (l_id r =? 1)%Z then qz 3 else 1.
Definition heavy_unit (u : tunit) : tunit := {| t_id := t_id u; t_sg := t_sg u; t_y1 := t_y1 u; t_y0 := t_y0 u; t_w := if (t_id u =? 1)%Z then qz 3 else 1; t_x := t_x u |}.
Theorem C62_weights_used_refuted : exists att att' u a3 a2 a1 inf,
  est_row (ddd_mp wit_oracle3 g_oracle 1 Dr Varying false (map (set_weight heavy) mp_data)) 1 = Some (2%Z, 3%Z, att) /\
  one_control false (map (set_weight heavy) mp_data) 2 3 1 Inf /\ is_sample mp_data 2 Inf 3 1 u /\
  ddd_panel wit_oracle3 1 Dr (map heavy_unit u) = TEst att' a3 a2 a1 inf /\ att' <> att.
Proof.
  rewrite weights_ignored.
  set (u := cell_units 2 3 1 (control_rows 2 Inf (cell_rows false 2 3 1 mp_data))).
  destruct (ddd_panel wit_oracle3 1 Dr (map heavy_unit u)) as [|att' a3 a2 a1 inf] eqn:E; [exfalso; vm_compute in E; discriminate|].
  exists (qz 5 / qz 2), att', u, a3, a2, a1, inf. split; [vm_compute; by_parts|]. split.
  { intros z. rewrite <- (cell_controls_in false 2 3 1 (map (set_weight heavy) mp_data) z) by lia. assert (X : cell_controls 2 (cell_rows false 2 3 1 (map (set_weight heavy) mp_data)) = [Inf]) by (vm_compute; reflexivity). rewrite X. cbn. split; [intros [<-|[]]; reflexivity|intros ->; auto]. }
  split; [apply control_sample; [exact mp_keyed|lia|right; left; reflexivity]|]. split; [exact E|].
  assert (X : match ddd_panel wit_oracle3 1 Dr (map heavy_unit u) with TEst a _ _ _ _ => negb (Qceqb a (qz 5 / qz 2)) | TRaise => false end = true) by (vm_compute; reflexivity).
  rewrite E in X. destruct (Qceqb_spec att' (qz 5 / qz 2)); [discriminate|assumption].
Qed.
Print Assumptions C62_weights_used_refuted.

(** * C63. Shocks that cancel and effects that pass through. *)
(** Add to the outcomes unit effects, cohort-by-period shocks, eligibility-by-period shocks and a treatment effect tau g t on the
    eligible units of cohort g from period g on: each post-treatment estimate moves by exactly tau g t, the pre-treatment ones do not
    move, and neither do influence columns and standard errors. *)
Theorem C63_effects : forall o q k m b never data f gam bet tau, keyed data -> time_constant data -> logit_blind o -> wls_existence_blind o -> gmm_inv_ok q ->
  (m <> Ipw -> (1 <= k)%nat /\ wls_ok o k /\
    forall g t p z u, in_grid b data g t -> base_for b data g t p -> controls_of never data g t p z -> is_sample data g z t p u -> ddd_no_collinearity k u) ->
  (forall g t p cols, in_grid b data g t -> base_for b data g t p -> pool_columns o k m never data g t p cols -> gm_inv q (gmm_omega cols) <> None) ->
  ddd_mp o q k m b never (map (shock_row f gam bet tau) data) =
  match ddd_mp o q k m b never data with
  | MRaise => MRaise
  | MTable rows cols ses => MTable (map (fun r => let '(g, t, att) := r in (g, t, att + if (g <=? t)%Z then tau g t else 0)) rows) cols ses
  end.
Proof.
  intros o q k m b never data f gam bet tau K TC LB WB IO HM REG. rewrite (table_shock o q k m b never data f gam bet tau K TC LB WB HM IO REG).
  destruct (ddd_mp o q k m b never data); [reflexivity|]. f_equal. apply map_ext. intros [[g t] a]. reflexivity.
Qed.
Print Assumptions C63_effects.
Example C63_case : keyed mp_data /\ time_constant mp_data /\ logit_blind wit_oracle3 /\ wls_existence_blind wit_oracle3 /\ gmm_inv_ok g_oracle /\ wls_ok wit_oracle3 1 /\
  (forall g t p z u, in_grid Varying mp_data g t -> base_for Varying mp_data g t p -> controls_of false mp_data g t p z -> is_sample mp_data g z t p u -> ddd_no_collinearity 1 u) /\
  forall m g t p cols, in_grid Varying mp_data g t -> base_for Varying mp_data g t p -> pool_columns wit_oracle3 1 m false mp_data g t p cols -> gm_inv g_oracle (gmm_omega cols) <> None.
Proof.
  split; [exact mp_keyed|]. split; [exact mp_tc|]. split; [exact wit3_blind|]. split; [exact wit3_wls_blind|]. split; [exact g_oracle_ok|]. split; [exact wit3_wls_ok|].
  split; [exact (mp_nc Varying false)|]. exact mp_regular.
Qed.
