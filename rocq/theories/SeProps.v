(** C36, C37: influence functions of aggregates and analytical standard errors. *)
From Verif Require Import Base ListLib Calc PreprocessModel PreprocessSpec AttGtModel AttGtSpec AttGtProofs4 AggteModel AggteSpec AggteProofs3 AggteProofs5 SeModel SeProofs Witness.
Local Open Scope list_scope.
Local Notation length := List.length.

(** * C36. The influence function of an aggregate is its derivative.
    Let the unit weights move to w_i (1 + e h_i) and each cell estimate along any path whose derivative is what its own influence
    values say ([paths_of]); the overall effect and every by-effect then move with the derivative given by the reported
    aggregated influence values. This pins down both the cell part and the weight-estimation part. *)
Theorem C36_aggregate_derivative :
  forall ty dropna be mi ma units mp h F r,
  (forall m, In m mp -> m_att m <> None -> 0 < share units (m_g m)) -> paths_of (length units) h F mp ->
  aggte ty dropna be mi ma units mp = Some r ->
  let path e := aggte ty dropna be mi ma (reweigh e h units) (map (move F e) mp) in
  derivative_at_0 (fun e => overall_value (path e)) (havg (length units) h (a_inf r)) /\
  forall i, derivative_at_0 (fun e => by_value i (path e)) (havg (length units) h (nth i (a_inf_by r) [])).
Proof. exact aggte_derivative. Qed.
Print Assumptions C36_aggregate_derivative.

(** Concrete case: two cohorts and a never-treated unit, unequal weights, straight paths, a direction that moves weights and effects. *)
Definition c36_units : list unit_rec := [(Fin 2, qz 1); (Fin 2, qz 2); (Fin 3, qz 1); (Inf, qz 1)]%Z.
Definition c36_cells : list mp_cell :=
  let q a b c d := [qz a; qz b; qz c; qz d] in
  [{| m_g := 2; m_t := 2; m_att := Some (qz 1); m_inf := q 1 2 0 (-3) |}; {| m_g := 2; m_t := 3; m_att := Some (qz 4); m_inf := q 2 (-1) 0 (-1) |};
   {| m_g := 3; m_t := 2; m_att := None; m_inf := q 0 0 0 0 |}; {| m_g := 3; m_t := 3; m_att := Some (qz 2); m_inf := q 0 0 5 (-5) |}]%Z.
Definition c36_h : list Qc := [qz 1; 0; qz 3; qz (-1)].
Definition c36_F (m : mp_cell) (e : Qc) : Qc := nan0 (m_att m) + e * havg 4 c36_h (m_inf m).
Example C36_case : (forall m, In m c36_cells -> m_att m <> None -> 0 < share c36_units (m_g m)) /\ paths_of (length c36_units) c36_h c36_F c36_cells /\
  forallb (fun ty => match aggte ty true None None None c36_units c36_cells with Some r => negb (Qceqb (havg 4 c36_h (a_inf r)) 0) | None => false end)
    [TSimple; TGroup; TDynamic; TCalendar] = true.
Proof.
  split; [|split; [|vm_compute; reflexivity]].
  - intros m Hm _. cbn in Hm. repeat (destruct Hm as [<-|Hm]; [vm_compute; reflexivity|]). destruct Hm.
  - intros m a Hm Ha. unfold c36_F. rewrite Ha. cbn [nan0]. split; [ring|]. change (length c36_units) with 4%nat. set (d := havg 4 c36_h (m_inf m)).
    apply (D_eq _ (0 + (1 * d + 0 * 0))); [ring|]. apply D_add; [apply D_const|]. apply (D_mul (fun e => e) (fun _ => d) 1 0 D_id (D_const d)).
Qed.

(** * C37. Standard errors.
    The squared standard error reported for a cell equals the one the two-period estimator computes on that cell's sample. *)
Theorem C37_panel_cell :
  forall c d out b e g t att inf (D := build_did_data c out),
  c_panel c = true -> c_unbal c = false -> c_has_id c = true -> valid_panel d -> did_pipeline c d = Some out -> centred_panel e ->
  run_att_gt (EPanel e) c D b g t = CEst att inf ->
  exists y1 y0 dd x w psi, e y1 y0 dd x w = Some (att, psi) /\ se2 (d_ids D) inf = two_period_se2 psi.
Proof. exact panel_cell_se. Qed.
Print Assumptions C37_panel_cell.
Theorem C37_cross_section_cell :
  forall c l b e g t att inf (D := build_did_data c l), c_unbal c = false -> NoDup (map r_id l) -> centred_rc e ->
  run_att_gt (ERc e) c D b g t = CEst att inf ->
  exists y post dd x w psi, e y post dd x w = Some (att, psi) /\ se2 (d_ids D) inf = two_period_se2 psi.
Proof. exact rc_cell_se_distinct. Qed.
Print Assumptions C37_cross_section_cell.
(** unbalanced panels: the two-period formula applied to influence values summed within units *)
Theorem C37_unbalanced_cell :
  forall c l b e g t att inf (D := build_did_data c l), c_unbal c = true -> centred_rc e ->
  run_att_gt (ERc e) c D b g t = CEst att inf ->
  exists y post dd x w psi ids, e y post dd x w = Some (att, psi) /\ length ids = length psi /\ (forall i, In i ids -> In i (map r_id l)) /\
    let unit_sum i := sumf snd (filter (fun p => (fst p =? i)%Z) (combine ids psi)) in
    se2 (d_ids D) inf = sumf (fun i => unit_sum i * unit_sum i) (zuniq (map r_id l)) / (qn (length psi) * qn (length psi)).
Proof. exact unbalanced_cell_se. Qed.
Print Assumptions C37_unbalanced_cell.
(** panel=False, allow_unbalanced_panel=False: with repeated ids the reported standard error is the two-period one times rows / ids. *)
Theorem C37_cross_section_inflated :
  forall c l b e g t att inf (D := build_did_data c l), c_unbal c = false -> centred_rc e ->
  run_att_gt (ERc e) c D b g t = CEst att inf ->
  exists y post dd x w psi, e y post dd x w = Some (att, psi) /\
    let ratio := qn (length l) / qn (length (zuniq (map r_id l))) in se2 (d_ids D) inf = ratio * ratio * two_period_se2 psi.
Proof. exact rc_cell_se. Qed.
Print Assumptions C37_cross_section_inflated.
Definition demeaned : rc_estimator := fun y post dd x w => let v := map ind dd in Some (Some 0, map (fun z => z - mean (fun z => z) v) v).
Lemma demeaned_centred : centred_rc demeaned.
Proof.
  intros y post dd x w att psi [= <- <-]. rewrite !map_length. split; [reflexivity|]. destruct dd as [|b dd]; [reflexivity|].
  set (v := map ind (b :: dd)). change (qsum (map (fun z => z - mean (fun z => z) v) v)) with (sumf (fun z => z - mean (fun z => z) v) v).
  rewrite sumf_sub, sumf_const. unfold mean. assert (N : qn (length v) <> 0) by (apply Qc_pos_neq0, qn_pos; cbn; lia). field. exact N.
Qed.
(** witness: 2 ids, 4 rows, a standard error twice too large *)
Theorem C37_repeated_ids_refuted :
  exists c d out att inf psi, c_panel c = false /\ c_has_id c = true /\ c_unbal c = false /\ valid_panel d /\ did_pipeline c d = Some out /\
    let D := build_did_data c out in
    run_att_gt (ERc demeaned) c D Varying 0 0 = CEst att inf /\ (exists y post dd x w, demeaned y post dd x w = Some (att, psi)) /\
    se2 (d_ids D) inf = qz 4 * two_period_se2 psi /\ two_period_se2 psi <> 0.
Proof.
  exists {| c_panel := false; c_unbal := false; c_has_id := true; c_has_w := false; c_never := true; c_ant := 0 |}.
  exists [wq 1 1 (Fin 0) 1; wq 1 2 (Fin 0) 2; wq 2 1 (Fin 2) 1; wq 2 2 (Fin 2) 5]%Z.
  eexists. eexists. eexists. exists (let v := map ind [false; true; false; true] in map (fun z => z - mean (fun z => z) v) v).
  do 3 (split; [reflexivity|]). split.
  { split; [cbn; repeat constructor; cbn; intuition congruence|]. cbn. intros a b Ha Hb. intuition (subst; cbn in *; congruence). }
  split; [vm_compute; reflexivity|]. cbn zeta. split; [vm_compute; reflexivity|]. split.
  { exists [], [], [false; true; false; true], [], []. unfold demeaned. cbn zeta. f_equal. }
  split; [apply Qc_is_canon; vm_compute; reflexivity|]. intros E. apply (f_equal (fun z => Qceqb z 0)) in E. vm_compute in E. discriminate E.
Qed.
Print Assumptions C37_repeated_ids_refuted.

(** Aggregates with fixed weights: the variance of a cohort effect is the average of the cells' covariance matrix, and the overall
    of types dynamic and calendar the average of the covariance of the effects averaged. *)
Theorem C37_cohort_effect :
  forall dropna be mi ma units mp r i g, aggte TGroup dropna be mi ma units mp = Some r -> units <> [] ->
  (forall m, In m mp -> length (m_inf m) = length units) -> nth_error (a_keys r) i = Some g ->
  let cells := used_cells TGroup dropna mp in
  let ks := filter (covers TGroup cells be ma g) cells in
  ks <> [] -> variance (length units) (nth i (a_inf_by r) []) =
    sumf (fun a => sumf (fun b => vcov (length units) (k_inf a) (k_inf b)) ks) ks / (qn (length ks) * qn (length ks)) / qn (length units).
Proof. exact group_by_variance. Qed.
Print Assumptions C37_cohort_effect.
Theorem C37_averaged_overall :
  forall dropna be mi ma units mp r ty, aggte ty dropna be mi ma units mp = Some r -> units <> [] ->
  (forall m, In m mp -> centred (length units) (m_inf m)) -> ty = TDynamic \/ ty = TCalendar -> a_overall r <> None ->
  let cols := map snd (filter (fun q => match ty with TDynamic => (0 <=? fst (fst q))%Z | _ => match snd (fst q) with Some _ => true | None => false end end) (combine (combine (a_keys r) (a_by r)) (a_inf_by r))) in
  cols <> [] /\ variance (length units) (a_inf r) =
    sumf (fun a => sumf (fun b => vcov (length units) a b) cols) cols / (qn (length cols) * qn (length cols)) / qn (length units).
Proof. exact averaged_columns. Qed.
Print Assumptions C37_averaged_overall.
Example C37_case : (forall m, In m c36_cells -> centred (length c36_units) (m_inf m)) /\
  forallb (fun ty => match aggte ty true None None None c36_units c36_cells with
                     | Some r => match a_overall r with Some _ => negb (Qceqb (variance 4 (a_inf r)) 0) | None => false end | None => false end) [TGroup; TDynamic; TCalendar] = true.
Proof.
  split; [|vm_compute; reflexivity]. intros m Hm. cbn in Hm. repeat (destruct Hm as [<-|Hm]; [split; [reflexivity|apply Qc_is_canon; vm_compute; reflexivity]|]). destruct Hm.
Qed.

(** The NaN rule: a squared standard error is reported exactly when it exceeds 100 eps (eps = 2^-52), and then unchanged. *)
Theorem C37_reported_rule :
  forall v s, reported_se2 v = Some s <-> s = v /\ Q2Qc (100 # 4503599627370496) < v.
Proof.
  intros v s. unfold reported_se2, se_floor2. destruct (Qcleb_spec v (Q2Qc (100 # 4503599627370496))) as [h|h].
  - split; [discriminate|]. intros [_ X]. exfalso. exact (Qcle_not_lt _ _ h X).
  - apply Qcnot_le_lt in h. split; [intros [= <-]; split; [reflexivity|exact h]|intros [-> _]; reflexivity].
Qed.
Print Assumptions C37_reported_rule.
(** so the rule depends on the units of the outcome: for any cell with a positive standard error there is a rescaling of the outcome
    (hence of the influence values) by c > 0 under which the standard error is no longer reported. *)
Theorem C37_reported_scale_refuted :
  forall n inf, (0 < n)%nat -> 0 < se2 n inf ->
  exists c, 0 < c /\ se2 n (map (Qcmult c) inf) = c * c * se2 n inf /\ 0 < se2 n (map (Qcmult c) inf) /\ reported_se2 (se2 n (map (Qcmult c) inf)) = None.
Proof.
  intros n inf Hn Hv. set (F := Q2Qc (100 # 4503599627370496)).
  assert (HF : 0 < F) by (unfold F, Qclt; reflexivity).
  assert (Sc : forall c, se2 n (map (Qcmult c) inf) = c * c * se2 n inf).
  { intros c. unfold se2, vcov.
    assert (E : forall l, sumf (fun p => fst p * snd p) (combine (map (Qcmult c) l) (map (Qcmult c) l)) = c * c * sumf (fun p => fst p * snd p) (combine l l)).
    { intros l. unfold sumf. induction l as [|x l IH]; [cbn; ring|]. cbn [map combine qsum fold_right fst snd]. unfold qsum in IH. rewrite IH. ring. }
    rewrite E. field. apply Qc_pos_neq0, qn_pos, Hn. }
  assert (X : exists c, 0 < c /\ c * c * se2 n inf <= F).
  { set (v := se2 n inf) in *. exists (F / (1 + v + F)).
    assert (D : 0 < 1 + v + F) by qclra. set (c := F / (1 + v + F)).
    assert (Ec : c * (1 + v + F) = F) by (unfold c; field; apply Qc_pos_neq0, D).
    assert (C0 : 0 < c). { destruct (Qc_le_or_lt c 0) as [h|h]; [exfalso|exact h]. assert (c * (1 + v + F) <= 0) by qcnra. qclra. }
    split; [exact C0|]. assert (C1 : c <= 1). { destruct (Qc_le_or_lt c 1) as [h|h]; [exact h|exfalso]. assert (1 + v + F < c * (1 + v + F)) by qcnra. qclra. }
    assert (A1 : c * v <= F) by qcnra. assert (c * (c * v) <= c * v) by (assert (0 <= c * v) by qcnra; qcnra).
    replace (c * c * v) with (c * (c * v)) by ring. qclra. }
  destruct X as (c & C0 & C1). exists c. split; [exact C0|]. split; [apply Sc|]. rewrite Sc. split; [assert (0 < c * c) by qcnra; qcnra|].
  unfold reported_se2. destruct (Qcleb_spec (c * c * se2 n inf) se_floor2) as [h|h]; [reflexivity|]. exfalso. apply h. exact C1.
Qed.
Print Assumptions C37_reported_scale_refuted.
Example C37_reported_case : 0 < se2 2 [qz 1; qz (-1)] /\ reported_se2 (se2 2 [qz 1; qz (-1)]) <> None.
Proof. split; [vm_compute; reflexivity|]. intros X. vm_compute in X. discriminate X. Qed.
