(** C107-C109: two-period triple differences for repeated cross-sections (ddd_rc). *)
From Verif Require Import Base ListLib ReduceModel Calc DrdidModel DrdidSpec DrdidProofs DrdidWitness DrdidWitness2 Witness RcModel RcSpec RcCalc RcProofs RcProofs2 RcProofs3 RcProofs5 RcWitness RcWitness2 DddModel DddRcModel DddRcSpec DddRcProofs DddRcProofs2 DddRcProofs3 DddRcProofs4 DddRcProofs5 DddRcWitness DddRcWitness2 DddRcWitness3.

(** * C107. What is estimated. *)
(** Each reported comparison is what the two-group repeated cross-section estimator of the same est_method (C89-C93) returns on the rows of
    the two subgroups alone, the estimate is (4 vs 3) + (4 vs 2) - (4 vs 1), and the influence value of every row is the same combination
    of its two-group values, each multiplied by (rows in the sample / rows in the comparison). *)
Theorem C107_three_comparisons : forall o k m tl l att a3 a2 a1 inf, rinv_ok o k -> rfits_scale_free o ->
  (forall c, In c [3; 2; 1]%Z -> rscores_interior o k m (q_pair c l)) -> ddd_rc o k m tl l = QEst att a3 a2 a1 inf ->
  exists j3 j2 j1, two_group_rc o k m tl (q_pair 3 l) = PEst a3 j3 /\ two_group_rc o k m tl (q_pair 2 l) = PEst a2 j2 /\ two_group_rc o k m tl (q_pair 1 l) = PEst a1 j1 /\
    att = a3 + a2 - a1 /\ length inf = length l /\
    forall i, nth i inf 0 = qn (length l) / qn (n_pair 3 l) * row_value 3 l j3 i + qn (length l) / qn (n_pair 2 l) * row_value 2 l j2 i - qn (length l) / qn (n_pair 1 l) * row_value 1 l j1 i.
Proof. exact dddrc_rows. Qed.
Print Assumptions C107_three_comparisons.
(** Intercept only: the triple difference of changes of weighted mean outcomes, whatever the method. *)
Theorem C107_no_covariates : forall o m tl l att a3 a2 a1 inf, (forall u, In u l -> q_x u = [1]) -> (m = Reg -> rwls_ok o 1 /\ rinv_ok o 1) ->
  ddd_rc o 1 m tl l = QEst att a3 a2 a1 inf ->
  att = (sg_change 4 l - sg_change 3 l) - (sg_change 2 l - sg_change 1 l) /\
  a3 = sg_change 4 l - sg_change 3 l /\ a2 = sg_change 4 l - sg_change 2 l /\ a1 = sg_change 4 l - sg_change 1 l.
Proof. exact dddrc_no_cov. Qed.
Print Assumptions C107_no_covariates.
(** No estimate without rows (of positive total weight) of every subgroup in both periods; a negative weight or a code other than
    1, 2, 3, 4 raises. *)
Theorem C107_all_cells_needed : forall o k m tl l att a3 a2 a1 inf, (m = Reg -> rinv_ok o k /\ (1 <= k)%nat) -> ddd_rc o k m tl l = QEst att a3 a2 a1 inf ->
  (forall s t, In s [1; 2; 3; 4]%Z -> 0 < sg_weight s t l) /\ (forall u, In u l -> 0 <= q_w u) /\ (forall u, In u l -> In (q_sg u) [1; 2; 3; 4]%Z).
Proof.
  intros o k m tl l att a3 a2 a1 inf RI E. split; [exact (dddrc_all_cells o k m tl l att a3 a2 a1 inf RI E)|]. apply dddrc_inv in E. destruct E as [W [SG _]]. split; [exact W|].
  intros u Hu. specialize (SG u Hu). unfold q_sg_ok in SG. cbn.
  destruct (Z.eqb_spec (q_sg u) 1); [auto|]. destruct (Z.eqb_spec (q_sg u) 2); [auto|]. destruct (Z.eqb_spec (q_sg u) 3); [auto|]. destruct (Z.eqb_spec (q_sg u) 4); [auto|discriminate].
Qed.
Print Assumptions C107_all_cells_needed.
(** Invalid input raises. *)
Theorem C107_invalid_raises : forall o k m tl l,
  (exists u, In u l /\ q_w u < 0) \/ (exists u, In u l /\ ~ In (q_sg u) [1; 2; 3; 4]%Z) \/ (forall u, In u l -> q_sg u <> 4%Z) \/
  (forall u, In u l -> q_post u = true) \/ (forall u, In u l -> q_post u = false) -> ddd_rc o k m tl l = QRaise.
Proof.
  intros o k m tl l H. unfold ddd_rc. destruct (q_neg l) eqn:EN; [reflexivity|]. destruct (forallb q_sg_ok l) eqn:ES; [|reflexivity].
  destruct (existsb (fun u => q_sg u =? 4)%Z l) eqn:E4; [|reflexivity]. destruct (existsb q_post l) eqn:EP; [|reflexivity]. destruct (existsb (fun u => negb (q_post u)) l) eqn:ER; [|reflexivity]. exfalso.
  destruct H as [[u [Hu Hw]]|[[u [Hu Hs]]|[Hs|[Hp|Hp]]]].
  - assert (X : q_neg l = true); [|congruence]. apply existsb_exists. exists u. split; [exact Hu|]. destruct (Qcltb_spec (q_w u) 0); [reflexivity|contradiction].
  - rewrite forallb_forall in ES. specialize (ES u Hu). unfold q_sg_ok in ES. apply Hs. cbn.
    destruct (Z.eqb_spec (q_sg u) 1); [auto|]. destruct (Z.eqb_spec (q_sg u) 2); [auto|]. destruct (Z.eqb_spec (q_sg u) 3); [auto|]. destruct (Z.eqb_spec (q_sg u) 4); [auto|discriminate].
  - apply existsb_exists in E4. destruct E4 as [u [Hu E4]]. apply Z.eqb_eq in E4. exact (Hs u Hu E4).
  - apply existsb_exists in ER. destruct ER as [u [Hu E]]. rewrite (Hp u Hu) in E. discriminate E.
  - apply existsb_exists in EP. destruct EP as [u [Hu E]]. rewrite (Hp u Hu) in E. discriminate E.
Qed.
Print Assumptions C107_invalid_raises.
(** a logit fit that fails in any of the three comparisons is an exception of the call *)
Theorem C107_failed_fit_raises : forall o k m tl l c, m <> Reg -> In c [3; 2; 1]%Z -> ro_logit o (q_pair c (q_normalise l)) = None ->
  ddd_rc o k m tl l = QRaise.
Proof.
  intros o k m tl l c Hm Hc E. unfold ddd_rc. repeat (match goal with |- (if ?b then QRaise else _) = _ => destruct b; [reflexivity|] end).
  assert (D : did_rc o k m tl (q_pair c (q_normalise l)) = PRaise) by (unfold did_rc, q_pscore; destruct m; [|congruence|]; rewrite E; reflexivity).
  unfold all_did_rc. destruct Hc as [<-|[<-|[<-|[]]]]; rewrite D.
  - reflexivity.
  - destruct (did_rc o k m tl (q_pair 3 (q_normalise l))); reflexivity.
  - destruct (did_rc o k m tl (q_pair 3 (q_normalise l))), (did_rc o k m tl (q_pair 2 (q_normalise l))); reflexivity.
Qed.
Print Assumptions C107_failed_fit_raises.
(** two regressors, 24 rows, unequal weights *)
Example C107_case : forall m, rinv_ok rwit2 2 /\ rwls_ok rwit2 2 /\ rfits_scale_free rwit2 /\ (forall c, In c [3; 2; 1]%Z -> rscores_interior rwit2 2 m (q_pair c q_rows)) /\
  match ddd_rc rwit2 2 m 1 q_rows with QEst a a3 a2 a1 _ => negb (Qceqb a 0) && negb (Qceqb a3 a2) && negb (Qceqb a2 a1) | _ => false end = true.
Proof. intros m. split; [exact rwit2_inv_ok|]. split; [exact rwit2_wls_ok|]. split; [exact rwit2_scale_free|]. split; [exact (q_wit_interior m)|]. destruct m; lazy; reflexivity. Qed.
Example C107_case_no_covariates : rwls_ok rwit1 1 /\ rinv_ok rwit1 1 /\ (forall u, In u q_rows1 -> q_x u = [1]) /\
  forall m, match ddd_rc rwit1 1 m 1 q_rows1 with QEst a _ _ _ _ => Qceqb a ((sg_change 4 q_rows1 - sg_change 3 q_rows1) - (sg_change 2 q_rows1 - sg_change 1 q_rows1)) && negb (Qceqb a 0) | _ => false end = true.
Proof.
  split; [exact rwit1_wls_ok|]. split; [exact rwit1_inv_ok|]. split; [|destruct m; lazy; reflexivity].
  intros u H. cbn in H. repeat (destruct H as [<-|H]; [reflexivity|]). destruct H.
Qed.

(** * C108. Shocks that the triple difference removes, weight scale, row order. *)
(** Multiply outcomes by c; shift every subgroup by its own level; in the post period shift everybody by g, the treated states by a, the
    eligible by b, the treated-eligible by tau: the estimate becomes c * att + tau. *)
Theorem C108_shocks : forall o k m tl l c g a b tau f att a3 a2 a1 inf att' a3' a2' a1' inf',
  rlogit_blind o -> (m <> Ipw -> rwls_ok o k /\ q_no_collinearity k l /\ q_intercept k l) ->
  ddd_rc o k m tl l = QEst att a3 a2 a1 inf -> ddd_rc o k m tl (map (q_shocked c g a b tau f) l) = QEst att' a3' a2' a1' inf' ->
  att' = c * att + tau /\ inf' = map (fun v => c * v) inf.
Proof. intros o k m tl l c g a b tau f att a3 a2 a1 inf att' a3' a2' a1' inf'. apply dddrc_shock. Qed.
Print Assumptions C108_shocks.
Theorem C108_weight_scale : forall o k m tl l c, 0 < c -> ddd_rc o k m tl (map (q_scale_w c) l) = ddd_rc o k m tl l.
Proof. exact dddrc_scale. Qed.
Print Assumptions C108_weight_scale.
Theorem C108_row_order : forall o k m tl l l', rfits_symmetric o -> Permutation l l' -> same_dddrc l l' (ddd_rc o k m tl l) (ddd_rc o k m tl l').
Proof. exact dddrc_perm. Qed.
Print Assumptions C108_row_order.
Example C108_case : forall m, rlogit_blind rwit2 /\ rwls_ok rwit2 2 /\ q_no_collinearity 2 q_rows /\ q_intercept 2 q_rows /\ rfits_symmetric rwit2 /\ Permutation q_rows (rev q_rows) /\
  is_qest (ddd_rc rwit2 2 m 1 q_rows) = true /\ is_qest (ddd_rc rwit2 2 m 1 (map (q_shocked (qz 3) (qz 5) (qz 2) (qz 7) (qz 4) q_lvl) q_rows)) = true.
Proof.
  intros m. split; [exact rwit2_blind|]. split; [exact rwit2_wls_ok|]. split; [exact q_wit_nc|]. split; [exact q_wit_intercept|]. split; [exact rwit2_symmetric|]. split; [apply Permutation_rev|].
  split; [exact (q_wit_est m)|exact (q_wit_shock m)].
Qed.

(** * C109. The influence function. *)
Theorem C109_centred : forall o k m tl l att a3 a2 a1 inf, rwls_ok o k -> (m = Reg \/ q_scores o k l) -> ddd_rc o k m tl l = QEst att a3 a2 a1 inf ->
  length inf = length l /\ qsum inf = 0.
Proof. exact dddrc_centred. Qed.
Print Assumptions C109_centred.
(** Multiply the weight of each row u by 1 + e * h u and re-run. Outcome regression and inverse probability weighting: the estimate is
    differentiable in e at 0, with derivative the sample average of h times the reported influence values. *)
Theorem C109_reg_ipw_inf_is_derivative : forall o k m tl l h att a3 a2 a1 inf, rinv_ok o k -> rwls_ok o k -> rfits_scale_free o -> m <> Dr ->
  (m <> Reg -> forall c, In c [3; 2; 1]%Z -> rsmooth_logit o k tl (q_pair c l) (fun p => h (q_un_pair c p))) ->
  ddd_rc o k m tl l = QEst att a3 a2 a1 inf -> near0 (fun e => dddrc_has_est (ddd_rc o k m tl (map (q_reweight e h) l))) ->
  derivative_at_0 (fun e => dddrc_att_of (ddd_rc o k m tl (map (q_reweight e h) l))) (q_avg_with h l inf).
Proof. exact dddrc_derivative. Qed.
Print Assumptions C109_reg_ipw_inf_is_derivative.
(** Doubly robust: the derivative differs from the average of the reported values by K3 + K2 - K1, where Kc is twice the sum over the
    covariates of the pre-period imbalance left by the odds weights in comparison c times the derivative of the pre-period comparison
    coefficient (the sign error of C93). *)
Theorem C109_dr_derivative : forall o k tl l h att a3 a2 a1 inf, rinv_ok o k -> rwls_ok o k -> rfits_scale_free o ->
  (forall c, In c [3; 2; 1]%Z -> rsmooth_logit o k tl (q_pair c l) (fun p => h (q_un_pair c p))) ->
  ddd_rc o k Dr tl l = QEst att a3 a2 a1 inf -> near0 (fun e => dddrc_has_est (ddd_rc o k Dr tl (map (q_reweight e h) l))) ->
  exists d0 : Z -> nat -> Qc,
    (forall c j, In c [3; 2; 1]%Z -> (j < k)%nat -> derivative_at_0 (fun e => nth j (rbeta_of o false false (q_pair c (map (q_reweight e h) l))) 0) (d0 c j)) /\
    let K := fun c => Q2Qc 2 * sumf (fun j => pre_imbalance tl (rps_fit (ro_mu o) k (rgamma_of o (q_pair c l))) (q_pair c l) j * d0 c j) (seq 0 k) in
    derivative_at_0 (fun e => dddrc_att_of (ddd_rc o k Dr tl (map (q_reweight e h) l))) (q_avg_with h l inf + (K 3%Z + K 2%Z - K 1%Z)).
Proof. exact dddrc_dr_derivative. Qed.
Print Assumptions C109_dr_derivative.
(** Hence exact when the odds weights balance every covariate before treatment in all three comparisons ... *)
Theorem C109_dr_inf_is_derivative_partial : forall o k tl l h att a3 a2 a1 inf, rinv_ok o k -> rwls_ok o k -> rfits_scale_free o ->
  (forall c, In c [3; 2; 1]%Z -> rsmooth_logit o k tl (q_pair c l) (fun p => h (q_un_pair c p))) ->
  (forall c j, In c [3; 2; 1]%Z -> (j < k)%nat -> pre_imbalance tl (rps_fit (ro_mu o) k (rgamma_of o (q_pair c l))) (q_pair c l) j = 0) ->
  ddd_rc o k Dr tl l = QEst att a3 a2 a1 inf -> near0 (fun e => dddrc_has_est (ddd_rc o k Dr tl (map (q_reweight e h) l))) ->
  derivative_at_0 (fun e => dddrc_att_of (ddd_rc o k Dr tl (map (q_reweight e h) l))) (q_avg_with h l inf).
Proof.
  intros o k tl l h att a3 a2 a1 inf IO WO FS SM B E N. destruct (dddrc_dr_derivative o k tl l h att a3 a2 a1 inf IO WO FS SM E N) as [d0 [_ D]]. cbn zeta in D. revert D. apply D_eq.
  assert (Z0 : forall c, In c [3; 2; 1]%Z -> sumf (fun j => pre_imbalance tl (rps_fit (ro_mu o) k (rgamma_of o (q_pair c l))) (q_pair c l) j * d0 c j) (seq 0 k) = 0).
  { intros c Hc. apply sumf_zero. intros j Hj. apply in_seq in Hj. rewrite (B c j Hc) by lia. ring. }
  rewrite !Z0 by (cbn; auto). ring.
Qed.
Print Assumptions C109_dr_inf_is_derivative_partial.
(** ... and not in general, even with correct fits: fifteen rows. *)
Theorem C109_dr_inf_is_derivative_refuted : exists o k tl l h att a3 a2 a1 inf, rinv_ok o k /\ rwls_ok o k /\ rfits_scale_free o /\
  (forall c, In c [3; 2; 1]%Z -> rsmooth_logit o k tl (q_pair c l) (fun p => h (q_un_pair c p))) /\
  ddd_rc o k Dr tl l = QEst att a3 a2 a1 inf /\ near0 (fun e => dddrc_has_est (ddd_rc o k Dr tl (map (q_reweight e h) l))) /\
  ~ derivative_at_0 (fun e => dddrc_att_of (ddd_rc o k Dr tl (map (q_reweight e h) l))) (q_avg_with h l inf).
Proof.
  exists rwit3, 1%nat, 1, q_smooth, q_h. assert (N := q_smooth_est Dr). assert (N0 := near0_at0 _ N). cbv beta in N0.
  assert (R0 : map (q_reweight 0 q_h) q_smooth = q_smooth).
  { rewrite <- (map_id q_smooth) at 2. apply map_ext. intros u. unfold q_reweight, q_set_w. destruct u; cbn. f_equal. ring. }
  rewrite R0 in N0. destruct N0 as [att [a3 [a2 [a1 [inf E]]]]]. exists att, a3, a2, a1, inf.
  split; [exact rwit3_inv_ok|]. split; [exact rwit3_wls_ok|]. split; [exact rwit3_scale_free|]. split; [exact q_smooth_logit|]. split; [exact E|]. split; [exact N|].
  intros D. destruct (dddrc_dr_derivative rwit3 1 1 q_smooth q_h att a3 a2 a1 inf rwit3_inv_ok rwit3_wls_ok rwit3_scale_free q_smooth_logit E N) as [d0 [H D']]. cbn zeta in D'.
  assert (U := D_unique _ _ _ D D').
  assert (HD : forall c, In c [3; 2; 1]%Z -> d0 c 0%nat = two / (three * three)).
  { intros c Hc. apply (D_unique _ _ _ (H c 0%nat Hc ltac:(lia))). eapply D_ext; [|exact D_rwit_beta]. apply near0_all. intros e. rewrite q_pair_reweight, (q_smooth_pair c Hc). reflexivity. }
  cbn [seq] in U. rewrite !sumf_cons, !sumf_nil in U. rewrite !HD in U by (cbn; auto). rewrite !q_smooth_pair in U by (cbn; auto).
  set (x := pre_imbalance 1 (rps_fit (ro_mu rwit3) 1 (rgamma_of rwit3 rwit_smooth)) rwit_smooth 0) in *.
  assert (Z0 : Q2Qc 2 * (x * (two / (three * three)) + 0) = 0).
  { transitivity (q_avg_with q_h q_smooth inf + (Q2Qc 2 * (x * (two / (three * three)) + 0) + Q2Qc 2 * (x * (two / (three * three)) + 0) - Q2Qc 2 * (x * (two / (three * three)) + 0)) - q_avg_with q_h q_smooth inf); [ring|rewrite <- U; ring]. }
  revert Z0. vm_compute. discriminate.
Qed.
Print Assumptions C109_dr_inf_is_derivative_refuted.
Example C109_case_centred : rwls_ok rwit2 2 /\ q_scores rwit2 2 q_rows /\ forall m, is_qest (ddd_rc rwit2 2 m 1 q_rows) = true.
Proof. split; [exact rwit2_wls_ok|]. split; [exact q_wit_scores|exact q_wit_est]. Qed.
(** fifteen rows: all hypotheses of the derivative theorems hold for every method, with a non-zero average *)
Example C109_case_derivative : rinv_ok rwit3 1 /\ rwls_ok rwit3 1 /\ rfits_scale_free rwit3 /\
  (forall c, In c [3; 2; 1]%Z -> rsmooth_logit rwit3 1 1 (q_pair c q_smooth) (fun p => q_h (q_un_pair c p))) /\
  forall m, near0 (fun e => dddrc_has_est (ddd_rc rwit3 1 m 1 (map (q_reweight e q_h) q_smooth))) /\
    match ddd_rc rwit3 1 m 1 q_smooth with QEst _ _ _ _ i => negb (Qceqb (q_avg_with q_h q_smooth i) 0) | _ => false end = true.
Proof.
  split; [exact rwit3_inv_ok|]. split; [exact rwit3_wls_ok|]. split; [exact rwit3_scale_free|]. split; [exact q_smooth_logit|].
  intros m. split; [exact (q_smooth_est m)|]. destruct m; vm_compute; reflexivity.
Qed.
(** five rows times subgroups, intercept only: also balanced *)
Example C109_case_balanced : (forall c, In c [3; 2; 1]%Z -> rsmooth_logit rwit3 1 1 (q_pair c q_bal) (fun p => q_h (q_un_pair c p))) /\
  near0 (fun e => dddrc_has_est (ddd_rc rwit3 1 Dr 1 (map (q_reweight e q_h) q_bal))) /\
  (forall c j, In c [3; 2; 1]%Z -> (j < 1)%nat -> pre_imbalance 1 (rps_fit (ro_mu rwit3) 1 (rgamma_of rwit3 (q_pair c q_bal))) (q_pair c q_bal) j = 0) /\
  match ddd_rc rwit3 1 Dr 1 q_bal with QEst _ _ _ _ i => negb (Qceqb (q_avg_with q_h q_bal i) 0) | _ => false end = true.
Proof.
  split; [exact q_bal_logit|]. split; [exact (q_bal_est Dr)|]. split; [|vm_compute; reflexivity].
  intros c j Hc Hj. rewrite (q_bal_pair c Hc). assert (j = 0)%nat by lia. subst j. by_qc.
Qed.
(** the five rows alone meet the hypotheses of C93_dr_inf_is_derivative_partial *)
Example C93_case_balanced : rsmooth_logit rwit3 1 1 rwit_bal rwit_h /\
  near0 (fun e => has_est (drdid_trad_rc rwit3 1 1 (map (rreweight e rwit_h) rwit_bal)) /\ has_est (drdid_rc rwit3 1 1 (map (rreweight e rwit_h) rwit_bal))) /\
  (forall j, (j < 1)%nat -> pre_imbalance 1 (rps_fit (ro_mu rwit3) 1 (rgamma_of rwit3 rwit_bal)) rwit_bal j = 0).
Proof.
  split; [exact rwit_bal_logit|]. split; [eapply near0_impl; [|exact rwit_bal_est]; cbn beta; tauto|]. intros j Hj. assert (j = 0)%nat by lia. subst j. by_qc.
Qed.
