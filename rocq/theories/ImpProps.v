(** C113-C116: the improved doubly robust and the Horvitz-Thompson panel estimators, and the tilting objective. *)
From Coq Require Import Qcabs.
From Verif Require Import Base ListLib ReduceModel Calc DrdidModel DrdidSpec DrdidProofs DrdidProofs2 DrdidProofs3 DrdidProofs4 DrdidProofs5 DrdidWitness DrdidWitness2 Witness ImpModel ImpSpec ImpProofs ImpProofs2 ImpProofs3 ImpProofs4 IptProofs ImpWitness.

Definition tl995 : Qc := Q2Qc (995 # 1000).
Notation est r := (is_est r = true).
(** * C113. What the estimates are. *)
(** drdid_imp_panel: treated mean of the residual minus the odds-weighted total of the comparison residuals per unit of treated weight
    (the odds weights are not renormalised). ipw_did_panel: the same for the outcome change itself. *)
Theorem C113_estimates_as_totals : forall o k tl l,
  (forall att inf, drdid_imp_panel o k tl l = PEst att inf -> exists gamma beta,
     o_logit o (normalise l) = Some gamma /\
     o_wls o (map (tilt (ps_fit (o_mu o) k gamma)) (filter (fun u => negb (p_d u)) (normalise l))) = Some beta /\
     att = group_mean true (fun u => p_dy u - dotk k (p_x u) beta) l
           - odds_total tl (ps_fit (o_mu o) k gamma) (fun u => p_dy u - dotk k (p_x u) beta) l) /\
  (forall att inf, ipw_did_panel o k tl l = PEst att inf -> exists gamma, o_logit o (normalise l) = Some gamma /\
     att = group_mean true p_dy l - odds_total tl (ps_fit (o_mu o) k gamma) p_dy l).
Proof. intros o k tl l. split; intros att inf E; [exact (imp_value _ _ _ _ _ _ E)|exact (pht_value _ _ _ _ _ _ E)]. Qed.
Print Assumptions C113_estimates_as_totals.
(** With an intercept and no comparison unit trimmed, drdid_imp_panel is the treated units' mean deviation from the least squares fit
    of the comparison units weighted by weight times odds. *)
Theorem C113_imp_is_tilted_regression : forall o k tl l att inf, wls_ok o k -> has_intercept l -> (1 <= k)%nat ->
  drdid_imp_panel o k tl l = PEst att inf ->
  exists gamma beta, o_logit o (normalise l) = Some gamma /\ odds_normal k (ps_fit (o_mu o) k gamma) l beta /\
  (untrimmed tl (ps_fit (o_mu o) k gamma) l -> att = group_mean true (fun u => p_dy u - dotk k (p_x u) beta) l).
Proof. exact imp_regression. Qed.
Print Assumptions C113_imp_is_tilted_regression.
(** Scores that balance the covariate totals, nothing trimmed: the four estimators that use a score report the same number; the
    outcome regressions inside the two doubly robust ones do not matter. *)
Theorem C113_calibrated_scores_agree : forall o k tl l gamma, has_intercept l -> (1 <= k)%nat ->
  o_logit o (normalise l) = Some gamma -> calibrated k (ps_fit (o_mu o) k gamma) l -> untrimmed tl (ps_fit (o_mu o) k gamma) l ->
  let a := group_mean true p_dy l - odds_mean tl (ps_fit (o_mu o) k gamma) p_dy l in
  (forall att inf, drdid_imp_panel o k tl l = PEst att inf -> att = a) /\
  (forall att inf, ipw_did_panel o k tl l = PEst att inf -> att = a) /\
  (forall att inf, std_ipw_did_panel o k tl l = PEst att inf -> att = a) /\
  (forall att inf, drdid_panel o k tl l = PEst att inf -> att = a).
Proof.
  intros o k tl l g HI Hk Eg C U. cbn zeta. split; [|split; [|split]]; intros att inf E.
  - rewrite (imp_weighting o k tl l att inf g E Eg C U), (odds_total_mean k) by assumption. reflexivity.
  - apply pht_value in E. destruct E as [g1 [Eg1 ->]]. rewrite Eg in Eg1. injection Eg1 as <-. rewrite (odds_total_mean k) by assumption. reflexivity.
  - apply ipw_value in E. destruct E as [g1 [Eg1 ->]]. rewrite Eg in Eg1. injection Eg1 as <-. reflexivity.
  - apply dr_value in E. destruct E as [g1 [b [Eg1 [_ ->]]]]. rewrite Eg in Eg1. injection Eg1 as <-. cbn zeta.
    rewrite group_mean_sub, odds_mean_sub. rewrite group_mean_dot, odds_mean_dot.
    assert (B : vec_of k (fun j => group_mean true (fun u => x_at u j) l) = vec_of k (fun j => odds_mean tl (ps_fit (o_mu o) k g) (fun u => x_at u j) l)).
    { apply map_ext_in. intros j Hj. apply in_seq in Hj. rewrite <- (odds_total_mean k) by assumption. rewrite group_true, odds_total_cw. f_equal.
      apply Qc_sub_0_eq. rewrite <- sumf_sub. rewrite <- (calibrated_sgn k tl _ l C U j ltac:(lia)). apply sumf_ext. intros u _. unfold sgn. ring. }
    rewrite B. ring.
Qed.
Print Assumptions C113_calibrated_scores_agree.
(** Outcome model exact on the comparison units: the improved estimate is the treated units' mean deviation from that model, whatever
    scores were fitted and whoever is trimmed. *)
Theorem C113_exact_outcome_model : forall o k tl l att inf bstar, wls_ok o k -> no_collinearity k l ->
  (forall u, In u l -> p_d u = false -> 0 < p_w u -> p_dy u = dotk k (p_x u) bstar) ->
  drdid_imp_panel o k tl l = PEst att inf -> att = group_mean true (fun u => p_dy u - dotk k (p_x u) bstar) l.
Proof. exact imp_exact_fit. Qed.
Print Assumptions C113_exact_outcome_model.
(** the Horvitz-Thompson estimator has no such protection, and the two differ when the scores are not calibrated *)
Definition wit_flat : list punit := [mku 1 false 3 1 1 0; mku 2 false 3 1 1 1; mku 3 true 9 2 1 0; mku 4 true 8 1 1 1; mku 5 false 4 2 1 2; mku 6 true 5 1 2 2; mku 7 false 4 2 1 1].
Theorem C113_ht_level_dependent_refuted : exists att inf att2 inf2,
  ipw_did_panel wit_oracle 2 tl995 wit_flat = PEst att inf /\ std_ipw_did_panel wit_oracle 2 tl995 wit_flat = PEst att2 inf2 /\
  (forall u, In u wit_flat -> p_d u = false -> p_dy u = dotk 2 (p_x u) [qz 2; 0]) /\
  att <> group_mean true (fun u => p_dy u - dotk 2 (p_x u) [qz 2; 0]) wit_flat /\
  att2 = group_mean true (fun u => p_dy u - dotk 2 (p_x u) [qz 2; 0]) wit_flat.
Proof.
  assert (E1 : est (ipw_did_panel wit_oracle 2 tl995 wit_flat)) by (vm_compute; reflexivity).
  assert (E2 : est (std_ipw_did_panel wit_oracle 2 tl995 wit_flat)) by (vm_compute; reflexivity).
  assert (V1 : Qceqb (att_of (ipw_did_panel wit_oracle 2 tl995 wit_flat)) (group_mean true (fun u => p_dy u - dotk 2 (p_x u) [qz 2; 0]) wit_flat) = false) by (vm_compute; reflexivity).
  assert (V2 : Qceqb (att_of (std_ipw_did_panel wit_oracle 2 tl995 wit_flat)) (group_mean true (fun u => p_dy u - dotk 2 (p_x u) [qz 2; 0]) wit_flat) = true) by (vm_compute; reflexivity).
  destruct (ipw_did_panel wit_oracle 2 tl995 wit_flat) as [| | |a1 i1]; try discriminate E1. destruct (std_ipw_did_panel wit_oracle 2 tl995 wit_flat) as [| | |a2 i2]; try discriminate E2.
  exists a1, i1, a2, i2. split; [reflexivity|]. split; [reflexivity|]. cbn [att_of] in V1, V2. split; [|split].
  - intros u H. cbn in H. repeat (destruct H as [<-|H]; [intros D; first [discriminate D|by_qc]|]). destruct H.
  - destruct (Qceqb_spec a1 (group_mean true (fun u => p_dy u - dotk 2 (p_x u) [qz 2; 0]) wit_flat)); [discriminate V1|assumption].
  - destruct (Qceqb_spec a2 (group_mean true (fun u => p_dy u - dotk 2 (p_x u) [qz 2; 0]) wit_flat)); [assumption|discriminate V2].
Qed.
Print Assumptions C113_ht_level_dependent_refuted.
Example C113_case : est (drdid_imp_panel wit_oracle 2 tl995 wit_imp) /\ est (ipw_did_panel wit_oracle 2 tl995 wit_imp) /\
  est (std_ipw_did_panel wit_oracle 2 tl995 wit_imp) /\ est (drdid_panel wit_oracle 2 tl995 wit_imp) /\
  wls_ok wit_oracle 2 /\ has_intercept wit_imp /\ no_collinearity 2 wit_imp /\
  exists gamma, o_logit wit_oracle (normalise wit_imp) = Some gamma /\ calibrated 2 (ps_fit (o_mu wit_oracle) 2 gamma) wit_imp /\
  untrimmed tl995 (ps_fit (o_mu wit_oracle) 2 gamma) wit_imp.
Proof.
  split; [vm_compute; reflexivity|]. split; [vm_compute; reflexivity|]. split; [vm_compute; reflexivity|]. split; [vm_compute; reflexivity|].
  split; [exact wit_wls_ok|]. split; [exact wit_imp_intercept|]. split; [exact wit_imp_nc|]. apply chk_cal_ok. vm_compute. reflexivity.
Qed.

(** * C114. Invariances. *)
Theorem C114_imp_affine : forall o k tl l c a b att inf att' inf',
  wls_ok o k -> logit_blind o -> no_collinearity k l -> (a = b \/ has_intercept l /\ (1 <= k)%nat) ->
  drdid_imp_panel o k tl l = PEst att inf -> drdid_imp_panel o k tl (map (affine_y c a b) l) = PEst att' inf' ->
  att' = c * att /\ inf' = map (fun v => c * v) inf.
Proof. exact imp_affine. Qed.
Print Assumptions C114_imp_affine.
(** ipw_did_panel: a common rescaling of the outcomes carries through; a constant added to every change moves the estimate by that
    constant times one minus the odds-weighted share, so it is harmless only when the scores balance the group totals. *)
Theorem C114_ht_affine : forall o k tl l c a b att inf att' inf', logit_blind o ->
  ipw_did_panel o k tl l = PEst att inf -> ipw_did_panel o k tl (map (affine_y c a b) l) = PEst att' inf' ->
  exists gamma, o_logit o (normalise l) = Some gamma /\
  att' = c * att + (a - b) * (1 - odds_total tl (ps_fit (o_mu o) k gamma) (fun _ => 1) l) /\
  (a = b -> inf' = map (fun v => c * v) inf).
Proof. exact pht_affine. Qed.
Print Assumptions C114_ht_affine.
Theorem C114_ht_shift_when_calibrated : forall o k tl l c a b att inf att' inf' gamma, logit_blind o -> has_intercept l -> (1 <= k)%nat ->
  o_logit o (normalise l) = Some gamma -> calibrated k (ps_fit (o_mu o) k gamma) l -> untrimmed tl (ps_fit (o_mu o) k gamma) l ->
  ipw_did_panel o k tl l = PEst att inf -> ipw_did_panel o k tl (map (affine_y c a b) l) = PEst att' inf' -> att' = c * att.
Proof.
  intros o k tl l c a b att inf att' inf' g LB HI Hk Eg C U E E'. assert (HT : sumf (fun u => p_w u * p_D u) l <> 0) by (apply pht_inv in E; destruct E as [_ [_ [g0 [H [_ [Hd _]]]]]]; apply mean_d_sum; exact Hd).
  destruct (pht_affine o k tl l c a b att inf att' inf' LB E E') as [g1 [Eg1 [-> _]]]. rewrite Eg in Eg1. injection Eg1 as <-. rewrite (odds_total_one k) by assumption. ring.
Qed.
Print Assumptions C114_ht_shift_when_calibrated.
(** Adding 1 to every post-period outcome changes the Horvitz-Thompson estimate. *)
Theorem C114_ht_shift_refuted : exists att inf att' inf',
  ipw_did_panel wit_oracle 2 tl995 wit_flat = PEst att inf /\ ipw_did_panel wit_oracle 2 tl995 (map (affine_y 1 1 0) wit_flat) = PEst att' inf' /\ att' <> att.
Proof.
  assert (E1 : est (ipw_did_panel wit_oracle 2 tl995 wit_flat)) by (vm_compute; reflexivity).
  assert (E2 : est (ipw_did_panel wit_oracle 2 tl995 (map (affine_y 1 1 0) wit_flat))) by (vm_compute; reflexivity).
  assert (V : Qceqb (att_of (ipw_did_panel wit_oracle 2 tl995 (map (affine_y 1 1 0) wit_flat))) (att_of (ipw_did_panel wit_oracle 2 tl995 wit_flat)) = false) by (vm_compute; reflexivity).
  destruct (ipw_did_panel wit_oracle 2 tl995 wit_flat) as [| | |a1 i1]; try discriminate E1. destruct (ipw_did_panel wit_oracle 2 tl995 (map (affine_y 1 1 0) wit_flat)) as [| | |a2 i2]; try discriminate E2.
  exists a1, i1, a2, i2. split; [reflexivity|]. split; [reflexivity|]. cbn [att_of] in V. destruct (Qceqb_spec a2 a1); [discriminate V|assumption].
Qed.
Print Assumptions C114_ht_shift_refuted.
Theorem C114_weight_scale : forall o k tl l c, 0 < c ->
  drdid_imp_panel o k tl (map (scale_w c) l) = drdid_imp_panel o k tl l /\ ipw_did_panel o k tl (map (scale_w c) l) = ipw_did_panel o k tl l.
Proof. intros. split; [apply imp_scale; assumption|apply pht_scale; assumption]. Qed.
Print Assumptions C114_weight_scale.
Theorem C114_unit_order : forall o k tl l l', fits_symmetric o -> Permutation l l' ->
  same_up_to_order l l' (drdid_imp_panel o k tl l) (drdid_imp_panel o k tl l') /\
  same_up_to_order l l' (ipw_did_panel o k tl l) (ipw_did_panel o k tl l').
Proof. intros. split; [apply imp_perm; assumption|apply pht_perm; assumption]. Qed.
Print Assumptions C114_unit_order.
(** Intercept only, nothing trimmed: the weighted difference of mean changes; for ipw_did_panel this uses the logit score equation. *)
Theorem C114_no_covariates : forall o tl l, (forall u, In u l -> p_x u = 1 :: nil) ->
  (forall gamma, o_logit o (normalise l) = Some gamma -> untrimmed tl (ps_fit (o_mu o) 1 gamma) l) ->
  (forall att inf, wls_ok o 1 -> sumf p_w (filter (fun u => negb (p_d u)) l) <> 0 -> drdid_imp_panel o 1 tl l = PEst att inf ->
     att = group_mean true p_dy l - group_mean false p_dy l) /\
  (forall att inf, (forall gamma, o_logit o (normalise l) = Some gamma -> score_equations 1 (ps_fit (o_mu o) 1 gamma) (normalise l)) ->
     ipw_did_panel o 1 tl l = PEst att inf -> att = group_mean true p_dy l - group_mean false p_dy l).
Proof.
  intros o tl l HX U. split.
  - intros att inf WO HC E. apply (nocov_imp o tl l att inf WO HX E U HC).
  - intros att inf SC E. apply (nocov_pht o tl l att inf HX E). intros g Eg. split; [apply SC; exact Eg|apply U; exact Eg].
Qed.
Print Assumptions C114_no_covariates.
Example C114_case : est (drdid_imp_panel wit_oracle 2 tl995 (map (affine_y (qz 3) (qz 5) (qz 2)) wit_imp)) /\
  est (ipw_did_panel wit_oracle 2 tl995 (map (affine_y (qz 3) (qz 5) (qz 2)) wit_imp)) /\
  est (drdid_imp_panel wit_oracle1 1 tl995 wit_units1) /\ est (ipw_did_panel wit_oracle1 1 tl995 wit_units1) /\
  wls_ok wit_oracle 2 /\ wls_ok wit_oracle1 1 /\ logit_blind wit_oracle /\ fits_symmetric wit_oracle.
Proof.
  do 4 (split; [vm_compute; reflexivity|]). exact (conj wit_wls_ok (conj wit1_wls_ok (conj wit_blind wit_symmetric))).
Qed.

(** * C115. Influence functions. *)
Theorem C115_imp_centred : forall o k tl l att inf, drdid_imp_panel o k tl l = PEst att inf -> length inf = length l /\ qsum inf = 0.
Proof. exact imp_centred. Qed.
Print Assumptions C115_imp_centred.
Theorem C115_ht_centred : forall o k tl l att inf, ipw_did_panel o k tl l = PEst att inf ->
  (forall gamma, o_logit o (normalise l) = Some gamma -> score_equations k (ps_fit (o_mu o) k gamma) (normalise l)) ->
  length inf = length l /\ qsum inf = 0.
Proof. exact pht_centred. Qed.
Print Assumptions C115_ht_centred.
(** The influence values are the derivatives of the estimate in the unit weights (as in C27). For drdid_imp_panel no correction for the
    estimation of scores and regression is added, and none is needed as long as the scores stay calibrated. *)
Theorem C115_imp_inf_is_derivative : forall o k tl l h att inf, wls_ok o k -> smooth_tilt o k tl l h ->
  drdid_imp_panel o k tl l = PEst att inf -> near0 (fun e => has_est (drdid_imp_panel o k tl (map (reweight e h) l))) ->
  derivative_at_0 (fun e => att_of (drdid_imp_panel o k tl (map (reweight e h) l))) (avg_with h l inf).
Proof. exact imp_derivative. Qed.
Print Assumptions C115_imp_inf_is_derivative.
Theorem C115_ht_inf_is_derivative : forall o k tl l h att inf, inv_ok o k -> smooth_logit o k tl l h ->
  ipw_did_panel o k tl l = PEst att inf -> near0 (fun e => has_est (ipw_did_panel o k tl (map (reweight e h) l))) ->
  derivative_at_0 (fun e => att_of (ipw_did_panel o k tl (map (reweight e h) l))) (avg_with h l inf).
Proof. exact pht_derivative. Qed.
Print Assumptions C115_ht_inf_is_derivative.
Definition inf_of (r : pan_result) : list Qc := match r with PEst _ i => i | _ => [] end.
Example C115_case : wls_ok wit_oracle3 1 /\ inv_ok wit_oracle3 1 /\ smooth_tilt wit_oracle3 1 1 wit_tilt wit_h /\ smooth_logit wit_oracle3 1 1 wit_smooth wit_h /\
  near0 (fun e => has_est (drdid_imp_panel wit_oracle3 1 1 (map (reweight e wit_h) wit_tilt)) /\ has_est (ipw_did_panel wit_oracle3 1 1 (map (reweight e wit_h) wit_smooth))) /\
  Qceqb (avg_with wit_h wit_tilt (inf_of (drdid_imp_panel wit_oracle3 1 1 wit_tilt))) 0 = false /\
  Qceqb (avg_with wit_h wit_smooth (inf_of (ipw_did_panel wit_oracle3 1 1 wit_smooth))) 0 = false.
Proof.
  split; [exact wit3_wls_ok|]. split; [exact wit3_inv_ok|]. split; [exact wit_smooth_tilt|]. split; [exact wit_smooth_logit|]. split; [exact wit_tilt_est|]. split; vm_compute; reflexivity.
Qed.

(** * C116. Inverse probability tilting. *)
(** The gradient and the hessian handed to the optimiser are those of the objective. *)
Theorem C116_gradient_is_derivative : forall ex k l gamma v, moderate k l gamma ->
  (forall u, In u l -> p_d u = false -> exp_like_at ex (dotk k (p_x u) gamma)) ->
  derivative_at_0 (fun t => cal_value ex k l (along k gamma v t)) (sumf (fun j => cal_grad ex k l gamma j * nth j v 0) (seq 0 k)) /\
  (forall i, (i < k)%nat -> derivative_at_0 (fun t => cal_grad ex k l (along k gamma v t) i) (sumf (fun j => cal_hess ex k l gamma i j * nth j v 0) (seq 0 k))).
Proof. intros. split; [apply cal_gradient; assumption|intros; apply cal_hessian; assumption]. Qed.
Print Assumptions C116_gradient_is_derivative.
(** Local minimisers balance: the scores they imply are calibrated. *)
Theorem C116_minimiser_is_calibrated : forall ex mu k l gamma, l <> [] -> moderate k l gamma ->
  (forall u, In u l -> p_d u = false -> let z := dotk k (p_x u) gamma in
     exp_like_at ex z /\ mu z = ex z / (1 + ex z) /\ eps6 <= mu z /\ mu z <= 1 - eps6) ->
  (forall v, near0 (fun t => cal_value ex k l gamma <= cal_value ex k l (along k gamma v t))) -> calibrated k (ps_fit mu k gamma) l.
Proof.
  intros ex mu k l g Hl M X H. apply (ex_calibrated_score ex).
  - intros u Hu D. destruct (X u Hu D) as [[P _] [E [B1 B2]]]. cbn zeta. auto.
  - apply cal_minimum; auto. intros u Hu D. apply (X u Hu D).
Qed.
Print Assumptions C116_minimiser_is_calibrated.
(** Conversely calibrated coefficients minimise the objective globally (within the unclipped range). *)
Theorem C116_calibrated_is_minimiser : forall ex k l gamma gamma', l <> [] -> (forall u, In u l -> 0 <= p_w u) ->
  moderate k l gamma -> moderate k l gamma' -> (forall u, In u l -> p_d u = false -> exp_like_at ex (dotk k (p_x u) gamma)) ->
  ex_calibrated ex k l gamma -> cal_value ex k l gamma <= cal_value ex k l gamma'.
Proof. intros. apply cal_value_le; assumption. Qed.
Print Assumptions C116_calibrated_is_minimiser.
(** End to end: when the tilting coefficients are a minimiser, drdid_imp_panel is the odds-weighted difference of mean changes. *)
Theorem C116_improved_estimate : forall o ex k tl l gamma att inf, has_intercept l -> (1 <= k)%nat ->
  drdid_imp_panel o k tl l = PEst att inf -> o_logit o (normalise l) = Some gamma -> moderate k l gamma ->
  (forall u, In u l -> p_d u = false -> let z := dotk k (p_x u) gamma in
     exp_like_at ex z /\ o_mu o z = ex z / (1 + ex z) /\ eps6 <= o_mu o z /\ o_mu o z <= 1 - eps6 /\ o_mu o z < tl) ->
  (forall v, near0 (fun t => cal_value ex k (normalise l) gamma <= cal_value ex k (normalise l) (along k gamma v t))) ->
  att = group_mean true p_dy l - odds_mean tl (ps_fit (o_mu o) k gamma) p_dy l.
Proof.
  intros o ex k tl l g att inf HI Hk E Eg M X H.
  assert (Hm : 0 < mean p_w l) by (apply imp_inv in E; destruct E as [N0 [g0 [b0 [_ [_ [Hd _]]]]]]; apply (mean_d_pos l N0 Hd)).
  assert (Hl : l <> []) by (intros ->; discriminate Hm).
  assert (U : untrimmed tl (ps_fit (o_mu o) k g) l).
  { intros u Hu D. destruct (X u Hu D) as [_ [_ [B1 [B2 T]]]]. unfold ps_fit, clip.
    destruct (Qcltb_spec (o_mu o (dotk k (p_x u) g)) eps6) as [L|_]; [exfalso; revert L; apply Qcle_not_lt; exact B1|].
    destruct (Qcltb_spec (1 - eps6) (o_mu o (dotk k (p_x u) g))) as [L|_]; [exfalso; revert L; apply Qcle_not_lt; exact B2|exact T]. }
  assert (C : calibrated k (ps_fit (o_mu o) k g) (normalise l)).
  { apply (C116_minimiser_is_calibrated ex).
    - intros Z0. apply Hl. destruct l; [reflexivity|discriminate Z0].
    - intros u Hu. apply in_normalise in Hu. destruct Hu as [v [Hv ->]]. apply (M v Hv).
    - intros u Hu D. apply in_normalise in Hu. destruct Hu as [v [Hv ->]]. destruct (X v Hv D) as [A [B1 [B2 [B3 _]]]]. cbn zeta. auto.
    - exact H. }
  rewrite DrdidProofs8.normalise_as_scale in C. apply (calibrated_reweight_normalise k _ l (/ mean p_w l)) in C; [|reflexivity|apply Qc_pos_neq0, Qcinv_pos; exact Hm].
  rewrite (imp_weighting o k tl l att inf g E Eg C U), (odds_total_mean k) by assumption. reflexivity.
Qed.
Print Assumptions C116_improved_estimate.
(** The fallback objective: its gradient is its derivative, also at the point where the exponential is continued by a parabola. *)
Theorem C116_fallback_gradient : forall ex lg k l gamma v, - qz 500 < lg -> lg < qz 500 -> ex lg = qn (length l) - 1 ->
  (forall u, In u l -> p_d u = false -> - qz 500 < dotk k (p_x u) gamma /\ (dotk k (p_x u) gamma <= lg -> exp_like_at ex (dotk k (p_x u) gamma))) ->
  derivative_at_0 (fun t => ipt_value ex lg k l (along k gamma v t)) (sumf (fun j => ipt_grad ex lg k l gamma j * nth j v 0) (seq 0 k)).
Proof. exact ipt_gradient. Qed.
Print Assumptions C116_fallback_gradient.
(** Unit weights: its stationary points are calibrated too. *)
Theorem C116_fallback_unit_weights_partial : forall ex lg k l gamma, moderate k l gamma -> (forall u, In u l -> p_d u = false -> dotk k (p_x u) gamma < lg) ->
  (forall u, In u l -> p_w u = 1) -> (forall j, (j < k)%nat -> ipt_grad ex lg k l gamma j = 0) -> ex_calibrated ex k l gamma.
Proof. exact ipt_unit_weights. Qed.
Print Assumptions C116_fallback_unit_weights_partial.
(** In general they balance the weighted comparison units against the unweighted sample, and the weights of treated units play no role. *)
Theorem C116_fallback_stationary : forall ex lg k l gamma, moderate k l gamma -> (forall u, In u l -> p_d u = false -> dotk k (p_x u) gamma < lg) ->
  (forall j, (j < k)%nat -> ipt_grad ex lg k l gamma j = 0) <->
  (forall j, (j < k)%nat -> sumf (fun u => p_w u * (1 + ex (dotk k (p_x u) gamma)) * x_at u j) (filter (fun u => negb (p_d u)) l) = sumf (fun u => x_at u j) l).
Proof. exact ipt_stationary. Qed.
Print Assumptions C116_fallback_stationary.
Theorem C116_fallback_ignores_treated_weights : forall ex lg k l gamma (w : punit -> Qc),
  ipt_value ex lg k (map (fun u => if p_d u then set_w (w u) u else u) l) gamma = ipt_value ex lg k l gamma.
Proof.
  intros. unfold ipt_value. cbn zeta. rewrite map_length, sumf_map. f_equal. apply sumf_ext. intros u _. unfold p_D. destruct (p_d u) eqn:D; cbn [set_w p_w p_d p_x]; rewrite ?D; cbn [ind]; ring.
Qed.
Print Assumptions C116_fallback_ignores_treated_weights.
Lemma dot2 x b : dotk 2 x b = nth 0 x 0 * nth 0 b 0 + nth 1 x 0 * nth 1 b 0.
Proof. unfold dotk. cbn [seq]. rewrite !sumf_cons, sumf_nil. ring. Qed.
Lemma wit_moderate l : forallb (fun u => Qcltb (- qz 500) (dotk 2 (p_x u) [0; 1]) && Qcltb (dotk 2 (p_x u) [0; 1]) (qz 500)) l = true -> moderate 2 l [0; 1].
Proof.
  intros H u Hu. rewrite forallb_forall in H. specialize (H u Hu). apply andb_true_iff in H. destruct H as [H1 H2].
  split; [destruct (Qcltb_spec (- qz 500) (dotk 2 (p_x u) [0; 1]))|destruct (Qcltb_spec (dotk 2 (p_x u) [0; 1]) (qz 500))]; first [assumption|discriminate].
Qed.
Definition chk_ipt (lg : Qc) (l : list punit) : bool := forallb (fun j => Qceqb (ipt_grad wit_ex lg 2 l [0; 1] j) 0) [0; 1]%nat.
Definition chk_exc (l : list punit) : bool := forallb (fun j => Qceqb (sumf (fun u => p_w u * x_at u j) (filter p_d l)) (sumf (fun u => p_w u * wit_ex (dotk 2 (p_x u) [0; 1]) * x_at u j) (filter (fun u => negb (p_d u)) l))) [0; 1]%nat.
Lemma all2 (p : nat -> bool) : forallb p [0; 1]%nat = true -> forall j, (j < 2)%nat -> p j = true.
Proof. intros H j Hj. rewrite forallb_forall in H. apply H. destruct j as [|[|j]]; [left; reflexivity|right; left; reflexivity|lia]. Qed.
Lemma Qceqb_true a b : Qceqb a b = true -> a = b.
Proof. destruct (Qceqb_spec a b); [auto|discriminate]. Qed.
Lemma chk_exc_ok l : chk_exc l = true -> ex_calibrated wit_ex 2 l [0; 1].
Proof. intros H j Hj. apply Qceqb_true. exact (all2 _ H j Hj). Qed.
(** A stationary point of the fallback objective that does not balance: one treated unit has weight 2. *)
Definition wit_ipt2 : list punit := map (fun u => if (p_id u =? 3)%Z then set_w (qz 2) u else u) wit_ipt1.
Theorem C116_fallback_weights_refuted : exists lg, wit_ex lg = qn (length wit_ipt2) - 1 /\ moderate 2 wit_ipt2 [0; 1] /\
  (forall u, In u wit_ipt2 -> p_d u = false -> dotk 2 (p_x u) [0; 1] < lg) /\
  (forall j, (j < 2)%nat -> ipt_grad wit_ex lg 2 wit_ipt2 [0; 1] j = 0) /\ ~ ex_calibrated wit_ex 2 wit_ipt2 [0; 1].
Proof.
  exists (Q2Qc (5 # 3)). split; [apply Qc_is_canon; vm_compute; reflexivity|]. split; [apply wit_moderate; vm_compute; reflexivity|]. split; [|split].
  - intros u H. cbn in H. repeat (destruct H as [<-|H]; [intros D; first [discriminate D|vm_compute; reflexivity]|]). destruct H.
  - intros j Hj. apply Qceqb_true. apply (all2 (fun j => Qceqb (ipt_grad wit_ex (Q2Qc (5 # 3)) 2 wit_ipt2 [0; 1] j) 0)); [vm_compute; reflexivity|exact Hj].
  - intros H. specialize (H 0%nat ltac:(lia)).
    assert (V : Qceqb (sumf (fun u => p_w u * x_at u 0) (filter p_d wit_ipt2)) (sumf (fun u => p_w u * wit_ex (dotk 2 (p_x u) [0; 1]) * x_at u 0) (filter (fun u => negb (p_d u)) wit_ipt2)) = false) by (vm_compute; reflexivity).
    rewrite H in V. revert V. destruct (Qceqb_spec (sumf (fun u => p_w u * wit_ex (dotk 2 (p_x u) [0; 1]) * x_at u 0) (filter (fun u => negb (p_d u)) wit_ipt2)) (sumf (fun u => p_w u * wit_ex (dotk 2 (p_x u) [0; 1]) * x_at u 0) (filter (fun u => negb (p_d u)) wit_ipt2))); [discriminate|congruence].
Qed.
Print Assumptions C116_fallback_weights_refuted.
(** odds 1 and 3, unequal weights: the hypotheses of the calibration theorems hold at coefficients (0, 1), which minimise the objective *)
Lemma wit_ex_ok l : forallb (fun u => p_d u || Qceqb (dotk 2 (p_x u) [0; 1]) 0 || Qceqb (dotk 2 (p_x u) [0; 1]) 1) l = true ->
  forall u, In u l -> p_d u = false -> exp_like_at wit_ex (dotk 2 (p_x u) [0; 1]).
Proof.
  intros H u Hu D. rewrite forallb_forall in H. specialize (H u Hu). rewrite D in H. cbn [orb] in H. apply orb_true_iff in H.
  destruct H as [H|H]; apply Qceqb_true in H; rewrite H; [exact wit_ex_0|exact wit_ex_1].
Qed.
Definition wit_mu (z : Qc) : Qc := wit_ex z / (1 + wit_ex z).
Example C116_case : moderate 2 wit_ipt [0; 1] /\ ex_calibrated wit_ex 2 wit_ipt [0; 1] /\
  (forall u, In u wit_ipt -> p_d u = false -> let z := dotk 2 (p_x u) [0; 1] in exp_like_at wit_ex z /\ wit_mu z = wit_ex z / (1 + wit_ex z) /\ eps6 <= wit_mu z /\ wit_mu z <= 1 - eps6 /\ wit_mu z < tl995) /\
  (forall v, near0 (fun t => cal_value wit_ex 2 wit_ipt [0; 1] <= cal_value wit_ex 2 wit_ipt (along 2 [0; 1] v t))) /\
  ex_calibrated wit_ex 2 wit_ipt1 [0; 1] /\ (forall j, (j < 2)%nat -> ipt_grad wit_ex (Q2Qc (5 # 3)) 2 wit_ipt1 [0; 1] j = 0).
Proof.
  assert (M : moderate 2 wit_ipt [0; 1]) by (apply wit_moderate; vm_compute; reflexivity).
  assert (C : ex_calibrated wit_ex 2 wit_ipt [0; 1]) by (apply chk_exc_ok; vm_compute; reflexivity).
  assert (X : forall u, In u wit_ipt -> p_d u = false -> exp_like_at wit_ex (dotk 2 (p_x u) [0; 1])) by (apply wit_ex_ok; vm_compute; reflexivity).
  split; [exact M|]. split; [exact C|]. split; [|split; [|split]].
  - intros u Hu D. cbn zeta. split; [apply X; assumption|]. split; [reflexivity|].
    cbn in Hu. repeat (destruct Hu as [<-|Hu]; [first [discriminate D|split; [|split]; vm_compute; first [reflexivity|discriminate]]|]). destruct Hu.
  - intros v. assert (N : near0 (fun t => moderate 2 wit_ipt (along 2 [0; 1] v t))).
    { assert (N : near0 (fun t => forall u, In u wit_ipt -> - qz 500 < dotk 2 (p_x u) (along 2 [0; 1] v t) /\ dotk 2 (p_x u) (along 2 [0; 1] v t) < qz 500)).
      { apply near0_forall. intros u Hu. destruct (M u Hu) as [A B]. rewrite <- (index0 2 (p_x u) [0; 1] v) in A, B. apply near0_and; [exact (D_gt _ _ _ (D_index 2 (p_x u) [0; 1] v) A)|exact (D_lt _ _ _ (D_index 2 (p_x u) [0; 1] v) B)]. }
      exact N. }
    eapply near0_impl; [|exact N]. cbn beta. intros t Mt. apply cal_value_le; auto; [|discriminate].
    intros u Hu. cbn in Hu. repeat (destruct Hu as [<-|Hu]; [vm_compute; discriminate|]). destruct Hu.
  - apply chk_exc_ok. vm_compute. reflexivity.
  - intros j Hj. apply Qceqb_true. apply (all2 (fun j => Qceqb (ipt_grad wit_ex (Q2Qc (5 # 3)) 2 wit_ipt1 [0; 1] j) 0)); [vm_compute; reflexivity|exact Hj].
Qed.
