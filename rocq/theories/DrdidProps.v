(** C25-C27: the two-period panel estimators. *)
From Verif Require Import Base ListLib ReduceModel DrdidModel DrdidSpec DrdidProofs DrdidProofs2 DrdidProofs3 DrdidProofs4 DrdidProofs5 DrdidWitness Witness.

Definition tl995 : Qc := Q2Qc (995 # 1000).
(** the sample and oracle of DrdidWitness are accepted by the three estimators, as are their transforms used below *)
Example drdid_accepts :
  is_est (drdid_panel wit_oracle 2 tl995 wit_units) = true /\ is_est (reg_did_panel wit_oracle 2 wit_units) = true /\
  is_est (std_ipw_did_panel wit_oracle 2 tl995 wit_units) = true /\
  is_est (drdid_panel wit_oracle 2 tl995 (map (affine_y (qz 3) (qz 5) (qz 2)) wit_units)) = true /\
  is_est (reg_did_panel wit_oracle 2 (map (affine_y (qz 3) (qz 5) (qz 2)) wit_units)) = true /\
  is_est (std_ipw_did_panel wit_oracle 2 tl995 (map (affine_y (qz 3) (qz 5) (qz 2)) wit_units)) = true /\
  is_est (drdid_panel wit_oracle1 1 tl995 wit_units1) = true /\ is_est (reg_did_panel wit_oracle1 1 wit_units1) = true /\
  is_est (std_ipw_did_panel wit_oracle1 1 tl995 wit_units1) = true.
Proof. vm_compute. tauto. Qed.
Example drdid_hypotheses : wls_ok wit_oracle 2 /\ inv_ok wit_oracle 2 /\ logit_blind wit_oracle /\ fits_symmetric wit_oracle /\
  no_collinearity 2 wit_units /\ has_intercept wit_units /\ wls_ok wit_oracle1 1 /\ inv_ok wit_oracle1 1.
Proof. exact (conj wit_wls_ok (conj wit_inv_ok (conj wit_blind (conj wit_symmetric (conj wit_nc (conj wit_intercept (conj wit1_wls_ok wit1_inv_ok))))))). Qed.

(** * C25. Invariances. *)

(** Outcomes transformed as c*y + a in the post period and c*y + b in the pre period: the ATT and every influence value are
    multiplied by c. A common shift of the levels is a = b; a constant added to every change is c = 1 (needs an
    intercept among the regressors for the two regression-based estimators). *)
Theorem C25_dr_affine : forall o k tl l c a b att inf att' inf',
  wls_ok o k -> logit_blind o -> no_collinearity k l -> (a = b \/ has_intercept l /\ (1 <= k)%nat) ->
  drdid_panel o k tl l = PEst att inf -> drdid_panel o k tl (map (affine_y c a b) l) = PEst att' inf' ->
  att' = c * att /\ inf' = map (fun v => c * v) inf.
Proof. exact dr_affine. Qed.
Print Assumptions C25_dr_affine.
Theorem C25_reg_affine : forall o k l c a b att inf att' inf',
  wls_ok o k -> no_collinearity k l -> (a = b \/ has_intercept l /\ (1 <= k)%nat) ->
  reg_did_panel o k l = PEst att inf -> reg_did_panel o k (map (affine_y c a b) l) = PEst att' inf' ->
  att' = c * att /\ inf' = map (fun v => c * v) inf.
Proof. exact reg_affine. Qed.
Print Assumptions C25_reg_affine.
Theorem C25_ipw_affine : forall o k tl l c a b att inf att' inf', logit_blind o ->
  std_ipw_did_panel o k tl l = PEst att inf -> std_ipw_did_panel o k tl (map (affine_y c a b) l) = PEst att' inf' ->
  att' = c * att /\ inf' = map (fun v => c * v) inf.
Proof. exact ipw_affine. Qed.
Print Assumptions C25_ipw_affine.

(** Multiplying all weights by a positive constant changes nothing: not the outcome of the validation, not the estimate,
    not the influence function, whatever the numerical routines do. *)
Theorem C25_weight_scale : forall o k tl l c, 0 < c ->
  drdid_panel o k tl (map (scale_w c) l) = drdid_panel o k tl l /\
  reg_did_panel o k (map (scale_w c) l) = reg_did_panel o k l /\
  std_ipw_did_panel o k tl (map (scale_w c) l) = std_ipw_did_panel o k tl l.
Proof. intros. split; [apply dr_scale; assumption|split; [apply reg_scale; assumption|apply ipw_scale; assumption]]. Qed.
Print Assumptions C25_weight_scale.

(** Reordering the units keeps the estimate and carries each unit's influence value along. *)
Theorem C25_unit_order : forall o k tl l l', fits_symmetric o -> Permutation l l' ->
  same_up_to_order l l' (drdid_panel o k tl l) (drdid_panel o k tl l') /\
  same_up_to_order l l' (reg_did_panel o k l) (reg_did_panel o k l') /\
  same_up_to_order l l' (std_ipw_did_panel o k tl l) (std_ipw_did_panel o k tl l').
Proof. intros. split; [apply dr_perm; assumption|split; [apply reg_perm; assumption|apply ipw_perm; assumption]]. Qed.
Print Assumptions C25_unit_order.

(** Intercept only: the three estimators are the weighted difference of mean outcome changes. *)
Theorem C25_no_covariates : forall o tl l, (forall u, In u l -> p_x u = [1]) ->
  (forall att inf, drdid_panel o 1 tl l = PEst att inf -> att = group_mean true p_dy l - group_mean false p_dy l) /\
  (forall att inf, std_ipw_did_panel o 1 tl l = PEst att inf -> att = group_mean true p_dy l - group_mean false p_dy l) /\
  (forall att inf, wls_ok o 1 -> inv_ok o 1 -> reg_did_panel o 1 l = PEst att inf -> att = group_mean true p_dy l - group_mean false p_dy l).
Proof.
  intros o tl l HX. split; [|split].
  - intros att inf. apply nocov_dr. exact HX.
  - intros att inf. apply nocov_ipw. exact HX.
  - intros att inf. apply nocov_reg. exact HX.
Qed.
Print Assumptions C25_no_covariates.
Example C25_no_covariates_case : group_mean true p_dy wit_units1 - group_mean false p_dy wit_units1 = Q2Qc (5 # 2).
Proof. by_qc. Qed.

(** * C26. Double robustness in the sample. *)

(** Outcome model exact on the comparison units: both regression-based estimates are the treated units' average deviation from
    that model, whatever propensity scores were fitted. *)
Theorem C26_exact_outcome_model : forall o k tl l bstar, wls_ok o k -> no_collinearity k l ->
  (forall u, In u l -> p_d u = false -> 0 < p_w u -> p_dy u = dotk k (p_x u) bstar) ->
  (forall att inf, drdid_panel o k tl l = PEst att inf -> att = group_mean true (fun u => p_dy u - dotk k (p_x u) bstar) l) /\
  (forall att inf, reg_did_panel o k l = PEst att inf -> att = group_mean true (fun u => p_dy u - dotk k (p_x u) bstar) l).
Proof. intros. split; intros att inf E; [eapply dr_exact_fit|eapply reg_exact_fit]; eassumption. Qed.
Print Assumptions C26_exact_outcome_model.
(** a sample whose comparison units follow dy = 1 + 2x exactly *)
Definition wit_exact : list punit := map (fun u => if p_d u then u else
  {| p_id := p_id u; p_d := false; p_y1 := 1 + qz 2 * nth 1 (p_x u) 0; p_y0 := 0; p_w := p_w u; p_x := p_x u |}) wit_units.
Example C26_exact_case : (forall u, In u wit_exact -> p_d u = false -> 0 < p_w u -> p_dy u = dotk 2 (p_x u) [1; qz 2]) /\
  is_est (drdid_panel wit_oracle 2 tl995 wit_exact) = true /\ is_est (reg_did_panel wit_oracle 2 wit_exact) = true.
Proof.
  split; [|vm_compute; tauto]. intros u H. cbn in H. repeat (destruct H as [<-|H]; [intros D; first [discriminate D|intros _; by_qc]|]). destruct H.
Qed.

(** In general the DR estimate is the IPW estimate corrected by (covariate imbalance left by the odds weights) x (regression
    coefficients). *)
Theorem C26_dr_is_corrected_ipw : forall o k tl l att inf att2 inf2,
  drdid_panel o k tl l = PEst att inf -> std_ipw_did_panel o k tl l = PEst att2 inf2 ->
  exists gamma beta, o_logit o (normalise l) = Some gamma /\ o_wls o (filter (fun u => negb (p_d u)) (normalise l)) = Some beta /\
  att = att2 - sumf (fun j => (group_mean true (fun u => x_at u j) l
                               - odds_mean tl (ps_fit (o_mu o) k gamma) (fun u => x_at u j) l) * nth j beta 0) (seq 0 k).
Proof. exact dr_vs_ipw. Qed.
Print Assumptions C26_dr_is_corrected_ipw.
(** Hence exact balance makes the DR estimate equal to the IPW one, independent of the regression. *)
Theorem C26_exact_balance : forall o k tl l att inf att2 inf2 gamma,
  drdid_panel o k tl l = PEst att inf -> std_ipw_did_panel o k tl l = PEst att2 inf2 ->
  o_logit o (normalise l) = Some gamma ->
  (forall j, (j < k)%nat -> group_mean true (fun u => x_at u j) l = odds_mean tl (ps_fit (o_mu o) k gamma) (fun u => x_at u j) l) ->
  att = att2.
Proof. exact dr_exact_balance. Qed.
Print Assumptions C26_exact_balance.
(** a sample where the constant propensity balances x exactly (same distribution of x in both arms) *)
Definition wit_balanced : list punit :=
  [mku 1 false 3 1 1 0; mku 2 false 5 1 1 2; mku 3 true 9 2 2 0; mku 4 true 8 1 2 2].
Example C26_balance_case :
  is_est (drdid_panel wit_oracle 2 tl995 wit_balanced) = true /\ is_est (std_ipw_did_panel wit_oracle 2 tl995 wit_balanced) = true /\
  match o_logit wit_oracle (normalise wit_balanced) with
  | Some g => forallb (fun j => Qceqb (group_mean true (fun u => x_at u j) wit_balanced)
                                      (odds_mean tl995 (ps_fit (o_mu wit_oracle) 2 g) (fun u => x_at u j) wit_balanced)) [0; 1]%nat
  | None => false end = true.
Proof. vm_compute. tauto. Qed.
(** The values themselves: treated mean of the residual minus odds-weighted comparison mean of the residual. *)
Theorem C26_estimates_as_means : forall o k tl l,
  (forall att inf, drdid_panel o k tl l = PEst att inf -> exists gamma beta,
     o_logit o (normalise l) = Some gamma /\ o_wls o (filter (fun u => negb (p_d u)) (normalise l)) = Some beta /\
     att = group_mean true (fun u => p_dy u - dotk k (p_x u) beta) l
           - odds_mean tl (ps_fit (o_mu o) k gamma) (fun u => p_dy u - dotk k (p_x u) beta) l) /\
  (forall att inf, reg_did_panel o k l = PEst att inf -> exists beta,
     o_wls o (filter (fun u => negb (p_d u)) (normalise l)) = Some beta /\
     att = group_mean true (fun u => p_dy u - dotk k (p_x u) beta) l) /\
  (forall att inf, std_ipw_did_panel o k tl l = PEst att inf -> exists gamma, o_logit o (normalise l) = Some gamma /\
     att = group_mean true p_dy l - odds_mean tl (ps_fit (o_mu o) k gamma) p_dy l).
Proof. intros o k tl l. split; [|split]; intros att inf E; [exact (dr_value _ _ _ _ _ _ E)|exact (reg_value _ _ _ _ _ E)|exact (ipw_value _ _ _ _ _ _ E)]. Qed.
Print Assumptions C26_estimates_as_means.

(** * C27. Influence functions average to zero. *)
Theorem C27_dr_centred : forall o k tl l att inf, wls_ok o k -> drdid_panel o k tl l = PEst att inf ->
  (forall gamma, o_logit o (normalise l) = Some gamma -> score_equations k (ps_fit (o_mu o) k gamma) (normalise l)) ->
  length inf = length l /\ qsum inf = 0.
Proof. exact dr_centred. Qed.
Print Assumptions C27_dr_centred.
Theorem C27_reg_centred : forall o k l att inf, wls_ok o k -> reg_did_panel o k l = PEst att inf -> length inf = length l /\ qsum inf = 0.
Proof. exact reg_centred. Qed.
Print Assumptions C27_reg_centred.
Theorem C27_ipw_centred : forall o k tl l att inf, std_ipw_did_panel o k tl l = PEst att inf ->
  (forall gamma, o_logit o (normalise l) = Some gamma -> score_equations k (ps_fit (o_mu o) k gamma) (normalise l)) ->
  length inf = length l /\ qsum inf = 0.
Proof. exact ipw_centred. Qed.
Print Assumptions C27_ipw_centred.
Lemma Qceqb_true a b : Qceqb a b = true -> a = b.
Proof. destruct (Qceqb_spec a b); [auto|discriminate]. Qed.
Lemma forallb_seq2 (p : nat -> bool) : forallb p [0; 1]%nat = true -> forall j, (j < 2)%nat -> p j = true.
Proof. intros H j Hj. rewrite forallb_forall in H. apply H. destruct j as [|[|j]]; [left; reflexivity|right; left; reflexivity|lia]. Qed.
Example C27_score_case : forall gamma, o_logit wit_oracle (normalise wit_units) = Some gamma ->
  score_equations 2 (ps_fit (o_mu wit_oracle) 2 gamma) (normalise wit_units).
Proof.
  intros g E j Hj. assert (C : match o_logit wit_oracle (normalise wit_units) with Some g => forallb (fun j => 
    Qceqb (sumf (fun u => p_w u * (p_D u - ps_fit (o_mu wit_oracle) 2 g u) * x_at u j) (normalise wit_units)) 0) [0; 1]%nat | None => false end = true) by (vm_compute; reflexivity).
  rewrite E in C. apply (forallb_seq2 _ C) in Hj. apply Qceqb_true in Hj. exact Hj.
Qed.
