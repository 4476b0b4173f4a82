(** C27 (second part): the reported influence values are the derivatives of the estimate with respect to the unit weights. *)
From Verif Require Import Base ListLib ReduceModel Calc DrdidModel DrdidSpec DrdidProofs DrdidProofs2 DrdidProofs3 DrdidProofs4 DrdidProofs5 DrdidProofs8 DrdidProofs10 DrdidWitness DrdidWitness2 Witness.

(** Reading: multiply the weight of every unit [u] by [1 + e * h u] and re-run the estimator; the estimate, as a function of [e], is
    differentiable at 0 and its derivative is the sample average of [h] times the influence values reported by the unperturbed call.
    (Taking [h] to be 1 at one unit and 0 elsewhere isolates that unit's influence value.)  [near0 ... has_est]: slightly perturbed
    samples are still accepted. *)
Theorem C27_reg_inf_is_derivative : forall o k l h att inf, wls_ok o k -> inv_ok o k ->
  reg_did_panel o k l = PEst att inf -> near0 (fun e => has_est (reg_did_panel o k (map (reweight e h) l))) ->
  derivative_at_0 (fun e => att_of (reg_did_panel o k (map (reweight e h) l))) (avg_with h l inf).
Proof. exact reg_derivative. Qed.
Print Assumptions C27_reg_inf_is_derivative.
Theorem C27_ipw_inf_is_derivative : forall o k tl l h att inf, inv_ok o k -> smooth_logit o k tl l h ->
  std_ipw_did_panel o k tl l = PEst att inf -> near0 (fun e => has_est (std_ipw_did_panel o k tl (map (reweight e h) l))) ->
  derivative_at_0 (fun e => att_of (std_ipw_did_panel o k tl (map (reweight e h) l))) (avg_with h l inf).
Proof. exact ipw_derivative. Qed.
Print Assumptions C27_ipw_inf_is_derivative.
Theorem C27_dr_inf_is_derivative : forall o k tl l h att inf, wls_ok o k -> inv_ok o k -> smooth_logit o k tl l h ->
  drdid_panel o k tl l = PEst att inf -> near0 (fun e => has_est (drdid_panel o k tl (map (reweight e h) l))) ->
  derivative_at_0 (fun e => att_of (drdid_panel o k tl (map (reweight e h) l))) (avg_with h l inf).
Proof. exact dr_derivative. Qed.
Print Assumptions C27_dr_inf_is_derivative.
(** The notion of derivative used here determines its value. *)
Theorem C27_derivative_unique : forall f a b, derivative_at_0 f a -> derivative_at_0 f b -> a = b.
Proof. exact D_unique. Qed.
Print Assumptions C27_derivative_unique.

(** A sample of four units, an interior logit fit that moves with the weights, all hypotheses met and a non-zero influence value. *)
Example C27_derivative_case : wls_ok wit_oracle3 1 /\ inv_ok wit_oracle3 1 /\ smooth_logit wit_oracle3 1 1 wit_smooth wit_h /\
  near0 (fun e => has_est (drdid_panel wit_oracle3 1 1 (map (reweight e wit_h) wit_smooth)) /\
    has_est (std_ipw_did_panel wit_oracle3 1 1 (map (reweight e wit_h) wit_smooth)) /\
    has_est (reg_did_panel wit_oracle3 1 (map (reweight e wit_h) wit_smooth))).
Proof. exact (conj wit3_wls_ok (conj wit3_inv_ok (conj wit_smooth_logit wit_smooth_est))). Qed.
Definition inf_of (r : pan_result) : list Qc := match r with PEst _ i => i | _ => [] end.
Example C27_derivative_case_values : forallb (fun r => is_est r && negb (Qceqb (avg_with wit_h wit_smooth (inf_of r)) 0))
  [drdid_panel wit_oracle3 1 1 wit_smooth; std_ipw_did_panel wit_oracle3 1 1 wit_smooth; reg_did_panel wit_oracle3 1 wit_smooth] = true.
Proof. vm_compute. reflexivity. Qed.
