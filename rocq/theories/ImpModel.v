(** Model of the improved doubly robust panel estimator and of the Horvitz-Thompson panel estimator:
    moderndid/drdid/estimators/drdid_imp_panel.py, ipw_did_panel.py, wols.py (wols_panel), and of the two objective functions of
    moderndid/drdid/propensity/pscore_ipt.py (numpy backend, boot=False). Definitions only.
    Numbers are rationals; NaN inputs, standard errors and confidence limits are not part of the results here. Here [o_logit] of
    the [oracle] is the coefficient vector used by calculate_pscore_ipt (pscore_ipt.py:116-161; 0 for the columns that
    _remove_collinear_columns drops) for drdid_imp_panel, and the logit fit for ipw_did_panel. *)
From Verif Require Import Base ReduceModel DrdidModel.

(** wols_panel: weights i_weights * ps / (1 - ps) of the comparison units (wols.py:175-183, 188) *)
Definition tilt (ps : punit -> Qc) (u : punit) : punit := set_w (p_w u * (ps u / (1 - ps u))) u.
(** dr_att_summand_num (drdid_imp_panel.py:134); trim_ps (128-129) is that of drdid_panel *)
Definition imp_term (tl : Qc) (ps out : punit -> Qc) (u : punit) : Qc :=
  trim_ps tl ps u * (1 - (1 - p_D u) / (1 - ps u)) * (p_dy u - out u).
(** mean(d * i_weights) (drdid_imp_panel.py:135,137; ipw_did_panel.py:118,302) *)
Definition mean_d (l : list punit) : Qc := mean (fun u => p_D u * p_w u) l.
(** dr_att (drdid_imp_panel.py:135) *)
Definition imp_att (tl : Qc) (ps out : punit -> Qc) (l : list punit) : Qc :=
  mean (fun u => p_w u * imp_term tl ps out u) l / mean_d l.
(** att_inf_func (drdid_imp_panel.py:138), one unit *)
Definition imp_inf (tl : Qc) (ps out : punit -> Qc) (l : list punit) (u : punit) : Qc :=
  p_w u * trim_ps tl ps u * (imp_term tl ps out u - p_D u * imp_att tl ps out l) / mean_d l.
(** drdid_imp_panel (drdid_imp_panel.py:120-141, 198-224; wols.py:158-197). Without comparison units wols_panel raises; without
    treated weight the quotient is NaN or infinite ([PNaN]). *)
Definition drdid_imp_panel (o : oracle) (k : nat) (tl : Qc) (l0 : list punit) : pan_result :=
  if any_neg l0 then PRaise else
  let l := normalise l0 in
  match o_logit o l with
  | None => PRaise
  | Some gamma =>
      let ps := ps_fit (o_mu o) k gamma in
      match filter (fun u => negb (p_d u)) l with
      | [] => PRaise
      | ctrl => match o_wls o (map (tilt ps) ctrl) with
                | None => PRaise
                | Some beta =>
                    let out := fun u => dotk k (p_x u) beta in
                    if Qceqb (mean_d l) 0 then PNaN
                    else PEst (imp_att tl ps out l) (map (imp_inf tl ps out l) l)
                end
      end
  end.

(** ipw_att of ipw_did_panel (ipw_did_panel.py:115-127) *)
Definition pht_att (tl : Qc) (ps : punit -> Qc) (l : list punit) : Qc :=
  mean (fun u => w_treat tl ps u * p_dy u) l / mean_d l - mean (fun u => w_cont tl ps u * p_dy u) l / mean_d l.
(** _compute_influence_function (ipw_did_panel.py:288-305), one unit *)
Definition pht_inf (k : nat) (tl : Qc) (ps : punit -> Qc) (H : matrix) (l : list punit) (u : punit) : Qc :=
  let lin1 := w_treat tl ps u * p_dy u - w_cont tl ps u * p_dy u in
  let lin2 := dotk k (alr_ps k ps H u) (mean_col k (fun v => w_cont tl ps v * p_dy v) l) in
  (lin1 - lin2 - p_w u * p_D u * pht_att tl ps l) / mean_d l.
(** ipw_did_panel (ipw_did_panel.py:104-133, 187-285). The GLM covariance fallback for a singular information matrix is part of
    [o_inv]. *)
Definition ipw_did_panel (o : oracle) (k : nat) (tl : Qc) (l0 : list punit) : pan_result :=
  if any_neg l0 then PRaise else
  let l := normalise l0 in
  if negb (two_groups l) then PRaise else
  match o_logit o l with
  | Some gamma =>
      let ps := ps_fit (o_mu o) k gamma in
      if Qceqb (mean_d l) 0 then PNaN
      else match o_inv o (ps_gram k ps l) with
           | Some H => PEst (pht_att tl ps l) (map (pht_inf k tl ps (mscale (qn (length l)) H) l) l)
           | None => PRaise
           end
  | None => PRaise
  end.

(** ** calculate_pscore_ipt: objective functions. [ex] is np.exp. *)
Definition q500 : Qc := qz 500.
Definition clip500 (v : Qc) : Qc := clip (- q500) q500 v.
(** _loss_ps_cal (pscore_ipt.py:202-214): value, gradient, hessian *)
Definition cal_value (ex : Qc -> Qc) (k : nat) (l : list punit) (gamma : list Qc) : Qc :=
  - mean (fun u => (if p_d u then dotk k (p_x u) gamma else - ex (clip500 (dotk k (p_x u) gamma))) * p_w u) l.
Definition cal_grad (ex : Qc -> Qc) (k : nat) (l : list punit) (gamma : list Qc) (j : nat) : Qc :=
  - mean (fun u => (if p_d u then 1 else - ex (clip500 (dotk k (p_x u) gamma))) * p_w u * x_at u j) l.
Definition cal_hess (ex : Qc -> Qc) (k : nat) (l : list punit) (gamma : list Qc) (i j : nat) : Qc :=
  - (sumf (fun u => x_at u i * (x_at u j * ((if p_d u then 0 else - ex (clip500 (dotk k (p_x u) gamma))) * p_w u))) l / qn (length l)).
(** _loss_ps_ipt (pscore_ipt.py:242-261); [lg] is np.log(n_obs - 1) *)
Definition ipt_phi (ex : Qc -> Qc) (lg nm1 v : Qc) : Qc :=
  if Qcltb v lg then - v - ex (clip500 v)
  else - nm1 * (1 - lg + Q2Qc (1 # 2) * (lg * lg)) + (- (nm1 + 1) + nm1 * lg) * v + Q2Qc (1 # 2) * (- nm1) * (v * v).
Definition ipt_phi1 (ex : Qc -> Qc) (lg nm1 v : Qc) : Qc :=
  if Qcltb v lg then - (1) - ex (clip500 v) else - (nm1 + 1) + nm1 * lg + (- nm1) * v.
Definition ipt_value (ex : Qc -> Qc) (lg : Qc) (k : nat) (l : list punit) (gamma : list Qc) : Qc :=
  let nm1 := qn (length l) - 1 in
  - sumf (fun u => p_w u * (1 - p_D u) * ipt_phi ex lg nm1 (dotk k (p_x u) gamma) + dotk k (p_x u) gamma) l.
Definition ipt_grad (ex : Qc -> Qc) (lg : Qc) (k : nat) (l : list punit) (gamma : list Qc) (j : nat) : Qc :=
  let nm1 := qn (length l) - 1 in
  - sumf (fun u => x_at u j * (p_w u * (1 - p_D u) * ipt_phi1 ex lg nm1 (dotk k (p_x u) gamma) + 1)) l.
