(** Model of the two-period repeated cross-section estimators of moderndid/drdid/estimators: reg_did_rc.py, std_ipw_did_rc.py,
    ipw_did_rc.py, drdid_trad_rc.py, drdid_rc.py (numpy backend, boot=False), with ols_rc of wols.py. Definitions only.
    Numbers are rationals. The numerical routines are inputs (a [roracle]); [None] is an exception or NaN coefficients. Division by
    a zero mean gives NaN in the code; here such a call is [PNaN]. Standard errors are not part of the results here (C36). *)
From Verif Require Import Base ReduceModel DrdidModel.

(** One row of the estimation sample: y, post, d, i_weights, covariates row. *)
Record runit := { r_id : Z; r_d : bool; r_post : bool; r_y : Qc; r_w : Qc; r_x : list Qc }.
(** d and post as numbers *)
Definition r_D (u : runit) : Qc := ind (r_d u).
Definition r_P (u : runit) : Qc := ind (r_post u).
Definition rset_w (w : Qc) (u : runit) : runit :=
  {| r_id := r_id u; r_d := r_d u; r_post := r_post u; r_y := r_y u; r_w := w; r_x := r_x u |}.
(** i_weights / mean(i_weights) (reg_did_rc.py:203, std_ipw_did_rc.py:180, ipw_did_rc.py:205, drdid_trad_rc.py:206, drdid_rc.py:232) *)
Definition rnormalise (l : list runit) : list runit := map (fun u => rset_w (r_w u / mean r_w l) u) l.
(** np.any(i_weights < 0) (reg_did_rc.py:201, std_ipw_did_rc.py:178, ipw_did_rc.py:203, drdid_trad_rc.py:204, drdid_rc.py:229) *)
Definition rany_neg (l : list runit) : bool := existsb (fun u => Qcltb (r_w u) 0) l.
(** both values of d and both values of post occur (std_ipw_did_rc.py:182-189, ipw_did_rc.py:207-214, drdid_trad_rc.py:208-215,
    drdid_rc.py:234-241) *)
Definition rboth (l : list runit) : bool :=
  existsb r_d l && existsb (fun u => negb (r_d u)) l && existsb r_post l && existsb (fun u => negb (r_post u)) l.

(** Numerical routines: weighted logit of d on X, logistic function, WLS of y on X among the rows given, matrix inverse. *)
Record roracle := { ro_logit : list runit -> option (list Qc); ro_mu : Qc -> Qc;
                    ro_wls : list runit -> option (list Qc); ro_inv : matrix -> option matrix }.

(** (d == b) & (post == t) (wols.py:390-397, reg_did_rc.py:213, 254) *)
Definition in_cell (b t : bool) (u : runit) : bool := Bool.eqb (r_d u) b && Bool.eqb (r_post u) t.
Definition cell (b t : bool) (l : list runit) : list runit := filter (in_cell b t) l.
(** ols_rc (wols.py:333-439): an empty cell raises; fewer rows than regressors or a failed fit give NaN coefficients. *)
Inductive fit := FRaise | FNaN | FCoef (beta : list Qc).
Definition ols_rc (o : roracle) (k : nat) (b t : bool) (l : list runit) : fit :=
  match cell b t l with
  | [] => FRaise
  | c => if (length c <? k)%nat then FNaN else match ro_wls o c with Some beta => FCoef beta | None => FNaN end
  end.
(** fitted values X @ beta (wols.py:434) *)
Definition rout (k : nat) (beta : list Qc) (u : runit) : Qc := dotk k (r_x u) beta.

(** ps_fit = clip(predict(X), 1e-6, 1 - 1e-6) (std_ipw_did_rc.py:213-228, ipw_did_rc.py:238-253, drdid_trad_rc.py:239-254,
    drdid_rc.py:265-279) *)
Definition rps_fit (mu : Qc -> Qc) (k : nat) (gamma : list Qc) (u : runit) : Qc := clip eps6 (1 - eps6) (mu (dotk k (r_x u) gamma)).
(** trim_ps (std_ipw_did_rc.py:105-106, ipw_did_rc.py:107-108, drdid_trad_rc.py:107-108, drdid_rc.py:114-115) *)
Definition rtrim (tl : Qc) (ps : runit -> Qc) (u : runit) : Qc := ind (r_d u || Qcltb (ps u) tl).
(** _compute_weights (std_ipw_did_rc.py:234-246, drdid_trad_rc.py:260-272, drdid_rc.py:283-307) *)
Definition w_treat_pre (tl : Qc) (ps : runit -> Qc) (u : runit) : Qc := rtrim tl ps u * r_w u * r_D u * (1 - r_P u).
Definition w_treat_post (tl : Qc) (ps : runit -> Qc) (u : runit) : Qc := rtrim tl ps u * r_w u * r_D u * r_P u.
Definition w_cont_pre (tl : Qc) (ps : runit -> Qc) (u : runit) : Qc :=
  rtrim tl ps u * r_w u * ps u * (1 - r_D u) * (1 - r_P u) / (1 - ps u).
Definition w_cont_post (tl : Qc) (ps : runit -> Qc) (u : runit) : Qc :=
  rtrim tl ps u * r_w u * ps u * (1 - r_D u) * r_P u / (1 - ps u).
(** w_d of drdid_rc.py:295 (w_dt1, w_dt0 of lines 296-297 are w_treat_post, w_treat_pre) *)
Definition w_d (tl : Qc) (ps : runit -> Qc) (u : runit) : Qc := rtrim tl ps u * r_w u * r_D u.

(** eta = w * v / mean(w), att = mean(eta), leading term of the influence function eta - w * att / mean(w)
    (std_ipw_did_rc.py:257-266, 318-325, drdid_trad_rc.py:283-292, 373-392, drdid_rc.py:323-343, 483-531) *)
Definition eta (w v : runit -> Qc) (l : list runit) (u : runit) : Qc := w u * v u / mean w l.
Definition att_c (w v : runit -> Qc) (l : list runit) : Qc := mean (eta w v l) l.
Definition lead (w v : runit -> Qc) (l : list runit) (u : runit) : Qc := eta w v l u - w u * att_c w v l / mean w l.

(** column means of f[:,None] * X, possibly divided by a scalar *)
Definition rx_at (u : runit) (j : nat) : Qc := nth j (r_x u) 0.
Definition rmean_col (k : nat) (f : runit -> Qc) (l : list runit) : list Qc := vec_of k (fun j => mean (fun u => f u * rx_at u j) l).
Definition vdiv (v : list Qc) (c : Qc) : list Qc := map (fun a => a / c) v.
Definition vneg (v : list Qc) : list Qc := map (fun a => - a) v.
Definition vsub (k : nat) (a b : list Qc) : list Qc := vec_of k (fun j => nth j a 0 - nth j b 0).

(** weights_ols = i_weights * [cell], gram = (weighted_x.T @ X) / n, asymptotic linear representation of the coefficients
    (reg_did_rc.py:313-338, drdid_trad_rc.py:309-334, drdid_rc.py:382-427), one row *)
Definition w_ols (b t : bool) (u : runit) : Qc :=
  r_w u * (if b then r_D u else 1 - r_D u) * (if t then r_P u else 1 - r_P u).
Definition rgram (k : nat) (b t : bool) (l : list runit) : matrix :=
  mat_of k (fun i j => mean (fun u => w_ols b t u * rx_at u i * rx_at u j) l).
Definition alr_ols (k : nat) (b t : bool) (beta : list Qc) (Minv : matrix) (u : runit) : list Qc :=
  vm k (vscale (w_ols b t u * (r_y u - rout k beta u)) (r_x u)) Minv.
(** X.T @ (ps (1-ps) w X), and score @ (inverse * n) (std_ipw_did_rc.py:283-289, ipw_did_rc.py:308-314, drdid_trad_rc.py:337-339,
    drdid_rc.py:430-433), one row; [H] is the inverse times n *)
Definition rps_gram (k : nat) (ps : runit -> Qc) (l : list runit) : matrix :=
  mat_of k (fun i j => sumf (fun u => rx_at u i * (ps u * (1 - ps u) * r_w u * rx_at u j)) l).
Definition alr_logit (k : nat) (ps : runit -> Qc) (H : matrix) (u : runit) : list Qc :=
  vm k (vscale (r_w u * (r_D u - ps u)) (r_x u)) H.

(** * reg_did_rc *)
(** _compute_weights (reg_did_rc.py:297-303) *)
Definition wr_treat_pre (u : runit) : Qc := r_w u * r_D u * (1 - r_P u).
Definition wr_treat_post (u : runit) : Qc := r_w u * r_D u * r_P u.
Definition wr_cont (u : runit) : Qc := r_w u * r_D u.
(** reg_did_rc.py:116-124 *)
Definition rreg_att (out0 out1 : runit -> Qc) (l : list runit) : Qc :=
  (wmean wr_treat_post r_y l - wmean wr_treat_pre r_y l) - wmean wr_cont (fun u => out1 u - out0 u) l.
(** _compute_influence_function (reg_did_rc.py:346-387), one row *)
Definition rreg_inf (k : nat) (b0 b1 : list Qc) (M0 M1 : matrix) (l : list runit) (u : runit) : Qc :=
  let g := fun u => rout k b1 u - rout k b0 u in
  let inf_treat_pre := (wr_treat_pre u * r_y u - wr_treat_pre u * wmean wr_treat_pre r_y l) / mean wr_treat_pre l in
  let inf_treat_post := (wr_treat_post u * r_y u - wr_treat_post u * wmean wr_treat_post r_y l) / mean wr_treat_post l in
  let inf_cont_1 := wr_cont u * g u - wr_cont u * wmean wr_cont g l in
  let deriv := rmean_col k wr_cont l in
  let inf_control := (inf_cont_1 + dotk k (alr_ols k false true b1 M1 u) deriv - dotk k (alr_ols k false false b0 M0 u) deriv)
                     / mean wr_cont l in
  (inf_treat_post - inf_treat_pre) - inf_control.
(** _fit_outcome_regressions (reg_did_rc.py:208-294): like ols_rc, but every failure raises *)
Definition reg_did_rc (o : roracle) (k : nat) (l0 : list runit) : pan_result :=
  if rany_neg l0 then PRaise else
  let l := rnormalise l0 in
  match ols_rc o k false false l, ols_rc o k false true l with
  | FCoef b0, FCoef b1 =>
      match ro_inv o (rgram k false false l), ro_inv o (rgram k false true l) with
      | Some M0, Some M1 =>
          if Qceqb (mean wr_treat_pre l) 0 || Qceqb (mean wr_treat_post l) 0 then PNaN
          else PEst (rreg_att (rout k b0) (rout k b1) l) (map (rreg_inf k b0 b1 M0 M1 l) l)
      | _, _ => PRaise
      end
  | _, _ => PRaise
  end.

(** * std_ipw_did_rc *)
(** std_ipw_did_rc.py:112-114 *)
Definition ripw_att (tl : Qc) (ps : runit -> Qc) (l : list runit) : Qc :=
  (att_c (w_treat_post tl ps) r_y l - att_c (w_treat_pre tl ps) r_y l)
  - (att_c (w_cont_post tl ps) r_y l - att_c (w_cont_pre tl ps) r_y l).
(** _compute_influence_function (std_ipw_did_rc.py:296-342), one row *)
Definition ps_moment (k : nat) (w v : runit -> Qc) (l : list runit) : list Qc :=
  vdiv (rmean_col k (fun u => w u * (v u - att_c w v l)) l) (mean w l).
Definition ripw_inf (k : nat) (tl : Qc) (ps : runit -> Qc) (H : matrix) (l : list runit) (u : runit) : Qc :=
  let inf_treat := lead (w_treat_post tl ps) r_y l u - lead (w_treat_pre tl ps) r_y l u in
  let inf_cont := lead (w_cont_post tl ps) r_y l u - lead (w_cont_pre tl ps) r_y l u in
  let inf_cont_ps := dotk k (alr_logit k ps H u)
                       (vsub k (ps_moment k (w_cont_post tl ps) r_y l) (ps_moment k (w_cont_pre tl ps) r_y l)) in
  inf_treat - (inf_cont + inf_cont_ps).
(** one of the four weight vectors averages to zero *)
Definition some_zero (tl : Qc) (ps : runit -> Qc) (l : list runit) : bool :=
  Qceqb (mean (w_treat_pre tl ps) l) 0 || Qceqb (mean (w_treat_post tl ps) l) 0
  || Qceqb (mean (w_cont_pre tl ps) l) 0 || Qceqb (mean (w_cont_post tl ps) l) 0.
(** std_ipw_did_rc (std_ipw_did_rc.py:29-162); the pseudo-inverse fallback is part of [ro_inv] *)
Definition std_ipw_did_rc (o : roracle) (k : nat) (tl : Qc) (l0 : list runit) : pan_result :=
  if rany_neg l0 then PRaise else
  let l := rnormalise l0 in
  if negb (rboth l) then PRaise else
  match ro_logit o l with
  | Some gamma =>
      let ps := rps_fit (ro_mu o) k gamma in
      match ro_inv o (rps_gram k ps l) with
      | Some H => if some_zero tl ps l then PNaN
                  else PEst (ripw_att tl ps l) (map (ripw_inf k tl ps (mscale (qn (length l)) H) l) l)
      | None => PRaise
      end
  | None => PRaise
  end.

(** * ipw_did_rc (Horvitz-Thompson) *)
(** pi_hat, lambda_hat, one_minus_lambda_hat (ipw_did_rc.py:112-114) *)
Definition pi_hat (l : list runit) : Qc := mean (fun u => r_w u * r_D u) l.
Definition lambda_hat (l : list runit) : Qc := mean (fun u => r_w u * r_P u) l.
Definition oml_hat (l : list runit) : Qc := mean (fun u => r_w u * (1 - r_P u)) l.
(** _compute_weights (ipw_did_rc.py:259-264) *)
Definition wh_treat_pre (u : runit) : Qc := r_w u * r_D u * (1 - r_P u).
Definition wh_treat_post (u : runit) : Qc := r_w u * r_D u * r_P u.
(** eta_* (ipw_did_rc.py:282-285) *)
Definition eta_h (w : runit -> Qc) (c : Qc) (u : runit) : Qc := w u * r_y u / c.
(** ipw_did_rc.py:126-128, 288-291 *)
Definition ht_att (tl : Qc) (ps : runit -> Qc) (l : list runit) : Qc :=
  let cpre := pi_hat l * oml_hat l in let cpost := pi_hat l * lambda_hat l in
  (mean (eta_h wh_treat_post cpost) l - mean (eta_h wh_treat_pre cpre) l)
  - (mean (eta_h (w_cont_post tl ps) cpost) l - mean (eta_h (w_cont_pre tl ps) cpre) l).
(** inf_*1 + inf_*2 + inf_*3 (ipw_did_rc.py:338-357): [s] is post or 1 - post, [lam] its weighted mean *)
Definition ht_lead (e : runit -> Qc) (s : runit -> Qc) (lam : Qc) (l : list runit) (u : runit) : Qc :=
  let a := mean e l in
  (e u - a) + - (r_w u * r_D u - pi_hat l) * a / pi_hat l + - (r_w u * s u - lam) * a / lam.
(** _compute_influence_function (ipw_did_rc.py:321-370), one row *)
Definition ht_inf (k : nat) (tl : Qc) (ps : runit -> Qc) (H : matrix) (l : list runit) (u : runit) : Qc :=
  let cpre := pi_hat l * oml_hat l in let cpost := pi_hat l * lambda_hat l in
  let inf_treat_post := ht_lead (eta_h wh_treat_post cpost) r_P (lambda_hat l) l u in
  let inf_treat_pre := ht_lead (eta_h wh_treat_pre cpre) (fun u => 1 - r_P u) (oml_hat l) l u in
  let inf_cont_post := ht_lead (eta_h (w_cont_post tl ps) cpost) r_P (lambda_hat l) l u in
  let inf_cont_pre := ht_lead (eta_h (w_cont_pre tl ps) cpre) (fun u => 1 - r_P u) (oml_hat l) l u in
  let mom_pre := vneg (rmean_col k (eta_h (w_cont_pre tl ps) cpre) l) in
  let mom_post := vneg (rmean_col k (eta_h (w_cont_post tl ps) cpost) l) in
  (inf_treat_post - inf_treat_pre) - (inf_cont_post - inf_cont_pre) + dotk k (alr_logit k ps H u) (vsub k mom_post mom_pre).
(** ipw_did_rc (ipw_did_rc.py:29-187) *)
Definition ipw_did_rc (o : roracle) (k : nat) (tl : Qc) (l0 : list runit) : pan_result :=
  if rany_neg l0 then PRaise else
  let l := rnormalise l0 in
  if negb (rboth l) then PRaise else
  match ro_logit o l with
  | Some gamma =>
      let ps := rps_fit (ro_mu o) k gamma in
      if Qceqb (pi_hat l) 0 then PNaN
      else if Qceqb (lambda_hat l) 0 || Qceqb (lambda_hat l) 1 then PNaN
      else match ro_inv o (rps_gram k ps l) with
           | Some H => PEst (ht_att tl ps l) (map (ht_inf k tl ps (mscale (qn (length l)) H) l) l)
           | None => PRaise
           end
  | None => PRaise
  end.

(** * drdid_trad_rc *)
(** out_y = post * out_y_post + (1 - post) * out_y_pre (drdid_trad_rc.py:125, drdid_rc.py:127) *)
Definition out_own (k : nat) (b0 b1 : list Qc) (u : runit) : Qc := r_P u * rout k b1 u + (1 - r_P u) * rout k b0 u.
Definition resid (k : nat) (b0 b1 : list Qc) (u : runit) : Qc := r_y u - out_own k b0 b1 u.
(** drdid_trad_rc.py:131-133 *)
Definition trad_att (k : nat) (tl : Qc) (ps : runit -> Qc) (b0 b1 : list Qc) (l : list runit) : Qc :=
  let v := resid k b0 b1 in
  (att_c (w_treat_post tl ps) v l - att_c (w_treat_pre tl ps) v l)
  - (att_c (w_cont_post tl ps) v l - att_c (w_cont_pre tl ps) v l).
(** - mean((w * s)[:,None] * X) / mean(w) (drdid_trad_rc.py:378-379, 407-408, drdid_rc.py:488-489, 516-517) *)
Definition or_moment (k : nat) (w s : runit -> Qc) (l : list runit) : list Qc :=
  vdiv (vneg (rmean_col k (fun u => w u * s u) l)) (mean w l).
(** _compute_influence_function (drdid_trad_rc.py:348-421), one row *)
Definition trad_inf (k : nat) (tl : Qc) (ps : runit -> Qc) (b0 b1 : list Qc) (M0 M1 H : matrix) (l : list runit) (u : runit) : Qc :=
  let v := resid k b0 b1 in
  let a0 := alr_ols k false false b0 M0 u in let a1 := alr_ols k false true b1 M1 u in
  let post := r_P in let pre := fun u => 1 - r_P u in
  let inf_treat_or := dotk k a1 (or_moment k (w_treat_post tl ps) post l) + dotk k a0 (or_moment k (w_treat_pre tl ps) pre l) in
  let inf_treat := lead (w_treat_post tl ps) v l u - lead (w_treat_pre tl ps) v l u + inf_treat_or in
  let inf_cont_ps := dotk k (alr_logit k ps H u)
                       (vsub k (ps_moment k (w_cont_post tl ps) v l) (ps_moment k (w_cont_pre tl ps) v l)) in
  let inf_cont_or := dotk k a1 (or_moment k (w_cont_post tl ps) post l) + dotk k a0 (or_moment k (w_cont_pre tl ps) pre l) in
  let inf_cont := lead (w_cont_post tl ps) v l u - lead (w_cont_pre tl ps) v l u + inf_cont_ps + inf_cont_or in
  inf_treat - inf_cont.
(** drdid_trad_rc (drdid_trad_rc.py:30-188) *)
Definition drdid_trad_rc (o : roracle) (k : nat) (tl : Qc) (l0 : list runit) : pan_result :=
  if rany_neg l0 then PRaise else
  let l := rnormalise l0 in
  if negb (rboth l) then PRaise else
  match ro_logit o l, ols_rc o k false false l, ols_rc o k false true l with
  | Some gamma, FCoef b0, FCoef b1 =>
      let ps := rps_fit (ro_mu o) k gamma in
      match ro_inv o (rgram k false false l), ro_inv o (rgram k false true l), ro_inv o (rps_gram k ps l) with
      | Some M0, Some M1, Some H =>
          if some_zero tl ps l then PNaN
          else PEst (trad_att k tl ps b0 b1 l) (map (trad_inf k tl ps b0 b1 M0 M1 (mscale (qn (length l)) H) l) l)
      | _, _, _ => PRaise
      end
  | _, _, _ => PRaise
  end.

(** * drdid_rc (locally efficient) *)
(** drdid_rc.py:135-140; [c0 c1] fits among the comparison rows, [t0 t1] among the treated rows *)
Definition loc_att (k : nat) (tl : Qc) (ps : runit -> Qc) (c0 c1 t0 t1 : list Qc) (l : list runit) : Qc :=
  let gpost := fun u => rout k t1 u - rout k c1 u in let gpre := fun u => rout k t0 u - rout k c0 u in
  trad_att k tl ps c0 c1 l
  + (att_c (w_d tl ps) gpost l - att_c (w_treat_post tl ps) gpost l)
  - (att_c (w_d tl ps) gpre l - att_c (w_treat_pre tl ps) gpre l).
(** _compute_influence_function (drdid_rc.py:444-547), one row *)
Definition loc_inf (k : nat) (tl : Qc) (ps : runit -> Qc) (c0 c1 t0 t1 : list Qc) (MC0 MC1 MT0 MT1 H : matrix) (l : list runit) (u : runit) : Qc :=
  let gpost := fun u => rout k t1 u - rout k c1 u in let gpre := fun u => rout k t0 u - rout k c0 u in
  let wd := w_d tl ps in let w1 := w_treat_post tl ps in let w0 := w_treat_pre tl ps in
  let inf_eff := (lead wd gpost l u - lead w1 gpost l u) - (lead wd gpre l u - lead w0 gpre l u) in
  let mom_post := rmean_col k (fun v => wd v / mean wd l - w1 v / mean w1 l) l in
  let mom_pre := rmean_col k (fun v => wd v / mean wd l - w0 v / mean w0 l) l in
  let inf_or_post := dotk k (vsub k (alr_ols k true true t1 MT1 u) (alr_ols k false true c1 MC1 u)) mom_post in
  let inf_or_pre := dotk k (vsub k (alr_ols k true false t0 MT0 u) (alr_ols k false false c0 MC0 u)) mom_pre in
  trad_inf k tl ps c0 c1 MC0 MC1 H l u + inf_eff + (inf_or_post - inf_or_pre).
(** drdid_rc (drdid_rc.py:30-213). NaN coefficients are not checked here (unlike drdid_trad_rc.py:111-123): the result is NaN, or
    the singular Gram matrix raises; both are [PNaN] here. *)
Definition drdid_rc (o : roracle) (k : nat) (tl : Qc) (l0 : list runit) : pan_result :=
  if rany_neg l0 then PRaise else
  let l := rnormalise l0 in
  if negb (rboth l) then PRaise else
  match ro_logit o l with
  | None => PRaise
  | Some gamma =>
      let ps := rps_fit (ro_mu o) k gamma in
      match ols_rc o k false false l, ols_rc o k false true l, ols_rc o k true false l, ols_rc o k true true l with
      | FRaise, _, _, _ | _, FRaise, _, _ | _, _, FRaise, _ | _, _, _, FRaise => PRaise
      | FCoef c0, FCoef c1, FCoef t0, FCoef t1 =>
          match ro_inv o (rgram k false false l), ro_inv o (rgram k false true l), ro_inv o (rgram k true false l),
                ro_inv o (rgram k true true l), ro_inv o (rps_gram k ps l) with
          | Some MC0, Some MC1, Some MT0, Some MT1, Some H =>
              if some_zero tl ps l then PNaN
              else PEst (loc_att k tl ps c0 c1 t0 t1 l)
                     (map (loc_inf k tl ps c0 c1 t0 t1 MC0 MC1 MT0 MT1 (mscale (qn (length l)) H) l) l)
          | _, _, _, _, _ => PRaise
          end
      | _, _, _, _ => PNaN
      end
  end.
