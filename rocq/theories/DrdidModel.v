(** Model of the two-period panel estimators: moderndid/drdid/estimators/drdid_panel.py,
    reg_did_panel.py, std_ipw_did_panel.py (numpy backend, boot=False). Definitions only.
    Numbers are rationals. The numerical routines are inputs (an [oracle]): the logit and WLS fits and the
    matrix inverse; [None] is an exception they raise. Standard errors and confidence limits are not part of the
    results here (C36 models the variance). *)
From Verif Require Import Base ReduceModel.

(** One unit of the estimation sample: y1, y0, d, i_weights, covariates row. *)
Record punit := { p_id : Z; p_d : bool; p_y1 : Qc; p_y0 : Qc; p_w : Qc; p_x : list Qc }.
(** delta_y (drdid_panel.py:215) *)
Definition p_dy (u : punit) : Qc := p_y1 u - p_y0 u.
(** d as a number *)
Definition p_D (u : punit) : Qc := ind (p_d u).

Definition set_w (w : Qc) (u : punit) : punit :=
  {| p_id := p_id u; p_d := p_d u; p_y1 := p_y1 u; p_y0 := p_y0 u; p_w := w; p_x := p_x u |}.
(** i_weights /= mean(i_weights) (drdid_panel.py:226, reg_did_panel.py:273, std_ipw_did_panel.py:223) *)
Definition normalise (l : list punit) : list punit := map (fun u => set_w (p_w u / mean p_w l) u) l.

(** Vector and matrix products of dimension k: x @ b, x @ M, M @ v, and column means of f[:,None] * X. *)
Definition dotk (k : nat) (x b : list Qc) : Qc := sumf (fun j => nth j x 0 * nth j b 0) (seq 0 k).
Definition vm (k : nat) (x : list Qc) (M : matrix) : list Qc :=
  map (fun j => sumf (fun i => nth i x 0 * mget M i j) (seq 0 k)) (seq 0 k).
Definition mv (k : nat) (M : matrix) (v : list Qc) : list Qc :=
  map (fun i => sumf (fun j => mget M i j * nth j v 0) (seq 0 k)) (seq 0 k).
Definition mat_of (k : nat) (f : nat -> nat -> Qc) : matrix :=
  map (fun i => map (fun j => f i j) (seq 0 k)) (seq 0 k).
Definition vec_of (k : nat) (f : nat -> Qc) : list Qc := map f (seq 0 k).
Definition vscale (c : Qc) (v : list Qc) : list Qc := map (fun a => c * a) v.
Definition x_at (u : punit) (j : nat) : Qc := nth j (p_x u) 0.
Definition mean_col (k : nat) (f : punit -> Qc) (l : list punit) : list Qc :=
  vec_of k (fun j => mean (fun u => f u * x_at u j) l).

(** Numerical routines: coefficients of the weighted logit of d on X, coefficients of the WLS of delta_y on X
    among the units given, the logistic function, matrix inverse. *)
Record oracle := { o_logit : list punit -> option (list Qc); o_mu : Qc -> Qc;
                   o_wls : list punit -> option (list Qc); o_inv : matrix -> option matrix }.

(** np.clip *)
Definition clip (lo hi v : Qc) : Qc := if Qcltb v lo then lo else if Qcltb hi v then hi else v.
Definition eps6 : Qc := Q2Qc (1 # 1000000).
(** ps_fit = clip(predict(X), 1e-6, 1 - 1e-6) (drdid_panel.py:263-272, std_ipw_did_panel.py:262-271) *)
Definition ps_fit (mu : Qc -> Qc) (k : nat) (gamma : list Qc) (u : punit) : Qc :=
  clip eps6 (1 - eps6) (mu (dotk k (p_x u) gamma)).

(** trim_ps (drdid_panel.py:113-114, std_ipw_did_panel.py:109-110) *)
Definition trim_ps (tl : Qc) (ps : punit -> Qc) (u : punit) : Qc := ind (p_d u || Qcltb (ps u) tl).
(** _compute_weights (drdid_panel.py:279-287, std_ipw_did_panel.py:277-285) *)
Definition w_treat (tl : Qc) (ps : punit -> Qc) (u : punit) : Qc := trim_ps tl ps u * p_w u * p_D u.
Definition w_cont (tl : Qc) (ps : punit -> Qc) (u : punit) : Qc :=
  trim_ps tl ps u * p_w u * ps u * (1 - p_D u) / (1 - ps u).

Definition any_neg (l : list punit) : bool := existsb (fun u => Qcltb (p_w u) 0) l.
Definition two_groups (l : list punit) : bool := existsb p_d l && existsb (fun u => negb (p_d u)) l.

(** Results: an exception; NaN; the number 0 without influence function; an estimate with its influence function. *)
Inductive pan_result := PRaise | PNaN | PZeroNoInf | PEst (att : Qc) (inf : list Qc).

(** weighted design (X.T @ (w (1-d) X)) / n and X.T @ (W X) (drdid_panel.py:296-300, 309, reg_did_panel.py:342-345) *)
Definition ols_gram (k : nat) (l : list punit) : matrix :=
  mat_of k (fun i j => mean (fun u => x_at u i * (p_w u * (1 - p_D u) * x_at u j)) l).
Definition ps_gram (k : nat) (ps : punit -> Qc) (l : list punit) : matrix :=
  mat_of k (fun i j => sumf (fun u => x_at u i * (ps u * (1 - ps u) * p_w u * x_at u j)) l).
Definition mscale (c : Qc) (M : matrix) : matrix := map (vscale c) M.

(** asy_lin_rep_wols and asy_lin_rep_ps (drdid_panel.py:290-316), one row *)
Definition alr_wols (k : nat) (out : punit -> Qc) (Minv : matrix) (u : punit) : list Qc :=
  vm k (vscale (p_w u * (1 - p_D u) * (p_dy u - out u)) (p_x u)) Minv.
Definition alr_ps (k : nat) (ps : punit -> Qc) (H : matrix) (u : punit) : list Qc :=
  vm k (vscale (p_w u * (p_D u - ps u)) (p_x u)) H.

(** eta_treat / eta_cont: mean(w * v) / mean(w) *)
Definition wmean {A} (w v : A -> Qc) (l : list A) : Qc := mean (fun u => w u * v u) l / mean w l.

(** drdid_panel point estimate (drdid_panel.py:121-137) *)
Definition dr_att (tl : Qc) (ps out : punit -> Qc) (l : list punit) : Qc :=
  wmean (w_treat tl ps) (fun u => p_dy u - out u) l - wmean (w_cont tl ps) (fun u => p_dy u - out u) l.
(** _compute_influence_function (drdid_panel.py:319-345), one unit *)
Definition dr_inf (k : nat) (tl : Qc) (ps out : punit -> Qc) (Minv H : matrix) (l : list punit) (u : punit) : Qc :=
  let wt := w_treat tl ps in let wc := w_cont tl ps in
  let r := fun u => p_dy u - out u in
  let eta_t := wmean wt r l in let eta_c := wmean wc r l in
  let inf_treat := (wt u * r u - wt u * eta_t - dotk k (alr_wols k out Minv u) (mean_col k wt l)) / mean wt l in
  let inf_cont := (wc u * r u - wc u * eta_c
                   + dotk k (alr_ps k ps H u) (mean_col k (fun v => wc v * r v - wc v * eta_c) l)
                   - dotk k (alr_wols k out Minv u) (mean_col k wc l)) / mean wc l in
  inf_treat - inf_cont.

(** drdid_panel (drdid_panel.py:30-206). *)
Definition drdid_panel (o : oracle) (k : nat) (tl : Qc) (l0 : list punit) : pan_result :=
  if any_neg l0 then PRaise else
  let l := normalise l0 in
  if negb (two_groups l) then PRaise else
  match o_logit o l, o_wls o (filter (fun u => negb (p_d u)) l) with
  | Some gamma, Some beta =>
      let ps := ps_fit (o_mu o) k gamma in
      let out := fun u => dotk k (p_x u) beta in
      if Qceqb (mean (w_treat tl ps) l) 0 then PRaise
      else if Qceqb (mean (w_cont tl ps) l) 0 then PRaise
      else match o_inv o (ols_gram k l), o_inv o (ps_gram k ps l) with
           | Some Minv, Some H => PEst (dr_att tl ps out l)
               (map (dr_inf k tl ps out Minv (mscale (qn (length l)) H) l) l)
           | _, _ => PRaise
           end
  | _, _ => PRaise
  end.

(** reg_did_panel (reg_did_panel.py:113-250, 278-395); weights w*d for both components. NaN outcomes are not
    modelled. *)
Definition w_reg (u : punit) : Qc := p_w u * p_D u.
Definition reg_att (out : punit -> Qc) (l : list punit) : Qc :=
  wmean w_reg p_dy l - wmean w_reg out l.
Definition reg_inf (k : nat) (out : punit -> Qc) (Minv : matrix) (l : list punit) (u : punit) : Qc :=
  let m := mean w_reg l in
  let eta_t := wmean w_reg p_dy l in let eta_c := wmean w_reg out l in
  (w_reg u * p_dy u - w_reg u * eta_t) / m
  - (w_reg u * out u - w_reg u * eta_c + dotk k (alr_wols k out Minv u) (mean_col k w_reg l)) / m.
Definition reg_did_panel (o : oracle) (k : nat) (l0 : list punit) : pan_result :=
  if any_neg l0 then PRaise else
  let l := normalise l0 in
  let ctrl := filter (fun u => negb (p_d u)) l in
  let fit := match ctrl with
             | [] => Some None                                          (* all treated: NaN fitted values *)
             | _ => if (length ctrl <? k)%nat then None else option_map Some (o_wls o ctrl)
             end in
  match fit with
  | None => PRaise
  | Some fitted =>
      if Qceqb (mean w_reg l) 0 then PZeroNoInf
      else match fitted with
           | None => PNaN
           | Some beta =>
               let out := fun u => dotk k (p_x u) beta in
               match o_inv o (ols_gram k l) with
               | Some Minv => PEst (reg_att out l) (map (reg_inf k out Minv l) l)
               | None => PRaise
               end
           end
  end.

(** std_ipw_did_panel (std_ipw_did_panel.py:102-204, 288-340). A singular information matrix falls back on the GLM covariance;
    here that fallback is part of [o_inv]. *)
Definition ipw_att (tl : Qc) (ps : punit -> Qc) (l : list punit) : Qc :=
  mean (fun u => w_treat tl ps u * p_dy u / mean (w_treat tl ps) l) l
  - mean (fun u => w_cont tl ps u * p_dy u / mean (w_cont tl ps) l) l.
Definition ipw_inf (k : nat) (tl : Qc) (ps : punit -> Qc) (H : matrix) (l : list punit) (u : punit) : Qc :=
  let wt := w_treat tl ps in let wc := w_cont tl ps in
  let mt := mean wt l in let mc := mean wc l in
  let at_ := mean (fun u => wt u * p_dy u / mt) l in let ac := mean (fun u => wc u * p_dy u / mc) l in
  let inf_treat := wt u * p_dy u / mt - wt u * at_ / mt in
  let inf_cont := wc u * p_dy u / mc - wc u * ac / mc in
  let mom := map (fun v => v / mc) (mean_col k (fun v => wc v * (p_dy v - ac)) l) in
  inf_treat - (inf_cont + dotk k (alr_ps k ps H u) mom).
Definition std_ipw_did_panel (o : oracle) (k : nat) (tl : Qc) (l0 : list punit) : pan_result :=
  if any_neg l0 then PRaise else
  let l := normalise l0 in
  if negb (two_groups l) then PRaise else
  match o_logit o l with
  | Some gamma =>
      let ps := ps_fit (o_mu o) k gamma in
      if Qceqb (mean (w_treat tl ps) l) 0 then PNaN
      else if Qceqb (mean (w_cont tl ps) l) 0 then PNaN
      else match o_inv o (ps_gram k ps l) with
           | Some H => PEst (ipw_att tl ps l) (map (ipw_inf k tl ps (mscale (qn (length l)) H) l) l)
           | None => PRaise
           end
  | None => PRaise
  end.
