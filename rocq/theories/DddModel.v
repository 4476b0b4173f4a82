(** Model of the two-period triple-difference estimator for panels: moderndid/didtriple/estimators/ddd_panel.py and
    moderndid/didtriple/nuisance.py (numpy backend, boot=False). Definitions only. Numbers are rationals; the numerical routines
    are the [oracle] of DrdidModel (logit fit, WLS fit, logistic function, matrix inverse; [None] is an exception). Standard
    errors, confidence limits, warnings and the bootstrap are not part of the result here. *)
From Verif Require Import Base ReduceModel DrdidModel.

(** One unit: subgroup code (4 treated-eligible, 3 treated-ineligible, 2 eligible-untreated, 1 untreated-ineligible), outcomes in
    the two periods, weight, covariate row. *)
Record tunit := { t_id : Z; t_sg : Z; t_y1 : Qc; t_y0 : Qc; t_w : Qc; t_x : list Qc }.
Definition t_set_w (w : Qc) (u : tunit) : tunit :=
  {| t_id := t_id u; t_sg := t_sg u; t_y1 := t_y1 u; t_y0 := t_y0 u; t_w := w; t_x := t_x u |}.
(** i_weights / mean(i_weights) (ddd_panel.py:322) *)
Definition t_normalise (l : list tunit) : list tunit := map (fun u => t_set_w (t_w u / mean t_w l) u) l.

Inductive emethod := Dr | Reg | Ipw.

(** mask = (subgroup == 4) | (subgroup == comparison_subgroup) (nuisance.py:256, 461, 559, 596, 676) *)
Definition in_pair (c : Z) (u : tunit) : bool := ((t_sg u =? 4) || (t_sg u =? c))%Z.
(** the masked arrays; pa4 becomes the treatment indicator, pa_comp its complement (nuisance.py:257-268) *)
Definition as_pair (u : tunit) : punit :=
  {| p_id := t_id u; p_d := (t_sg u =? 4)%Z; p_y1 := t_y1 u; p_y0 := t_y0 u; p_w := t_w u; p_x := t_x u |}.
Definition pair_units (c : Z) (l : list tunit) : list punit := map as_pair (filter (in_pair c) l).

(** predict(X) and np.minimum(ps_fit, 1 - 1e-6) (nuisance.py:522, 531) *)
Definition ps_raw (mu : Qc -> Qc) (k : nat) (gamma : list Qc) (u : punit) : Qc := mu (dotk k (p_x u) gamma).
Definition ps_cap (mu : Qc -> Qc) (k : nat) (gamma : list Qc) (u : punit) : Qc :=
  if Qcltb (1 - eps6) (ps_raw mu k gamma u) then 1 - eps6 else ps_raw mu k gamma u.

(** w_treat, w_control (nuisance.py:270-274); keep_ps is all true for "reg" (nuisance.py:533-534, 565) *)
Definition tw_keep (m : emethod) (tl : Qc) (ps : punit -> Qc) (u : punit) : Qc :=
  match m with Reg => 1 | _ => ind (p_d u || Qcltb (ps u) tl) end.
Definition tw_treat (m : emethod) (tl : Qc) (ps : punit -> Qc) (u : punit) : Qc := tw_keep m tl ps u * p_w u * p_D u.
Definition tw_control (m : emethod) (tl : Qc) (ps : punit -> Qc) (u : punit) : Qc :=
  match m with
  | Reg => tw_keep m tl ps u * p_w u * (1 - p_D u)
  | _ => tw_keep m tl ps u * p_w u * ps u * (1 - p_D u) / (1 - ps u)
  end.
(** dr_att = att_treat - att_control (nuisance.py:276-292) *)
Definition pair_att (m : emethod) (tl : Qc) (ps out : punit -> Qc) (l : list punit) : Qc :=
  wmean (tw_treat m tl ps) (fun u => p_dy u - out u) l - wmean (tw_control m tl ps) (fun u => p_dy u - out u) l.
(** _compute_inf_func (nuisance.py:384-433), one unit. [H] is hessian_matrix = cov_params * n_sub. *)
Definition pair_inf (m : emethod) (k : nat) (tl : Qc) (ps out : punit -> Qc) (Minv H : matrix) (l : list punit) (u : punit) : Qc :=
  let wt := tw_treat m tl ps in let wc := tw_control m tl ps in
  let r := fun u => p_dy u - out u in
  let att_t := wmean wt r l in let att_c := wmean wc r l in
  let inf_control_pscore := match m with Reg => 0 | _ =>
    dotk k (alr_ps k ps H u) (mean_col k (fun v => wc v * (p_dy v - out v - att_c)) l) end in
  let inf_treat_or := match m with Ipw => 0 | _ => - dotk k (alr_wols k out Minv u) (mean_col k wt l) end in
  let inf_cont_or := match m with Ipw => 0 | _ => - dotk k (alr_wols k out Minv u) (mean_col k wc l) end in
  let inf_control := (wc u * r u - wc u * att_c + inf_control_pscore + inf_cont_or) / mean wc l in
  let inf_treat := (wt u * r u - wt u * att_t + inf_treat_or) / mean wt l in
  inf_treat - inf_control.

(** The nuisance fits of one comparison: _compute_pscore (nuisance.py:501-539; cov_params is the inverse of X' W X at the fitted,
    uncapped, scores) or _compute_pscore_null, and _compute_outcome_regression or its null version (nuisance.py:569-684). *)
Definition pscore_fit (o : oracle) (k : nat) (m : emethod) (l : list punit) : option ((punit -> Qc) * matrix) :=
  match m with
  | Reg => Some (fun _ => 1, [])
  | _ => match o_logit o l with
         | Some gamma => match o_inv o (ps_gram k (ps_raw (o_mu o) k gamma) l) with
                         | Some V => Some (ps_cap (o_mu o) k gamma, mscale (qn (length l)) V)
                         | None => None end
         | None => None end
  end.
Definition outcome_fit (o : oracle) (k : nat) (m : emethod) (l : list punit) : option (punit -> Qc) :=
  match m with
  | Ipw => Some (fun _ => 0)
  | _ => match o_wls o (filter (fun u => negb (p_d u)) l) with
         | Some beta => Some (fun u => dotk k (p_x u) beta)
         | None => None end
  end.
(** inverse of the outcome-regression design (nuisance.py:405-418): solve, or the pseudo-inverse after a warning; both in [o_inv].
    Not computed for "ipw". *)
Definition outcome_inv (o : oracle) (k : nat) (m : emethod) (l : list punit) : option matrix :=
  match m with Ipw => Some [] | _ => o_inv o (ols_gram k l) end.

(** _compute_did (nuisance.py:218-318), before the scatter into the full sample. *)
Definition compute_did (o : oracle) (k : nat) (m : emethod) (tl : Qc) (l : list punit) : option (Qc * list Qc) :=
  match pscore_fit o k m l, outcome_fit o k m l with
  | Some (ps, H), Some out =>
      if Qceqb (mean (tw_treat m tl ps) l) 0 then None
      else if Qceqb (mean (tw_control m tl ps) l) 0 then None
      else match outcome_inv o k m l with
           | Some Minv => Some (pair_att m tl ps out l, map (pair_inf m k tl ps out Minv H l) l)
           | None => None end
  | _, _ => None
  end.
(** inf_func = zeros(n_total); inf_func[where(mask)] = inf_func_sub (nuisance.py:314-316) *)
Fixpoint scatter (mask : list bool) (v : list Qc) : list Qc :=
  match mask with
  | [] => []
  | true :: mask' => hd 0 v :: scatter mask' (tl v)
  | false :: mask' => 0 :: scatter mask' v
  end.
(** n / n_k if n_k > 0 else 0 (nuisance.py:204-211) *)
Definition share (c : Z) (l : list tunit) : Qc :=
  let nk := length (filter (in_pair c) l) in if (0 <? nk)%nat then qn (length l) / qn nk else 0.

(** Results: exception, or the estimate with the three comparisons (att_4v3, att_4v2, att_4v1) and the influence function. *)
Inductive ddd_result := TRaise | TEst (att a3 a2 a1 : Qc) (inf : list Qc).

(** compute_all_nuisances and compute_all_did (nuisance.py:70-215) *)
Definition compute_all (o : oracle) (k : nat) (m : emethod) (trim : Qc) (l : list tunit) : ddd_result :=
  match compute_did o k m trim (pair_units 3 l), compute_did o k m trim (pair_units 2 l), compute_did o k m trim (pair_units 1 l) with
  | Some (a3, i3), Some (a2, i2), Some (a1, i1) =>
      let f3 := scatter (map (in_pair 3) l) i3 in
      let f2 := scatter (map (in_pair 2) l) i2 in
      let f1 := scatter (map (in_pair 1) l) i1 in
      TEst (a3 + a2 - a1) a3 a2 a1
        (map (fun p => share 3 l * fst (fst p) + share 2 l * snd (fst p) - share 1 l * snd p) (combine (combine f3 f2) f1))
  | _, _, _ => TRaise
  end.
Definition t_neg (l : list tunit) : bool := existsb (fun u => Qcltb (t_w u) 0) l.
Definition sg_ok (u : tunit) : bool := ((t_sg u =? 1) || (t_sg u =? 2) || (t_sg u =? 3) || (t_sg u =? 4))%Z.
(** trim_level default of compute_all_nuisances (nuisance.py:77); ddd_panel does not pass it (ddd_panel.py:200-207) *)
Definition trim995 : Qc := Q2Qc (995 # 1000).
(** ddd_panel and _validate_inputs (ddd_panel.py:190-225, 292-339) *)
Definition ddd_panel (o : oracle) (k : nat) (m : emethod) (l0 : list tunit) : ddd_result :=
  if t_neg l0 then TRaise
  else if negb (forallb sg_ok l0) then TRaise
  else if negb (existsb (fun u => t_sg u =? 4)%Z l0) then TRaise
  else compute_all o k m trim995 (t_normalise l0).
