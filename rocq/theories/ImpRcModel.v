(** Model of the improved doubly robust estimators for repeated cross-sections: moderndid/drdid/estimators/drdid_imp_rc.py,
    drdid_imp_local_rc.py, with wols_rc of wols.py (numpy backend, boot=False). Definitions only.
    As in RcModel, numbers are rationals and the numerical routines are inputs; here [ro_logit] of the [roracle] is the coefficient
    vector used by calculate_pscore_ipt (pscore_ipt.py:116-161; 0 for the columns that _remove_collinear_columns drops). Standard
    errors and confidence limits are not part of the results here (C36). drdid_imp_rc.py:229 divides in place, so integer weights
    raise there; weights are taken to be floats. *)
From Verif Require Import Base ReduceModel DrdidModel RcModel.

(** sub_weights = i_weights * ps / (1 - ps) (wols.py:309-311) *)
Definition rtilt (ps : runit -> Qc) (u : runit) : runit := rset_w (r_w u * (ps u / (1 - ps u))) u.
(** wols_rc (wols.py:266-330): an empty cell raises; fewer rows than regressors or a failed fit give NaN coefficients. ps = 1
    (wols.py:299-302) does not occur after clipping. *)
Definition wols_rc (o : roracle) (k : nat) (ps : runit -> Qc) (b t : bool) (l : list runit) : fit :=
  match cell b t l with
  | [] => FRaise
  | c => if (length c <? k)%nat then FNaN
         else match ro_wls o (if b then c else map (rtilt ps) c) with Some beta => FCoef beta | None => FNaN end
  end.

(** * drdid_imp_rc *)
(** _compute_influence_function (drdid_imp_rc.py:286-328), one row *)
Definition irc_inf (k : nat) (tl : Qc) (ps : runit -> Qc) (b0 b1 : list Qc) (l : list runit) (u : runit) : Qc :=
  let v := resid k b0 b1 in
  let inf_treat := lead (w_treat_post tl ps) v l u - lead (w_treat_pre tl ps) v l u in
  let inf_cont := lead (w_cont_post tl ps) v l u - lead (w_cont_pre tl ps) v l u in
  inf_treat - inf_cont.
(** dr_att of drdid_imp_rc.py:309, with the weights of lines 243-250 and eta of lines 273-276 *)
Definition irc_att (k : nat) (tl : Qc) (ps : runit -> Qc) (b0 b1 : list Qc) (l : list runit) : Qc :=
  let v := resid k b0 b1 in
  (att_c (w_treat_post tl ps) v l - att_c (w_treat_pre tl ps) v l)
  - (att_c (w_cont_post tl ps) v l - att_c (w_cont_pre tl ps) v l).
(** drdid_imp_rc (drdid_imp_rc.py:122-143, 207-231) *)
Definition drdid_imp_rc (o : roracle) (k : nat) (tl : Qc) (l0 : list runit) : pan_result :=
  if rany_neg l0 then PRaise else
  let l := rnormalise l0 in
  match ro_logit o l with
  | None => PRaise
  | Some gamma =>
      let ps := rps_fit (ro_mu o) k gamma in
      match wols_rc o k ps false false l, wols_rc o k ps false true l with
      | FRaise, _ | _, FRaise => PRaise
      | FCoef b0, FCoef b1 =>
          if some_zero tl ps l then PNaN
          else PEst (irc_att k tl ps b0 b1 l) (map (irc_inf k tl ps b0 b1 l) l)
      | _, _ => PNaN
      end
  end.

(** * drdid_imp_local_rc *)
(** dr_att of drdid_imp_local_rc.py:371-376: the treated weights (lines 269-270, 279-281) are not trimmed *)
Definition ilr_att (k : nat) (tl : Qc) (ps : runit -> Qc) (c0 c1 t0 t1 : list Qc) (l : list runit) : Qc :=
  let v := resid k c0 c1 in
  let gpost := fun u => rout k t1 u - rout k c1 u in let gpre := fun u => rout k t0 u - rout k c0 u in
  (att_c wr_treat_post v l - att_c wr_treat_pre v l)
  - (att_c (w_cont_post tl ps) v l - att_c (w_cont_pre tl ps) v l)
  + (att_c wr_cont gpost l - att_c wr_treat_post gpost l)
  - (att_c wr_cont gpre l - att_c wr_treat_pre gpre l).
(** _compute_influence_function (drdid_imp_local_rc.py:378-401), one row *)
Definition ilr_inf (k : nat) (tl : Qc) (ps : runit -> Qc) (c0 c1 t0 t1 : list Qc) (l : list runit) (u : runit) : Qc :=
  let v := resid k c0 c1 in
  let gpost := fun u => rout k t1 u - rout k c1 u in let gpre := fun u => rout k t0 u - rout k c0 u in
  let inf_treat := lead wr_treat_post v l u - lead wr_treat_pre v l u in
  let inf_cont := lead (w_cont_post tl ps) v l u - lead (w_cont_pre tl ps) v l u in
  let inf_eff := (lead wr_cont gpost l u - lead wr_treat_post gpost l u) - (lead wr_cont gpre l u - lead wr_treat_pre gpre l u) in
  inf_treat - inf_cont + inf_eff.
(** one of the weight vectors of drdid_imp_local_rc.py:269-281 averages to zero (mean(w_d) = 0 only if both treated means are 0) *)
Definition ilr_zero (tl : Qc) (ps : runit -> Qc) (l : list runit) : bool :=
  Qceqb (mean wr_treat_pre l) 0 || Qceqb (mean wr_treat_post l) 0
  || Qceqb (mean (w_cont_pre tl ps) l) 0 || Qceqb (mean (w_cont_post tl ps) l) 0.
(** drdid_imp_local_rc (drdid_imp_local_rc.py:138-169, 233-257) *)
Definition drdid_imp_local_rc (o : roracle) (k : nat) (tl : Qc) (l0 : list runit) : pan_result :=
  if rany_neg l0 then PRaise else
  let l := rnormalise l0 in
  match ro_logit o l with
  | None => PRaise
  | Some gamma =>
      let ps := rps_fit (ro_mu o) k gamma in
      match wols_rc o k ps false false l, wols_rc o k ps false true l, wols_rc o k ps true false l, wols_rc o k ps true true l with
      | FRaise, _, _, _ | _, FRaise, _, _ | _, _, FRaise, _ | _, _, _, FRaise => PRaise
      | FCoef c0, FCoef c1, FCoef t0, FCoef t1 =>
          if ilr_zero tl ps l then PNaN
          else PEst (ilr_att k tl ps c0 c1 t0 t1 l) (map (ilr_inf k tl ps c0 c1 t0 t1 l) l)
      | _, _, _, _ => PNaN
      end
  end.
