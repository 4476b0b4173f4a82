(** Model of the two-period triple-difference estimator for repeated cross-sections: moderndid/didtriple/estimators/ddd_rc.py
    (ddd_rc, _validate_inputs_rc) and moderndid/didtriple/nuisance_rc.py (numpy backend, boot=False). Definitions only. Numbers are
    rationals; the numerical routines are the [roracle] of RcModel. Standard errors, confidence limits, warnings and the bootstrap are
    not part of the result here. Weights that are all zero divide by zero in the code; in the model they become zero weights, and the
    call raises. *)
From Verif Require Import Base ReduceModel DrdidModel RcModel DddModel.

(** One row: subgroup code (4 treated-eligible, 3 treated-ineligible, 2 eligible-untreated, 1 untreated-ineligible), period, outcome,
    weight, covariate row. *)
Record qrow := { q_id : Z; q_sg : Z; q_post : bool; q_y : Qc; q_w : Qc; q_x : list Qc }.
Definition q_set_w (w : Qc) (u : qrow) : qrow :=
  {| q_id := q_id u; q_sg := q_sg u; q_post := q_post u; q_y := q_y u; q_w := w; q_x := q_x u |}.
(** i_weights / mean(i_weights), over the whole sample (ddd_rc.py:517) *)
Definition q_normalise (l : list qrow) : list qrow := map (fun u => q_set_w (q_w u / mean q_w l) u) l.

(** mask = (subgroup == 4) | (subgroup == comparison_subgroup) (nuisance_rc.py:247, 631, 714, 729, 857) *)
Definition q_in_pair (c : Z) (u : qrow) : bool := ((q_sg u =? 4) || (q_sg u =? c))%Z.
(** the masked arrays; pa4 becomes the treatment indicator, pa_comp its complement (nuisance_rc.py:248-265, 632-636, 730-734) *)
Definition q_as_pair (u : qrow) : runit :=
  {| r_id := q_id u; r_d := (q_sg u =? 4)%Z; r_post := q_post u; r_y := q_y u; r_w := q_w u; r_x := q_x u |}.
Definition q_pair (c : Z) (l : list qrow) : list runit := map q_as_pair (filter (q_in_pair c) l).

(** predict(X) (nuisance_rc.py:692) and np.minimum(ps_fit, 1 - 1e-6) (nuisance_rc.py:703) *)
Definition qps_raw (mu : Qc -> Qc) (k : nat) (gamma : list Qc) (u : runit) : Qc := mu (dotk k (r_x u) gamma).
Definition qps_cap (mu : Qc -> Qc) (k : nat) (gamma : list Qc) (u : runit) : Qc :=
  if Qcltb (1 - eps6) (qps_raw mu k gamma u) then 1 - eps6 else qps_raw mu k gamma u.
(** keep_ps: all treated rows, and the comparison rows whose uncapped score is below the trimming level (nuisance_rc.py:701-702) *)
Definition q_keep (tl : Qc) (raw : runit -> Qc) (u : runit) : Qc := ind (r_d u || Qcltb (raw u) tl).

(** Propensity score part of one comparison: keep_ps, capped scores, hessian_matrix. For "reg" all rows are kept and the rest is unused
    (nuisance_rc.py:626-721). cov_params is the inverse of X' W X at the uncapped scores. *)
Record q_ps := { qp_keep : runit -> Qc; qp_ps : runit -> Qc; qp_H : matrix }.
Definition q_pscore (o : roracle) (k : nat) (m : emethod) (tl : Qc) (l : list runit) : option q_ps :=
  match m with
  | Reg => Some {| qp_keep := fun _ => 1; qp_ps := fun _ => 1; qp_H := [] |}
  | _ => match ro_logit o l with
         | Some gamma => match ro_inv o (rps_gram k (qps_raw (ro_mu o) k gamma) l) with
                         | Some V => Some {| qp_keep := q_keep tl (qps_raw (ro_mu o) k gamma); qp_ps := qps_cap (ro_mu o) k gamma;
                                             qp_H := mscale (qn (length l)) V |}
                         | None => None end
         | None => None end
  end.
(** _fit_ols_cell (nuisance_rc.py:798-851): an empty cell, fewer rows than regressors or a failed fit give NaN fitted values. *)
Definition q_fit (o : roracle) (k : nat) (d t : bool) (l : list runit) : option (list Qc) :=
  let c := cell d t l in
  if (length c =? 0)%nat || (length c <? k)%nat then None else ro_wls o c.

(** w_treat_pre, w_treat_post, w_cont_pre, w_cont_post, w_d (nuisance_rc.py:267-288); w_dt1 and w_dt0 are w_treat_post and w_treat_pre;
    w_reg_control of "reg" is w_d (keep_ps is all true). *)
Definition qw_t0 (p : q_ps) (u : runit) : Qc := qp_keep p u * r_w u * r_D u * (1 - r_P u).
Definition qw_t1 (p : q_ps) (u : runit) : Qc := qp_keep p u * r_w u * r_D u * r_P u.
Definition qw_c0 (p : q_ps) (u : runit) : Qc := qp_keep p u * r_w u * qp_ps p u * (1 - r_D u) * (1 - r_P u) / (1 - qp_ps p u).
Definition qw_c1 (p : q_ps) (u : runit) : Qc := qp_keep p u * r_w u * qp_ps p u * (1 - r_D u) * r_P u / (1 - qp_ps p u).
Definition qw_d (p : q_ps) (u : runit) : Qc := qp_keep p u * r_w u * r_D u.

(** "reg": nuisance_rc.py:301-313 *)
Definition q_reg_att (p : q_ps) (k : nat) (c0 c1 : list Qc) (l : list runit) : Qc :=
  (att_c (qw_t1 p) r_y l - att_c (qw_t0 p) r_y l) - mean (fun u => qw_d p u * (rout k c1 u - rout k c0 u)) l / mean (qw_d p) l.
(** nuisance_rc.py:471-508, one row *)
Definition q_reg_inf (p : q_ps) (k : nat) (c0 c1 : list Qc) (M0 M1 : matrix) (l : list runit) (u : runit) : Qc :=
  let g := fun u => rout k c1 u - rout k c0 u in
  let inf_treat_pre := (qw_t0 p u * r_y u - qw_t0 p u * att_c (qw_t0 p) r_y l) / mean (qw_t0 p) l in
  let inf_treat_post := (qw_t1 p u * r_y u - qw_t1 p u * att_c (qw_t1 p) r_y l) / mean (qw_t1 p) l in
  let eta_reg := mean (fun u => qw_d p u * g u) l / mean (qw_d p) l in
  let inf_control_1 := qw_d p u * g u - qw_d p u * eta_reg in
  let m1 := rmean_col k (qw_d p) l in
  let inf_control := (inf_control_1 + dotk k (alr_ols k false true c1 M1 u) m1 - dotk k (alr_ols k false false c0 M0 u) m1) / mean (qw_d p) l in
  (inf_treat_post - inf_treat_pre) - inf_control.

(** "dr" and "ipw": fitted values, as functions of the row; all zero for "ipw" (nuisance_rc.py:786-795, 854-870) *)
Record q_outs := { qo_c0 : runit -> Qc; qo_c1 : runit -> Qc; qo_t0 : runit -> Qc; qo_t1 : runit -> Qc }.
Definition q_own (f : q_outs) (u : runit) : Qc := r_P u * qo_c1 f u + (1 - r_P u) * qo_c0 f u.
(** nuisance_rc.py:338-362 *)
Definition q_dr_att (p : q_ps) (f : q_outs) (l : list runit) : Qc :=
  let v := fun u => r_y u - q_own f u in
  let g1 := fun u => qo_t1 f u - qo_c1 f u in let g0 := fun u => qo_t0 f u - qo_c0 f u in
  (att_c (qw_t1 p) v l - att_c (qw_t0 p) v l) - (att_c (qw_c1 p) v l - att_c (qw_c0 p) v l)
  + (att_c (qw_d p) g1 l - att_c (qw_t1 p) g1 l) - (att_c (qw_d p) g0 l - att_c (qw_t0 p) g0 l).
(** The four asymptotic linear representations of the outcome regressions at one row; none for "ipw" (nuisance_rc.py:531-588). The
    treated Gram matrices are inverted when the treated weights of the period sum to more than zero, which holds here because the call
    raises otherwise. *)
Record q_alr := { qa_c0 : runit -> list Qc; qa_c1 : runit -> list Qc; qa_t0 : runit -> list Qc; qa_t1 : runit -> list Qc }.
(** inf_or_adj and the regression parts of inf_treat and inf_cont (nuisance_rc.py:590-610) *)
Definition q_or_inf (p : q_ps) (k : nat) (a : q_alr) (l : list runit) (u : runit) : Qc * Qc * Qc :=
  let post := r_P in let pre := fun u => 1 - r_P u in
  let inf_treat_or := dotk k (qa_c1 a u) (or_moment k (qw_t1 p) post l) + dotk k (qa_c0 a u) (or_moment k (qw_t0 p) pre l) in
  let inf_cont_or := dotk k (qa_c1 a u) (or_moment k (qw_c1 p) post l) + dotk k (qa_c0 a u) (or_moment k (qw_c0 p) pre l) in
  let mom_post := rmean_col k (fun v => qw_d p v / mean (qw_d p) l - qw_t1 p v / mean (qw_t1 p) l) l in
  let mom_pre := rmean_col k (fun v => qw_d p v / mean (qw_d p) l - qw_t0 p v / mean (qw_t0 p) l) l in
  let inf_or_post := dotk k (vsub k (qa_t1 a u) (qa_c1 a u)) mom_post in
  let inf_or_pre := dotk k (vsub k (qa_t0 a u) (qa_c0 a u)) mom_pre in
  (inf_treat_or, inf_cont_or, inf_or_post - inf_or_pre).
(** nuisance_rc.py:510-529, 612-623, one row; [or] is the outcome regression part *)
Definition q_dr_inf (p : q_ps) (k : nat) (f : q_outs) (oinf : runit -> Qc * Qc * Qc) (l : list runit) (u : runit) : Qc :=
  let v := fun u => r_y u - q_own f u in
  let g1 := fun u => qo_t1 f u - qo_c1 f u in let g0 := fun u => qo_t0 f u - qo_c0 f u in
  let '(inf_treat_or, inf_cont_or, inf_or_adj) := oinf u in
  let inf_cont_ps := dotk k (alr_logit k (qp_ps p) (qp_H p) u) (vsub k (ps_moment k (qw_c1 p) v l) (ps_moment k (qw_c0 p) v l)) in
  let inf_treat := lead (qw_t1 p) v l u - lead (qw_t0 p) v l u + inf_treat_or in
  let inf_cont := lead (qw_c1 p) v l u - lead (qw_c0 p) v l u + inf_cont_ps + inf_cont_or in
  let inf_eff := (lead (qw_d p) g1 l u - lead (qw_t1 p) g1 l u) - (lead (qw_d p) g0 l u - lead (qw_t0 p) g0 l u) in
  inf_treat - inf_cont + inf_eff + inf_or_adj.
Definition outs0 : q_outs := {| qo_c0 := fun _ => 0; qo_c1 := fun _ => 0; qo_t0 := fun _ => 0; qo_t1 := fun _ => 0 |}.

(** _compute_did_rc (nuisance_rc.py:233-416), before the scatter into the full sample. NaN fitted values give NaN; the pseudo-inverse
    fallback of the Gram matrices is part of [ro_inv]. *)
Definition did_rc (o : roracle) (k : nat) (m : emethod) (tl : Qc) (l : list runit) : pan_result :=
  match q_pscore o k m tl l with
  | None => PRaise
  | Some p =>
      if Qceqb (mean (qw_t0 p) l) 0 || Qceqb (mean (qw_t1 p) l) 0 then PRaise else
      match m with
      | Reg =>
          match q_fit o k false false l, q_fit o k false true l with
          | Some c0, Some c1 =>
              match ro_inv o (rgram k false false l), ro_inv o (rgram k false true l) with
              | Some M0, Some M1 => PEst (q_reg_att p k c0 c1 l) (map (q_reg_inf p k c0 c1 M0 M1 l) l)
              | _, _ => PRaise
              end
          | _, _ => PNaN
          end
      | Ipw =>
          if Qceqb (mean (qw_c0 p) l) 0 || Qceqb (mean (qw_c1 p) l) 0 then PRaise else
          PEst (q_dr_att p outs0 l) (map (q_dr_inf p k outs0 (fun _ => (0, 0, 0)) l) l)
      | Dr =>
          if Qceqb (mean (qw_c0 p) l) 0 || Qceqb (mean (qw_c1 p) l) 0 then PRaise else
          match q_fit o k false false l, q_fit o k false true l, q_fit o k true false l, q_fit o k true true l with
          | Some c0, Some c1, Some t0, Some t1 =>
              match ro_inv o (rgram k false false l), ro_inv o (rgram k false true l),
                    ro_inv o (rgram k true false l), ro_inv o (rgram k true true l) with
              | Some MC0, Some MC1, Some MT0, Some MT1 =>
                  let f := {| qo_c0 := rout k c0; qo_c1 := rout k c1; qo_t0 := rout k t0; qo_t1 := rout k t1 |} in
                  let a := {| qa_c0 := alr_ols k false false c0 MC0; qa_c1 := alr_ols k false true c1 MC1;
                              qa_t0 := alr_ols k true false t0 MT0; qa_t1 := alr_ols k true true t1 MT1 |} in
                  PEst (q_dr_att p f l) (map (q_dr_inf p k f (q_or_inf p k a l) l) l)
              | _, _, _, _ => PRaise
              end
          | _, _, _, _ => PNaN
          end
      end
  end.

(** n / n_k if n_k > 0 else 0 (nuisance_rc.py:219-226) *)
Definition q_share (c : Z) (l : list qrow) : Qc :=
  let nk := length (filter (q_in_pair c) l) in if (0 <? nk)%nat then qn (length l) / qn nk else 0.
(** Results: exception, NaN estimate, or the estimate with the three comparisons (att_4v3, att_4v2, att_4v1) and the influence function. *)
Inductive dddrc_result := QRaise | QNaN | QEst (att a3 a2 a1 : Qc) (inf : list Qc).
(** compute_all_nuisances_rc and compute_all_did_rc (nuisance_rc.py:79-230); the scatter is nuisance_rc.py:412-414. An exception in any
    comparison is an exception of the call; otherwise a NaN in any comparison makes the sum NaN. *)
Definition all_did_rc (o : roracle) (k : nat) (m : emethod) (tl : Qc) (l : list qrow) : dddrc_result :=
  match did_rc o k m tl (q_pair 3 l), did_rc o k m tl (q_pair 2 l), did_rc o k m tl (q_pair 1 l) with
  | PEst a3 i3, PEst a2 i2, PEst a1 i1 =>
      let f3 := scatter (map (q_in_pair 3) l) i3 in
      let f2 := scatter (map (q_in_pair 2) l) i2 in
      let f1 := scatter (map (q_in_pair 1) l) i1 in
      QEst (a3 + a2 - a1) a3 a2 a1
        (map (fun p => q_share 3 l * fst (fst p) + q_share 2 l * snd (fst p) - q_share 1 l * snd p) (combine (combine f3 f2) f1))
  | PRaise, _, _ | _, PRaise, _ | _, _, PRaise => QRaise
  | _, _, _ => QNaN
  end.
Definition q_neg (l : list qrow) : bool := existsb (fun u => Qcltb (q_w u) 0) l.
Definition q_sg_ok (u : qrow) : bool := ((q_sg u =? 1) || (q_sg u =? 2) || (q_sg u =? 3) || (q_sg u =? 4))%Z.
(** ddd_rc with _validate_inputs_rc (ddd_rc.py:183-222, 483-539) *)
Definition ddd_rc (o : roracle) (k : nat) (m : emethod) (tl : Qc) (l0 : list qrow) : dddrc_result :=
  if q_neg l0 then QRaise
  else if negb (forallb q_sg_ok l0) then QRaise
  else if negb (existsb (fun u => q_sg u =? 4)%Z l0) then QRaise
  else if negb (existsb q_post l0) then QRaise
  else if negb (existsb (fun u => negb (q_post u)) l0) then QRaise
  else all_did_rc o k m tl (q_normalise l0).
