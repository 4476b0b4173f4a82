(** Specification vocabulary for C53-C56 (two-period triple differences). *)
From Verif Require Import Base ReduceModel Calc DrdidModel DrdidSpec DddModel.

Definition t_dy (u : tunit) : Qc := t_y1 u - t_y0 u.
(** Weighted average of [v] over the units of subgroup [s]. *)
Definition sub_mean (s : Z) (v : tunit -> Qc) (l : list tunit) : Qc :=
  sumf (fun u => t_w u * v u) (filter (fun u => t_sg u =? s)%Z l) / sumf t_w (filter (fun u => t_sg u =? s)%Z l).
(** Total weight of subgroup [s]. *)
Definition sub_weight (s : Z) (l : list tunit) : Qc := sumf t_w (filter (fun u => t_sg u =? s)%Z l).

(** The two-group estimator of drdid (C25-C27) belonging to each est_method. *)
Definition two_group (o : oracle) (k : nat) (m : emethod) (l : list punit) : pan_result :=
  match m with
  | Dr => drdid_panel o k trim995 l
  | Reg => reg_did_panel o k l
  | Ipw => std_ipw_did_panel o k trim995 l
  end.
(** The fits do not depend on the scale of the weights. *)
Definition fits_scale_free (o : oracle) : Prop :=
  forall c l, 0 < c -> o_logit o (map (scale_w c) l) = o_logit o l /\ o_wls o (map (scale_w c) l) = o_wls o l.
(** The fitted propensity scores of the sample stay inside the interval [1e-6, 1 - 1e-6]. *)
Definition scores_interior (o : oracle) (k : nat) (m : emethod) (l : list punit) : Prop :=
  match m with Reg => True | _ =>
    forall gamma u, o_logit o (normalise l) = Some gamma -> In u l ->
      eps6 <= o_mu o (dotk k (p_x u) gamma) /\ o_mu o (dotk k (p_x u) gamma) <= 1 - eps6 end.
(** The regression-based methods need a constant among the covariates. *)
Definition t_intercept (k : nat) (l : list tunit) : Prop := (1 <= k)%nat /\ forall u, In u l -> nth 0 (t_x u) 0 = 1.

(** Post-period outcomes shifted: everybody by [g], treated (subgroups 4 and 3) by [a], eligible (subgroups 4 and 2) by [b],
    treated-eligible (subgroup 4) by [tau]; all outcomes first multiplied by [c]; each unit may also have its own level [f]. *)
Definition shocked (c g a b tau : Qc) (f : tunit -> Qc) (u : tunit) : tunit :=
  {| t_id := t_id u; t_sg := t_sg u;
     t_y1 := c * t_y1 u + f u + g + (if (t_sg u =? 4)%Z || (t_sg u =? 3)%Z then a else 0)
             + (if (t_sg u =? 4)%Z || (t_sg u =? 2)%Z then b else 0) + (if (t_sg u =? 4)%Z then tau else 0);
     t_y0 := c * t_y0 u + f u; t_w := t_w u; t_x := t_x u |}.

Definition t_scale_w (c : Qc) (u : tunit) : tunit := t_set_w (c * t_w u) u.
Definition t_reweight (e : Qc) (h : tunit -> Qc) (u : tunit) : tunit := t_set_w (t_w u * (1 + e * h u)) u.
Definition ddd_att_of (r : ddd_result) : Qc := match r with TEst a _ _ _ _ => a | TRaise => 0 end.
Definition ddd_has_est (r : ddd_result) : Prop := exists a a3 a2 a1 i, r = TEst a a3 a2 a1 i.
(** Average over the sample of [h] times the reported influence values. *)
Definition t_avg_with (h : tunit -> Qc) (l : list tunit) (inf : list Qc) : Qc :=
  sumf (fun p => h (fst p) * snd p) (combine l inf) / qn (length l).
(** Influence value of each unit: its value in each comparison it belongs to (0 otherwise), scaled by n / n_c. *)
Definition same_ddd (l l' : list tunit) (r r' : ddd_result) : Prop :=
  match r, r' with
  | TEst a a3 a2 a1 i, TEst b b3 b2 b1 j => a = b /\ a3 = b3 /\ a2 = b2 /\ a1 = b1 /\ Permutation (combine l i) (combine l' j)
  | TRaise, TRaise => True
  | _, _ => False
  end.
(** [pair_of c] read back: the tunit behind a member of the comparison with subgroup [c]. *)
Definition un_pair (c : Z) (p : punit) : tunit :=
  {| t_id := p_id p; t_sg := (if p_d p then 4 else c)%Z; t_y1 := p_y1 p; t_y0 := p_y0 p; t_w := p_w p; t_x := p_x p |}.
(** Covariates of the comparison sample are not collinear among the comparison units. *)
Definition ddd_no_collinearity (k : nat) (l : list tunit) : Prop :=
  forall c, In c [3; 2; 1]%Z -> no_collinearity k (pair_units c l).
(** Score equations of the logit in the comparison with subgroup [c], at the fitted (capped) scores. *)
Definition ddd_scores (o : oracle) (k : nat) (l : list tunit) : Prop :=
  forall c gamma, In c [3; 2; 1]%Z -> o_logit o (pair_units c (t_normalise l)) = Some gamma ->
    score_equations k (ps_cap (o_mu o) k gamma) (pair_units c (t_normalise l)).
