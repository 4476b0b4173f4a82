(** Specification vocabulary for C113-C116. *)
From Verif Require Import Base ReduceModel Calc DrdidModel DrdidSpec.

(** The comparison units, weighted by the odds of the score, have the covariate totals of the treated units. *)
Definition calibrated (k : nat) (ps : punit -> Qc) (l : list punit) : Prop :=
  forall j, (j < k)%nat -> sumf (fun u => p_w u * x_at u j) (filter p_d l)
    = sumf (fun u => p_w u * (ps u / (1 - ps u)) * x_at u j) (filter (fun u => negb (p_d u)) l).
(** No comparison unit reaches the trimming level. *)
Definition untrimmed (tl : Qc) (ps : punit -> Qc) (l : list punit) : Prop := forall u, In u l -> p_d u = false -> ps u < tl.
(** Least squares of the outcome change on the regressors among comparison units, weighted by weight times odds. *)
Definition odds_normal (k : nat) (ps : punit -> Qc) (l : list punit) (beta : list Qc) : Prop :=
  forall j, (j < k)%nat ->
  sumf (fun u => p_w u * (ps u / (1 - ps u)) * (p_dy u - dotk k (p_x u) beta) * x_at u j) (filter (fun u => negb (p_d u)) l) = 0.
(** Total of [v] over the untrimmed comparison units, weighted by weight times odds, per unit of treated weight. *)
Definition odds_total (tl : Qc) (ps v : punit -> Qc) (l : list punit) : Qc :=
  sumf (fun u => p_w u * (ps u / (1 - ps u)) * v u) (filter (fun u => negb (p_d u) && Qcltb (ps u) tl) l)
  / sumf p_w (filter p_d l).
(** The tilting fit behaves smoothly when unit weights are perturbed in direction [h]: differentiable coefficients, calibration
    throughout, logistic derivative of the link at the fitted indices, no score at a clipping bound, no comparison unit trimmed. *)
Definition smooth_tilt (o : oracle) (k : nat) (tl : Qc) (l : list punit) (h : punit -> Qc) : Prop :=
  let g := fun e => gamma_of o (map (reweight e h) l) in
  (forall j, (j < k)%nat -> exists d, derivative_at_0 (fun e => nth j (g e) 0) d) /\
  near0 (fun e => calibrated k (ps_fit (o_mu o) k (g e)) (map (reweight e h) l)) /\
  forall u, In u l -> let z := dotk k (p_x u) (g 0) in
    derivative_at_0 (fun t => o_mu o (z + t)) (o_mu o z * (1 - o_mu o z)) /\
    eps6 < o_mu o z /\ o_mu o z < 1 - eps6 /\ (p_d u = false -> o_mu o z < tl).
(** gamma + t v *)
Definition along (k : nat) (gamma v : list Qc) (t : Qc) : list Qc := map (fun j => nth j gamma 0 + t * nth j v 0) (seq 0 k).
(** all indices within the range where np.clip(., -500, 500) does nothing *)
Definition moderate (k : nat) (l : list punit) (gamma : list Qc) : Prop :=
  forall u, In u l -> - qz 500 < dotk k (p_x u) gamma /\ dotk k (p_x u) gamma < qz 500.
(** [ex] has the derivative and the supporting line of the exponential at [z] *)
Definition exp_like_at (ex : Qc -> Qc) (z : Qc) : Prop :=
  0 < ex z /\ derivative_at_0 (fun t => ex (z + t)) (ex z) /\ forall y, ex z + ex z * (y - z) <= ex y.
(** Calibration of the tilting coefficients themselves: comparison units weighted by [ex] of their index have the covariate totals of
    the treated units. *)
Definition ex_calibrated (ex : Qc -> Qc) (k : nat) (l : list punit) (gamma : list Qc) : Prop :=
  forall j, (j < k)%nat -> sumf (fun u => p_w u * x_at u j) (filter p_d l)
    = sumf (fun u => p_w u * ex (dotk k (p_x u) gamma) * x_at u j) (filter (fun u => negb (p_d u)) l).
