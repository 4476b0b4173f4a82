(** Specification vocabulary for C25-C27 and C05. *)
From Verif Require Import Base ReduceModel Calc DrdidModel.

(** Weighted least squares of the outcome change on the regressors among the comparison units of [l]. *)
Definition normal_equations (k : nat) (l : list punit) (beta : list Qc) : Prop :=
  forall j, (j < k)%nat ->
  sumf (fun u => p_w u * (1 - p_D u) * (p_dy u - dotk k (p_x u) beta) * x_at u j) l = 0.
(** Score equations of the weighted logit. *)
Definition score_equations (k : nat) (ps : punit -> Qc) (l : list punit) : Prop :=
  forall j, (j < k)%nat -> sumf (fun u => p_w u * (p_D u - ps u) * x_at u j) l = 0.
(** No nontrivial combination of the regressors vanishes on all comparison units (with positive weight). *)
Definition no_collinearity (k : nat) (l : list punit) : Prop :=
  forall v, (forall u, In u l -> p_d u = false -> 0 < p_w u -> dotk k (p_x u) v = 0) ->
  forall j, (j < k)%nat -> nth j v 0 = 0.
Definition has_intercept (l : list punit) : Prop := forall u, In u l -> nth 0 (p_x u) 0 = 1.
Definition mat_mul (k : nat) (A B : matrix) (i j : nat) : Qc := sumf (fun l => mget A i l * mget B l j) (seq 0 k).
Definition is_inverse (k : nat) (M N : matrix) : Prop :=
  forall i j, (i < k)%nat -> (j < k)%nat ->
  mat_mul k M N i j = ind (i =? j)%nat /\ mat_mul k N M i j = ind (i =? j)%nat.

(** The numerical routines do what their names say. *)
Definition wls_ok (o : oracle) (k : nat) : Prop :=
  forall l beta, o_wls o l = Some beta -> normal_equations k l beta.
Definition inv_ok (o : oracle) (k : nat) : Prop :=
  forall M N, o_inv o M = Some N -> is_inverse k M N.
(** the logit fit uses d, weights and regressors only *)
Definition logit_view (u : punit) : bool * Qc * list Qc := (p_d u, p_w u, p_x u).
Definition logit_blind (o : oracle) : Prop :=
  forall l l', map logit_view l = map logit_view l' -> o_logit o l = o_logit o l'.
(** the fits do not depend on the order of the units *)
Definition fits_symmetric (o : oracle) : Prop :=
  forall l l', Permutation l l' -> o_logit o l = o_logit o l' /\ o_wls o l = o_wls o l'.

(** y := c y + a in the post period, c y + b in the pre period: the change becomes c dy + (a - b). *)
Definition affine_y (c a b : Qc) (u : punit) : punit :=
  {| p_id := p_id u; p_d := p_d u; p_y1 := c * p_y1 u + a; p_y0 := c * p_y0 u + b; p_w := p_w u; p_x := p_x u |}.
(** Weighted average of [v] over the units of [l] with treatment status [b]. *)
Definition group_mean (b : bool) (v : punit -> Qc) (l : list punit) : Qc :=
  sumf (fun u => p_w u * v u) (filter (fun u => Bool.eqb (p_d u) b) l) / sumf p_w (filter (fun u => Bool.eqb (p_d u) b) l).
(** Weighted average of [v] over the comparison units with propensity score below the trimming level, weights
    multiplied by the odds ps / (1 - ps). *)
Definition odds_mean (tl : Qc) (ps v : punit -> Qc) (l : list punit) : Qc :=
  let c := filter (fun u => negb (p_d u) && Qcltb (ps u) tl) l in
  sumf (fun u => p_w u * (ps u / (1 - ps u)) * v u) c / sumf (fun u => p_w u * (ps u / (1 - ps u))) c.
(** All sampling weights multiplied by [c]. *)
Definition scale_w (c : Qc) (u : punit) : punit := set_w (c * p_w u) u.
(** The weight of each unit multiplied by its own factor [1 + e * h]. *)
Definition reweight (e : Qc) (h : punit -> Qc) (u : punit) : punit := set_w (p_w u * (1 + e * h u)) u.
(** Same estimate and each unit keeps its influence value, whatever the order of the units. *)
Definition same_up_to_order (l l' : list punit) (r r' : pan_result) : Prop :=
  match r, r' with
  | PEst att inf, PEst att' inf' => att = att' /\ Permutation (combine l inf) (combine l' inf')
  | PRaise, PRaise | PNaN, PNaN | PZeroNoInf, PZeroNoInf => True
  | _, _ => False
  end.
(** Estimate reported (0 when there is none) and whether there is one. *)
Definition att_of (r : pan_result) : Qc := match r with PEst a _ => a | _ => 0 end.
Definition has_est (r : pan_result) : Prop := exists a i, r = PEst a i.
(** Average over the sample of [h] times the reported influence values. *)
Definition avg_with (h : punit -> Qc) (l : list punit) (inf : list Qc) : Qc :=
  sumf (fun p => h (fst p) * snd p) (combine l inf) / qn (length l).
(** The logit fit behaves smoothly when unit weights are perturbed in direction [h]: its coefficients are differentiable, the score
    equations hold, the link has the logistic derivative m(1-m) at the fitted indices, and no fitted score sits at a clipping
    bound or at the trimming level. *)
Definition gamma_of (o : oracle) (l : list punit) : list Qc := match o_logit o (normalise l) with Some g => g | None => [] end.
Definition smooth_logit (o : oracle) (k : nat) (tl : Qc) (l : list punit) (h : punit -> Qc) : Prop :=
  let g := fun e => gamma_of o (map (reweight e h) l) in
  (forall j, (j < k)%nat -> exists d, derivative_at_0 (fun e => nth j (g e) 0) d) /\
  near0 (fun e => score_equations k (ps_fit (o_mu o) k (g e)) (normalise (map (reweight e h) l))) /\
  forall u, In u l -> let z := dotk k (p_x u) (g 0) in
    derivative_at_0 (fun t => o_mu o (z + t)) (o_mu o z * (1 - o_mu o z)) /\
    eps6 < o_mu o z /\ o_mu o z < 1 - eps6 /\ o_mu o z <> tl.
