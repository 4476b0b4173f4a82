(** Specification vocabulary for the repeated cross-section estimators (C89-C93). *)
From Verif Require Import Base ReduceModel Calc DrdidModel DrdidSpec RcModel.

(** Weighted average of [v] over the rows with treatment status [b] in period [t] (true: post), and over all rows with status [b]. *)
Definition cell_mean (b t : bool) (v : runit -> Qc) (l : list runit) : Qc :=
  sumf (fun u => r_w u * v u) (cell b t l) / sumf r_w (cell b t l).
Definition treated_mean (v : runit -> Qc) (l : list runit) : Qc :=
  sumf (fun u => r_w u * v u) (filter r_d l) / sumf r_w (filter r_d l).
(** Weighted average of [v] over the comparison rows of period [t] with propensity score below the trimming level, weights
    multiplied by the odds ps / (1 - ps). *)
Definition odds_cell_mean (tl : Qc) (ps : runit -> Qc) (t : bool) (v : runit -> Qc) (l : list runit) : Qc :=
  let c := filter (fun u => Qcltb (ps u) tl) (cell false t l) in
  sumf (fun u => r_w u * (ps u / (1 - ps u)) * v u) c / sumf (fun u => r_w u * (ps u / (1 - ps u))) c.
(** The two-by-two comparison of weighted cell means. *)
Definition four_cells (l : list runit) : Qc :=
  (cell_mean true true r_y l - cell_mean true false r_y l) - (cell_mean false true r_y l - cell_mean false false r_y l).
(** Weighted share of the rows satisfying [p]. *)
Definition wshare (p : runit -> bool) (l : list runit) : Qc := sumf r_w (filter p l) / sumf r_w l.
(** Horvitz-Thompson mean of a cell: sum of weight x [c] x outcome over the cell, divided by the weight a treated cell of that period
    would have were treatment and period independent (total weight x treated share x share of the period). *)
Definition ht_cell (b t : bool) (c : runit -> Qc) (l : list runit) : Qc :=
  sumf (fun u => r_w u * c u * r_y u) (cell b t l) / (sumf r_w l * wshare r_d l * wshare (fun u => Bool.eqb (r_post u) t) l).

(** First-order conditions of weighted least squares of y on the regressors, over the rows given. *)
Definition rnormal_equations (k : nat) (c : list runit) (beta : list Qc) : Prop :=
  forall j, (j < k)%nat -> sumf (fun u => r_w u * (r_y u - dotk k (r_x u) beta) * rx_at u j) c = 0.
(** Score equations of the weighted logit. *)
Definition rscore_equations (k : nat) (ps : runit -> Qc) (l : list runit) : Prop :=
  forall j, (j < k)%nat -> sumf (fun u => r_w u * (r_D u - ps u) * rx_at u j) l = 0.
(** No nontrivial combination of the regressors vanishes on all the rows given with positive weight. *)
Definition rno_collinearity (k : nat) (c : list runit) : Prop :=
  forall v, (forall u, In u c -> 0 < r_w u -> dotk k (r_x u) v = 0) -> forall j, (j < k)%nat -> nth j v 0 = 0.
Definition rhas_intercept (l : list runit) : Prop := forall u, In u l -> nth 0 (r_x u) 0 = 1.

(** The numerical routines do what their names say. *)
Definition rwls_ok (o : roracle) (k : nat) : Prop := forall c beta, ro_wls o c = Some beta -> rnormal_equations k c beta.
Definition rinv_ok (o : roracle) (k : nat) : Prop := forall M N, ro_inv o M = Some N -> is_inverse k M N.
Definition rscore_ok (o : roracle) (k : nat) : Prop :=
  forall l gamma, ro_logit o l = Some gamma -> rscore_equations k (rps_fit (ro_mu o) k gamma) l.
(** the logit fit uses d, weights and regressors only *)
Definition rlogit_view (u : runit) : bool * Qc * list Qc := (r_d u, r_w u, r_x u).
Definition rlogit_blind (o : roracle) : Prop :=
  forall l l', map rlogit_view l = map rlogit_view l' -> ro_logit o l = ro_logit o l'.
(** the fits do not depend on the order of the rows *)
Definition rfits_symmetric (o : roracle) : Prop :=
  forall l l', Permutation l l' -> ro_logit o l = ro_logit o l' /\ ro_wls o l = ro_wls o l'.

(** y := c y + a in the post period, c y + b in the pre period. *)
Definition raffine_y (c a b : Qc) (u : runit) : runit :=
  {| r_id := r_id u; r_d := r_d u; r_post := r_post u; r_y := c * r_y u + (if r_post u then a else b); r_w := r_w u; r_x := r_x u |}.
(** All sampling weights multiplied by [c]; the weight of each row multiplied by its own factor [1 + e * h]. *)
Definition rscale_w (c : Qc) (u : runit) : runit := rset_w (c * r_w u) u.
Definition rreweight (e : Qc) (h : runit -> Qc) (u : runit) : runit := rset_w (r_w u * (1 + e * h u)) u.
Definition rsame_up_to_order (l l' : list runit) (r r' : pan_result) : Prop :=
  match r, r' with
  | PEst att inf, PEst att' inf' => att = att' /\ Permutation (combine l inf) (combine l' inf')
  | PRaise, PRaise | PNaN, PNaN | PZeroNoInf, PZeroNoInf => True
  | _, _ => False
  end.
Definition ravg_with (h : runit -> Qc) (l : list runit) (inf : list Qc) : Qc :=
  sumf (fun p => h (fst p) * snd p) (combine l inf) / qn (length l).
(** The logit fit behaves smoothly when row weights are perturbed in direction [h] (as [smooth_logit] in DrdidSpec). *)
Definition rgamma_of (o : roracle) (l : list runit) : list Qc := match ro_logit o (rnormalise l) with Some g => g | None => nil end.
Definition rsmooth_logit (o : roracle) (k : nat) (tl : Qc) (l : list runit) (h : runit -> Qc) : Prop :=
  let g := fun e => rgamma_of o (map (rreweight e h) l) in
  (forall j, (j < k)%nat -> exists d, derivative_at_0 (fun e => nth j (g e) 0) d) /\
  near0 (fun e => rscore_equations k (rps_fit (ro_mu o) k (g e)) (rnormalise (map (rreweight e h) l))) /\
  forall u, In u l -> let z := dotk k (r_x u) (g 0) in
    derivative_at_0 (fun t => ro_mu o (z + t)) (ro_mu o z * (1 - ro_mu o z)) /\
    eps6 < ro_mu o z /\ ro_mu o z < 1 - eps6 /\ ro_mu o z <> tl.
(** Coefficients of the outcome regression in one cell of the sample. *)
Definition rbeta_of (o : roracle) (b t : bool) (l : list runit) : list Qc := match ro_wls o (cell b t (rnormalise l)) with Some v => v | None => nil end.
(** Pre-period covariate imbalance left by the odds weights: treated pre-period mean minus odds-weighted comparison pre-period mean. *)
Definition pre_imbalance (tl : Qc) (ps : runit -> Qc) (l : list runit) (j : nat) : Qc :=
  cell_mean true false (fun u => rx_at u j) l - odds_cell_mean tl ps false (fun u => rx_at u j) l.
(** In period [t] the comparison rows with positive weight follow the linear model with coefficients [bstar] exactly. *)
Definition rexact (k : nat) (t : bool) (bstar : list Qc) (l : list runit) : Prop :=
  forall u, In u l -> r_d u = false -> r_post u = t -> 0 < r_w u -> r_y u = dotk k (r_x u) bstar.
