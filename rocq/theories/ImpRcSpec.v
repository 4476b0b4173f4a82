(** Specification vocabulary for C121-C122. *)
From Verif Require Import Base ReduceModel Calc DrdidModel DrdidSpec RcModel RcSpec.

(** No comparison row reaches the trimming level. *)
Definition runtrimmed (tl : Qc) (ps : runit -> Qc) (l : list runit) : Prop := forall u, In u l -> r_d u = false -> ps u < tl.
(** First-order conditions of least squares of the outcome on the regressors among the comparison rows of period [t], weighted by
    sampling weight times odds of the score. *)
Definition rodds_normal (k : nat) (ps : runit -> Qc) (t : bool) (l : list runit) (beta : list Qc) : Prop :=
  forall j, (j < k)%nat ->
  sumf (fun u => r_w u * (ps u / (1 - ps u)) * (r_y u - dotk k (r_x u) beta) * rx_at u j) (cell false t l) = 0.
(** In period [t] the odds-weighted comparison rows have the covariate means of the treated rows. *)
Definition rbalanced (tl : Qc) (k : nat) (ps : runit -> Qc) (t : bool) (l : list runit) : Prop :=
  forall j, (j < k)%nat -> cell_mean true t (fun u => rx_at u j) l = odds_cell_mean tl ps t (fun u => rx_at u j) l.
(** The fitted score moves smoothly when row weights are perturbed in direction [h]: its coefficients are differentiable, and at every row the
    link has the logistic derivative and is off the clipping and trimming boundaries. *)
Definition rsmooth_score (o : roracle) (k : nat) (tl : Qc) (l : list runit) (h : runit -> Qc) : Prop :=
  let g := fun e => rgamma_of o (map (rreweight e h) l) in
  (forall j, (j < k)%nat -> exists d, derivative_at_0 (fun e => nth j (g e) 0) d) /\
  forall u, In u l -> let z := dotk k (r_x u) (g 0) in
    derivative_at_0 (fun t => ro_mu o (z + t)) (ro_mu o z * (1 - ro_mu o z)) /\
    eps6 < ro_mu o z /\ ro_mu o z < 1 - eps6 /\ ro_mu o z <> tl.
(** Coefficients of the odds-weighted comparison regression in period [t]. *)
Definition rbeta_odds (o : roracle) (k : nat) (t : bool) (l : list runit) : list Qc :=
  let ps := rps_fit (ro_mu o) k (rgamma_of o l) in
  match ro_wls o (map (fun u => rset_w (r_w u * (ps u / (1 - ps u))) u) (cell false t (rnormalise l))) with Some v => v | None => nil end.
(** Covariate imbalance in period [t]: treated mean minus odds-weighted comparison mean; and pooled treated mean minus the same. *)
Definition odds_imbalance (tl : Qc) (ps : runit -> Qc) (t : bool) (l : list runit) (j : nat) : Qc :=
  cell_mean true t (fun u => rx_at u j) l - odds_cell_mean tl ps t (fun u => rx_at u j) l.
Definition pooled_imbalance (tl : Qc) (ps : runit -> Qc) (t : bool) (l : list runit) (j : nat) : Qc :=
  treated_mean (fun u => rx_at u j) l - odds_cell_mean tl ps t (fun u => rx_at u j) l.
(** Change of the treated covariate mean: pooled minus period [t]. *)
Definition treated_drift (t : bool) (l : list runit) (j : nat) : Qc :=
  treated_mean (fun u => rx_at u j) l - cell_mean true t (fun u => rx_at u j) l.
