(** Model of the analytical standard errors. Definitions only; squared standard errors ([se2]) instead of their square roots. *)
From Verif Require Import Base ListLib AttGtModel AggteModel.

(** variance_matrix[k, l] = inf_k' inf_l / n_units (did/att_gt.py:391-392) *)
Definition vcov (n : nat) (a b : list Qc) : Qc := sumf (fun p => fst p * snd p) (combine a b) / qn n.
(** standard_errors^2 = diag(variance_matrix) / n_units (did/att_gt.py:393) *)
Definition se2 (n : nat) (a : list Qc) : Qc := vcov n a a / qn n.
(** a standard error of at most 10 sqrt(eps) is reported as NaN (did/att_gt.py:394, did/compute_aggte.py:889-890); squares compared, eps = 2^-52 *)
Definition se_floor2 : Qc := Q2Qc (100 # 4503599627370496).
Definition reported_se2 (v : Qc) : option Qc := if Qcleb v se_floor2 then None else Some v.
(** the two-period estimators: se = std(psi, ddof=1) * sqrt(n - 1) / n, squared (drdid/estimators/drdid_panel.py:156,
    reg_did_panel.py:204, std_ipw_did_panel.py:157); for n = 1 the code gives NaN, here 0 *)
Definition two_period_se2 (psi : list Qc) : Qc :=
  let n := qn (length psi) in let m := mean (fun x => x) psi in
  sumf (fun v => (v - m) * (v - m)) psi / (n - 1) * (n - 1) / (n * n).
