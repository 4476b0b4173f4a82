(** Specification vocabulary for the B-spline bases (C94-C96). *)
From Verif Require Import Base Calc SplineModel.

(** Inner product of a coefficient vector with a row. *)
Definition dotl (a b : list Qc) : Qc := qsum (map (fun p => fst p * snd p) (combine a b)).
(** The function of [x] with coefficients [c] in the complete basis on knots [t]. *)
Definition spline (t : list Qc) (k : nat) (c : list Qc) (x : Qc) : Qc := dotl c (basis_row t k x).
(** Row of [BSpline(x=[v], internal_knots, boundary_knots=[lo, hi], degree).basis(complete_basis)], and of [.derivative]. *)
Definition basis_at (degree : nat) (lo hi : Qc) (internal : list Qc) (complete : bool) (v : Qc) : list Qc :=
  match bspline_basis degree (v :: nil) internal (Some (lo, hi)) complete with Some (r :: _) => r | _ => nil end.
Definition derivative_row_at (degree : nat) (lo hi : Qc) (internal : list Qc) (complete : bool) (v : Qc) : list Qc :=
  match bspline_derivative degree (v :: nil) internal (Some (lo, hi)) complete with Some (r :: _) => r | _ => nil end.
(** Powers and polynomials. *)
Fixpoint qpow (x : Qc) (m : nat) : Qc := match m with O => 1 | S p => x * qpow x p end.
Definition poly (a : list Qc) (x : Qc) : Qc := sumf (fun m => nth m a 0 * qpow x m) (seq 0 (length a)).
(** Its derivative. *)
Definition poly' (a : list Qc) (x : Qc) : Qc := sumf (fun m => nth (S m) a 0 * qn (S m) * qpow x m) (seq 0 (length a - 1)).
(** [f] is differentiable at [x] with derivative [d] (with a quadratic remainder). *)
Definition derivative_at (f : Qc -> Qc) (x d : Qc) : Prop := derivative_at_0 (fun e => f (x + e)) d.
