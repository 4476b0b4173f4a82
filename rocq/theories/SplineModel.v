(** B-spline bases: moderndid/didcont/spline/base.py and bspline.py, on top of scipy.interpolate.BSpline.
    Numbers are exact rationals. scipy's evaluator (find_interval, _deBoor_D, splder) is part of what is modelled: the package only
    assembles the knots and selects columns. *)
From Verif Require Import Base.

(** np.sort (base.py:88). *)
Fixpoint qins (x : Qc) (l : list Qc) : list Qc :=
  match l with [] => [x] | a :: r => if Qcleb x a then x :: l else a :: qins x r end.
Definition qsort (l : list Qc) : list Qc := fold_right qins [] l.
(** np.min / np.max (base.py:77). *)
Definition qmin_l (l : list Qc) : Qc := match l with [] => 0 | a :: r => fold_right (fun x m => if Qcltb x m then x else m) a r end.
Definition qmax_l (l : list Qc) : Qc := match l with [] => 0 | a :: r => fold_right (fun x m => if Qcltb m x then x else m) a r end.

(** [SplineBase._simplify_knots] and [_get_simple_knot_sequence] (base.py:73-99, 140-150): boundary knots given, or the range of [x];
    the interior knots are sorted and must lie strictly inside; the boundary knots are repeated [order = degree + 1] times.
    [None]: ValueError. Simplified: [is_close] (relative tolerance 1e-9) is equality; the constructors from [df] or from a complete
    [knot_sequence] are not modelled. *)
Definition boundary (x : list Qc) (bnd : option (Qc * Qc)) : option (Qc * Qc) :=
  match bnd with
  | Some (a, b) => if Qceqb a b then None else Some (if Qcltb a b then (a, b) else (b, a))
  | None => match x with [] => None | _ => if Qceqb (qmin_l x) (qmax_l x) then None else Some (qmin_l x, qmax_l x) end
  end.
Definition knot_seq (degree : nat) (lo hi : Qc) (internal : list Qc) : list Qc :=
  repeat lo (S degree) ++ qsort internal ++ repeat hi (S degree).
Definition bspline_knots (degree : nat) (x internal : list Qc) (bnd : option (Qc * Qc)) : option (list Qc) :=
  match boundary x bnd with
  | None => None
  | Some (lo, hi) =>
      if forallb (fun a => Qcltb lo a && Qcltb a hi) internal then Some (knot_seq degree lo hi internal) else None
  end.

(** The [i]-th knot. *)
Definition kn (t : list Qc) (i : nat) : Qc := nth i t 0.
(** Number of basis functions (bspline.py:146). *)
Definition n_basis (t : list Qc) (k : nat) : nat := length t - k - 1.

(** scipy [find_interval] with [extrapolate=True] (bspline.py:79, 152): the last [l] with [k <= l <= n - 1] reached by moving right while
    [x >= t[l+1]]; points outside the boundary knots fall in the first or last interval. (scipy starts from the previous answer; for sorted
    knots the result is the same.) *)
Fixpoint scan (t : nat -> Qc) (x : Qc) (fuel l : nat) : nat :=
  match fuel with O => l | S f => if Qcleb (t (S l)) x then scan t x f (S l) else l end.
Definition find_interval (t : nat -> Qc) (k n : nat) (x : Qc) : nat := scan t x (n - 1 - k) k.

(** scipy [_deBoor_D]: the degree-[k] basis functions at [x], given the interval [l] containing it (bspline.py:79).
    A zero knot difference contributes 0 (in [Qc], [a / 0 = 0]), as the [if xb == xa] branch of scipy does. *)
Fixpoint bs (t : nat -> Qc) (l k i : nat) (x : Qc) : Qc :=
  match k with
  | O => ind (i =? l)%nat
  | S p => (x - t i) / (t (i + S p)%nat - t i) * bs t l p i x
           + (t (i + S (S p))%nat - x) / (t (i + S (S p))%nat - t (S i)) * bs t l p (S i) x
  end.

(** [BSpline.basis] (bspline.py:75-107): one row, complete basis. *)
Definition basis_row (t : list Qc) (k : nat) (x : Qc) : list Qc :=
  let n := n_basis t k in map (fun i => bs (kn t) (find_interval (kn t) k n x) k i x) (seq 0 n).

(** scipy [splder] applied to the [i]-th unit coefficient vector (bspline.py:149-154): coefficients [k (c[j+1]-c[j]) / (t[j+k+1]-t[j+1])] of a
    spline of degree [k-1] on [t[1:-1]]. *)
Definition trim (t : list Qc) : list Qc := removelast (tl t).
Definition dcoef (t : list Qc) (k i j : nat) : Qc :=
  (ind (i =? S j)%nat - ind (i =? j)%nat) * qn k / (kn t (j + k + 1) - kn t (j + 1)).
(** scipy raises when a knot difference is zero. *)
Definition diff_ok (t : list Qc) (k : nat) : bool :=
  forallb (fun j => negb (Qceqb (kn t (j + k + 1)) (kn t (j + 1)))) (seq 0 (n_basis t k - 1)).
(** [BSpline.derivative(derivs=1)] (bspline.py:109-162): one row, complete basis. Degree 0: zeros (bspline.py:136-142). *)
Definition deriv_row (t : list Qc) (k : nat) (x : Qc) : list Qc :=
  match k with
  | O => map (fun _ => 0) (seq 0 (n_basis t 0))
  | S p =>
      let t' := trim t in let n' := n_basis t' p in
      map (fun i => sumf (fun j => dcoef t k i j * bs (kn t') (find_interval (kn t') p n' x) p j x) (seq 0 n')) (seq 0 (n_basis t k))
  end.

(** The two matrices, with the column of the first basis function dropped when [complete_basis=False] (bspline.py:105-107, 160-162).
    [None]: an exception. *)
Definition bspline_basis (degree : nat) (x internal : list Qc) (bnd : option (Qc * Qc)) (complete : bool) : option (list (list Qc)) :=
  match bspline_knots degree x internal bnd with
  | None => None
  | Some t => Some (map (fun v => let r := basis_row t degree v in if complete then r else tl r) x)
  end.
Definition bspline_derivative (degree : nat) (x internal : list Qc) (bnd : option (Qc * Qc)) (complete : bool) : option (list (list Qc)) :=
  match bspline_knots degree x internal bnd with
  | None => None
  | Some t => if (0 <? degree)%nat && negb (diff_ok t degree) then None
              else Some (map (fun v => let r := deriv_row t degree v in if complete then r else tl r) x)
  end.
