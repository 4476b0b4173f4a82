(** Specification vocabulary for C123. *)
From Verif Require Import Base ListLib AttGtModel AggteModel SeModel WaldModel.

(** Every cell has one influence value per unit, and no (group, period) occurs twice. *)
Definition wtable (n : nat) (cells : list wcell) : Prop :=
  (forall c, In c cells -> length (w_inf c) = n) /\ NoDup (map (fun c => (w_g c, w_t c)) cells).
(** A tested cell: before treatment, with squared standard error above (10 sqrt eps)^2, eps = 2^-52. *)
Definition wsqerr (n : nat) (c : wcell) : Qc := sumf (fun u => nth u (w_inf c) 0 * nth u (w_inf c) 0) (seq 0 n) / (qn n * qn n).
Definition wtested (n : nat) (cells : list wcell) (c : wcell) : Prop := In c cells /\ (w_t c < w_g c)%Z /\ Q2Qc (100 # 4503599627370496) < wsqerr n c.
Definition wtests (n : nat) (cells : list wcell) : list wcell := filter (fun c => (w_t c <? w_g c)%Z && Qcltb (Q2Qc (100 # 4503599627370496)) (wsqerr n c)) cells.
(** Covariance of two cells: average product of influence values. *)
Definition wcov (n : nat) (a b : wcell) : Qc := sumf (fun u => nth u (w_inf a) 0 * nth u (w_inf b) 0) (seq 0 n) / qn n.
(** [x] solves the system  V x = att  over the cells [T]. *)
Definition wsolves (n : nat) (T : list wcell) (x : wcell -> Qc) : Prop := forall a, In a T -> sumf (fun b => wcov n a b * x b) T = w_att a.
(** The tested influence functions are linearly independent. *)
Definition windep (n : nat) (T : list wcell) : Prop :=
  forall x : wcell -> Qc, (forall u, (u < n)%nat -> sumf (fun c => x c * nth u (w_inf c) 0) T = 0) -> forall c, In c T -> x c = 0.
(** The solver returns solutions; the rank test is exact for [q] cells; a [q] by [q] matrix of full rank is solved. *)
Definition mrow (r x : list Qc) : Qc := sumf (fun p => fst p * snd p) (combine r x).
Definition wsolve_ok (o : woracle) : Prop := forall V a x, length V = length a -> wo_solve o V a = Some x -> length x = length a /\ map (fun r => mrow r x) V = a.
Definition wrank_ok (o : woracle) (q : nat) : Prop := forall V, length V = q -> (forall r, In r V -> length r = q) ->
  (wo_full o V = true <-> forall x, length x = length V -> (forall r, In r V -> mrow r x = 0) -> Forall (fun v => v = 0) x).
Definition wsolve_total (o : woracle) (q : nat) : Prop := forall V a, length V = q -> (forall r, In r V -> length r = q) -> length a = q -> wo_full o V = true -> exists x, wo_solve o V a = Some x.
(** Outcomes in other units: estimate and influence values times [c]. *)
Definition wscale (c : Qc) (u : wcell) : wcell := {| w_g := w_g u; w_t := w_t u; w_att := c * w_att u; w_inf := map (fun v => c * v) (w_inf u) |}.
