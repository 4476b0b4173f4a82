(** Model of the constraint matrices and identified sets of moderndid.didhonest.
    numpy float64 arrays are modelled as lists of exact rationals (no rounding), 2-d arrays as
    lists of rows.  The numba variants (numba.py:194-430) build the same arrays entry by entry and
    are modelled by the same definitions.  [scipy.optimize.linprog] is a parameter. *)
From Coq Require Import Qcabs.
From Verif Require Import Base.
Local Open Scope nat_scope.
Local Open Scope list_scope.

Definition vec := list Qc.

(** np.zeros(n) *)
Definition zeros (n : nat) : vec := repeat 0%Qc n.
(** v[k : k + len(xs)] = xs  (numpy raises when the slice is shorter than xs; every use is in range) *)
Definition put (v : vec) (k : nat) (xs : vec) : vec := firstn k v ++ xs ++ skipn (k + length xs) v.
Definition zip2 (f : Qc -> Qc -> Qc) (u v : vec) : vec := map (fun p => f (fst p) (snd p)) (combine u v).
(** elementwise u - v, -u, c * u *)
Definition vsub := zip2 Qcminus.
Definition vopp (u : vec) : vec := map Qcopp u.
Definition vscale (c : Qc) (u : vec) : vec := map (Qcmult c) u.
(** u @ v *)
Definition dot (u v : vec) : Qc := qsum (zip2 Qcmult u v).
(** np.delete(row, k) *)
Definition del (k : nat) (row : vec) : vec := firstn k row ++ skipn (S k) row.
(** range(lo, hi) *)
Definition zrange (lo hi : Z) : list Z := map (fun i => (lo + Z.of_nat i)%Z) (seq 0 (Z.to_nat (hi - lo))).

(** the tolerance 1e-10 *)
Definition tol : Qc := Q2Qc (1 # 10000000000).

(** numba.py:41-46 _create_first_differences_matrix_impl *)
Definition first_differences (pre post : nat) : list vec :=
  map (fun r => put (zeros (pre + post + 1)) r [(-(1))%Qc; 1%Qc]) (seq 0 (pre + post)).

(** numba.py:49-54 _create_second_differences_matrix_impl *)
Definition second_differences (nc total : nat) : list vec :=
  map (fun i => if i + 3 <=? total then put (zeros total) i [1%Qc; (-(1 + 1))%Qc; 1%Qc] else zeros total) (seq 0 nc).

(** [np.any(A[i, post_period_indices] != 0)] with post_period_indices = pre .. end
    (numba.py:35-38, sd.py:375-384, rm.py:669-676, bounds.py:262-265) *)
Definition has_post (pre : nat) (row : vec) : bool := existsb (fun x => negb (Qceqb x 0)) (skipn pre row).

(** sd.py:326-394 _create_sd_constraint_matrix (drop_zero_period = True, as in every caller) *)
Definition sd_matrix (pre post : nat) (moments_only : bool) : list vec :=
  let a := map (del pre) (second_differences (pre + post - 1) (pre + post + 1)) in
  let a := if moments_only && (1 <? post) then filter (has_post pre) a else a in
  a ++ map vopp a.

(** sd.py:482-497 _create_sd_constraint_vector *)
Definition sd_vector (a : list vec) (m : Qc) : vec := repeat m (length a).

(** rm.py:425-428 *)
Definition rm_vmax (pre post : nat) (s : Z) (pos : bool) : vec :=
  let v := put (zeros (pre + post + 1)) (Z.to_nat (Z.of_nat pre + s)) [(-(1))%Qc; 1%Qc] in
  if pos then v else vopp v.

(** rm.py:440 np.all(np.abs(A) <= 1e-10, axis=1) *)
Definition tiny_row (row : vec) : bool := forallb (fun x => Qcleb (Qcabs x) tol) row.

(** rm.py:353-446 _create_relative_magnitudes_constraint_matrix (drop_zero_period = True, as in every
    caller); [None] is the ValueError for s out of range *)
Definition rm_matrix (pre post : nat) (mbar : Qc) (s : Z) (pos : bool) : option (list vec) :=
  if (- (Z.of_nat pre - 1) <=? s)%Z && (s <=? 0)%Z then
    let a_tilde := first_differences pre post in
    let v := rm_vmax pre post s pos in
    let a_ub := repeat v pre ++ repeat (vscale mbar v) post in
    let a := map (fun p => vsub (fst p) (snd p)) (combine a_tilde a_ub)
             ++ map (fun p => vsub (vopp (fst p)) (snd p)) (combine a_tilde a_ub) in
    Some (map (del pre) (filter (fun row => negb (tiny_row row)) a))
  else None.

(** numba.py:121-153 _create_sdrm_constraint_matrix_impl (drop_zero = True); idx must be >= 0,
    which holds for the values of s that the callers use *)
Definition sdrm_matrix (pre post : nat) (mbar : Qc) (s : Z) (pos : bool) : list vec :=
  let n := pre + post - 1 in
  let total := pre + post + 1 in
  let a_tilde := map (fun r => put (zeros total) r [1%Qc; (-(1 + 1))%Qc; 1%Qc]) (seq 0 n) in
  let v0 := put (zeros total) (Z.to_nat (Z.of_nat pre + s - 2)) [1%Qc; (-(1 + 1))%Qc; 1%Qc] in
  let v := if pos then v0 else vopp v0 in
  let a_ub := repeat v (pre - 1) ++ repeat (vscale mbar v) post in
  let a := map (fun p => vsub (fst p) (snd p)) (combine a_tilde a_ub)
           ++ map (fun p => vsub (vopp (fst p)) (snd p)) (combine a_tilde a_ub) in
  map (del pre) (filter (fun row => Qcltb tol (qsum (map (fun x => (x * x)%Qc) row))) a).

(** bounds.py:284-341 create_sign_constraint_matrix; [positive] is bias_direction == "positive" *)
Definition sign_matrix (pre post : nat) (positive : bool) : list vec :=
  let eye := map (fun i => put (zeros (pre + post)) i [1%Qc]) (seq 0 (pre + post)) in
  let a_b := firstn post (skipn pre (map vopp eye)) in
  if positive then a_b else map vopp a_b.

(** numba.py:183-197 _create_monotonicity_matrix_impl, row by row (pre >= 1) *)
Definition mono_row (pre post : nat) (r : nat) : vec :=
  let z := zeros (pre + post) in
  if r <? pre - 1 then put z r [1%Qc; (-(1))%Qc]
  else if r =? pre - 1 then put z r [1%Qc]
  else if r =? pre then put z r [(-(1))%Qc]
  else put z (r - 1) [1%Qc; (-(1))%Qc].
Definition monotonicity_base (pre post : nat) : list vec := map (mono_row pre post) (seq 0 (pre + post)).

(** bounds.py:208-281 create_monotonicity_constraint_matrix *)
Definition mono_matrix (pre post : nat) (increasing moments_only : bool) : list vec :=
  let a := filter (fun row => negb (forallb (fun x => Qceqb x 0) row)) (monotonicity_base pre post) in
  let a := if moments_only then filter (has_post pre) a else a in
  if increasing then a else map vopp a.

(** the three families of right-hand sides: sd.py:482, rm.py:776, sdrm.py:657, sdb.py:384-421,
    sdm.py:380-423, rmb.py:680, rmm.py:682, sdrmb.py:666, sdrmm.py:700 *)
Inductive shape := NoShape | Bias (positive : bool) | Mono (increasing : bool).

(** rows added by a shape restriction: sdb.py:373-379, sdm.py:368-375, rmb.py:372-378, rmm.py:372-380,
    sdrmb.py, sdrmm.py:664-672 (vstack of the base matrix and the sign or monotonicity rows) *)
Definition shape_rows (pre post : nat) (sh : shape) : list vec :=
  match sh with
  | NoShape => []
  | Bias p => sign_matrix pre post p
  | Mono i => mono_matrix pre post i false
  end.

(** a system A delta <= d *)
Definition system : Type := list vec * vec.
Definition sd_system (pre post : nat) (m : Qc) (sh : shape) : system :=
  let a := sd_matrix pre post false in
  (a ++ shape_rows pre post sh, sd_vector a m ++ zeros (length (shape_rows pre post sh))).
Definition rm_system (pre post : nat) (mbar : Qc) (s : Z) (pos : bool) (sh : shape) : option system :=
  option_map (fun a => let a := a ++ shape_rows pre post sh in (a, zeros (length a))) (rm_matrix pre post mbar s pos).
Definition sdrm_system (pre post : nat) (mbar : Qc) (s : Z) (pos : bool) (sh : shape) : system :=
  let a := sdrm_matrix pre post mbar s pos ++ shape_rows pre post sh in (a, zeros (length a)).

(** a linear program: minimise [lp_c] over A_ub x <= b_ub, x[:pre] = b_eq, no variable bounds *)
Record lp := { lp_c : vec; lp_ub : system; lp_eq : system }.

Section IdentifiedSet.
Context (linprog : lp -> option Qc).  (* [Some fun] is success with optimal value fun *)

(** sd.py:284-323, sdb.py:295-336, sdm.py:291-331, rm.py:511-566, rmb.py:428-483, rmm.py:430-485,
    sdrm.py:345-386, sdrmb.py, sdrmm.py:375-418: the two programs and the fallback *)
Definition eye_pre (pre post : nat) : list vec := map (fun i => put (zeros (pre + post)) i [1%Qc]) (seq 0 pre).
Definition observed (pre : nat) (beta l : vec) : Qc := dot l (skipn pre beta).
Definition id_component (pre post : nat) (sys : system) (beta l : vec) : Qc * Qc :=
  let f := zeros pre ++ l in
  let eq := (eye_pre pre post, firstn pre beta) in
  let rmax := linprog {| lp_c := vopp f; lp_ub := sys; lp_eq := eq |} in
  let rmin := linprog {| lp_c := f; lp_ub := sys; lp_eq := eq |} in
  match rmax, rmin with
  | Some fmax, Some fmin => ((observed pre beta l + fmax)%Qc, (observed pre beta l - fmin)%Qc)
  | _, _ => (observed pre beta l, observed pre beta l)
  end.

Definition qcmin (a b : Qc) : Qc := if Qcleb a b then a else b.
Definition qcmax (a b : Qc) : Qc := if Qcleb a b then b else a.
(** min(b.id_lb for b in bounds), max(b.id_ub for b in bounds); [None] is the ValueError on no bounds *)
Definition hull (bs : list (Qc * Qc)) : option (Qc * Qc) :=
  match bs with
  | [] => None
  | b :: bs => Some (fold_left (fun acc b => (qcmin (fst acc) (fst b), qcmax (snd acc) (snd b))) bs b)
  end.

(** compute_identified_set_sd / _sdb / _sdm *)
Definition identified_sd (pre post : nat) (m : Qc) (sh : shape) (beta l : vec) : Qc * Qc :=
  id_component pre post (sd_system pre post m sh) beta l.

(** the reference periods: rm.py:320-321 [range(-(pre-1), 0)], rmb.py:269-270 and rmm.py:271-272
    [range(-(pre-1), 1)], sdrm.py:286-287 and its variants [range(-(pre-2), 1)] *)
Definition rm_s_values (pre : nat) (sh : shape) : list Z :=
  match sh with
  | NoShape => zrange (- (Z.of_nat pre - 1)) 0
  | _ => zrange (- (Z.of_nat pre - 1)) 1
  end.
Definition sdrm_s_values (pre : nat) : list Z := zrange (- (Z.of_nat pre - 2)) 1.

(** rm.py:317-350, rmb.py:266-304, rmm.py:268-306; [None] is a ValueError *)
Definition identified_rm (pre post : nat) (mbar : Qc) (sh : shape) (beta l : vec) : option (Qc * Qc) :=
  if pre <? 2 then None
  else hull (flat_map (fun s => flat_map (fun pos =>
         match rm_system pre post mbar s pos sh with
         | Some sys => [id_component pre post sys beta l]
         | None => []
         end) [true; false]) (rm_s_values pre sh)).

(** sdrm.py:284-306 and its variants; [None] is the ValueError of min() on no bounds *)
Definition identified_sdrm (pre post : nat) (mbar : Qc) (sh : shape) (beta l : vec) : option (Qc * Qc) :=
  hull (flat_map (fun s => map (fun pos => id_component pre post (sdrm_system pre post mbar s pos sh) beta l)
                               [true; false]) (sdrm_s_values pre)).
End IdentifiedSet.

(** conditional.py:150-184 _create_pre_period_second_diff_constraints and
    bounds.py:158-205 create_pre_period_constraint_matrix: the matrix used for the lower bound on M *)
Definition pre_second_diff_rows (n : nat) : list vec :=
  map (fun r =>
    if r =? n - 2 then
      (if n <=? 2 then put (zeros n) (n - 2) [1%Qc; (-(1))%Qc]
       else put (put (zeros n) (n - 2) [1%Qc; (-(1))%Qc]) (n - 3) [1%Qc; (-(1 + 1))%Qc; 1%Qc])
    else if r <? n - 3 then put (zeros n) r [1%Qc; (-(1 + 1))%Qc; 1%Qc]
    else zeros n) (seq 0 (n - 1)).
Definition pre_second_diff_system (n : nat) : option (list vec * vec) :=
  if n <? 2 then None
  else let a := pre_second_diff_rows n in
       Some (a ++ map vopp a, repeat 1%Qc (length (a ++ map vopp a))).

(** numba.py:156-180 _create_bounds_second_difference_matrix_impl *)
Definition bounds_second_difference (pre post : nat) : list vec :=
  let npre := if 3 <=? pre then pre - 2 else 0 in
  let npost := if 3 <=? post then post - 2 else 0 in
  map (fun r => put (zeros (pre + post)) r [1%Qc; (-(1 + 1))%Qc; 1%Qc]) (seq 0 npre)
  ++ map (fun r => put (zeros (pre + post)) (pre + r) [1%Qc; (-(1 + 1))%Qc; 1%Qc]) (seq 0 npost).
