(** Model of the multiplier bootstrap: moderndid/did/mboot.py:12-123, moderndid/core/numba_utils.py:36-48, 140-156, 272-317 (Mammen
    weights), moderndid/distributed/_bootstrap.py:10-88 and moderndid/dask/_bootstrap.py:17-66 (distributed bootstrap).
    Definitions only, over the real numbers (sqrt 5, sqrt n). The random generator is not modelled: the binomial draws are an argument
    (draw b, observation i: [true] for 1). The GPU branch and the returned covariance matrix V are not modelled. *)
From Coq Require Import Reals.
From Verif Require Import Base ReduceModel.
Local Open Scope R_scope.
Local Open Scope list_scope.

Definition rsum (l : list R) : R := fold_right Rplus 0 l.
Definition rmean (l : list R) : R := rsum l / INR (length l).
(** a matrix is the list of its rows *)
Definition rmatrix := list (list R).
Definition col (j : nat) (M : rmatrix) : list R := map (fun r => nth j r 0) M.
Definition rscale (c : R) (M : rmatrix) : rmatrix := map (map (Rmult c)) M.

(** k1, k2, p_kappa (numba_utils.py:41-42, 300) *)
Definition k1 : R := / 2 * (1 - sqrt 5).
Definition k2 : R := / 2 * (1 + sqrt 5).
Definition p_kappa : R := / 2 * (1 + sqrt 5) / sqrt 5.
(** v = where(draw == 1, k1, k2) (numba_utils.py:45) *)
Definition mammen (d : bool) : R := if d then k1 else k2.
(** bres[b] = mean(inf_func * v, axis=0) (numba_utils.py:46); [k] columns *)
Definition boot_row (k : nat) (M : rmatrix) (d : list bool) : list R :=
  map (fun j => rmean (map (fun p => nth j (fst p) 0 * mammen (snd p)) (combine M d))) (seq 0 k).
(** _multiplier_bootstrap_impl (numba_utils.py:36-48) *)
Definition boot_impl (k : nat) (M : rmatrix) (W : list (list bool)) : rmatrix := map (boot_row k M) W.
(** multiplier_bootstrap (numba_utils.py:307-317): draws in batches of [batch] rows *)
Definition multiplier_bootstrap (k : nat) (M : rmatrix) (batch : nat) (W : list (list bool)) : rmatrix :=
  if (length W <=? batch)%nat then boot_impl k M W
  else concat (map (fun s => boot_impl k M (firstn batch (skipn s W))) (py_range (length W) batch)).

(** inf_func rows of cluster c; np.bincount over cluster_inverse sums them (mboot.py:83-87) *)
Definition members (M : rmatrix) (cluster : list Z) (c : Z) : rmatrix := map fst (filter (fun p => (snd p =? c)%Z) (combine M cluster)).
(** cluster_inf_func (mboot.py:83-89): one row per np.unique(cluster), sums / counts *)
Definition cluster_inf (k : nat) (M : rmatrix) (cluster : list Z) : rmatrix :=
  map (fun c => map (fun j => rsum (col j (members M cluster c)) / INR (length (filter (Z.eqb c) cluster))) (seq 0 k)) (zuniq cluster).

(** np.percentile (linear interpolation) at fraction q *)
Fixpoint rinsert (x : R) (l : list R) : list R :=
  match l with [] => [x] | y :: l' => if Rle_dec x y then x :: l else y :: rinsert x l' end.
Definition rsort (l : list R) : list R := fold_right rinsert [] l.
Definition percentile (q : R) (l : list R) : R :=
  let s := rsort l in
  let h := q * INR (length l - 1) in
  let i := Z.to_nat (Int_part h) in
  let lo := nth i s 0 in
  lo + (h - IZR (Int_part h)) * (nth (i + 1) s lo - lo).

(** np.sqrt(np.finfo(float).eps) * 10, eps = 2^-52 (mboot.py:93) *)
Definition thr : R := 10 / 2 ^ 26.
(** ndg_dim (mboot.py:92-93) *)
Definition ndg (bres : rmatrix) (j : nat) : bool := if Rlt_dec thr (rsum (map (fun x => x ^ 2) (col j bres))) then true else false.
Definition kept (k : nat) (bres : rmatrix) : list nat := filter (ndg bres) (seq 0 k).
(** se_bootstrap (mboot.py:103-105) *)
Definition sigma (bres : rmatrix) (j : nat) : R := (percentile (75 / 100) (col j bres) - percentile (25 / 100) (col j bres)) / 1.3489795.
(** max(|bres_clean / se_bootstrap|, axis=1) of one draw, None when not finite (division by a zero se_bootstrap) (mboot.py:112-114) *)
Definition rmax (l : list R) : R := fold_right Rmax 0 l.
Definition tstat (zero : nat -> bool) (sg : nat -> R) (cols : list nat) (row : list R) : option R :=
  if existsb zero cols then None else Some (rmax (map (fun j => Rabs (nth j row 0 / sg j)) cols)).
Definition somes {A} (l : list (option A)) : list A := flat_map (fun o => match o with Some a => [a] | None => [] end) l.
Definition is0 (x : R) : bool := if Req_EM_T x 0 then true else false.
(** crit_val (mboot.py:108-116) *)
Definition crit (zero : nat -> bool) (sg : nat -> R) (cols : list nat) (alp : R) (bres : rmatrix) : option R :=
  match cols, somes (map (tstat zero sg cols) bres) with
  | [], _ | _, [] => None
  | _, fin => Some (percentile (1 - alp) fin)
  end.
Record boot_out := { b_res : rmatrix; b_se : list (option R); b_crit : option R }.
(** mboot after the draws (mboot.py:91-123); [n] clusters *)
Definition boot_finish (k n : nat) (alp : R) (bres : rmatrix) : boot_out :=
  {| b_res := bres;
     b_se := map (fun j => if ndg bres j then Some (sigma bres j / sqrt (INR n)) else None) (seq 0 k);
     b_crit := crit (fun j => is0 (sigma bres j)) (sigma bres) (kept k bres) alp bres |}.
(** mboot (mboot.py:12-123); None: ValueError (cluster length; np.bincount with weights of another length) *)
Definition mboot (k n_units batch : nat) (alp : R) (M : rmatrix) (cluster : option (list Z)) (W : list (list bool)) : option boot_out :=
  match cluster with
  | None => Some (boot_finish k n_units alp (rscale (sqrt (INR n_units)) (multiplier_bootstrap k M batch W)))
  | Some cl =>
      if negb (length cl =? n_units)%nat || negb (length cl =? length M)%nat then None else
      let n_clusters := length (zuniq cl) in
      Some (boot_finish k n_clusters alp (rscale (sqrt (INR n_clusters)) (multiplier_bootstrap k (cluster_inf k M cl) batch W)))
  end.

(** ** distributed *)
(** _local_bootstrap (distributed/_bootstrap.py:10-26): column sums per draw *)
Definition local_row (k : nat) (M : rmatrix) (d : list bool) : list R :=
  map (fun j => rsum (map (fun p => nth j (fst p) 0 * mammen (snd p)) (combine M d))) (seq 0 k).
Definition local_bootstrap (k : nat) (M : rmatrix) (W : list (list bool)) : rmatrix := map (local_row k M) W.
(** _sum_bootstrap_pair (29-31) *)
Definition sum_pair (A B : rmatrix) : rmatrix := map (fun p => map (fun q => fst q + snd q) (combine (fst p) (snd p))) (combine A B).
(** np.array_split(np.arange(n), parts) then drop the empty ones (_did_mp.py:347-352): sizes n/parts + 1 for the first n mod parts *)
Fixpoint split_sizes {A} (sizes : list nat) (l : list A) : list (list A) :=
  match sizes with [] => [] | s :: ss => firstn s l :: split_sizes ss (skipn s l) end.
Definition array_split {A} (parts : nat) (l : list A) : list (list A) :=
  split_sizes (repeat (length l / parts + 1)%nat (length l mod parts) ++ repeat (length l / parts)%nat (parts - length l mod parts)) l.
Definition nonempty {A} (l : list A) : bool := match l with [] => false | _ => true end.
(** compute_bootstrap_se (distributed/_bootstrap.py:34-88): b_sigma <= thr becomes NaN *)
Definition small (x : R) : bool := if Rle_dec x thr then true else false.
Definition dist_finish (k n : nat) (alp : R) (total : rmatrix) : boot_out :=
  let bres := map (map (fun x => sqrt (INR n) * x / INR n)) total in
  {| b_res := bres;
     b_se := map (fun j => if ndg bres j then (if small (sigma bres j) then None else Some (sigma bres j / sqrt (INR n))) else None) (seq 0 k);
     b_crit := crit (fun j => small (sigma bres j)) (sigma bres) (kept k bres) alp bres |}.
(** distributed_mboot_ddd (dask/_bootstrap.py:17-66) on the partitions of the influence matrix and their draws *)
Definition dist_mboot (fuel split_every k n : nat) (alp : R) (parts : list (rmatrix * list (list bool))) : option boot_out :=
  match tree_reduce fuel sum_pair split_every (map (fun p => local_bootstrap k (fst p) (snd p)) parts) with
  | TROk total => Some (dist_finish k n alp total)
  | _ => None
  end.
