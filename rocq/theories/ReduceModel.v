(** Model of the task-parallel map and of the distributed reductions.
    Definitions only. *)
From Verif Require Import Base.

(** ** moderndid/core/parallel.py:10-54  parallel_map *)

(** A task either returns a value or raises. *)
Inductive outcome (B E : Type) : Type := Ret (b : B) | Raise (e : E).
Arguments Ret {B E} b.  Arguments Raise {B E} e.

(** [results[idx] = v] on a preallocated list (parallel.py:53). *)
Fixpoint set_nth {A} (i : nat) (v : A) (l : list A) : list A :=
  match l, i with
  | [], _ => []
  | _ :: l', O => v :: l'
  | a :: l', S i' => a :: set_nth i' v l'
  end.

(** parallel.py:36-37, [n_jobs == 1]: a list comprehension; the first raising task aborts it. *)
Fixpoint seq_map {A B E} (f : A -> outcome B E) (args : list A) : outcome (list (option B)) E :=
  match args with
  | [] => Ret []
  | a :: args' =>
      match f a with
      | Raise e => Raise e
      | Ret b => match seq_map f args' with Raise e => Raise e | Ret bs => Ret (Some b :: bs) end
      end
  end.

(** parallel.py:51-53: the [as_completed] loop. [order] is the sequence of task indices in
    the order the futures complete; [future.result()] re-raises the task's exception.
    Simplification: tasks are pure functions of their arguments (shared mutable state of the
    tasks, thread pools and context variables are not modelled). *)
Fixpoint as_completed_loop {A B E} (f : A -> outcome B E) (args : list A) (order : list nat)
         (results : list (option B)) : outcome (list (option B)) E :=
  match order with
  | [] => Ret results
  | idx :: order' =>
      match nth_error args idx with
      | None => as_completed_loop f args order' results   (* no such future *)
      | Some a =>
          match f a with
          | Raise e => Raise e
          | Ret b => as_completed_loop f args order' (set_nth idx (Some b) results)
          end
      end
  end.

(** parallel.py:36-54: [results = [None] * len(args_list)], then the loop. *)
Definition parallel_map {A B E} (f : A -> outcome B E) (args : list A) (n_jobs : Z) (order : list nat)
  : outcome (list (option B)) E :=
  if (n_jobs =? 1)%Z then seq_map f args
  else as_completed_loop f args order (repeat None (length args)).

(** ** moderndid/dask/_gram.py:13-47  tree_reduce *)

(** [range(0, n, step)] for step >= 1. *)
Definition py_range (n step : nat) : list nat :=
  map (fun j => (j * step)%nat) (seq 0 ((n + step - 1) / step)).

(** distributed/_gram.py:112-118 [_reduce_group]: left fold starting from the first item.
    (Called only on groups of length >= 2.) *)
Definition reduce_group {A} (combine : A -> A -> A) (items : list A) : option A :=
  match items with
  | [] => None                              (* items[0] would raise IndexError *)
  | x :: xs => Some (fold_left combine xs x)
  end.

(** dask/_gram.py:38-46: one pass of the while loop. A group of length 1 is passed on. *)
Definition tree_pass {A} (combine : A -> A -> A) (split_every : nat) (futures : list A) : list A :=
  flat_map (fun i =>
      let group := firstn split_every (skipn i futures) in
      match group with
      | [x] => [x]
      | _ => match reduce_group combine group with Some v => [v] | None => [] end
      end)
    (py_range (length futures) split_every).

Inductive tr_result (A : Type) : Type :=
| TROk (v : A)          (* futures[0].result() *)
| TRIndexError          (* futures[0] on an empty list *)
| TRRunning.            (* the while loop has not finished within the given number of passes *)
Arguments TROk {A} v.  Arguments TRIndexError {A}.  Arguments TRRunning {A}.

Fixpoint tree_reduce {A} (fuel : nat) (combine : A -> A -> A) (split_every : nat) (futures : list A)
  : tr_result A :=
  if (1 <? length futures)%nat then
    match fuel with
    | O => TRRunning
    | S fuel' => tree_reduce fuel' combine split_every (tree_pass combine split_every futures)
    end
  else match futures with [] => TRIndexError | x :: _ => TROk x end.

(** ** Gram statistics: moderndid/distributed/_gram.py *)

(** One row of the design: regressors, weight, response. *)
Record drow := { dx : list Qc; dw : Qc; dy : Qc }.
Definition xat (r : drow) (i : nat) : Qc := nth i (dx r) 0.

Definition matrix := list (list Qc).
Definition mget (m : matrix) (i j : nat) : Qc := nth j (nth i m []) 0.

(** _gram.py:38-43 (direct branch): (X.T * w) @ X  and (X.T * w) @ z. *)
Definition gram_mat (k : nat) (rows : list drow) : matrix :=
  map (fun i => map (fun j => sumf (fun r => xat r i * dw r * xat r j) rows) (seq 0 k)) (seq 0 k).
Definition gram_rhs (k : nat) (rows : list drow) : list Qc :=
  map (fun i => sumf (fun r => xat r i * dw r * dy r) rows) (seq 0 k).

(** _gram.py:64-85 [partition_gram]. *)
Definition gram3 : Type := (matrix * list Qc * nat)%type.
Definition partition_gram (k : nat) (rows : list drow) : gram3 :=
  (gram_mat k rows, gram_rhs k rows, length rows).

Definition vadd (a b : list Qc) : list Qc := map (fun p => fst p + snd p) (combine a b).
Definition madd (a b : matrix) : matrix := map (fun p => vadd (fst p) (snd p)) (combine a b).

(** _gram.py:107-109 [_sum_gram_pair]. *)
Definition sum_gram_pair (a b : gram3) : gram3 :=
  match a, b with (m1, v1, n1), (m2, v2, n2) => (madd m1 m2, vadd v1 v2, (n1 + n2)%nat) end.

(** distributed/_regression.py:26-32 [_sum_gram_pair_or_none]. *)
Definition sum_gram_pair_or_none (a b : option gram3) : option gram3 :=
  match a, b with
  | None, _ => b
  | _, None => a
  | Some x, Some y => Some (sum_gram_pair x y)
  end.

(** distributed/_utils.py:94-112 [_reduce_gram_list]: driver-side loop skipping [None]. *)
Definition reduce_gram_list (l : list (option gram3)) : option gram3 :=
  fold_left (fun result item =>
      match item with
      | None => result
      | Some g => match result with None => Some g | Some r => Some (sum_gram_pair r g) end
      end) l None.

(** distributed/_did_partition.py:167-181 [_partition_did_or_gram] (and every gram function with the
    same shape): restrict to the rows selected by a mask; [None] when no row is selected. *)
Definition masked_gram (k : nat) (mask : drow -> bool) (rows : list drow) : option gram3 :=
  let sel := filter mask rows in
  match sel with [] => None | _ => Some (partition_gram k sel) end.

(** distributed/_regression.py:35-64 [wls_from_partition_list]; [solve] is np.linalg.solve
    ([None] = LinAlgError); the outer [None] is the ValueError "No data available". *)
Definition wls_from_partition_list (solve : matrix -> list Qc -> option (list Qc))
    (gram_fn : list drow -> option gram3) (parts : list (list drow)) : option (option (list Qc)) :=
  match reduce_gram_list (map gram_fn parts) with
  | None => None
  | Some (m, v, _) => Some (solve m v)
  end.

(** distributed/_regression.py:67-107 [logistic_irls_from_partition_list].
    [gram_fn parts beta] as above; [close b' b] is [max|b'-b| < tol]. [None] = LinAlgError. *)
Fixpoint irls_loop (max_iter : nat) (solve : matrix -> list Qc -> option (list Qc))
    (close : list Qc -> list Qc -> bool)
    (gram_fn : list Qc -> list drow -> option gram3) (parts : list (list drow)) (beta : list Qc)
  : option (list Qc) :=
  match max_iter with
  | O => Some beta
  | S m =>
      match reduce_gram_list (map (gram_fn beta) parts) with
      | None => Some beta                                     (* break *)
      | Some (xtwx, xtwz, _) =>
          match solve xtwx xtwz with
          | None => None
          | Some beta_new => if close beta_new beta then Some beta_new
                             else irls_loop m solve close gram_fn parts beta_new
          end
      end
  end.

(** distributed/_did_partition.py:143-164 [_partition_did_pscore_gram]: IRLS working weights and
    response. [mu] is the clipped logistic function of the linear index; here [dw]/[dy] of a row
    hold the observation weight and the treatment indicator D. Returns [None] when the
    partition is empty. *)
Definition dot (x b : list Qc) : Qc := qsum (map (fun p => fst p * snd p) (combine x b)).
Definition irls_row (mu : Qc -> Qc) (beta : list Qc) (r : drow) : drow :=
  let eta := dot (dx r) beta in
  let m := mu eta in
  {| dx := dx r; dw := dw r * m * (1 - m); dy := eta + (dy r - m) / (m * (1 - m)) |}.
Definition pscore_gram (k : nat) (mu : Qc -> Qc) (beta : list Qc) (rows : list drow) : option gram3 :=
  match rows with [] => None | _ => Some (partition_gram k (map (irls_row mu beta) rows)) end.

(** ** moderndid/distributed/_gram.py:45-61: the tiled branch of [weighted_gram].
    Matrices under construction are functions of the two indices. *)
Definition bmat := nat -> nat -> Qc.
Definition in_blk (lo len i : nat) : bool := (lo <=? i)%nat && (i <? lo + len)%nat.

(** the product block XtWi @ X[:, j:j+bj], entry (p,q) *)
Definition inner (rows : list drow) (p q : nat) : Qc := sumf (fun r => xat r p * dw r * xat r q) rows.
Definition rhs_entry (rows : list drow) (p : nat) : Qc := sumf (fun r => xat r p * dw r * dy r) rows.

(** [gram[i:i+bi, j:j+bj] = XtWi @ X[:, j:j+bj]] *)
Definition put_block (rows : list drow) (i bi j bj : nat) (G : bmat) : bmat :=
  fun p q => if in_blk i bi p && in_blk j bj q then inner rows p q else G p q.
(** [gram[j:j+bj, i:i+bi] = gram[i:i+bi, j:j+bj].T] *)
Definition put_transpose (i bi j bj : nat) (G : bmat) : bmat :=
  fun p q => if in_blk j bj p && in_blk i bi q then G q p else G p q.

(** [range(i, k, b)] *)
Definition py_range_from (i k b : nat) : list nat := map (fun s => (i + s)%nat) (py_range (k - i) b).

Definition tile_inner_loop (rows : list drow) (k b i : nat) (G : bmat) : bmat :=
  let bi := Nat.min b (k - i) in
  fold_left (fun G j =>
      let bj := Nat.min b (k - j) in
      let G1 := put_block rows i bi j bj G in
      if (i =? j)%nat then G1 else put_transpose i bi j bj G1)
    (py_range_from i k b) G.

Definition tile_gram (rows : list drow) (k b : nat) : bmat :=
  fold_left (fun G i => tile_inner_loop rows k b i G) (py_range k b) (fun _ _ => 0).

Definition tile_rhs (rows : list drow) (k b : nat) : nat -> Qc :=
  fold_left (fun v i =>
      let bi := Nat.min b (k - i) in
      fun p => if in_blk i bi p then rhs_entry rows p else v p)
    (py_range k b) (fun _ => 0).

(** [weighted_gram]: entry functions of the returned arrays (_gram.py:36-61). *)
Definition weighted_gram (rows : list drow) (k block_size : nat) : bmat * (nat -> Qc) :=
  if (k <=? block_size)%nat then (inner rows, rhs_entry rows)
  else (tile_gram rows k block_size, tile_rhs rows k block_size).
