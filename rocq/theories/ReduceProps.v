(** Properties C01-C04. *)
From Verif Require Import Base ReduceModel ReduceSpec ReduceProofs ReduceProofs2.

(** C01. Whatever the number of jobs and whatever order the tasks finish in, the
    result is the list of the tasks' values in task order. *)
Theorem C01_parallel_map_order_independent :
  forall (A B E : Type) (f : A -> outcome B E) (value : A -> B) (args : list A) (n_jobs : Z) (order : list nat),
    (forall a, In a args -> f a = Ret (value a)) ->
    completion_order (length args) order ->
    parallel_map f args n_jobs order = Ret (map (fun a => Some (value a)) args).
Proof.
  intros A B E f value args n order H P.
  rewrite (parallel_ok f args n order) by (try exact P; intros a Ha; exists (value a); auto).
  f_equal. apply map_ext_in. intros a Ha. unfold val. rewrite (H a Ha). reflexivity.
Qed.
Print Assumptions C01_parallel_map_order_independent.

(** If some task raises, the call raises an exception raised by one of the tasks. *)
Theorem C01_parallel_map_raises :
  forall (A B E : Type) (f : A -> outcome B E) (args : list A) (n_jobs : Z) (order : list nat),
    (exists a e, In a args /\ f a = Raise e) ->
    completion_order (length args) order ->
    exists a e, In a args /\ f a = Raise e /\ parallel_map f args n_jobs order = Raise e.
Proof. exact @parallel_raise. Qed.
Print Assumptions C01_parallel_map_raises.

Example C01_witness :
  completion_order 3 [2; 0; 1]%nat /\
  parallel_map (fun x : Z => @Ret Z unit (x * x)%Z) [5; 6; 7]%Z 4 [2; 0; 1]%nat = Ret [Some 25; Some 36; Some 49]%Z /\
  parallel_map (fun x : Z => if (x =? 6)%Z then Raise tt else @Ret Z unit x) [5; 6; 7]%Z 4 [2; 0; 1]%nat = Raise tt.
Proof.
  split; [|split; reflexivity]. unfold completion_order. cbn.
  apply (perm_trans (l' := [0; 2; 1]%nat)); [apply perm_swap|]. apply perm_skip, perm_swap.
Qed.

(** C02. With fan-in at least 2 the reduction finishes within as many passes as there are
    partitions and yields the left-to-right reduction. *)
Theorem C02_tree_reduce_is_sequential_reduction :
  forall (A : Type) (op : A -> A -> A),
    (forall x y z, op x (op y z) = op (op x y) z) ->
    forall (fan_in : nat) (x : A) (l : list A) (fuel : nat),
      (2 <= fan_in)%nat -> (length l <= fuel)%nat ->
      tree_reduce fuel op fan_in (x :: l) = TROk (reduce_left op x l).
Proof. intros A op assoc k x l fuel Hk Hf. exact (tree_reduce_ok op assoc k Hk fuel x l Hf). Qed.
Print Assumptions C02_tree_reduce_is_sequential_reduction.

(** The fan-in bound is necessary: with fan-in 1 and two or more partitions the loop never ends. *)
Theorem C02_fan_in_one_never_terminates :
  forall (A : Type) (op : A -> A -> A) (l : list A),
    (2 <= length l)%nat -> forall fuel, tree_reduce fuel op 1 l = TRRunning.
Proof. exact @tree_reduce_1_runs. Qed.
Print Assumptions C02_fan_in_one_never_terminates.

(** Every partition is used exactly once, in order: reduce the singletons of a free monoid. *)
Theorem C02_every_partition_once_in_order :
  forall (A : Type) (fan_in : nat) (x : A) (l : list A),
    (2 <= fan_in)%nat ->
    tree_reduce (length l) (@app A) fan_in (map (fun a => [a]) (x :: l)) = TROk (x :: l).
Proof.
  intros A k x l Hk. cbn [map].
  rewrite (C02_tree_reduce_is_sequential_reduction _ (@app A) (@app_assoc A)) by (rewrite ?map_length; lia).
  f_equal. unfold reduce_left. change (x :: l) with ([x] ++ l). generalize [x] as acc.
  induction l as [|a l IH]; intros acc; cbn [map fold_left]; [rewrite app_nil_r; reflexivity|].
  rewrite IH, <- app_assoc. reflexivity.
Qed.
Print Assumptions C02_every_partition_once_in_order.

Example C02_witness :
  tree_reduce 9 Z.add 3 [1; 2; 3; 4; 5; 6; 7; 8; 9; 10]%Z = TROk 55%Z /\
  tree_reduce 9 (@app Z) 8 (map (fun a => [a]) [1; 2; 3; 4; 5; 6; 7; 8; 9; 10]%Z) = TROk [1; 2; 3; 4; 5; 6; 7; 8; 9; 10]%Z.
Proof. split; reflexivity. Qed.

(** C03. The tree-reduced Gram statistics of any split of any reordering of the rows are the
    cross-products of the rows. *)
Theorem C03_distributed_gram_partition_invariant :
  forall (k fan_in : nat) (first : list drow) (rest : list (list drow)) (rows : list drow),
    (2 <= fan_in)%nat ->
    Permutation rows (concat (first :: rest)) ->
    exists g, tree_reduce (length rest) sum_gram_pair fan_in (map (partition_gram k) (first :: rest)) = TROk g
              /\ is_gram_of k rows g.
Proof. exact distributed_gram_spec. Qed.
Print Assumptions C03_distributed_gram_partition_invariant.

(** The driver-side reduction with row masks and empty partitions. *)
Theorem C03_masked_gram_partition_invariant :
  forall (k : nat) (mask : drow -> bool) (parts : list (list drow)) (rows : list drow),
    Permutation rows (concat parts) ->
    (filter mask rows = [] -> reduce_gram_list (map (masked_gram k mask) parts) = None) /\
    (filter mask rows <> [] -> exists g, reduce_gram_list (map (masked_gram k mask) parts) = Some g
        /\ is_gram_of k (filter mask rows) g).
Proof. exact masked_gram_spec. Qed.
Print Assumptions C03_masked_gram_partition_invariant.

(** Distributed WLS and IRLS give the same coefficients for any two splits of the same rows. *)
Theorem C03_distributed_wls_partition_invariant :
  forall solve k mask (parts parts' : list (list drow)),
    Permutation (concat parts) (concat parts') ->
    wls_from_partition_list solve (masked_gram k mask) parts
    = wls_from_partition_list solve (masked_gram k mask) parts'.
Proof. exact wls_partition_perm. Qed.
Print Assumptions C03_distributed_wls_partition_invariant.

Theorem C03_distributed_logit_partition_invariant :
  forall max_iter solve close k mu (parts parts' : list (list drow)),
    Permutation (concat parts) (concat parts') -> forall start,
    irls_loop max_iter solve close (pscore_gram k mu) parts start
    = irls_loop max_iter solve close (pscore_gram k mu) parts' start.
Proof. exact irls_partition_perm. Qed.
Print Assumptions C03_distributed_logit_partition_invariant.

(** Each pass of the distributed logit solves the Newton system of the pooled weighted
    log-likelihood: the reduced matrix is the information matrix H and the reduced right-hand
    side is H beta plus the score. *)
Theorem C03_logit_step_is_newton_step :
  forall (k : nat) (mu : Qc -> Qc) (beta : list Qc) (parts : list (list drow)),
    concat parts <> [] -> length beta = k ->
    (forall r, In r (concat parts) ->
       length (dx r) = k /\ mu (dot (dx r) beta) <> 0 /\ mu (dot (dx r) beta) <> 1) ->
    exists m v n, reduce_gram_list (map (pscore_gram k mu beta) parts) = Some (m, v, n) /\
    (forall i j, (i < k)%nat -> (j < k)%nat ->
       mget m i j = sumf (fun r => dw r * mu (dot (dx r) beta) * (1 - mu (dot (dx r) beta))
                                   * (nth i (dx r) 0 * nth j (dx r) 0)) (concat parts)) /\
    (forall i, (i < k)%nat ->
       nth i v 0 = sumf (fun j => mget m i j * nth j beta 0) (seq 0 k)
                 + sumf (fun r => dw r * (dy r - mu (dot (dx r) beta)) * nth i (dx r) 0) (concat parts)).
Proof. exact newton_step. Qed.
Print Assumptions C03_logit_step_is_newton_step.

Example C03_newton_witness :
  let r a w y := {| dx := [1; qz a]; dw := qz w; dy := qz y |} in
  let mu := fun _ : Qc => 1 / qz 2 in
  match reduce_gram_list (map (pscore_gram 2 mu [0; 0]) [[r 3 4 1]; []; [r 1 8 0]]%Z) with
  | Some (m, v, n) => (map (map (fun q => Qred (this q))) m, map (fun q => Qred (this q)) v, n)
                      = ([[3; 5]; [5; 11]]%Q, [-2; 2]%Q, 2%nat)
  | None => False
  end.
Proof. vm_compute. reflexivity. Qed.

Example C03_witness :
  let r a w y := {| dx := [1; qz a]; dw := qz w; dy := qz y |} in
  let parts := [[r 3 1 2; r 4 2 (-1)]%Z; []; [r 0 5 7]%Z] in
  tree_reduce 2 sum_gram_pair 2 (map (partition_gram 2) parts)
  = TROk ([[qz 8; qz 11]; [qz 11; qz 41]], [qz 35; qz (-2)], 3%nat).
Proof. vm_compute. repeat f_equal; apply Qc_is_canon; reflexivity. Qed.

(** C04. The tiled computation gives the cross-products for every block size. *)
Theorem C04_tiled_gram_is_direct :
  forall (rows : list drow) (k block_size : nat), (1 <= block_size)%nat ->
  (forall p q, (p < k)%nat -> (q < k)%nat ->
     fst (weighted_gram rows k block_size) p q
       = qsum (map (fun r => dw r * (nth p (dx r) 0 * nth q (dx r) 0)) rows)
     /\ fst (weighted_gram rows k block_size) p q = fst (weighted_gram rows k block_size) q p) /\
  (forall p, (p < k)%nat ->
     snd (weighted_gram rows k block_size) p = qsum (map (fun r => dw r * (nth p (dx r) 0 * dy r)) rows)).
Proof. exact weighted_gram_spec. Qed.
Print Assumptions C04_tiled_gram_is_direct.

Example C04_witness :
  let r a b c w y := {| dx := [qz a; qz b; qz c]; dw := qz w; dy := qz y |} in
  let rows := [r 1 2 3 1 1; r 4 5 6 2 3]%Z in
  map (fun p => map (fst (weighted_gram rows 3 2) p) [0; 1; 2]%nat) [0; 1; 2]%nat
  = [[qz 33; qz 42; qz 51]; [qz 42; qz 54; qz 66]; [qz 51; qz 66; qz 81]].
Proof. vm_compute. repeat f_equal; apply Qc_is_canon; reflexivity. Qed.
