(** Specifications for C01-C04, independent of how the code computes. *)
From Verif Require Import Base ReduceModel.

(** A completion order of [n] tasks: every task index exactly once. *)
Definition completion_order (n : nat) (order : list nat) : Prop := Permutation order (seq 0 n).

(** Left-to-right reduction of a non-empty sequence. *)
Definition reduce_left {A} (op : A -> A -> A) (x : A) (l : list A) : A := fold_left op l x.

(** [(m, v, n)] are the weighted cross-products of [rows] with [k] regressors. *)
Definition is_gram_of (k : nat) (rows : list drow) (g : gram3) : Prop :=
  let '(m, v, n) := g in
  (forall i j, (i < k)%nat -> (j < k)%nat ->
     mget m i j = qsum (map (fun r => dw r * (nth i (dx r) 0 * nth j (dx r) 0)) rows)) /\
  (forall i, (i < k)%nat -> nth i v 0 = qsum (map (fun r => dw r * (nth i (dx r) 0 * dy r)) rows)) /\
  n = length rows.
