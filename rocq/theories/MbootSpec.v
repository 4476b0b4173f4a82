(** Specification vocabulary for C28, C40, C41. *)
From Coq Require Import Reals.
From Verif Require Import Base MbootModel.
Local Open Scope R_scope.
Local Open Scope list_scope.

(** positions of the units of cluster c *)
Definition units_of (cluster : list Z) (c : Z) : list nat := filter (fun i => (nth i cluster 0 =? c)%Z) (seq 0 (length cluster)).
Definition entry (M : rmatrix) (i j : nat) : R := nth j (nth i M []) 0.
Definition total_over (M : rmatrix) (is : list nat) (j : nat) : R := rsum (map (fun i => entry M i j) is).
(** [row] averages the rows of the units of cluster [c]. *)
Definition is_cluster_average (k : nat) (M : rmatrix) (cluster : list Z) (c : Z) (row : list R) : Prop :=
  length row = k /\ forall j, (j < k)%nat -> nth j row 0 = total_over M (units_of cluster c) j / INR (length (units_of cluster c)).
(** [s] reorders n positions; a draw reordered by [s]. *)
Definition reordering (n : nat) (s : list nat) : Prop := Permutation s (seq 0 n).
Definition reorder (s : list nat) (d : list bool) : list bool := map (fun i => nth i d false) s.
Definition draws_ok (n : nat) (W : list (list bool)) : Prop := forall d, In d W -> length d = n.
(** Expectation of [f] over n independent draws, each 1 with probability p_kappa. *)
Fixpoint expect (n : nat) (f : list bool -> R) : R :=
  match n with
  | O => f []
  | S n' => p_kappa * expect n' (fun d => f (true :: d)) + (1 - p_kappa) * expect n' (fun d => f (false :: d))
  end.
(** All bootstrap statistics of draw [row] lie within [c] standard deviations [sg]. *)
Definition inside_band (cols : list nat) (sg : nat -> R) (c : R) (row : list R) : Prop :=
  forall j, In j cols -> Rabs (nth j row 0) <= c * sg j.
(** Distributed partitions: each partition has B draws of its own length; the b-th draws side by side. *)
Definition parts_ok (B : nat) (parts : list (rmatrix * list (list bool))) : Prop := forall p, In p parts -> length (snd p) = B /\ draws_ok (length (fst p)) (snd p).
Definition joined (B : nat) (parts : list (rmatrix * list (list bool))) : list (list bool) := map (fun b => concat (map (fun p => nth b (snd p) []) parts)) (seq 0 B).
