(** C104: continuous treatment, the order of the rows. *)
From Verif Require Import Base ListLib ReduceModel DrdidModel DrdidSpec SplineModel SplineSpec SplineProps ContModel ContSpec ContSpec2 ContProofs13 ContWitness ContProps.
From Coq Require Import Permutation.

(** Any data with at most one row per unit and period, any options (universal base period included), any numerical routines. *)
Theorem C104_row_order : forall orc o l l',
  NoDup (map (fun r => (c_id r, c_t r)) l) -> Permutation l l' -> cont_did orc o l = cont_did orc o l'.
Proof. exact cont_did_perm. Qed.
Print Assumptions C104_row_order.
Example C104_example : NoDup (map (fun r => (c_id r, c_t r)) (rows 3 wit_panel)) /\ rev (rows 3 wit_panel) <> rows 3 wit_panel /\
  cont_did exact wit_opts (rev (rows 3 wit_panel)) = ContOk wit_run.
Proof.
  assert (N : NoDup (map (fun r => (c_id r, c_t r)) (rows 3 wit_panel))).
  { vm_compute. repeat constructor; cbn; intros H; repeat (destruct H as [H|H]; [discriminate|]); exact H. }
  split; [exact N|]. split.
  - intros E. apply (f_equal (map c_id)) in E. vm_compute in E. discriminate.
  - rewrite <- (C104_row_order exact wit_opts (rows 3 wit_panel) _ N (Permutation_rev _)). exact (proj1 wit_est).
Qed.
