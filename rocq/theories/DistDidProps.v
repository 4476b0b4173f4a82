(** C05: a distributed DiD cell against the local estimators. *)
From Verif Require Import Base ListLib ReduceModel DrdidModel DrdidSpec DrdidProofs DrdidProofs7 DrdidWitness Witness DistDidModel DistDidSpec DistDidProofs DistDidProofs2 DistDidProofs3.
Local Open Scope list_scope.

(** * C05. For every partitioning of the units (empty, all-treated and all-comparison partitions included, except an empty first
    partition), every fan-in and every completion order of the influence tasks, the distributed cell reports the estimate and
    the influence values of the local estimator on the pooled units. The partition statistics, their tree reduction, the
    pooled regression and the corrections are those of the code; the logit coefficients are taken as equal (C03). *)
Theorem C05_dr_equals_local :
  forall o od k fan tl ids parts completed, (2 <= fan)%nat -> hd [] parts <> [] -> Permutation parts completed ->
  NoDup (map p_id (concat parts)) -> linear_algebra_ok od k ->
  forall att inf, wls_ok o k -> inv_ok o k -> same_scores o od parts -> scores_above_floor o k (concat parts) ->
  drdid_panel o k tl (concat parts) = PEst att inf ->
  dist_cell od MDr k fan tl ids parts completed = CDone att (column_of ids (concat parts) inf).
Proof. exact cell_dr. Qed.
Print Assumptions C05_dr_equals_local.
Theorem C05_ipw_equals_local :
  forall o od k fan tl ids parts completed, (2 <= fan)%nat -> hd [] parts <> [] -> Permutation parts completed ->
  NoDup (map p_id (concat parts)) -> linear_algebra_ok od k ->
  forall att inf, inv_ok o k -> same_scores o od parts -> scores_above_floor o k (concat parts) ->
  std_ipw_did_panel o k tl (concat parts) = PEst att inf ->
  dist_cell od MIpw k fan tl ids parts completed = CDone att (column_of ids (concat parts) inf).
Proof. exact cell_ipw. Qed.
Print Assumptions C05_ipw_equals_local.
Theorem C05_reg_equals_local :
  forall o od k fan tl ids parts completed, (2 <= fan)%nat -> hd [] parts <> [] -> Permutation parts completed ->
  NoDup (map p_id (concat parts)) -> linear_algebra_ok od k ->
  forall att inf, (1 <= k)%nat -> has_intercept (concat parts) -> wls_ok o k -> inv_ok o k ->
  reg_did_panel o k (concat parts) = PEst att inf ->
  dist_cell od MReg k fan tl ids parts completed = CDone att (column_of ids (concat parts) inf).
Proof. exact cell_reg. Qed.
Print Assumptions C05_reg_equals_local.

(** Concrete case: the sample of C25 in five partitions, one empty, one all treated, one all comparison. *)
Definition wit_dist : dist_oracle :=
  {| d_irls := fun parts => o_logit wit_oracle (normalise (concat parts)); d_mu := o_mu wit_oracle;
     d_solve := fun M v => option_map (fun N => mv 2 N v) (o_inv wit_oracle M); d_inv := o_inv wit_oracle |}.
Lemma wit_inv_complete M N : is_inverse 2 M N -> o_inv wit_oracle M <> None.
Proof.
  intros H. assert (E00 := proj1 (H 0 0 ltac:(lia) ltac:(lia))%nat). assert (E01 := proj1 (H 0 1 ltac:(lia) ltac:(lia))%nat).
  assert (E10 := proj1 (H 1 0 ltac:(lia) ltac:(lia))%nat). assert (E11 := proj1 (H 1 1 ltac:(lia) ltac:(lia))%nat).
  unfold mat_mul in *. cbn [seq] in *. rewrite !sumf_cons, !sumf_nil in *. cbn [Nat.eqb ind] in *. cbn [wit_oracle o_inv].
  destruct (Qceqb_spec (mget M 0 0 * mget M 1 1 - mget M 0 1 * mget M 1 0) 0) as [D|D]; [|discriminate]. exfalso. revert D E00 E01 E10 E11.
  generalize (mget M 0 0) (mget M 0 1) (mget M 1 0) (mget M 1 1) (mget N 0 0) (mget N 0 1) (mget N 1 0) (mget N 1 1).
  intros a b c d a' b' c' d' D E1 E2 E3 E4.
  assert (K : (a * d - b * c) * (a' * d' - b' * c') = (a * a' + (b * c' + 0)) * (c * b' + (d * d' + 0)) - (a * b' + (b * d' + 0)) * (c * a' + (d * c' + 0))) by ring.
  rewrite D, E1, E2, E3, E4, Qcmult_0_l in K. assert (K2 : 0 = 1) by (rewrite K; ring). discriminate K2.
Qed.
Lemma wit_linear : linear_algebra_ok wit_dist 2.
Proof.
  split; [exact wit_inv_ok|]. split; [exact wit_inv_complete|]. split.
  - intros M v b E. cbn [wit_dist d_solve] in E. destruct (o_inv wit_oracle M) as [N|] eqn:EN; [|discriminate]. injection E as <-.
    pose proof (wit_inv_ok M N EN) as HI. intros i Hi.
    transitivity (sumf (fun q => mat_mul 2 M N i q * nth q v 0) (seq 0 2)).
    + unfold mat_mul, mv. cbn [seq map]. rewrite !sumf_cons, !sumf_nil. cbn [nth]. ring.
    + rewrite (sumf_ext _ (fun q => ind (i =? q)%nat * nth q v 0)); [apply ind_eqb_sum; exact Hi|].
      intros q Hq. apply in_seq in Hq. rewrite (proj1 (HI i q Hi ltac:(lia))). reflexivity.
  - intros M N v H. cbn [wit_dist d_solve]. destruct (o_inv wit_oracle M) eqn:E; [discriminate|]. exfalso. exact (wit_inv_complete M N H E).
Qed.
Definition c05_parts : list (list punit) :=
  [[mku 1 false 3 1 1 0]; [mku 3 true 9 2 1 0; mku 4 true 8 1 1 1]; []; [mku 2 false 5 1 2 1; mku 6 true 7 3 2 2]; [mku 5 false 2 2 1 1; mku 7 false 6 1 1 2]].
Definition c05_ids : list Z := [1; 2; 3; 4; 5; 6; 7; 8; 9]%Z.
Example C05_case : hd [] c05_parts <> [] /\ NoDup (map p_id (concat c05_parts)) /\ same_scores wit_oracle wit_dist c05_parts /\
  scores_above_floor wit_oracle 2 (concat c05_parts) /\ has_intercept (concat c05_parts) /\
  is_est (drdid_panel wit_oracle 2 (Q2Qc (995 # 1000)) (concat c05_parts)) = true /\ is_est (reg_did_panel wit_oracle 2 (concat c05_parts)) = true /\
  is_est (std_ipw_did_panel wit_oracle 2 (Q2Qc (995 # 1000)) (concat c05_parts)) = true.
Proof.
  split; [discriminate|]. split; [cbn; repeat constructor; cbn; intuition congruence|]. split; [split; reflexivity|]. split; [|split].
  - intros g u E Hu. assert (K : match o_logit wit_oracle (normalise (concat c05_parts)) with
      Some g => forallb (fun u => Qcleb eps6 (o_mu wit_oracle (dotk 2 (p_x u) g))) (concat c05_parts) | None => true end = true) by (vm_compute; reflexivity).
    rewrite E in K. rewrite forallb_forall in K. specialize (K u Hu). destruct (Qcleb_spec eps6 (o_mu wit_oracle (dotk 2 (p_x u) g))); [assumption|discriminate].
  - intros u H. cbn in H. repeat (destruct H as [<-|H]; [reflexivity|]). destruct H.
  - vm_compute. tauto.
Qed.

(** * Where the full claim fails. *)
(** an empty first partition: the cell is silently skipped, whatever the other partitions hold *)
Theorem C05_empty_first_partition : forall o m k fan tl ids rest completed,
  dist_cell o m k fan tl ids ([] :: rest) completed = CSkip.
Proof. intros. unfold dist_cell. destruct (length (concat ([] :: rest)) =? 0)%nat; reflexivity. Qed.
Print Assumptions C05_empty_first_partition.
Theorem C05_empty_first_partition_refuted : exists att col,
  dist_cell wit_dist MDr 2 8 (Q2Qc (995 # 1000)) c05_ids c05_parts c05_parts = CDone att col /\
  dist_cell wit_dist MDr 2 8 (Q2Qc (995 # 1000)) c05_ids ([] :: c05_parts) ([] :: c05_parts) = CSkip.
Proof.
  pose proof C05_case as (H1 & H2 & H3 & H4 & _ & H5 & _). destruct (drdid_panel wit_oracle 2 (Q2Qc (995 # 1000)) (concat c05_parts)) as [| | |att inf] eqn:E; try discriminate H5.
  exists att, (column_of c05_ids (concat c05_parts) inf). split; [|apply C05_empty_first_partition].
  exact (C05_dr_equals_local wit_oracle wit_dist 2 8 _ c05_ids c05_parts c05_parts ltac:(lia) H1 (Permutation_refl _) H2 wit_linear att inf wit_wls_ok wit_inv_ok H3 H4 E).
Qed.
Print Assumptions C05_empty_first_partition_refuted.
(** every comparison unit trimmed: the local estimators refuse (drdid) or report NaN (ipw); the distributed cell reports the
    treated units' mean as the effect *)
Theorem C05_no_effective_control_refuted : exists tl att col att2 col2,
  drdid_panel wit_oracle 2 tl (concat c05_parts) = PRaise /\
  dist_cell wit_dist MDr 2 8 tl c05_ids c05_parts c05_parts = CDone att col /\
  std_ipw_did_panel wit_oracle 2 tl (concat c05_parts) = PNaN /\
  dist_cell wit_dist MIpw 2 8 tl c05_ids c05_parts c05_parts = CDone att2 col2 /\ att2 = group_mean true p_dy (concat c05_parts).
Proof.
  exists (Q2Qc (1 # 100)). eexists. eexists. eexists. eexists. split; [vm_compute; reflexivity|]. split; [vm_compute; reflexivity|]. split; [vm_compute; reflexivity|].
  split; [vm_compute; reflexivity|]. apply Qc_is_canon. vm_compute. reflexivity.
Qed.
Print Assumptions C05_no_effective_control_refuted.
(** a fitted score below 1e-6: the clipping bounds differ (1e-6 locally, 1e-10 distributed) and so does the estimate *)
Definition low_oracle : oracle := {| o_logit := o_logit wit_oracle; o_mu := fun z => if Qcleb z (Q2Qc (1 # 2)) then Q2Qc (1 # 100000000) else z;
  o_wls := o_wls wit_oracle; o_inv := o_inv wit_oracle |}.
Definition low_dist : dist_oracle := {| d_irls := d_irls wit_dist; d_mu := o_mu low_oracle; d_solve := d_solve wit_dist; d_inv := d_inv wit_dist |}.
Theorem C05_score_floor_refuted : exists att inf att' col,
  std_ipw_did_panel low_oracle 2 (Q2Qc (995 # 1000)) (concat c05_parts) = PEst att inf /\
  dist_cell low_dist MIpw 2 8 (Q2Qc (995 # 1000)) c05_ids c05_parts c05_parts = CDone att' col /\ att <> att'.
Proof.
  eexists. eexists. eexists. eexists. split; [vm_compute; reflexivity|]. split; [vm_compute; reflexivity|].
  intros E. apply (f_equal (fun z => Qnum (this z))) in E. vm_compute in E. discriminate E.
Qed.
Print Assumptions C05_score_floor_refuted.
