(** C110, C111: distributed triple-difference cells against the local estimator. *)
From Verif Require Import Base ListLib ReduceModel PreprocessModel DrdidModel DrdidSpec DrdidWitness Witness DddModel DddSpec DddProofs DddMpModel DddWitness DddMpWitness DistDidModel DistDidSpec DistDidProps DistDddModel DistDddSpec DistDddSpec2 DistDddProofs3 DistDddProofs4.
Local Open Scope list_scope.

(** * C110. For every partitioning of the units (empty and one-subgroup partitions included, except an empty first partition), every
    fan-in of the tree reductions and every completion order of the influence tasks, a distributed triple-difference cell with one
    control cohort reports the estimate and the influence values of the local ddd_panel on the pooled units, for the three methods. The
    logit coefficients are taken as equal (C03) and unclipped. *)
Theorem C110_cell_equals_local :
  forall o od k fan m ids parts completed att a3 a2 a1 inf,
  (2 <= fan)%nat -> hd [] parts <> [] -> Permutation parts completed -> NoDup (map t_id (concat parts)) ->
  linear_algebra_ok od k -> wls_ok o k -> inv_ok o k -> d_mu od = o_mu o ->
  (m = Reg \/ same_ddd_scores o od parts /\ unclipped o k (concat parts)) ->
  ddd_panel o k m (concat parts) = TEst att a3 a2 a1 inf ->
  ddd_cell od m k fan trim995 ids parts completed = CDone att (ddd_column ids (concat parts) inf).
Proof. exact cell_equal. Qed.
Print Assumptions C110_cell_equals_local.
(** the distributed subgroup code is the local one on every unit whose eligibility code is 0 or 1 *)
Theorem C110_subgroup_code : forall g r, m_p r = 0%Z \/ m_p r = 1%Z ->
  t_sg (dist_unit g r) = subgroup_code (grp_eqb (m_g r) (Fin g)) (m_p r).
Proof. intros g r H. unfold dist_unit, dist_subgroup, subgroup_code. cbn [t_sg]. destruct (grp_eqb (m_g r) (Fin g)), H as [-> | ->]; reflexivity. Qed.
Print Assumptions C110_subgroup_code.

(** Concrete case: the sample of C53 in six partitions, one empty, one with a single subgroup. *)
Definition ddd_dist : dist_oracle :=
  {| d_irls := fun parts => o_logit wit_oracle (concat parts); d_mu := o_mu wit_oracle; d_solve := d_solve wit_dist; d_inv := d_inv wit_dist |}.
Lemma ddd_linear : linear_algebra_ok ddd_dist 2. Proof. exact wit_linear. Qed.
Definition cut {A} (n : nat) (l : list A) : list (list A) := [firstn n l; skipn n l].
Definition c110_parts : list (list tunit) :=
  [firstn 1 t_units; firstn 2 (skipn 1 t_units); []; firstn 4 (skipn 3 t_units); firstn 2 (skipn 7 t_units); skipn 9 t_units].
Definition c110_ids : list Z := [1; 2; 3; 4; 5; 6; 7; 8; 9; 10; 11; 12]%Z.
Lemma ddd_dist_scores parts : (forall u, In u (concat parts) -> 0 < t_w u) -> same_ddd_scores wit_oracle ddd_dist parts.
Proof.
  intros Hw. split; [reflexivity|]. intros c Hc. rewrite pair_normalise. cbn [ddd_dist d_irls]. rewrite pair_concat.
  destruct (concat parts) as [|u q] eqn:E; [cbn [pair_units filter map]; reflexivity|].
  assert (P : 0 < / mean t_w (u :: q)).
  { apply Qcinv_pos. unfold mean. apply Qcdiv_pos.
    - apply sumf_pos; [intros v Hv; apply Qclt_le_weak, Hw, Hv|]. exists u. split; [left; reflexivity|apply Hw; left; reflexivity].
    - apply qn_pos. cbn. lia. }
  revert P. generalize (/ mean t_w (u :: q)) (pair_units c (u :: q)). intros s l P. symmetry. exact (proj1 (wit_scale_free s l P)).
Qed.
Definition unclipped_b (l : list tunit) : bool :=
  forallb (fun c => match o_logit wit_oracle (pair_units c (t_normalise l)) with
    | Some g => forallb (fun u => Qcleb eps10 (o_mu wit_oracle (dotk 2 (p_x u) g)) && Qcleb (o_mu wit_oracle (dotk 2 (p_x u) g)) (1 - eps6)) (pair_units c l)
    | None => true end) [3; 2; 1]%Z.
Lemma unclipped_b_ok l : unclipped_b l = true -> unclipped wit_oracle 2 l.
Proof.
  intros H c g u Hc E Hu. unfold unclipped_b in H. rewrite forallb_forall in H. specialize (H c Hc). rewrite E in H. rewrite forallb_forall in H.
  specialize (H u Hu). apply andb_true_iff in H. destruct H as [A B].
  destruct (Qcleb_spec eps10 (o_mu wit_oracle (dotk 2 (p_x u) g))); [|discriminate]. destruct (Qcleb_spec (o_mu wit_oracle (dotk 2 (p_x u) g)) (1 - eps6)); [|discriminate]. auto.
Qed.
Example C110_case : hd [] c110_parts <> [] /\ NoDup (map t_id (concat c110_parts)) /\ same_ddd_scores wit_oracle ddd_dist c110_parts /\
  unclipped wit_oracle 2 (concat c110_parts) /\ forall m, is_test (ddd_panel wit_oracle 2 m (concat c110_parts)) = true.
Proof.
  split; [discriminate|]. split; [cbn; repeat constructor; cbn; intuition congruence|]. split; [|split].
  - apply ddd_dist_scores. intros u H. cbn in H. repeat (destruct H as [<-|H]; [reflexivity|]). destruct H.
  - apply unclipped_b_ok. vm_compute. reflexivity.
  - intros m. destruct m; vm_compute; reflexivity.
Qed.

(** * Where the full claim fails. *)
(** an empty first partition: the cell is silently skipped, whatever the other partitions hold *)
Theorem C110_empty_first_partition : forall o m k fan tl ids rest completed,
  ddd_cell o m k fan tl ids ([] :: rest) completed = CSkip.
Proof. intros. unfold ddd_cell. destruct (length (concat ([] :: rest)) =? 0)%nat; reflexivity. Qed.
Print Assumptions C110_empty_first_partition.
Theorem C110_empty_first_partition_refuted : exists att col,
  ddd_cell ddd_dist Dr 2 8 trim995 c110_ids c110_parts c110_parts = CDone att col /\
  ddd_cell ddd_dist Dr 2 8 trim995 c110_ids ([] :: c110_parts) ([] :: c110_parts) = CSkip.
Proof.
  pose proof C110_case as (H1 & H2 & H3 & H4 & H5). specialize (H5 Dr). destruct (ddd_panel wit_oracle 2 Dr (concat c110_parts)) as [|att a3 a2 a1 inf] eqn:E; try discriminate H5.
  exists att, (ddd_column c110_ids (concat c110_parts) inf). split; [|apply C110_empty_first_partition].
  exact (C110_cell_equals_local wit_oracle ddd_dist 2 8 Dr c110_ids c110_parts c110_parts att a3 a2 a1 inf ltac:(lia) H1 (Permutation_refl _) H2 ddd_linear wit_wls_ok wit_inv_ok eq_refl (or_intror (conj H3 H4)) E).
Qed.
Print Assumptions C110_empty_first_partition_refuted.
(** trimming everywhere: the local estimator refuses, the distributed cell reports an effect. The trimming level is 0.995 in both; here
    the score of every comparison unit is at least that. *)
Definition high_oracle : oracle := {| o_logit := o_logit wit_oracle; o_mu := fun _ => Q2Qc (999 # 1000); o_wls := o_wls wit_oracle; o_inv := o_inv wit_oracle |}.
Definition high_dist : dist_oracle := {| d_irls := d_irls ddd_dist; d_mu := o_mu high_oracle; d_solve := d_solve ddd_dist; d_inv := d_inv ddd_dist |}.
Theorem C110_no_effective_control_refuted : exists att col,
  unclipped high_oracle 2 (concat c110_parts) /\ ddd_panel high_oracle 2 Dr (concat c110_parts) = TRaise /\
  ddd_cell high_dist Dr 2 8 trim995 c110_ids c110_parts c110_parts = CDone att col.
Proof.
  eexists. eexists. split; [|split; [vm_compute; reflexivity|vm_compute; reflexivity]].
  intros c g u _ _ _. cbn [high_oracle o_mu]. split; intros K; vm_compute in K; discriminate K.
Qed.
Print Assumptions C110_no_effective_control_refuted.

(** * C111. With several control cohorts the distributed cell reports exactly the GMM combination, over the units of the cell, of the
    local estimates of the control cohorts that are visible in the first partition, and the matching influence column; it is skipped
    when there is none. With every cohort visible this is the combination of all of them, for every partitioning. *)
Theorem C111_multi_control :
  forall o od q k fan m ids g controls parts completed rs,
  (2 <= fan)%nat -> (2 <= length controls)%nat -> Permutation parts completed -> NoDup (map m_id (concat parts)) ->
  linear_algebra_ok od k -> wls_ok o k -> inv_ok o k -> d_mu od = o_mu o ->
  (forall c, In c controls -> in_first g parts c = true -> scores_ready o od k m g parts c) ->
  Forall2 (local_control o k m g (concat parts)) (filter (in_first g parts) controls) rs ->
  multi_cell od q m k fan trim995 ids g controls parts completed =
    match rs with [] => ZSkip | _ => gmm_report q ids (zuniq (map m_id (concat parts))) rs end.
Proof. exact multi_equal. Qed.
Print Assumptions C111_multi_control.
(** the report depends on the pooled rows only, when every control cohort is visible in both first partitions *)
Theorem C111_partition_free :
  forall o od q k fan fan' m ids g controls parts completed parts' completed' rs,
  (2 <= fan)%nat -> (2 <= fan')%nat -> (2 <= length controls)%nat -> Permutation parts completed -> Permutation parts' completed' ->
  NoDup (map m_id (concat parts)) -> concat parts' = concat parts ->
  linear_algebra_ok od k -> wls_ok o k -> inv_ok o k -> d_mu od = o_mu o ->
  (forall c, In c controls -> in_first g parts c = true /\ in_first g parts' c = true /\ scores_ready o od k m g parts c /\ scores_ready o od k m g parts' c) ->
  Forall2 (local_control o k m g (concat parts)) controls rs ->
  multi_cell od q m k fan trim995 ids g controls parts completed = multi_cell od q m k fan' trim995 ids g controls parts' completed' /\
  multi_cell od q m k fan trim995 ids g controls parts completed = gmm_report q ids (zuniq (map m_id (concat parts))) rs.
Proof.
  intros o od q k fan fan' m ids g controls parts completed parts' completed' rs F F' L P P' D E A B C0 M R H.
  assert (K : forall p, (forall c, In c controls -> in_first g p c = true) -> filter (in_first g p) controls = controls).
  { intros p. clear. induction controls as [|c cs IH]; intros K; cbn; [reflexivity|]. rewrite (K c (or_introl eq_refl)), IH; [reflexivity|]. intros d Hd. apply K. right. exact Hd. }
  assert (N : rs <> []) by (inversion H; subst; cbn in L; [lia|discriminate]).
  rewrite (C111_multi_control o od q k fan m ids g controls parts completed rs F L P D A B C0 M); [|intros c Hc _; apply R, Hc|rewrite K by (intros c Hc; apply R, Hc); exact H].
  rewrite (C111_multi_control o od q k fan' m ids g controls parts' completed' rs F' L P' ltac:(rewrite E; exact D) A B C0 M);
    [|intros c Hc _; apply R, Hc|rewrite K by (intros c Hc; apply R, Hc); rewrite E; exact H].
  rewrite E. destruct rs; [congruence|]. split; reflexivity.
Qed.
Print Assumptions C111_partition_free.

(** Concrete case: cohort 3 and the control cohorts 0 (never treated) and 7, three partitions. *)
Definition mkm (i : Z) (g : grp) (p y1 y0 w x : Z) : mrow := {| m_id := i; m_g := g; m_p := p; m_y1 := qz y1; m_y0 := qz y0; m_w := qz w; m_x := [qz x] |}.
Definition c111_rows : list mrow :=
  [mkm 5 (Fin 0) 1 5 2 1 1; mkm 6 (Fin 0) 1 3 1 3 0; mkm 1 (Fin 3) 1 9 1 1 0; mkm 2 (Fin 3) 1 8 2 2 1; mkm 3 (Fin 3) 0 4 1 1 0; mkm 4 (Fin 3) 0 6 1 1 1;
   mkm 7 (Fin 0) 0 2 1 1 0; mkm 8 (Fin 0) 0 4 3 1 1; mkm 11 (Fin 7) 1 6 1 1 0; mkm 12 (Fin 7) 1 2 4 1 1; mkm 9 (Fin 0) 0 5 1 2 0; mkm 10 (Fin 3) 1 7 2 1 0;
   mkm 13 (Fin 7) 0 3 1 2 0; mkm 14 (Fin 7) 0 8 1 1 1; mkm 15 (Fin 7) 1 4 4 1 0].
Definition c111_ids : list Z := [1; 2; 3; 4; 5; 6; 7; 8; 9; 10; 11; 12; 13; 14; 15; 16]%Z.
Definition c111_controls : list grp := [Fin 0; Fin 7].
Definition c111_parts : list (list mrow) := [firstn 6 c111_rows; []; firstn 4 (skipn 6 c111_rows); skipn 10 c111_rows].
Definition c111_split : list (list mrow) := cut 2 c111_rows.
Example C111_case : NoDup (map m_id (concat c111_parts)) /\
  (forall m c, In c c111_controls -> in_first 3 c111_parts c = true /\ scores_ready wit_oracle ddd_dist 2 m 3 c111_parts c) /\
  forall m, exists rs, Forall2 (local_control wit_oracle 2 m 3 (concat c111_parts)) (filter (in_first 3 c111_parts) c111_controls) rs /\ length rs = 2%nat.
Proof.
  split; [cbn; repeat constructor; cbn; intuition congruence|]. split.
  - intros m c Hc. split; [destruct Hc as [<-|[<-|[]]]; reflexivity|]. right. split.
    + apply ddd_dist_scores. intros u Hu. destruct Hc as [<-|[<-|[]]]; cbn in Hu; repeat (destruct Hu as [<-|Hu]; [reflexivity|]); destruct Hu.
    + apply unclipped_b_ok. destruct Hc as [<-|[<-|[]]]; vm_compute; reflexivity.
  - intros m. assert (T : forall c, In c c111_controls -> is_test (ddd_panel wit_oracle 2 m (control_sample 3 c (concat c111_parts))) = true)
      by (intros c [<-|[<-|[]]]; destruct m; vm_compute; reflexivity).
    assert (G : forall c, In c c111_controls -> exists r, local_control wit_oracle 2 m 3 (concat c111_parts) c r).
    { intros c Hc. specialize (T c Hc). unfold local_control. destruct (ddd_panel wit_oracle 2 m (control_sample 3 c (concat c111_parts))) as [|att a3 a2 a1 inf]; [discriminate|].
      exists (att, combine (map t_id (control_sample 3 c (concat c111_parts))) inf), a3, a2, a1, inf. split; reflexivity. }
    destruct (G (Fin 0)) as [r0 R0]; [cbn; auto|]. destruct (G (Fin 7)) as [r1 R1]; [cbn; auto|]. exists [r0; r1]. split; [|reflexivity].
    repeat constructor; assumption.
Qed.
(** the same pooled rows in the same order, the first partition without cohorts 3 and 7: cohort 7 is dropped and the estimate changes *)
Theorem C111_partition_dependence_refuted : exists att col se att' col' se',
  concat c111_split = concat c111_parts /\
  multi_cell ddd_dist g_oracle Reg 2 8 trim995 c111_ids 3 c111_controls c111_parts c111_parts = ZDone att col se /\
  multi_cell ddd_dist g_oracle Reg 2 8 trim995 c111_ids 3 c111_controls c111_split c111_split = ZDone att' col' se' /\ att <> att'.
Proof.
  eexists. eexists. eexists. eexists. eexists. eexists. split; [reflexivity|]. split; [vm_compute; reflexivity|]. split; [vm_compute; reflexivity|].
  intros E. apply (f_equal (fun z => Qnum (this z))) in E. vm_compute in E. discriminate E.
Qed.
Print Assumptions C111_partition_dependence_refuted.
