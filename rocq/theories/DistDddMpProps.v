(** C112: a distributed multi-period triple-difference cell against the local one, from the long data. *)
From Verif Require Import Base ListLib ReduceModel PreprocessModel AttGtModel DrdidModel DrdidSpec DrdidWitness DrdidWitness2 Witness DddModel DddSpec DddProofs DddMpModel DddMpSpec DddMpProofs1 DddWitness DddMpWitness DistDidModel DistDidSpec DistDddModel DistDddSpec DistDddSpec2 DistDddMpModel DistDddMpSpec DistDddProofs3 DistDddMpProofs2.
Local Open Scope list_scope.

(** * C112. From the same long panel, for every way the merged rows are dealt into partitions, every fan-in and every completion order,
    the distributed cell (g, t) reports the estimate, the influence column and the standard error override of the local cell, for one and
    for several control cohorts, never- and not-yet-treated, both base-period modes and the three methods: units observed in both
    periods, control cohorts of the cell, subgroups, GMM weights. Conditions: every control cohort is visible in the first partition, the
    logit fits agree, every comparison is estimable, and the data is of the kind both programs read alike (plain_panel). *)
Theorem C112_cell_equals_local :
  forall o od q k fan m b never data g i p layout order c,
  (2 <= fan)%nat -> plain_panel data -> is_layout layout -> is_order order ->
  linear_algebra_ok od k -> wls_ok o k -> inv_ok o k -> d_mu od = o_mu o -> fits_symmetric o -> gmm_equivariant q ->
  is_cohort data g -> (i < length (mp_tlist data) - tfac b)%nat -> let t := nth (i + tfac b) (mp_tlist data) 0%Z in
  base_for b data g t p -> p <> t -> cohorts_observed data t p ->
  cell_ready o od k m never data g t p (layout (merge_rows (cell_keep never g t p) t p data)) ->
  (forall z, controls_of never data g t p z -> exists att inf, against o k m data g z t p att inf) ->
  DddMpModel.process_cell o q k m b never data g i = Some c ->
  dist_gt od q m k fan trim995 never data g t p layout order = ZDone (mc_att c) (mp_column (mp_ids data) (Some c)) (mc_se2 c).
Proof. exact end_to_end. Qed.
Print Assumptions C112_cell_equals_local.

(** Concrete case: three periods, cohorts 2, 3 and never treated (code 0), twelve units, the merged rows in three partitions, one empty. *)
Definition zero_coded (r : lrow) : lrow :=
  {| l_id := l_id r; l_t := l_t r; l_g := match l_g r with Inf => Fin 0 | c => c end; l_p := l_p r; l_y := l_y r; l_w := l_w r; l_x := l_x r |}.
Definition d_data : list lrow := map zero_coded mp_data.
Definition d_layout (l : list mrow) : list (list mrow) := [firstn 3 l; []; rev (skipn 3 l)].
Definition dist3 : dist_oracle :=
  {| d_irls := fun parts => o_logit wit_oracle3 (concat parts); d_mu := o_mu wit_oracle3;
     d_solve := fun M v => option_map (fun N => mv 1 N v) (o_inv wit_oracle3 M); d_inv := o_inv wit_oracle3 |}.
Lemma dist3_linear : linear_algebra_ok dist3 1.
Proof.
  assert (IC : forall M N, is_inverse 1 M N -> o_inv wit_oracle3 M <> None).
  { intros M N H. cbn [wit_oracle3 wit_oracle1 o_inv]. destruct (Qceqb_spec (mget M 0 0) 0) as [K|]; [|discriminate]. exfalso.
    pose proof (proj1 (H 0 0 ltac:(lia) ltac:(lia))%nat) as E. unfold mat_mul in E. cbn [seq] in E. rewrite sumf_cons, sumf_nil, K in E. cbn [Nat.eqb ind] in E.
    assert (Z0 : 0 = 1) by (rewrite <- E; ring). discriminate Z0. }
  split; [exact wit3_inv_ok|]. split; [exact IC|]. split.
  - intros M v b E. cbn [dist3 d_solve] in E. destruct (o_inv wit_oracle3 M) as [N|] eqn:EN; [|discriminate]. injection E as <-.
    pose proof (wit3_inv_ok M N EN) as HI. intros i Hi. assert (i = 0)%nat by lia. subst i.
    pose proof (proj1 (HI 0 0 ltac:(lia) ltac:(lia))%nat) as E. unfold mat_mul in E. unfold mv. cbn [seq map] in *. rewrite !sumf_cons, !sumf_nil in *. cbn [nth Nat.eqb ind] in *.
    transitivity ((mget M 0 0 * mget N 0 0 + 0) * nth 0 v 0); [ring|]. rewrite E. ring.
  - intros M N v H. cbn [dist3 d_solve]. destruct (o_inv wit_oracle3 M) eqn:E; [discriminate|]. exfalso. exact (IC M N H E).
Qed.
Lemma wit3_symmetric : fits_symmetric wit_oracle3.
Proof. intros l l' P. cbn. unfold g2, v2. split; rewrite !(sumf_perm _ l l' P); reflexivity. Qed.
Lemma dist3_scores parts : (forall u, In u (concat parts) -> 0 < t_w u) -> same_ddd_scores wit_oracle3 dist3 parts.
Proof.
  intros Hw. split; [reflexivity|]. intros c Hc. rewrite pair_normalise. cbn [dist3 d_irls]. rewrite pair_concat.
  destruct (concat parts) as [|u q] eqn:E; [cbn [pair_units filter map]; reflexivity|].
  assert (P : 0 < / mean t_w (u :: q)).
  { apply Qcinv_pos. unfold mean. apply Qcdiv_pos.
    - apply sumf_pos; [intros v Hv; apply Qclt_le_weak, Hw, Hv|]. exists u. split; [left; reflexivity|apply Hw; left; reflexivity].
    - apply qn_pos. cbn. lia. }
  revert P. generalize (/ mean t_w (u :: q)) (pair_units c (u :: q)). intros s l P. symmetry. exact (proj1 (scale_free3 s l P)).
Qed.
Definition unclipped3_b (l : list tunit) : bool :=
  forallb (fun c => match o_logit wit_oracle3 (pair_units c (t_normalise l)) with
    | Some g => forallb (fun u => Qcleb eps10 (o_mu wit_oracle3 (dotk 1 (p_x u) g)) && Qcleb (o_mu wit_oracle3 (dotk 1 (p_x u) g)) (1 - eps6)) (pair_units c l)
    | None => true end) [3; 2; 1]%Z.
Lemma unclipped3_ok l : unclipped3_b l = true -> unclipped wit_oracle3 1 l.
Proof.
  intros H c g u Hc E Hu. unfold unclipped3_b in H. rewrite forallb_forall in H. specialize (H c Hc). rewrite E in H. rewrite forallb_forall in H.
  specialize (H u Hu). apply andb_true_iff in H. destruct H as [A B].
  destruct (Qcleb_spec eps10 (o_mu wit_oracle3 (dotk 1 (p_x u) g))); [|discriminate]. destruct (Qcleb_spec (o_mu wit_oracle3 (dotk 1 (p_x u) g)) (1 - eps6)); [|discriminate]. auto.
Qed.
(** cell (2, 2) has two control cohorts, cell (3, 3) one *)
Definition d_parts (g t p : Z) : list (list mrow) := d_layout (merge_rows (cell_keep false g t p) t p d_data).
Example C112_case : plain_panel d_data /\ is_layout d_layout /\ linear_algebra_ok dist3 1 /\ fits_symmetric wit_oracle3 /\ gmm_equivariant g_oracle /\
  dist_controls 2 2 1 d_data = [Fin 0; Fin 3] /\ dist_controls 3 3 2 d_data = [Fin 0] /\
  (forall m c, In c [Fin 0; Fin 3] -> in_first 2 (d_parts 2 2 1) c = true /\ scores_ready wit_oracle3 dist3 1 m 2 (d_parts 2 2 1) c) /\
  forall m, match DddMpModel.process_cell wit_oracle3 g_oracle 1 m Varying false d_data 2 0, DddMpModel.process_cell wit_oracle3 g_oracle 1 m Varying false d_data 3 1 with
            | Some a, Some b => negb (Qceqb (mc_att a) 0) && negb (Qceqb (mc_att b) 0) && match mc_se2 a, mc_se2 b with Some _, None => true | _, _ => false end
            | _, _ => false end = true.
Proof.
  split; [|split; [|split; [exact dist3_linear|split; [exact wit3_symmetric|split; [exact g_oracle_equiv|split; [vm_compute; reflexivity|split; [vm_compute; reflexivity|split]]]]]]].
  - split; [apply nodup_b_ok; vm_compute; reflexivity|]. split.
    + intros r Hr. assert (B : forallb (fun r => ((l_p r =? 0) || (l_p r =? 1))%Z && Qceqb (l_w r) 1 && negb (grp_eqb (l_g r) Inf)) d_data = true) by (vm_compute; reflexivity).
      rewrite forallb_forall in B. specialize (B r Hr). rewrite !andb_true_iff, orb_true_iff, !Z.eqb_eq in B. destruct B as [[B1 B2] B3].
      split; [exact B1|]. split; [destruct (Qceqb_spec (l_w r) 1); [assumption|discriminate]|]. intros E. rewrite E in B3. discriminate.
    + assert (T : tc_b d_data = true) by (vm_compute; reflexivity). intros r r' H H' E. exact (proj1 (tc_b_ok d_data T r r' H H' E)).
  - intros l. unfold d_layout. cbn [concat]. rewrite app_nil_r. cbn [app]. rewrite <- (firstn_skipn 3 l) at 1. apply Permutation_app_head, Permutation_rev.
  - intros m c Hc. split; [destruct Hc as [<-|[<-|[]]]; vm_compute; reflexivity|]. right. split.
    + apply dist3_scores. intros u Hu. assert (B : forallb (fun u => Qcltb 0 (t_w u)) (concat (map (control_sample 2 c) (d_parts 2 2 1))) = true) by (destruct Hc as [<-|[<-|[]]]; vm_compute; reflexivity).
      rewrite forallb_forall in B. specialize (B u Hu). destruct (Qcltb_spec 0 (t_w u)); [assumption|discriminate].
    + apply unclipped3_ok. destruct Hc as [<-|[<-|[]]]; vm_compute; reflexivity.
  - intros m. destruct m; vm_compute; reflexivity.
Qed.
(** * Where the full claim fails: never-treated units with a non-finite code. The local code uses them as controls; the distributed code
    does not, and reports a different estimate, or nothing. *)
Theorem C112_nonfinite_code_refuted : exists c att col se,
  DddMpModel.process_cell wit_oracle3 g_oracle 1 Reg Varying false mp_data 2 0 = Some c /\
  dist_gt dist3 g_oracle Reg 1 8 trim995 false mp_data 2 2 1 d_layout (fun l => l) = ZDone att col se /\ mc_att c <> att.
Proof.
  eexists. eexists. eexists. eexists. split; [vm_compute; reflexivity|]. split; [vm_compute; reflexivity|].
  intros E. apply (f_equal (fun z => Qnum (this z))) in E. vm_compute in E. discriminate E.
Qed.
Print Assumptions C112_nonfinite_code_refuted.
