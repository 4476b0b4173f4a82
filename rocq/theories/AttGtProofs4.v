From Verif Require Import Base ListLib PreprocessModel PreprocessSpec PreprocessProofs PreprocessProofs2 PreprocessProofs3 AttGtModel AttGtSpec AttGtProofs AttGtProofs2 AttGtProofs3.
Local Open Scope nat_scope.

(** * C31: one influence row per unit *)
Lemma inf_length_general est c l b cells n (D := build_did_data c l) :
  compute_att_gt est c D b = Some cells -> d_ids D = n ->
  (forall g t att inf, run_att_gt est c D b g t = CEst att inf -> length inf = n) ->
  forall a, In a cells -> length (ac_inf a) = n.
Proof.
  intros H Hn HR a Ha. apply compute_keys in H as [os [HF ->]]. fold D in HF. apply in_cells in Ha.
  destruct (Forall2_in_r _ _ _ _ HF Ha) as [[g t] [_ Hc]]. unfold process_cell in Hc.
  destruct (run_att_gt est c D b g t) as [| |[x|] inf] eqn:E; [destruct b| | |]; try discriminate Hc; injection Hc as <-; cbn [ac_inf];
    rewrite ?repeat_length; auto. eapply HR; eauto.
Qed.
Lemma panel_inf_length c d out b e cells a (D := build_did_data c out) :
  c_panel c = true -> c_unbal c = false -> c_has_id c = true -> valid_panel d -> did_pipeline c d = Some out ->
  compute_att_gt (EPanel e) c D b = Some cells -> In a cells -> length (ac_inf a) = length (d_units D) /\ d_ids D = length (d_units D).
Proof.
  intros H1 H2 H3 V HP HC Ha. assert (PI := pipe_ids c d out H1 H2 H3 V HP). fold D in PI. split; [|exact PI].
  eapply (inf_length_general (EPanel e) c out b cells); eauto. fold D.
  intros g t att inf. unfold run_att_gt. destruct (base_index _ _ _ _ _) as [i| |].
  - destruct (match b with Universal => _ | Varying => _ end); [discriminate|].
    destruct (negb _); [discriminate|]. destruct (d_outcomes D); [|discriminate]. destruct (d_covs D); [|discriminate].
    unfold run_drdid_panel. destruct (e _ _ _ _ _) as [[x psi]|]; [|discriminate]. intros H; injection H as <- <-.
    rewrite scatter_length. assert (PX := pipe_index c d out H1 H2 H3 V HP b g t i). fold D in PX. rewrite PX. apply map_length.
  - destruct (negb _); [discriminate|]. destruct (_ && _); discriminate.
  - discriminate.
Qed.
Lemma rc_inf_length e c l b cells a (D := build_did_data c l) :
  (c_unbal c = true \/ d_ids D = length l) ->
  compute_att_gt (ERc e) c D b = Some cells -> In a cells -> length (ac_inf a) = d_ids D.
Proof.
  intros HU HC Ha. eapply (inf_length_general (ERc e) c l b cells); eauto. fold D.
  intros g t att inf. unfold run_att_gt. destruct (base_index _ _ _ _ _) as [i| |].
  - destruct (match b with Universal => _ | Varying => _ end); [discriminate|].
    destruct (negb _); [discriminate|]. unfold run_drdid_rc. destruct (e _ _ _ _ _) as [[x psi]|]; [|discriminate].
    destruct (c_unbal c) eqn:U; intros H; injection H as <- <-.
    + rewrite map_length. reflexivity.
    + rewrite scatter_length. unfold cohort_index_rc. rewrite map_length. destruct HU as [HU|HU]; [discriminate|]. symmetry. exact HU.
  - destruct (negb _); discriminate.
  - discriminate.
Qed.
Lemma zuniq_length_nodup l : NoDup l -> length (zuniq l) = length l.
Proof.
  intros N. apply Permutation_length, NoDup_Permutation; [apply zuniq_nodup|exact N|]. intros x. apply zuniq_in.
Qed.
Lemma row_index_ids l : map r_id (with_row_index l) = map Z.of_nat (seq 0 (length l)).
Proof.
  unfold with_row_index. generalize 0 as s. induction l as [|a l IH]; intros s; [reflexivity|]. cbn. f_equal. apply IH.
Qed.
Lemma rc_no_id_facts c d out : c_panel c = false -> c_has_id c = false -> did_pipeline c d = Some out ->
  NoDup (map r_id out) /\ length (zuniq (map r_id out)) = length out /\ time_invariant out = out.
Proof.
  intros H1 H3 HP. apply pipeline_stages in HP as [_ [bb [Hb ->]]]. unfold rc_handler. rewrite H1, H3.
  assert (N : NoDup (map r_id (data_sorter (with_row_index bb)))).
  { apply (Permutation_NoDup (l := map r_id (with_row_index bb))).
    - apply Permutation_map, Permutation_sym, data_sorter_perm.
    - rewrite row_index_ids. apply NoDup_map_inj; [intros; lia|]. apply seq_NoDup. }
  split; [exact N|]. split; [rewrite zuniq_length_nodup, map_length by exact N; reflexivity|].
  unfold time_invariant, firsts. apply (firsts_from_nodup_id Z.eqb Z.eqb_spec); [exact N|intros a _ []].
Qed.
Lemma rc_no_id_inf_length c d out b e cells a (D := build_did_data c out) :
  c_panel c = false -> c_has_id c = false -> did_pipeline c d = Some out ->
  compute_att_gt (ERc e) c D b = Some cells -> In a cells -> length (ac_inf a) = length (d_units D) /\ d_ids D = length (d_units D).
Proof.
  intros H1 H3 HP HC Ha. destruct (rc_no_id_facts c d out H1 H3 HP) as [_ [A B]].
  assert (E : d_ids D = length (d_units D)).
  { change (length (zuniq (map r_id out)) = length (time_invariant out)). rewrite B. exact A. }
  split; [|exact E]. rewrite <- E. apply (rc_inf_length e c out b cells a); auto.
Qed.
Lemma unbalanced_inf_length c l b e cells a (D := build_did_data c l) :
  c_unbal c = true -> compute_att_gt (ERc e) c D b = Some cells -> In a cells -> length (ac_inf a) = length (d_units D) /\ d_ids D = length (d_units D).
Proof.
  intros HU HC Ha. assert (E : d_ids D = length (d_units D)).
  { change (length (zuniq (map r_id l)) = length (time_invariant l)). rewrite <- (map_length r_id (time_invariant l)).
    apply Permutation_length, NoDup_Permutation; [apply zuniq_nodup|apply units_nodup_ids|].
    intros x. rewrite zuniq_in. unfold time_invariant. rewrite (firsts_keys Z.eqb Z.eqb_spec). reflexivity. }
  split; [|exact E]. rewrite <- E. apply (rc_inf_length e c l b cells a); auto.
Qed.

(** Witness data: 2 periods, unit 1 never treated, unit 2 treated in period 2. *)
Definition wq (i t : Z) (g : grp) (y : Z) : raw :=
  {| raw_id := Some i; raw_t := Some t; raw_g := Some g; raw_y := Some (qz y); raw_w := None; raw_x := [] |}.
Definition west : rc_estimator := fun y post dd x w => Some (Some 1%Qc, map (fun b : bool => if b then 1%Qc else 0%Qc) dd).

Lemma one_row_per_unit_refuted :
  exists c d out cells a, c_panel c = false /\ c_has_id c = true /\ c_unbal c = false /\ valid_panel d /\
    did_pipeline c d = Some out /\ compute_att_gt (ERc west) c (build_did_data c out) Varying = Some cells /\ In a cells /\
    length (ac_inf a) = 4 /\ d_ids (build_did_data c out) = 2 /\ length (d_units (build_did_data c out)) = 2.
Proof.
  exists {| c_panel := false; c_unbal := false; c_has_id := true; c_has_w := false; c_never := true; c_ant := 0 |}.
  exists [wq 1 1 (Fin 0) 1; wq 1 2 (Fin 0) 2; wq 2 1 (Fin 2) 1; wq 2 2 (Fin 2) 5]%Z.
  eexists. eexists. eexists. do 3 (split; [reflexivity|]). split.
  { split; [cbn; repeat constructor; cbn; intuition congruence|]. cbn. intros a b Ha Hb. intuition (subst; cbn in *; congruence). }
  split; [vm_compute; reflexivity|]. split; [vm_compute; reflexivity|]. split; [left; reflexivity|]. vm_compute. auto.
Qed.

(** * C16 *)
Lemma unbalanced_entry e c l b g t att inf (D := build_did_data c l) : c_unbal c = true ->
  run_att_gt (ERc e) c D b g t = CEst att inf ->
  exists long, length long = length l /\
    forall k, k < d_ids D -> nth k inf 0%Qc = sum_by_id (map r_id l) long (nth k (zuniq (map r_id l)) 0%Z).
Proof.
  intros HU. unfold run_att_gt. destruct (base_index _ _ _ _ _) as [i| |].
  - destruct (match b with Universal => _ | Varying => _ end); [discriminate|].
    destruct (negb _); [discriminate|]. unfold run_drdid_rc. destruct (e _ _ _ _ _) as [[x psi]|]; [|discriminate].
    rewrite HU. intros H; injection H as <- <-. eexists. split.
    2: { intros k Hk. rewrite (nth_map_in _ _ _ 0%Z) by exact Hk. reflexivity. }
    rewrite scatter_length. unfold cohort_index_rc. rewrite map_length. reflexivity.
  - destruct (negb _); discriminate.
  - discriminate.
Qed.
Lemma unbalanced_aligned_sorted e c l b g t att inf (D := build_did_data c l) : c_unbal c = true ->
  StronglySorted Z.lt (map r_id (d_units D)) -> run_att_gt (ERc e) c D b g t = CEst att inf ->
  exists long, length long = length l /\
    forall k, k < length (d_units D) -> nth k inf 0%Qc = sum_by_id (map r_id l) long (r_id (nth k (d_units D) drow0)).
Proof.
  intros HU HS HR. destruct (unbalanced_entry e c l b g t att inf HU HR) as [long [L H]]. exists long. split; [exact L|].
  assert (E : map r_id (d_units D) = zuniq (map r_id l)).
  { apply ssorted_lt_ext; [exact HS|apply zuniq_sorted|]. intros x. rewrite zuniq_in.
    change (d_units D) with (time_invariant l). unfold time_invariant. rewrite (firsts_keys Z.eqb Z.eqb_spec). reflexivity. }
  intros k Hk. rewrite H.
  - rewrite <- E. rewrite (nth_map_in _ _ _ drow0) by exact Hk. reflexivity.
  - change (k < length (zuniq (map r_id l))). rewrite <- E, map_length. exact Hk.
Qed.
Lemma influence_alignment_refuted :
  exists c d out cells a k, c_panel c = false /\ c_has_id c = true /\ c_unbal c = true /\ valid_panel d /\
    did_pipeline c d = Some out /\ compute_att_gt (ERc west) c (build_did_data c out) Varying = Some cells /\ In a cells /\
    r_g (nth k (d_units (build_did_data c out)) drow0) = Fin (ac_group a) /\ nth k (ac_inf a) 0%Qc = 0%Qc /\
    exists k', k' < length (d_units (build_did_data c out)) /\ r_g (nth k' (d_units (build_did_data c out)) drow0) = Inf /\ nth k' (ac_inf a) 0%Qc <> 0%Qc.
Proof.
  exists {| c_panel := false; c_unbal := true; c_has_id := true; c_has_w := false; c_never := true; c_ant := 0 |}.
  exists [wq 1 1 (Fin 0) 1; wq 1 2 (Fin 0) 2; wq 2 1 (Fin 2) 1; wq 2 2 (Fin 2) 5]%Z.
  eexists. eexists. eexists. exists 0. do 3 (split; [reflexivity|]). split.
  { split; [cbn; repeat constructor; cbn; intuition congruence|]. cbn. intros a b Ha Hb. intuition (subst; cbn in *; congruence). }
  split; [vm_compute; reflexivity|]. split; [vm_compute; reflexivity|]. split; [left; reflexivity|].
  split; [reflexivity|]. split; [reflexivity|]. exists 1. split; [vm_compute; lia|]. split; [reflexivity|]. vm_compute. discriminate.
Qed.

(** anticipation window of units coded just after the last period *)
Lemma anticipation_refuted :
  exists c d out g_idx t_idx pre j q z, c_panel c = true /\ c_unbal c = false /\ c_has_id c = true /\ valid_panel d /\ did_pipeline c d = Some out /\
    (0 <= c_ant c)%Z /\
    let D := build_did_data c out in
    t_idx + 1 < length (d_times D) /\ base_index (c_ant c) D Varying g_idx t_idx = Base pre /\ j < d_ids D /\
    nth_error (cohort_index_panel c D Varying g_idx t_idx pre) j = Some (Some false) /\
    In q d /\ raw_id q = Some (r_id (nth j (d_units D) drow0)) /\ raw_g q = Some (Fin z) /\
    (z - c_ant c <= nth (t_idx + 1) (d_times D) 0 < z)%Z.
Proof.
  exists {| c_panel := true; c_unbal := false; c_has_id := true; c_has_w := false; c_never := false; c_ant := 1 |}.
  exists [wq 1 1 (Fin 4) 1; wq 1 2 (Fin 4) 2; wq 1 3 (Fin 4) 2; wq 2 1 (Fin 3) 1; wq 2 2 (Fin 3) 5; wq 2 3 (Fin 3) 5]%Z.
  eexists. exists 0, 1, 0, 1. eexists. exists 4%Z. do 3 (split; [reflexivity|]). split.
  { split; [cbn; repeat constructor; cbn; intuition congruence|]. cbn. intros a b Ha Hb. intuition (subst; cbn in *; congruence). }
  split; [vm_compute; reflexivity|]. split; [cbn; lia|]. cbn zeta. split; [vm_compute; lia|]. split; [vm_compute; reflexivity|].
  split; [vm_compute; lia|]. split; [vm_compute; reflexivity|]. split; [left; reflexivity|]. split; [reflexivity|].
  split; [reflexivity|]. split; vm_compute; congruence.
Qed.

(** * C32: crash / silent zero corner cases *)
Lemma universal_no_base_raises est c l g0 (D := build_did_data c l) :
  c_never c = false -> In g0 (d_groups D) -> d_times D <> [] -> (forall p, In p (d_times D) -> (g0 - c_ant c <= p)%Z) ->
  compute_att_gt est c D Universal = None.
Proof.
  intros HN Hg Ht HB. destruct (compute_att_gt est c D Universal) as [cells|] eqn:E; [|reflexivity].
  apply compute_keys in E as [os [HF _]]. fold D in HF. apply (In_nth _ _ 0%Z) in Hg as [g [Hg Eg]].
  assert (Hp : In (g, 0) (cell_pairs D Universal)).
  { apply cell_pairs_in. split; [exact Hg|]. cbn [time_factor Nat.add]. destruct (d_times D); [congruence|cbn; lia]. }
  destruct (Forall2_in_l _ _ _ _ HF Hp) as [o [_ Hc]].
  unfold process_cell, run_att_gt, base_index in Hc. rewrite Eg in Hc.
  assert (HL := last_before_spec (d_times D) (g0 - c_ant c)%Z). destruct (last_before _ _) as [k|].
  - destruct HL as [K1 [K2 _]]. specialize (HB _ (nth_In _ 0%Z K1)). lia.
  - rewrite HN in Hc. cbn in Hc. discriminate.
Qed.
Lemma unbalanced_panel_raises e c l b g t pre (D := build_did_data c l) :
  c_panel c = true -> c_unbal c = true -> is_balanced l = false -> base_index (c_ant c) D b g t = Base pre ->
  (b = Universal -> nth pre (d_times D) 0%Z <> nth t (d_times D) 0%Z) ->
  has_flag true (cohort_index_panel c D b g t pre) = true -> has_flag false (cohort_index_panel c D b g t pre) = true ->
  g < length (d_groups D) -> t + time_factor b < length (d_times D) ->
  compute_att_gt (EPanel e) c D b = None.
Proof.
  intros HP HU HI HB HN F1 F0 Hg Ht. destruct (compute_att_gt (EPanel e) c D b) as [cells|] eqn:E; [|reflexivity].
  apply compute_keys in E as [os [HF _]]. fold D in HF.
  assert (Hp : In (g, t) (cell_pairs D b)) by (apply cell_pairs_in; auto).
  destruct (Forall2_in_l _ _ _ _ HF Hp) as [o [_ Hc]].
  unfold process_cell, run_att_gt in Hc. rewrite HB, F1, F0 in Hc. cbn [andb negb] in Hc.
  replace (match b with Universal => (nth pre (d_times D) 0 =? nth (t + time_factor b) (d_times D) 0)%Z | Varying => false end) with false in Hc.
  2: { destruct b; [|reflexivity]. symmetry. apply Z.eqb_neq. cbn. rewrite Nat.add_0_r. apply HN. reflexivity. }
  replace (d_outcomes D) with (@None (list (list Qc))) in Hc; [discriminate|].
  unfold D, build_did_data. cbn. rewrite HP, HU, HI. reflexivity.
Qed.

Lemma run_panel_inv e c D b g t att inf : run_att_gt (EPanel e) c D b g t = CEst att inf ->
  exists pre, base_index (c_ant c) D b g t = Base pre /\
    let ix := cohort_index_panel c D b g t pre in has_flag true ix = true /\ has_flag false ix = true /\
    exists psi y1 y0 x, e (select ix y1) (select ix y0) (flags ix) (select ix x) (select ix (d_weights D)) = Some (att, psi) /\
      inf = scatter ix (scale (qn (length ix) / qn (length (flags ix))) psi).
Proof.
  unfold run_att_gt. destruct (base_index _ _ _ _ _) as [i| |].
  - intros H. exists i. split; [reflexivity|]. cbn zeta. revert H.
    destruct (match b with Universal => _ | Varying => _ end); [discriminate|].
    destruct (has_flag true _), (has_flag false _); try discriminate. cbn [andb negb].
    destruct (d_outcomes D) as [Y|]; [|discriminate]. destruct (d_covs D) as [X|]; [|discriminate].
    unfold run_drdid_panel. destruct (e _ _ _ _ _) as [[x psi]|] eqn:E; [|discriminate]. intros H; injection H as <- <-.
    split; [reflexivity|]. split; [reflexivity|]. exists psi. eauto 9.
  - destruct (negb _); [discriminate|]. destruct (_ && _); discriminate.
  - discriminate.
Qed.
Lemma has_flag_nonempty v ix : has_flag v ix = true -> flags ix <> [].
Proof.
  unfold has_flag. induction ix as [|[b|] ix IH]; cbn; try discriminate. exact IH.
Qed.
Lemma cell_influence c d out b e g_idx t_idx pre att inf (D := build_did_data c out) (ix := cohort_index_panel c D b g_idx t_idx pre) :
  c_panel c = true -> c_unbal c = false -> c_has_id c = true -> valid_panel d -> did_pipeline c d = Some out ->
  base_index (c_ant c) D b g_idx t_idx = Base pre ->
  run_att_gt (EPanel e) c D b g_idx t_idx = CEst att inf ->
  exists psi y1 y0 x, e y1 y0 (flags ix) x (select ix (d_weights D)) = Some (att, psi) /\
    length inf = length (d_units D) /\
    (forall j, nth_error ix j = Some None -> nth j inf 0%Qc = 0%Qc) /\
    (length psi = length (flags ix) -> mean (fun x => x) inf = mean (fun x => x) psi).
Proof.
  intros H1 H2 H3 V HP HB HR. destruct (run_panel_inv e c D b g_idx t_idx att inf HR) as [pre' [HB' H]].
  rewrite HB in HB'. injection HB' as <-. cbn zeta in H. fold ix in H. destruct H as [F1 [_ [psi [y1 [y0 [x [HE ->]]]]]]].
  exists psi, (select ix y1), (select ix y0), (select ix x). split; [exact HE|].
  assert (PX := pipe_index c d out H1 H2 H3 V HP b g_idx t_idx pre). fold D in PX. fold ix in PX.
  split; [rewrite scatter_length, PX; apply map_length|]. split; [intros j Hj; apply scatter_outside, Hj|].
  intros Hl. apply scatter_mean; [eapply has_flag_nonempty, F1|exact Hl].
Qed.
Lemma failed_cell_zero est c l g t cells (D := build_did_data c l) : compute_att_gt est c D Universal = Some cells ->
  g < length (d_groups D) -> t < length (d_times D) -> run_att_gt est c D Universal g t = CNone ->
  exists a, In a cells /\ ac_group a = nth g (d_groups D) 0%Z /\ ac_year a = nth t (d_times D) 0%Z /\
    ac_att a = 0%Qc /\ ac_inf a = repeat 0%Qc (d_ids D).
Proof.
  intros H Hg Ht HR. apply compute_keys in H as [os [HF ->]]. fold D in HF.
  assert (Hp : In (g, t) (cell_pairs D Universal)) by (apply cell_pairs_in; cbn [time_factor]; rewrite Nat.add_0_r; auto).
  destruct (Forall2_in_l _ _ _ _ HF Hp) as [o [Ho Hc]]. unfold process_cell in Hc. rewrite HR in Hc. injection Hc as <-.
  eexists. split; [apply in_cells, Ho|]. cbn [ac_group ac_year ac_att ac_inf time_factor]. rewrite Nat.add_0_r. auto.
Qed.
Lemma nan_cell_zero est c l b g t cells inf (D := build_did_data c l) : compute_att_gt est c D b = Some cells ->
  g < length (d_groups D) -> t + time_factor b < length (d_times D) -> run_att_gt est c D b g t = CEst None inf ->
  exists a, In a cells /\ ac_group a = nth g (d_groups D) 0%Z /\ ac_year a = nth (t + time_factor b) (d_times D) 0%Z /\
    ac_att a = 0%Qc /\ ac_inf a = repeat 0%Qc (d_ids D).
Proof.
  intros H Hg Ht HR. apply compute_keys in H as [os [HF ->]]. fold D in HF.
  assert (Hp : In (g, t) (cell_pairs D b)) by (apply cell_pairs_in; auto).
  destruct (Forall2_in_l _ _ _ _ HF Hp) as [o [Ho Hc]]. unfold process_cell in Hc. rewrite HR in Hc. injection Hc as <-.
  eexists. split; [apply in_cells, Ho|]. auto.
Qed.
Lemma post_cell_zero :
  exists c d out cells a, c_panel c = true /\ c_unbal c = false /\ c_has_id c = true /\ valid_panel d /\
    did_pipeline c d = Some out /\ compute_att_gt (EPanel (fun _ _ _ _ _ => None)) c (build_did_data c out) Universal = Some cells /\
    In a cells /\ ac_post a = true /\ ac_att a = 0%Qc.
Proof.
  exists {| c_panel := true; c_unbal := false; c_has_id := true; c_has_w := false; c_never := true; c_ant := 0 |}.
  exists [wq 1 1 (Fin 0) 1; wq 1 2 (Fin 0) 2; wq 2 1 (Fin 2) 1; wq 2 2 (Fin 2) 5]%Z.
  eexists. eexists. eexists. do 3 (split; [reflexivity|]). split.
  { split; [cbn; repeat constructor; cbn; intuition congruence|]. cbn. intros a b Ha Hb. intuition (subst; cbn in *; congruence). }
  split; [vm_compute; reflexivity|]. split; [vm_compute; reflexivity|]. split; [right; left; reflexivity|]. split; reflexivity.
Qed.
Lemma no_crash_balanced c d out b e (D := build_did_data c out) :
  c_panel c = true -> c_unbal c = false -> c_has_id c = true -> valid_panel d -> did_pipeline c d = Some out ->
  (forall g, In g (d_groups D) -> exists p, In p (d_times D) /\ (p < g - c_ant c)%Z) ->
  exists cells, compute_att_gt (EPanel e) c D b = Some cells.
Proof.
  intros H1 H2 H3 V HP HB. unfold compute_att_gt.
  assert (X : forall ps, (forall p, In p ps -> fst p < length (d_groups D)) -> exists os, sequence (map (process_cell (EPanel e) c D b) ps) = Some os).
  { induction ps as [|[g t] ps IH]; intros Hps; [exists []; reflexivity|]. cbn [map sequence].
    destruct (IH (fun p Hp => Hps p (or_intror Hp))) as [os E]. rewrite E.
    assert (Y : exists o, process_cell (EPanel e) c D b (g, t) = Some o).
    { unfold process_cell. assert (NR : run_att_gt (EPanel e) c D b g t <> CRaise).
      { unfold run_att_gt. destruct (base_index (c_ant c) D b g t) as [i| |] eqn:BI.
        - destruct (match b with Universal => _ | Varying => _ end); [discriminate|]. destruct (negb _); [discriminate|].
          assert (YE : exists Y, d_outcomes D = Some Y) by (unfold D, build_did_data; cbn; rewrite H1, H2; eexists; reflexivity).
          assert (XE : exists X, d_covs D = Some X) by (unfold D, build_did_data; cbn; rewrite H1, H2; eexists; reflexivity).
          destruct YE as [Y ->], XE as [X ->]. unfold run_drdid_panel. destruct (e _ _ _ _ _) as [[? ?]|]; discriminate.
        - exfalso. unfold base_index in BI. destruct b.
          + destruct (HB (nth g (d_groups D) 0%Z) (nth_In _ _ (Hps (g, t) (or_introl eq_refl)))) as [p [Hp Hlt]].
            assert (HL := last_before_spec (d_times D) (nth g (d_groups D) 0 - c_ant c)%Z).
            destruct (last_before _ _); [discriminate|]. apply (In_nth _ _ 0%Z) in Hp as [i [Hi <-]]. specialize (HL i Hi). lia.
          + destruct (is_post _ _ _ _); [destruct (last_before _ _)|]; discriminate.
        - discriminate. }
      destruct (run_att_gt (EPanel e) c D b g t) as [| |[x|] inf]; [destruct b|congruence| |]; eauto. }
    destruct Y as [o ->]. eauto. }
  destruct (X (cell_pairs D b)) as [os ->]; [|eauto].
  intros [g t] Hp. apply (proj1 (cell_pairs_in D b g t)) in Hp. apply Hp.
Qed.
