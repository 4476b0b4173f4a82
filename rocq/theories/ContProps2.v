(** C99, C101-C103: continuous treatment, units of measurement, influence functions, comparisons, period labels. *)
From Verif Require Import Base ListLib ReduceModel DrdidModel DrdidSpec SplineModel SplineSpec SplineProps ContModel ContSpec ContSpec2 ContProofs ContProofs4 ContProofs5 ContProofs6 ContProofs7 ContProofs8 ContProofs9 ContProofs10 ContProofs11 ContProofs12 ContWitness ContProps Witness.
From Coq Require Import Sorting.Sorted.

(** * C99: units of measurement, and slope = derivative of level *)
Theorem C99_dose_units : forall c orc o T us,
  0 < c -> panel_ok (co_ant o) T us -> co_univ o = false ->
  runs (scaled 1 (/ c)) (cont_did orc o (rows T us)) (cont_did orc (rescale_grid c o) (rows T (map (rescale_dose c) us))).
Proof.
  intros c orc o T us Hc Ok V. assert (H := dose_rescaled c orc o T us Hc Ok V).
  change (cont_did orc (sopts c o) (rows T (map (sdose c) us))) with (cont_did orc (rescale_grid c o) (rows T (map (rescale_dose c) us))) in H.
  unfold outs_rel in H. unfold runs. destruct (cont_did orc o (rows T us)) as [| |r], (cont_did orc (rescale_grid c o) (rows T (map (rescale_dose c) us))) as [| |r']; try exact H.
  destruct H as [A [B [C [D [E [_ [F [G H]]]]]]]]. repeat (split; [assumption|]). exact H.
Qed.
Print Assumptions C99_dose_units.

Theorem C99_outcome_transformations : forall a al de orc o T us,
  a <> 0 -> lstsq_ok (co_lstsq orc) -> cinv_ok (co_inv orc) -> panel_ok (co_ant o) T us -> co_univ o = false ->
  runs (scaled a a) (cont_did orc o (rows T us)) (cont_did orc o (rows T (map (transform_y a al de) us))).
Proof.
  intros a al de orc o T us Ha L Iv Ok V. assert (H := outcome_transformed a Ha al de orc L Iv o T us Ok V).
  change (map (syu a al de) us) with (map (transform_y a al de) us) in H.
  unfold outs_rel in H. unfold runs. destruct (cont_did orc o (rows T us)) as [| |r], (cont_did orc o (rows T (map (transform_y a al de) us))) as [| |r']; try exact H.
  destruct H as [A [B [C [D [E [_ [F [G H]]]]]]]]. repeat (split; [assumption|]). exact H.
Qed.
Print Assumptions C99_outcome_transformations.

(** One pair of functions gives the curves at whatever doses they are asked for, and the second is the derivative of the first: everywhere except
    at the knots, and at simple knots too when the degree is at least two. *)
Theorem C99_slope_is_derivative_of_level : forall orc o T us,
  panel_ok (co_ant o) T us -> co_univ o = false -> lstsq_ok (co_lstsq orc) ->
  exists att acrt : Qc -> Qc,
    (forall d r, d <> [] -> cont_did orc (at_doses o d) (rows T us) = ContOk r ->
       (forall l, r_att_d r = Some l -> l = map att d) /\ (forall l, r_acrt_d r = Some l -> l = map acrt d)) /\
    (forall v, ~ In v (knots_used o T us) \/ (2 <= co_deg o)%nat /\ NoDup (knots_used o T us) -> derivative_at att v (acrt v)).
Proof.
  intros orc o T us Ok V L. exists (att_fun orc o T us), (acrt_fun orc o T us). split.
  - intros d r D Run. exact (curves_fun orc o T us Ok V d r Run D).
  - intros v Hv. exact (acrt_derivative orc L o T us v Hv).
Qed.
Print Assumptions C99_slope_is_derivative_of_level.

(** * C101: influence functions *)
Theorem C101_one_influence_function : forall orc o T us r,
  panel_ok (co_ant o) T us -> co_univ o = false -> cont_did orc o (rows T us) = ContOk r ->
  r_acrt_inf r = r_att_inf r /\ length (r_acrt_inf r) = length us.
Proof.
  intros orc o T us r Ok V Run. assert (Cne := run_nonempty orc o T us r Ok V Run). destruct (inf_run orc o T us Ok V Cne r Run) as [E [-> _]].
  split; [reflexivity|]. rewrite E, map_length, seq_length, map_length. reflexivity.
Qed.
Print Assumptions C101_one_influence_function.
Theorem C101_mean_zero : forall orc o T us r,
  panel_ok (co_ant o) T us -> co_univ o = false -> lstsq_ok (co_lstsq orc) -> cont_did orc o (rows T us) = ContOk r ->
  qsum (r_acrt_inf r) = 0.
Proof.
  intros orc o T us r Ok V L Run. assert (Cne := run_nonempty orc o T us r Ok V Run). destruct (inf_run orc o T us Ok V Cne r Run) as [_ [-> _]].
  exact (inf_sum orc o T us Ok V Cne r L Run).
Qed.
Print Assumptions C101_mean_zero.

Lemma nth_map_seq_g {A} (f : nat -> A) (d : A) n j : (j < n)%nat -> nth j (map f (seq 0 n)) d = f j.
Proof. intros H. rewrite (nth_indep _ d (f 0%nat)) by (rewrite map_length, seq_length; exact H). rewrite map_nth, seq_nth by exact H. reflexivity. Qed.
Lemma di_split n b cells brow i : dose_influence n b cells brow i = sumf (fun x => dose_influence n b (x :: nil) brow i) cells.
Proof. unfold dose_influence. apply sumf_ext. intros c _. rewrite sumf_cons, sumf_nil. ring. Qed.
(** Units that never adopt have no influence, on anything. *)
Theorem C101_never_treated_no_influence : forall orc o T us r i u,
  panel_ok (co_ant o) T us -> co_univ o = false -> cont_did orc o (rows T us) = ContOk r ->
  nth_error us i = Some u -> k_g u = None ->
  nth i (r_acrt_inf r) 0 = 0 /\ nth i (r_att_inf r) 0 = 0 /\
  (forall x, In x (nth i (r_att_d_inf r) []) -> x = 0) /\ (forall x, In x (nth i (r_acrt_d_inf r) []) -> x = 0).
Proof.
  intros orc o T us r i u Ok V Run N G. assert (Cne := run_nonempty orc o T us r Ok V Run). destruct (inf_run orc o T us Ok V Cne r Run) as [_ [E [A B]]].
  rewrite E. assert (Z0 := inf_never orc o T us Ok V Cne r i u Run N G). split; [exact Z0|]. split; [exact Z0|].
  assert (Li : (i < length us)%nat) by (apply nth_error_Some; congruence).
  destruct (run_grid o T us) as [|d0 dv] eqn:Eg.
  - destruct (B eq_refl) as [-> ->]. destruct i; cbn; split; intros x [].
  - destruct A as [M [M' [-> [-> _]]]]; [discriminate|]. rewrite map_length.
    rewrite !nth_map_seq_g by exact Li. split; intros x Hx; apply in_map_iff in Hx; destruct Hx as [b [<- _]]; rewrite di_split; apply sumf_zero; intros y Hy.
    + assert (D := di_never orc o T us Ok V true y (1 :: b) i u Hy N G). rewrite map_length in D. exact D.
    + assert (D := di_never orc o T us Ok V false y (0 :: b) i u Hy N G). rewrite map_length in D. exact D.
Qed.
Print Assumptions C101_never_treated_no_influence.

(** The dose-specific influence functions average to zero over the units when no treated unit's own influence value is zero. *)
Theorem C101_dose_mean_zero_partial : forall orc o T us r j,
  panel_ok (co_ant o) T us -> co_univ o = false -> lstsq_ok (co_lstsq orc) -> cont_did orc o (rows T us) = ContOk r ->
  (forall c e, In c (r_cells r) -> (pc_g c <= pc_t c)%Z -> pc_out c = CEst e -> forall y, In y (e_inf e) -> snd y <> 0) ->
  sumf (fun l => nth j l 0) (r_att_d_inf r) = 0 /\ sumf (fun l => nth j l 0) (r_acrt_d_inf r) = 0.
Proof.
  intros orc o T us r j Ok V L Run Nz. assert (Cne := run_nonempty orc o T us r Ok V Run). destruct (inf_run orc o T us Ok V Cne r Run) as [_ [_ [A B]]].
  destruct (run_inv orc o T us Ok V Cne r Run) as [Ec _].
  destruct (run_grid o T us) as [|d0 dv] eqn:Eg.
  - destruct (B eq_refl) as [-> ->]. split; reflexivity.
  - destruct A as [M [M' [-> [-> _]]]]; [discriminate|].
    assert (G : forall bb h (M : list (list Qc)), sumf (fun l => nth j l 0) (map (fun i => map (fun b => dose_influence (length (map k_id us)) bb
      (combine (map (wt T us) (pairs T us)) (combine (run_cells orc o T us) (cols orc o T us))) (h :: b) i) M) (seq 0 (length (map k_id us)))) = 0).
    { intros bb h K. rewrite sumf_map. destruct (nth_error K j) as [b|] eqn:Nb.
      - rewrite (sumf_ext _ (fun i => sumf (fun x => dose_influence (length (map k_id us)) bb (x :: nil) (h :: b) i)
          (combine (map (wt T us) (pairs T us)) (combine (run_cells orc o T us) (cols orc o T us))))).
        2:{ intros i _. rewrite <- di_split. apply nth_error_nth. exact (map_nth_error (fun b => dose_influence (length (map k_id us)) bb (combine (map (wt T us) (pairs T us)) (combine (run_cells orc o T us) (cols orc o T us))) (h :: b) i) j K Nb). }
        rewrite sumf_swap. apply sumf_zero. intros x Hx. apply (di_sum orc o T us Ok V bb x (h :: b) L Hx).
        intros e Gt Oe. apply (Nz (fst (snd x)) e); [|exact Gt|exact Oe]. rewrite Ec. destruct x as [w [c col]]. apply in_combine_r in Hx. now apply in_combine_l in Hx.
      - apply sumf_zero. intros i _. apply nth_overflow. rewrite map_length. now apply nth_error_None. }
    split; apply G.
Qed.
Print Assumptions C101_dose_mean_zero_partial.
(** The slopes, overall and by dose, depend on the adopters only: comparison units may be added, removed or changed. *)
Theorem C101_slopes_need_no_comparison : forall orc o T us us',
  panel_ok (co_ant o) T us -> panel_ok (co_ant o) T us' -> co_univ o = false -> adopters us' = adopters us ->
  runs (fun r r' => r_acrt r' = r_acrt r /\ r_acrt_d r' = r_acrt_d r) (cont_did orc o (rows T us)) (cont_did orc o (rows T us')).
Proof.
  intros orc o T us us' Ok Ok' V Ad. assert (H := acrt_adopters_only orc o T us us' Ok Ok' V Ad). unfold acrt_same in H. unfold runs.
  destruct (cont_did orc o (rows T us)), (cont_did orc o (rows T us')); try contradiction; exact H.
Qed.
Print Assumptions C101_slopes_need_no_comparison.
(** The level estimate does not depend on the units in which doses are measured; its influence function does. *)
Theorem C101_level_influence_follows_slope : forall c orc o T us,
  0 < c -> panel_ok (co_ant o) T us -> co_univ o = false ->
  runs (fun r r' => r_att r' = r_att r /\ r_att_inf r' = times (/ c) (r_att_inf r))
    (cont_did orc o (rows T us)) (cont_did orc (rescale_grid c o) (rows T (map (rescale_dose c) us))).
Proof.
  intros c orc o T us Hc Ok V. assert (H := dose_rescaled c orc o T us Hc Ok V).
  change (cont_did orc (sopts c o) (rows T (map (sdose c) us))) with (cont_did orc (rescale_grid c o) (rows T (map (rescale_dose c) us))) in H.
  unfold outs_rel in H. unfold runs. destruct (cont_did orc o (rows T us)) as [| |r], (cont_did orc (rescale_grid c o) (rows T (map (rescale_dose c) us))) as [| |r']; try exact H.
  destruct H as [_ [B [_ [_ [_ [F _]]]]]]. split; [|exact F]. rewrite B. ring.
Qed.
Print Assumptions C101_level_influence_follows_slope.

Lemma qneq a b : Qceqb a b = false -> a <> b.
Proof. destruct (Qceqb_spec a b); [discriminate|auto]. Qed.
Ltac by_ne := apply qneq; vm_compute; reflexivity.
(** ** Refutations. Outcomes are zero in period 1 and [y] in period 2. *)
Definition two_period (l : list (Z * option Z * Z * Z)) : list cunit :=
  map (fun p => let '(i, g, d, y) := p in mkc i g d (fun t => if (t =? 2)%Z then qz y else 0)) l.
Definition lin_opts : copts := opts true 0 1 0 [qz 1; qz 2].
Definition two_run (l : list (Z * option Z * Z * Z)) : cont_result := result_of (cont_did exact lin_opts (rows 2 (two_period l))).
(** Doubling the doses halves the influence function of the level effect, which has not changed. *)
Theorem C101_level_influence_refuted : exists r r',
  cont_did exact wit_opts (rows 3 wit_panel) = ContOk r /\
  cont_did exact (rescale_grid (qz 2) wit_opts) (rows 3 (map (rescale_dose (qz 2)) wit_panel)) = ContOk r' /\
  r_att r' = r_att r /\ inf_var (r_att_inf r') = inf_var (r_att_inf r) / qz 4 /\ inf_var (r_att_inf r') <> 0.
Proof.
  exists wit_run, (result_of (cont_did exact (rescale_grid (qz 2) wit_opts) (rows 3 (map (rescale_dose (qz 2)) wit_panel)))).
  split; [exact (proj1 wit_est)|]. split; [apply all_est_ok; vm_compute; reflexivity|]. split; [by_qc|]. split; [by_qc|by_ne].
Qed.
Print Assumptions C101_level_influence_refuted.
(** Comparison units with very different changes: the level effect depends on them, its influence function is zero. *)
Definition noisy : list (Z * option Z * Z * Z) := [(1, Some 2, 1, 1); (2, Some 2, 2, 2); (3, Some 2, 4, 4); (4, None, 0, 12); (5, None, 0, 15)]%Z.
Definition noisy' : list (Z * option Z * Z * Z) := [(1, Some 2, 1, 1); (2, Some 2, 2, 2); (3, Some 2, 4, 4); (4, None, 0, 0); (5, None, 0, 9)]%Z.
Theorem C101_comparison_noise_refuted :
  cont_did exact lin_opts (rows 2 (two_period noisy)) = ContOk (two_run noisy) /\
  cont_did exact lin_opts (rows 2 (two_period noisy')) = ContOk (two_run noisy') /\
  adopters (two_period noisy) = adopters (two_period noisy') /\
  r_att (two_run noisy) <> r_att (two_run noisy') /\
  r_att_inf (two_run noisy) = [0; 0; 0; 0; 0] /\ r_att_inf (two_run noisy') = [0; 0; 0; 0; 0].
Proof.
  split; [apply all_est_ok; vm_compute; reflexivity|]. split; [apply all_est_ok; vm_compute; reflexivity|]. split; [reflexivity|].
  split; [by_ne|]. split; apply qlist_eqb_eq; vm_compute; reflexivity.
Qed.
Print Assumptions C101_comparison_noise_refuted.
(** Adding never-treated units changes nothing about the slope estimate (C101_slopes_need_no_comparison) but shrinks its reported variance. *)
Definition base3 : list (Z * option Z * Z * Z) := [(1, Some 2, 1, 1); (2, Some 2, 2, 5); (3, Some 2, 4, 3)]%Z.
Definition few : list (Z * option Z * Z * Z) := (base3 ++ [(4, None, 0, 0)])%Z.
Definition many : list (Z * option Z * Z * Z) := (base3 ++ [(4, None, 0, 0); (5, None, 0, 0); (6, None, 0, 0); (7, None, 0, 0); (8, None, 0, 0); (9, None, 0, 0)])%Z.
Theorem C101_slope_variance_refuted :
  cont_did exact lin_opts (rows 2 (two_period few)) = ContOk (two_run few) /\
  cont_did exact lin_opts (rows 2 (two_period many)) = ContOk (two_run many) /\
  adopters (two_period few) = adopters (two_period many) /\ r_acrt (two_run few) = r_acrt (two_run many) /\
  inf_var (r_acrt_inf (two_run few)) / inf_var (r_acrt_inf (two_run many)) = qz 81 / qz 16.
Proof.
  split; [apply all_est_ok; vm_compute; reflexivity|]. split; [apply all_est_ok; vm_compute; reflexivity|]. split; [reflexivity|].
  split; by_qc.
Qed.
Print Assumptions C101_slope_variance_refuted.
(** A treated unit whose own influence value is zero (its dose is the mean dose): the dose-specific influence functions skip it, assign its score to
    the next unit, and do not average to zero. *)
Definition skewed : list (Z * option Z * Z * Z) := [(1, Some 2, 1, 1); (2, Some 2, 2, 5); (3, Some 2, 3, 3); (4, None, 0, 0)]%Z.
Theorem C101_dose_mean_zero_refuted :
  cont_did exact lin_opts (rows 2 (two_period skewed)) = ContOk (two_run skewed) /\
  sumf (fun l => nth 0 l 0) (r_att_d_inf (two_run skewed)) = - (1) /\ sumf (fun l => nth 1 l 0) (r_att_d_inf (two_run skewed)) = qz 5 /\
  sumf (fun l => nth 0 l 0) (r_acrt_d_inf (two_run skewed)) = qz 6.
Proof. split; [apply all_est_ok; vm_compute; reflexivity|]. split; [by_qc|]. split; by_qc. Qed.
Print Assumptions C101_dose_mean_zero_refuted.

(** * C102: no forbidden comparisons *)
Theorem C102_outcomes_after_adoption : forall orc o T us us' h r r',
  panel_ok (co_ant o) T us -> co_univ o = false -> Forall2 (same_before h h) us us' ->
  cont_did orc o (rows T us) = ContOk r -> cont_did orc o (rows T us') = ContOk r' ->
  Forall2 (fun c c' => pc_g c' = pc_g c /\ pc_t c' = pc_t c /\ (pc_g c <> h \/ (pc_t c < h)%Z -> c' = c)) (r_cells r) (r_cells r').
Proof. intros orc o T us us' h r r' Ok V F R1 R2. exact (later_outcomes orc o T us us' Ok V h F r r' R1 R2). Qed.
Print Assumptions C102_outcomes_after_adoption.
(** With anticipation, cohorts that already anticipate still serve as comparison units. *)
Definition ant_panel (z : Z) : list cunit :=
  map (fun p => let '(i, g, d) := p in mkc i g d (fun t => match g with Some g => if (g =? 4)%Z && (t =? 3)%Z then qz z else 0 | None => 0 end))
    [(1, Some 3, 1); (2, Some 3, 2); (3, Some 4, 1); (4, Some 4, 2); (5, None, 0)]%Z.
Definition ant_opts : copts := opts true 1 1 0 [qz 1; qz 2].
Definition ant_run (z : Z) : cont_result := result_of (cont_did exact ant_opts (rows 4 (ant_panel z))).
Definition att_of (c : pcell) : option Qc := match pc_out c with CEst e => e_att e | _ => None end.
Definition ooqb (a b : option (option Qc)) : bool := match a, b with Some (Some x), Some (Some y) => Qceqb x y | _, _ => false end.
Lemma ooq_eq a b : ooqb a b = true -> a = b.
Proof. destruct a as [[x|]|], b as [[y|]|]; cbn; try discriminate. destruct (Qceqb_spec x y); [now subst|discriminate]. Qed.
Theorem C102_anticipating_cohorts_refuted :
  panel_ok 1 4 (ant_panel 0) /\ Forall2 (same_before 4 (4 - 1)) (ant_panel 0) (ant_panel 3) /\
  cont_did exact ant_opts (rows 4 (ant_panel 0)) = ContOk (ant_run 0) /\ cont_did exact ant_opts (rows 4 (ant_panel 3)) = ContOk (ant_run 3) /\
  nth_error (map (fun c => (pc_g c, pc_t c)) (r_cells (ant_run 0))) 2 = Some (3, 3)%Z /\
  nth_error (map (fun c => (pc_g c, pc_t c)) (r_cells (ant_run 3))) 2 = Some (3, 3)%Z /\
  option_map att_of (nth_error (r_cells (ant_run 0)) 2) = Some (Some 0) /\
  option_map att_of (nth_error (r_cells (ant_run 3)) 2) = Some (Some (- qz 2)).
Proof.
  split; [by_panel|]. split.
  { unfold ant_panel. generalize [(1, Some 3, 1); (2, Some 3, 2); (3, Some 4, 1); (4, Some 4, 2); (5, None, 0)]%Z. intros l. induction l as [|[[i g] d] l IH]; [constructor|].
    cbn [map]. constructor; [|exact IH]. repeat split. intros t. cbn [mkc k_g k_y]. destruct g as [g|]; [|now right].
    destruct (Z.eqb_spec g 4) as [->|]; [|now right]. destruct (Z.eqb_spec t 3) as [->|]; [|now right]. left. split; [reflexivity|lia]. }
  split; [apply all_est_ok; vm_compute; reflexivity|]. split; [apply all_est_ok; vm_compute; reflexivity|].
  split; [vm_compute; reflexivity|]. split; [vm_compute; reflexivity|]. split; apply ooq_eq; vm_compute; reflexivity.
Qed.
Print Assumptions C102_anticipating_cohorts_refuted.

(** * C103: period labels *)
(** Cohorts must be labelled by the position 1..T of their period: with calendar labels beyond the number of periods there is no estimate at all. *)
Theorem C103_calendar_labels_raise : forall orc o l,
  (forall r g, In r l -> c_g r = Some g -> g = 0%Z \/ (Z.of_nat (length (zuniq (map c_t l))) < g)%Z) -> cont_did orc o l = ContRaise.
Proof. exact labels_beyond. Qed.
Print Assumptions C103_calendar_labels_raise.
(** Moving the whole calendar, periods and cohorts alike, by one period changes the estimates. *)
Definition shifted_run : cont_result := result_of (cont_did exact wit_opts (shift_rows 1 (rows 3 wit_panel))).
Theorem C103_calendar_shift_refuted :
  cont_did exact wit_opts (rows 3 wit_panel) = ContOk wit_run /\
  cont_did exact wit_opts (shift_rows 1 (rows 3 wit_panel)) = ContOk shifted_run /\
  map (fun c => (pc_g c, pc_t c)) (r_cells wit_run) = [(2, 2); (3, 2); (2, 3); (3, 3)]%Z /\
  map (fun c => (pc_g c, pc_t c)) (r_cells shifted_run) = [(3, 2); (3, 3)]%Z /\
  r_att shifted_run <> r_att wit_run.
Proof.
  split; [exact (proj1 wit_est)|]. split; [apply all_est_ok; vm_compute; reflexivity|]. split; [vm_compute; reflexivity|]. split; [vm_compute; reflexivity|by_ne].
Qed.
Print Assumptions C103_calendar_shift_refuted.

(** * Concrete cases *)
Example C99_dose_example :
  r_att (result_of (cont_did exact (rescale_grid (qz 2) wit_opts) (rows 3 (map (rescale_dose (qz 2)) wit_panel)))) = r_att wit_run /\
  r_acrt (result_of (cont_did exact (rescale_grid (qz 2) wit_opts) (rows 3 (map (rescale_dose (qz 2)) wit_panel)))) = r_acrt wit_run / qz 2 /\ r_acrt wit_run <> 0.
Proof.
  assert (H := C99_dose_units (qz 2) exact wit_opts 3 wit_panel eq_refl wit_ok eq_refl). rewrite (proj1 wit_est) in H.
  destruct (cont_did exact (rescale_grid (qz 2) wit_opts) (rows 3 (map (rescale_dose (qz 2)) wit_panel))) as [| |r']; [contradiction|contradiction|]. cbn [result_of].
  destruct H as [_ [A [B _]]]. rewrite A, B. split; [apply Qcmult_1_l|]. split; [|by_ne]. unfold Qcdiv. apply Qcmult_comm.
Qed.
Example C99_outcome_example :
  runs (scaled (qz 3) (qz 3)) (ContOk wit_run) (cont_did exact wit_opts (rows 3 (map (transform_y (qz 3) (fun i => qz (i * i)) (fun t => qz (- t))) wit_panel))).
Proof.
  rewrite <- (proj1 wit_est). apply C99_outcome_transformations; [by_ne|exact exact_lstsq_ok|exact exact_inv_ok|exact wit_ok|reflexivity].
Qed.
Example C99_derivative_example : knots_used wit_opts 3 wit_panel = [qz 3] /\ (exists l, r_att_d wit_run = Some l) /\ (exists l, r_acrt_d wit_run = Some l).
Proof.
  split; [apply qlist_eqb_eq; vm_compute; reflexivity|]. split.
  - destruct (r_att_d wit_run) as [l|] eqn:E; [eauto|]. assert (H : match r_att_d wit_run with Some _ => true | None => false end = true) by (vm_compute; reflexivity). now rewrite E in H.
  - destruct (r_acrt_d wit_run) as [l|] eqn:E; [eauto|]. assert (H : match r_acrt_d wit_run with Some _ => true | None => false end = true) by (vm_compute; reflexivity). now rewrite E in H.
Qed.
Example C101_mean_example : qsum (r_acrt_inf wit_run) = 0 /\ nth 0 (r_acrt_inf wit_run) 0 <> 0 /\ nth 11 (r_acrt_inf wit_run) 0 = 0.
Proof. split; [exact (C101_mean_zero exact wit_opts 3 wit_panel wit_run wit_ok eq_refl exact_lstsq_ok (proj1 wit_est))|]. split; [by_ne|by_qc]. Qed.
Lemma nz_dec (cs : list pcell) :
  forallb (fun c => negb (pc_g c <=? pc_t c)%Z || match pc_out c with CEst e => forallb (fun y => negb (Qceqb (snd y) 0)) (e_inf e) | _ => true end) cs = true ->
  forall c e, In c cs -> (pc_g c <= pc_t c)%Z -> pc_out c = CEst e -> forall y, In y (e_inf e) -> snd y <> 0.
Proof.
  intros H c e I G O y Iy. rewrite forallb_forall in H. specialize (H c I). rewrite O in H. apply Z.leb_le in G. rewrite G in H. cbn [negb orb] in H.
  rewrite forallb_forall in H. specialize (H y Iy). destruct (Qceqb_spec (snd y) 0); [discriminate|assumption].
Qed.
Example C101_dose_mean_example : sumf (fun l => nth 0 l 0) (r_att_d_inf wit_run) = 0 /\ nth 0 (nth 0 (r_att_d_inf wit_run) []) 0 <> 0.
Proof.
  split; [|by_ne].
  assert (N : forallb (fun c => negb (pc_g c <=? pc_t c)%Z || match pc_out c with CEst e => forallb (fun y => negb (Qceqb (snd y) 0)) (e_inf e) | _ => true end) (r_cells wit_run) = true) by (vm_compute; reflexivity).
  destruct (C101_dose_mean_zero_partial exact wit_opts 3 wit_panel wit_run 0%nat wit_ok eq_refl exact_lstsq_ok (proj1 wit_est) (nz_dec _ N)) as [H _]. exact H.
Qed.
(** Cohort 3's outcome in period 3 changes: cells (2,2), (3,2) and (2,3) do not. *)
Definition wit_changed : list cunit :=
  map (with_y (fun u t => match k_g u with Some g => if (g =? 3)%Z && (t =? 3)%Z then k_y u t + qz (k_id u) else k_y u t | None => k_y u t end)) wit_panel.
Example C102_example :
  Forall2 (same_before 3 3) wit_panel wit_changed /\
  exists r', cont_did exact wit_opts (rows 3 wit_changed) = ContOk r' /\ r_att r' <> r_att wit_run /\ nth_error (r_cells r') 2 = nth_error (r_cells wit_run) 2.
Proof.
  assert (F : Forall2 (same_before 3 3) wit_panel wit_changed).
  { unfold wit_changed. generalize wit_panel. intros l. induction l as [|u l IH]; [constructor|]. cbn [map]. constructor; [|exact IH]. repeat split. intros t. cbn [with_y k_y k_g].
    destruct (k_g u) as [g|]; [|now right]. destruct (Z.eqb_spec g 3) as [->|]; [|now right]. destruct (Z.eqb_spec t 3) as [->|]; [|now right]. left. split; [reflexivity|lia]. }
  split; [exact F|]. exists (result_of (cont_did exact wit_opts (rows 3 wit_changed))).
  assert (R' : cont_did exact wit_opts (rows 3 wit_changed) = ContOk (result_of (cont_did exact wit_opts (rows 3 wit_changed)))) by (apply all_est_ok; vm_compute; reflexivity).
  split; [exact R'|]. split; [by_ne|].
  assert (H := C102_outcomes_after_adoption exact wit_opts 3 wit_panel wit_changed 3%Z wit_run _ wit_ok eq_refl F (proj1 wit_est) R').
  assert (G : map (fun c => (pc_g c, pc_t c)) (r_cells wit_run) = [(2, 2); (3, 2); (2, 3); (3, 3)]%Z) by (vm_compute; reflexivity).
  destruct H as [|c c' l l' _ H]; [discriminate|]. destruct H as [|d d' l l' _ H]; [discriminate|]. destruct H as [|e e' l l' [_ [_ H]] _]; [discriminate|].
  cbn [nth_error]. f_equal. apply H. left. cbn [map] in G. injection G as _ _ _ _ G _ _. lia.
Qed.
Example C103_example : exists l, l <> [] /\ (forall r g, In r l -> c_g r = Some g -> g = 0%Z \/ (Z.of_nat (length (zuniq (map c_t l))) < g)%Z) /\ l = shift_rows 2000 (rows 3 wit_panel).
Proof.
  exists (shift_rows 2000 (rows 3 wit_panel)). split; [discriminate|]. split; [|reflexivity].
  assert (H : forallb (fun r => match c_g r with Some g => (3 <? g)%Z | None => true end) (shift_rows 2000 (rows 3 wit_panel)) = true) by (vm_compute; reflexivity).
  assert (L : length (zuniq (map c_t (shift_rows 2000 (rows 3 wit_panel)))) = 3%nat) by (vm_compute; reflexivity).
  intros r g Hr E. rewrite forallb_forall in H. specialize (H r Hr). rewrite E in H. apply Z.ltb_lt in H. right. rewrite L. exact H.
Qed.
