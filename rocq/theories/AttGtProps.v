(** Properties C11-C16 and C31-C33. *)
From Verif Require Import Base ListLib PreprocessModel PreprocessSpec PreprocessProofs2 AttGtModel AttGtSpec AttGtProofs AttGtProofs2 AttGtProofs3 AttGtProofs4 AttGtProofs5.
Local Open Scope nat_scope.

(** C11. Position j (unit j of the data) is marked treated / comparison / excluded exactly as documented. *)
Theorem C11_roles_exact :
  forall c d out b g_idx t_idx pre j,
  c_panel c = true -> c_unbal c = false -> c_has_id c = true -> valid_panel d -> did_pipeline c d = Some out -> (0 <= c_ant c)%Z ->
  let D := build_did_data c out in
  let ix := cohort_index_panel c D b g_idx t_idx pre in
  let g0 := nth g_idx (d_groups D) 0%Z in
  let year := nth (t_idx + time_factor b) (d_times D) 0%Z in
  let base := nth pre (d_times D) 0%Z in
  let u := nth j (d_units D) drow0 in
  t_idx + time_factor b < length (d_times D) -> base_index (c_ant c) D b g_idx t_idx = Base pre -> j < d_ids D ->
  length ix = d_ids D /\
  (nth_error ix j = Some (Some true) <-> is_treated g0 (r_g u)) /\
  (nth_error ix j = Some (Some false) <-> is_comparison (c_never c) (c_ant c) g0 year base (r_g u)) /\
  (nth_error ix j = Some None <-> ~ is_treated g0 (r_g u) /\ ~ is_comparison (c_never c) (c_ant c) g0 year base (r_g u)).
Proof. exact roles_exact. Qed.
Print Assumptions C11_roles_exact.

(** What an arbitrary 2x2 estimator [e] is called with: the sample [U] is exactly the treated and comparison units,
    every array is listed in the order of [U], with outcomes of the evaluated and base periods. This also carries
    C15: influence values outside the sample are 0 and the mean is preserved. *)
Theorem C11_estimator_inputs :
  forall c d out b e g_idx t_idx pre,
  c_panel c = true -> c_unbal c = false -> c_has_id c = true -> valid_panel d -> did_pipeline c d = Some out -> (0 <= c_ant c)%Z ->
  let D := build_did_data c out in
  let g0 := nth g_idx (d_groups D) 0%Z in
  let year := nth (t_idx + time_factor b) (d_times D) 0%Z in
  let base := nth pre (d_times D) 0%Z in
  let in_sample u := is_treated g0 (r_g u) \/ is_comparison (c_never c) (c_ant c) g0 year base (r_g u) in
  t_idx + time_factor b < length (d_times D) -> base_index (c_ant c) D b g_idx t_idx = Base pre ->
  (b = Universal -> base <> year) ->
  (exists u, In u (d_units D) /\ is_treated g0 (r_g u)) ->
  (exists u, In u (d_units D) /\ is_comparison (c_never c) (c_ant c) g0 year base (r_g u)) ->
  exists U A B X,
    (forall u, In u U <-> In u (d_units D) /\ in_sample u) /\ NoDup (map r_id U) /\
    map gid A = map gid U /\ map gid B = map gid U /\ map gid X = map gid U /\
    (forall r, In r A -> In r out /\ r_t r = year) /\ (forall r, In r B -> In r out /\ r_t r = base) /\
    (forall r, In r X -> In r out /\ r_t r = nth (Nat.min pre t_idx) (d_times D) 0%Z) /\
    match e (map r_y A) (map r_y B) (map (fun u => grp_eqb (r_g u) (Fin g0)) U) (map (fun r => 1%Qc :: r_x r) X) (map r_w U) with
    | None => run_att_gt (EPanel e) c D b g_idx t_idx = CNone
    | Some (att, psi) => exists inf, run_att_gt (EPanel e) c D b g_idx t_idx = CEst att inf /\ length inf = d_ids D /\
        (forall j, j < d_ids D -> ~ in_sample (nth j (d_units D) drow0) -> nth j inf 0%Qc = 0%Qc) /\
        (length psi = length U ->
           select (cohort_index_panel c D b g_idx t_idx pre) inf = scale (qn (d_ids D) / qn (length U)) psi /\
           mean (fun x => x) inf = mean (fun x => x) psi)
    end.
Proof. exact estimator_inputs. Qed.
Print Assumptions C11_estimator_inputs.

(** Repeated cross-sections: the same classification, row by row, for the two periods of the cell. *)
Theorem C11_roles_rc :
  forall c l b g_idx t_idx pre r,
  let D := build_did_data c l in
  let g0 := nth g_idx (d_groups D) 0%Z in
  let year := nth (t_idx + time_factor b) (d_times D) 0%Z in
  let base := nth pre (d_times D) 0%Z in
  (0 <= c_ant c)%Z -> t_idx + time_factor b < length (d_times D) -> base_index (c_ant c) D b g_idx t_idx = Base pre ->
  let in_period := r_t r = year \/ r_t r = base in
  let flag := cohort_flag_rc c D b g_idx t_idx pre r in
  (flag = Some true <-> in_period /\ is_treated g0 (r_g r)) /\
  (flag = Some false <-> in_period /\ is_comparison (c_never c) (c_ant c) g0 year base (r_g r)) /\
  (flag = None <-> ~ (in_period /\ (is_treated g0 (r_g r) \/ is_comparison (c_never c) (c_ant c) g0 year base (r_g r)))).
Proof. exact roles_rc. Qed.
Print Assumptions C11_roles_rc.

(** Repeated cross-sections: the estimator sees exactly the used rows, in data order, with the post flag of the evaluated
    period; its influence values return to those rows scaled by n / n_used, or, for an unbalanced panel, are summed
    within units and scaled by n_units / n_used (this carries C15 for cross-sections). *)
Theorem C11_estimator_inputs_rc :
  forall c l b e g_idx t_idx pre,
  let D := build_did_data c l in
  let g0 := nth g_idx (d_groups D) 0%Z in
  let year := nth (t_idx + time_factor b) (d_times D) 0%Z in
  let base := nth pre (d_times D) 0%Z in
  let in_period r := r_t r = year \/ r_t r = base in
  (0 <= c_ant c)%Z -> t_idx + time_factor b < length (d_times D) -> base_index (c_ant c) D b g_idx t_idx = Base pre ->
  (b = Universal -> base <> year) ->
  (exists r, In r l /\ in_period r /\ is_treated g0 (r_g r)) ->
  (exists r, In r l /\ in_period r /\ is_comparison (c_never c) (c_ant c) g0 year base (r_g r)) ->
  exists uses : row -> bool,
    (forall r, uses r = true <-> in_period r /\ (is_treated g0 (r_g r) \/ is_comparison (c_never c) (c_ant c) g0 year base (r_g r))) /\
    let R := filter uses l in
    match e (map r_y R) (map (fun r => (r_t r =? year)%Z) R) (map (fun r => grp_eqb (r_g r) (Fin g0)) R) (map (fun r => 1%Qc :: r_x r) R) (map r_w R) with
    | None => run_att_gt (ERc e) c D b g_idx t_idx = CNone
    | Some (att, psi) => exists inf, run_att_gt (ERc e) c D b g_idx t_idx = CEst att inf /\
        (length psi = length R ->
         if c_unbal c then
           inf = map (fun u => (qn (length (zuniq (map r_id l))) / qn (length R) * sumf snd (filter (fun p => (r_id (fst p) =? u)%Z) (combine R psi)))%Qc) (zuniq (map r_id l))
         else length inf = length l /\ (forall j, j < length l -> uses (nth j l drow0) = false -> nth j inf 0%Qc = 0%Qc) /\
           map snd (filter (fun p => uses (fst p)) (combine l inf)) = map (fun v => (qn (length l) / qn (length R) * v)%Qc) psi)
    end.
Proof. exact estimator_inputs_rc. Qed.
Print Assumptions C11_estimator_inputs_rc.

(** C12. In terms of the user's own data: whoever is used as a comparison unit was, according to every input row
    of that unit, untreated at the evaluated and at the base period. *)
Theorem C12_no_forbidden_panel :
  forall c d out b g_idx t_idx pre j q,
  c_panel c = true -> c_unbal c = false -> c_has_id c = true -> valid_panel d -> did_pipeline c d = Some out -> (0 <= c_ant c)%Z ->
  let D := build_did_data c out in
  let year := nth (t_idx + time_factor b) (d_times D) 0%Z in
  let base := nth pre (d_times D) 0%Z in
  let u := nth j (d_units D) drow0 in
  t_idx + time_factor b < length (d_times D) -> base_index (c_ant c) D b g_idx t_idx = Base pre -> j < d_ids D ->
  nth_error (cohort_index_panel c D b g_idx t_idx pre) j = Some (Some false) ->
  In q d -> raw_id q = Some (r_id u) ->
  exists g, raw_g q = Some g /\ (g = Inf \/ g = Fin 0 \/ exists z, g = Fin z /\ (Z.max year base < z)%Z).
Proof. exact no_forbidden_panel. Qed.
Print Assumptions C12_no_forbidden_panel.

Theorem C12_no_forbidden_rc :
  forall c d out b g_idx t_idx pre r,
  did_pipeline c d = Some out -> (0 <= c_ant c)%Z ->
  let D := build_did_data c out in
  let year := nth (t_idx + time_factor b) (d_times D) 0%Z in
  let base := nth pre (d_times D) 0%Z in
  t_idx + time_factor b < length (d_times D) -> base_index (c_ant c) D b g_idx t_idx = Base pre -> In r out ->
  cohort_flag_rc c D b g_idx t_idx pre r = Some false ->
  exists q g, In q d /\ raw_t q = Some (r_t r) /\ raw_y q = Some (r_y r) /\ (c_has_id c = true -> raw_id q = Some (r_id r)) /\
    raw_g q = Some g /\ (g = Inf \/ g = Fin 0 \/ exists z, g = Fin z /\ (Z.max year base < z)%Z).
Proof. exact no_forbidden_rc. Qed.
Print Assumptions C12_no_forbidden_rc.

(** The anticipation half fails for units first treated just after the last period: they are re-coded as
    never treated and used as comparisons inside their anticipation window. *)
Theorem C12_anticipation_refuted :
  exists c d out g_idx t_idx pre j q z, c_panel c = true /\ c_unbal c = false /\ c_has_id c = true /\ valid_panel d /\ did_pipeline c d = Some out /\
    (0 <= c_ant c)%Z /\
    let D := build_did_data c out in
    t_idx + 1 < length (d_times D) /\ base_index (c_ant c) D Varying g_idx t_idx = Base pre /\ j < d_ids D /\
    nth_error (cohort_index_panel c D Varying g_idx t_idx pre) j = Some (Some false) /\
    In q d /\ raw_id q = Some (r_id (nth j (d_units D) drow0)) /\ raw_g q = Some (Fin z) /\
    (z - c_ant c <= nth (t_idx + 1) (d_times D) 0 < z)%Z.
Proof. exact anticipation_refuted. Qed.
Print Assumptions C12_anticipation_refuted.

(** C13. *)
Theorem C13_base_period_choice :
  forall c l b g_idx t_idx,
  let D := build_did_data c l in
  let g0 := nth g_idx (d_groups D) 0%Z in
  let year := nth (t_idx + time_factor b) (d_times D) 0%Z in
  (0 <= c_ant c)%Z -> t_idx + time_factor b < length (d_times D) ->
  ((b = Universal \/ (g0 <= year)%Z) ->
     (forall i, base_index (c_ant c) D b g_idx t_idx = Base i <-> is_last_before (d_times D) (g0 - c_ant c) i) /\
     ((forall i, base_index (c_ant c) D b g_idx t_idx <> Base i) <-> forall p, In p (d_times D) -> (g0 - c_ant c <= p)%Z)) /\
  ((b = Varying /\ (year < g0)%Z) ->
     base_index (c_ant c) D b g_idx t_idx = Base t_idx /\ (nth t_idx (d_times D) 0 < year)%Z /\
     forall p, In p (d_times D) -> (p <= nth t_idx (d_times D) 0 \/ year <= p)%Z) /\
  (forall i, (g0 <= year)%Z -> base_index (c_ant c) D b g_idx t_idx = Base i ->
     (nth i (d_times D) 0 < g0 - c_ant c)%Z /\ (nth i (d_times D) 0 < year)%Z).
Proof. exact base_period_choice. Qed.
Print Assumptions C13_base_period_choice.

(** C14. [lexz] is the strict lexicographic order on (group, time): sorted and pairwise distinct. *)
Theorem C14_cells_enumeration :
  forall est c l b cells (D := build_did_data c l), compute_att_gt est c D b = Some cells ->
  StronglySorted lexz (map cell_key cells) /\
  (forall a, In a cells -> In (ac_group a) (d_groups D) /\ In (ac_year a) (d_times D) /\
     (ac_post a = true <-> (ac_group a <= ac_year a)%Z) /\
     (b = Varying -> exists p, In p (d_times D) /\ (p < ac_year a)%Z)).
Proof. exact cells_enumeration. Qed.
Print Assumptions C14_cells_enumeration.
Theorem C14_universal_grid :
  forall est c l cells (D := build_did_data c l), compute_att_gt est c D Universal = Some cells ->
  map cell_key cells = list_prod (d_groups D) (d_times D).
Proof. exact universal_grid. Qed.
Print Assumptions C14_universal_grid.
Theorem C14_universal_base_cell :
  forall est c l cells a i (D := build_did_data c l), compute_att_gt est c D Universal = Some cells ->
  In a cells -> is_last_before (d_times D) (ac_group a - c_ant c) i -> ac_year a = nth i (d_times D) 0%Z ->
  ac_att a = 0%Qc /\ ac_inf a = repeat 0%Qc (d_ids D).
Proof. exact universal_base_cell. Qed.
Print Assumptions C14_universal_base_cell.
Theorem C14_varying_cells :
  forall est c l cells g t (D := build_did_data c l), compute_att_gt est c D Varying = Some cells ->
  g < length (d_groups D) -> t + 1 < length (d_times D) ->
  ((exists a, In a cells /\ ac_group a = nth g (d_groups D) 0%Z /\ ac_year a = nth (t + 1) (d_times D) 0%Z)
   <-> run_att_gt est c D Varying g t <> CNone).
Proof. exact varying_cells. Qed.
Print Assumptions C14_varying_cells.

(** C15. Padding with the factor n / n_sample keeps the mean and is zero exactly outside the sample. *)
Theorem C15_rescaled_mean :
  forall ix psi, flags ix <> [] -> length psi = length (flags ix) ->
  mean (fun x => x) (scatter ix (scale (qn (length ix) / qn (length (flags ix))) psi)) = mean (fun x => x) psi.
Proof. exact scatter_mean. Qed.
Print Assumptions C15_rescaled_mean.
Theorem C15_support :
  forall ix psi j, nth_error ix j = Some None -> nth j (scatter ix psi) 0%Qc = 0%Qc.
Proof. exact scatter_outside. Qed.
Print Assumptions C15_support.
Theorem C15_sample_values :
  forall ix v, length v = length (flags ix) -> select ix (scatter ix v) = v.
Proof. exact select_scatter. Qed.
Print Assumptions C15_sample_values.
(** end to end, for every panel cell *)
Theorem C15_cell_influence :
  forall c d out b e g_idx t_idx pre att inf (D := build_did_data c out) (ix := cohort_index_panel c D b g_idx t_idx pre),
  c_panel c = true -> c_unbal c = false -> c_has_id c = true -> valid_panel d -> did_pipeline c d = Some out ->
  base_index (c_ant c) D b g_idx t_idx = Base pre ->
  run_att_gt (EPanel e) c D b g_idx t_idx = CEst att inf ->
  exists psi y1 y0 x, e y1 y0 (flags ix) x (select ix (d_weights D)) = Some (att, psi) /\
    length inf = length (d_units D) /\
    (forall j, nth_error ix j = Some None -> nth j inf 0%Qc = 0%Qc) /\
    (length psi = length (flags ix) -> mean (fun x => x) inf = mean (fun x => x) psi).
Proof. exact cell_influence. Qed.
Print Assumptions C15_cell_influence.

(** C16. Refuted: with panel=False and allow_unbalanced_panel=True the influence row listed beside a treated unit
    is the one of a never-treated unit (and conversely). *)
Theorem C16_influence_alignment_refuted :
  exists c d out cells a k, c_panel c = false /\ c_has_id c = true /\ c_unbal c = true /\ valid_panel d /\
    did_pipeline c d = Some out /\ compute_att_gt (ERc west) c (build_did_data c out) Varying = Some cells /\ In a cells /\
    r_g (nth k (d_units (build_did_data c out)) drow0) = Fin (ac_group a) /\ nth k (ac_inf a) 0%Qc = 0%Qc /\
    exists k', k' < length (d_units (build_did_data c out)) /\ r_g (nth k' (d_units (build_did_data c out)) drow0) = Inf /\ nth k' (ac_inf a) 0%Qc <> 0%Qc.
Proof. exact influence_alignment_refuted. Qed.
Print Assumptions C16_influence_alignment_refuted.
(** What holds: rows are aligned when the unit ids increase in the order of the processed units. *)
Theorem C16_aligned_when_ids_sorted_partial :
  forall e c l b g t att inf (D := build_did_data c l), c_unbal c = true ->
  StronglySorted Z.lt (map r_id (d_units D)) -> run_att_gt (ERc e) c D b g t = CEst att inf ->
  exists long, length long = length l /\
    forall k, k < length (d_units D) -> nth k inf 0%Qc = sum_by_id (map r_id l) long (r_id (nth k (d_units D) drow0)).
Proof. exact unbalanced_aligned_sorted. Qed.
Print Assumptions C16_aligned_when_ids_sorted_partial.

(** C31. One influence value per unit. *)
Theorem C31_panel_one_row_per_unit :
  forall c d out b e cells a (D := build_did_data c out),
  c_panel c = true -> c_unbal c = false -> c_has_id c = true -> valid_panel d -> did_pipeline c d = Some out ->
  compute_att_gt (EPanel e) c D b = Some cells -> In a cells -> length (ac_inf a) = length (d_units D) /\ d_ids D = length (d_units D).
Proof. exact panel_inf_length. Qed.
Print Assumptions C31_panel_one_row_per_unit.
Theorem C31_rc_without_id :
  forall c d out b e cells a (D := build_did_data c out),
  c_panel c = false -> c_has_id c = false -> did_pipeline c d = Some out ->
  compute_att_gt (ERc e) c D b = Some cells -> In a cells -> length (ac_inf a) = length (d_units D) /\ d_ids D = length (d_units D).
Proof. exact rc_no_id_inf_length. Qed.
Print Assumptions C31_rc_without_id.
Theorem C31_unbalanced :
  forall c l b e cells a (D := build_did_data c l),
  c_unbal c = true -> compute_att_gt (ERc e) c D b = Some cells -> In a cells -> length (ac_inf a) = length (d_units D) /\ d_ids D = length (d_units D).
Proof. exact unbalanced_inf_length. Qed.
Print Assumptions C31_unbalanced.
(** Refuted for panel=False with repeated ids and allow_unbalanced_panel=False: 4 influence rows for 2 units. *)
Theorem C31_one_row_per_unit_refuted :
  exists c d out cells a, c_panel c = false /\ c_has_id c = true /\ c_unbal c = false /\ valid_panel d /\
    did_pipeline c d = Some out /\ compute_att_gt (ERc west) c (build_did_data c out) Varying = Some cells /\ In a cells /\
    length (ac_inf a) = 4 /\ d_ids (build_did_data c out) = 2 /\ length (d_units (build_did_data c out)) = 2.
Proof. exact one_row_per_unit_refuted. Qed.
Print Assumptions C31_one_row_per_unit_refuted.

(** C32. A cell whose 2x2 estimation failed: dropped under 'varying' (C14_varying_cells), but reported as an
    exact zero effect with zero influence under 'universal'; a NaN estimate becomes a zero in both modes. *)
Theorem C32_failed_cell_is_zero_refuted :
  forall est c l g t cells (D := build_did_data c l), compute_att_gt est c D Universal = Some cells ->
  g < length (d_groups D) -> t < length (d_times D) -> run_att_gt est c D Universal g t = CNone ->
  exists a, In a cells /\ ac_group a = nth g (d_groups D) 0%Z /\ ac_year a = nth t (d_times D) 0%Z /\
    ac_att a = 0%Qc /\ ac_inf a = repeat 0%Qc (d_ids D).
Proof. exact failed_cell_zero. Qed.
Print Assumptions C32_failed_cell_is_zero_refuted.
Theorem C32_nan_cell_is_zero_refuted :
  forall est c l b g t cells inf (D := build_did_data c l), compute_att_gt est c D b = Some cells ->
  g < length (d_groups D) -> t + time_factor b < length (d_times D) -> run_att_gt est c D b g t = CEst None inf ->
  exists a, In a cells /\ ac_group a = nth g (d_groups D) 0%Z /\ ac_year a = nth (t + time_factor b) (d_times D) 0%Z /\
    ac_att a = 0%Qc /\ ac_inf a = repeat 0%Qc (d_ids D).
Proof. exact nan_cell_zero. Qed.
Print Assumptions C32_nan_cell_is_zero_refuted.
(** ... and such a cell exists: a failing estimator makes a post-treatment cell of the witness panel an exact zero. *)
Theorem C32_post_cell_refuted :
  exists c d out cells a, c_panel c = true /\ c_unbal c = false /\ c_has_id c = true /\ valid_panel d /\
    did_pipeline c d = Some out /\ compute_att_gt (EPanel (fun _ _ _ _ _ => None)) c (build_did_data c out) Universal = Some cells /\
    In a cells /\ ac_post a = true /\ ac_att a = 0%Qc.
Proof. exact post_cell_zero. Qed.
Print Assumptions C32_post_cell_refuted.

(** C33. att_gt terminates without an exception for preprocessed balanced panels that have a base period ... *)
Theorem C33_no_crash_balanced :
  forall c d out b e (D := build_did_data c out),
  c_panel c = true -> c_unbal c = false -> c_has_id c = true -> valid_panel d -> did_pipeline c d = Some out ->
  (forall g, In g (d_groups D) -> exists p, In p (d_times D) /\ (p < g - c_ant c)%Z) ->
  exists cells, compute_att_gt (EPanel e) c D b = Some cells.
Proof. exact no_crash_balanced. Qed.
Print Assumptions C33_no_crash_balanced.
(** ... but crashes for a cohort without base period under 'universal', and on every really unbalanced panel
    analysed with panel=True, allow_unbalanced_panel=True. *)
Theorem C33_universal_no_base_refuted :
  forall est c l g0 (D := build_did_data c l),
  c_never c = false -> In g0 (d_groups D) -> d_times D <> [] -> (forall p, In p (d_times D) -> (g0 - c_ant c <= p)%Z) ->
  compute_att_gt est c D Universal = None.
Proof. exact universal_no_base_raises. Qed.
Print Assumptions C33_universal_no_base_refuted.
Theorem C33_unbalanced_panel_refuted :
  forall e c l b g t pre (D := build_did_data c l),
  c_panel c = true -> c_unbal c = true -> is_balanced l = false -> base_index (c_ant c) D b g t = Base pre ->
  (b = Universal -> nth pre (d_times D) 0%Z <> nth t (d_times D) 0%Z) ->
  has_flag true (cohort_index_panel c D b g t pre) = true -> has_flag false (cohort_index_panel c D b g t pre) = true ->
  g < length (d_groups D) -> t + time_factor b < length (d_times D) ->
  compute_att_gt (EPanel e) c D b = None.
Proof. exact unbalanced_panel_raises. Qed.
Print Assumptions C33_unbalanced_panel_refuted.

(** Concrete cases that meet the hypotheses above. *)
Definition ex_cfg (never : bool) := {| c_panel := true; c_unbal := false; c_has_id := true; c_has_w := false; c_never := never; c_ant := 0 |}.
Definition ex_data : list raw :=
  [wq 5 1 (Fin 2) 1; wq 5 2 (Fin 2) 4; wq 5 3 (Fin 2) 6; wq 4 1 (Fin 3) 1; wq 4 2 (Fin 3) 2; wq 4 3 (Fin 3) 9;
   wq 9 1 (Fin 0) 1; wq 9 2 (Fin 0) 1; wq 9 3 (Fin 0) 2]%Z.
Example C11_C15_witness : exists out, did_pipeline (ex_cfg false) ex_data = Some out /\
  let D := build_did_data (ex_cfg false) out in
  base_index 0 D Varying 0 0 = Base 0 /\ cohort_index_panel (ex_cfg false) D Varying 0 0 0 = [Some true; Some false; Some false] /\
  base_index 0 D Varying 0 1 = Base 0 /\ cohort_index_panel (ex_cfg false) D Varying 0 1 0 = [Some true; None; Some false] /\
  exists cells, compute_att_gt (EPanel (fun y1 y0 dd x w => Some (Some (qsum y1), map (fun b : bool => if b then 1%Qc else (- (1))%Qc) dd))) (ex_cfg false) D Varying = Some cells /\
    map cell_key cells = [(2, 2); (2, 3); (3, 2); (3, 3)]%Z.
Proof. eexists. split; [vm_compute; reflexivity|]. cbn zeta. repeat (split; [vm_compute; reflexivity|]). eexists. split; [vm_compute; reflexivity|]. reflexivity. Qed.
(** a cross-section cell with both kinds of rows, with and without summing within units *)
Example C11_rc_witness : exists out, let c := {| c_panel := false; c_unbal := true; c_has_id := true; c_has_w := false; c_never := false; c_ant := 0 |} in
  did_pipeline c ex_data = Some out /\ let D := build_did_data c out in
  base_index 0 D Varying 0 1 = Base 0 /\ flags (cohort_index_rc c D Varying 0 1 0) = [true; false; true; false] /\
  exists att inf, run_att_gt (ERc west) c D Varying 0 1 = CEst att inf /\ map (fun v => Qceqb v 0) inf = [true; false; true].
Proof. eexists. cbn zeta. split; [vm_compute; reflexivity|]. split; [vm_compute; reflexivity|]. split; [vm_compute; reflexivity|]. eexists. eexists. split; [vm_compute; reflexivity|]. vm_compute. reflexivity. Qed.
(** a cohort without base period survives preprocessing (C07) and crashes 'universal' *)
Example C33_witness : exists out, let c := ex_cfg false in
  did_pipeline c [wq 1 1 (Fin 1) 1; wq 1 2 (Fin 1) 1; wq 1 3 (Fin 1) 1; wq 2 2 (Fin 2) 1; wq 2 3 (Fin 2) 1; wq 3 2 (Fin 0) 1; wq 3 3 (Fin 0) 1]%Z = Some out /\
  compute_att_gt (EPanel (fun _ _ _ _ _ => Some (Some 0%Qc, []))) c (build_did_data c out) Universal = None.
Proof. eexists. cbn zeta. split; vm_compute; reflexivity. Qed.
Example C33_unbalanced_witness : exists out,
  let c := {| c_panel := true; c_unbal := true; c_has_id := true; c_has_w := false; c_never := true; c_ant := 0 |} in
  did_pipeline c [wq 1 1 (Fin 2) 1; wq 1 2 (Fin 2) 1; wq 2 1 (Fin 0) 1; wq 2 2 (Fin 0) 1; wq 3 2 (Fin 0) 1]%Z = Some out /\
  compute_att_gt (EPanel (fun _ _ _ _ _ => Some (Some 0%Qc, []))) c (build_did_data c out) Varying = None.
Proof. eexists. cbn zeta. split; vm_compute; reflexivity. Qed.
