(** Properties C17-C24, C34, C35. Vocabulary: AggteSpec.v. *)
From Coq Require Import String.
From Verif Require Import Base ListLib PreprocessModel PreprocessSpec AttGtModel AttGtProofs4 AggteModel AggteSpec AggteProofs AggteProofs2 AggteProofs3 AggteProofs4 Witness.
Local Open Scope list_scope.
Local Notation length := List.length.

(** * C17. What each type reports, and that it is a convex combination of the cells covered. *)
Theorem C17_simple :
  forall dropna be mi ma units mp r, aggte TSimple dropna be mi ma units mp = Some r ->
  let cells := used_cells TSimple dropna mp in
  a_overall r = Some (share_average units (filter (covers TSimple cells be ma 0) cells)).
Proof. exact simple_prop. Qed.
Print Assumptions C17_simple.
Theorem C17_group :
  forall dropna be mi ma units mp r, aggte TGroup dropna be mi ma units mp = Some r ->
  let cells := used_cells TGroup dropna mp in
  StronglySorted Z.lt (a_keys r) /\ (forall g, In g (a_keys r) <-> exists k, In k cells /\ k_g k = g) /\
  a_by r = map (fun g => match filter (covers TGroup cells be ma g) cells with [] => None | ks => Some (mean k_att ks) end) (a_keys r) /\
  a_overall r = Some (sumf (fun p => nan0 (snd p) * share units (fst p)) (combine (a_keys r) (a_by r)) / sumf (share units) (a_keys r)).
Proof. exact group_prop. Qed.
Print Assumptions C17_group.
Theorem C17_calendar :
  forall dropna be mi ma units mp r, aggte TCalendar dropna be mi ma units mp = Some r ->
  let cells := used_cells TCalendar dropna mp in
  StronglySorted Z.lt (a_keys r) /\
  (forall t, In t (a_keys r) <-> In t (map k_t cells) /\ exists k, In k cells /\ (k_g k <= t)%Z) /\
  a_by r = map (fun t => match filter (covers TCalendar cells be ma t) cells with [] => None | ks => Some (share_average units ks) end) (a_keys r) /\
  a_overall r = match existing (a_by r) with [] => None | l => Some (average l) end.
Proof. exact calendar_prop. Qed.
Print Assumptions C17_calendar.
Theorem C17_effects_convex :
  forall ty dropna be mi ma units mp r i key v, aggte ty dropna be mi ma units mp = Some r ->
  nth_error (a_keys r) i = Some key -> nth_error (a_by r) i = Some (Some v) ->
  let cells := used_cells ty dropna mp in
  let ks := filter (covers ty cells be ma key) cells in
  ks <> [] /\ (weights_ok units ks -> convex_combination ks v).
Proof. exact effects_convex. Qed.
Print Assumptions C17_effects_convex.
Theorem C17_simple_convex :
  forall dropna be mi ma units mp r v, aggte TSimple dropna be mi ma units mp = Some r -> a_overall r = Some v ->
  let cells := used_cells TSimple dropna mp in
  let ks := filter (covers TSimple cells be ma 0) cells in
  weights_ok units ks -> convex_combination ks v.
Proof. exact simple_convex. Qed.
Print Assumptions C17_simple_convex.
(** hence between the extremes of the covered effects (and equal to c if all of them are) *)
Theorem C17_between_extremes :
  forall ks v lo hi, convex_combination ks v -> (forall k, In k ks -> lo <= k_att k /\ k_att k <= hi) -> lo <= v /\ v <= hi.
Proof. exact convex_bounds. Qed.
Print Assumptions C17_between_extremes.
(** and the overall effect lies between the extremes of the reported effects (type 'group': when every cohort has one, see C18) *)
Theorem C17_overall_between_extremes :
  forall ty dropna be mi ma units mp r v lo hi, aggte ty dropna be mi ma units mp = Some r ->
  ty <> TSimple -> (ty = TGroup -> (forall x, In x units -> 0 <= snd x) /\ 0 < sumf (share units) (a_keys r) /\ ~ In None (a_by r)) ->
  a_overall r = Some v -> (forall a, In (Some a) (a_by r) -> lo <= a /\ a <= hi) -> lo <= v /\ v <= hi.
Proof. exact overall_bounds. Qed.
Print Assumptions C17_overall_between_extremes.

(** * C18 *)
Theorem C18_group_overall_partial :
  forall dropna be mi ma units mp r, aggte TGroup dropna be mi ma units mp = Some r -> ~ In None (a_by r) ->
  a_overall r = cohort_average units (a_keys r) (a_by r).
Proof. exact group_overall_ok. Qed.
Print Assumptions C18_group_overall_partial.
Theorem C18_dropna_complete :
  forall be mi units mp r, aggte TGroup true be mi None units mp = Some r -> ~ In None (a_by r).
Proof. exact group_dropna_complete. Qed.
Print Assumptions C18_dropna_complete.

(** The 2x2 difference of means, as the estimator of the witnesses below. *)
Definition avg_where (b : bool) (dd : list bool) (v : list Qc) : Qc :=
  average (map snd (filter (fun p => Bool.eqb (fst p) b) (combine dd v))).
Definition did22 : panel_estimator := fun y1 y0 dd x w =>
  let dy := map (fun p => fst p - snd p) (combine y1 y0) in
  Some (Some (avg_where true dd dy - avg_where false dd dy), repeat 0 (length dd)).
Definition cfg_nyt (ant : Z) := {| c_panel := true; c_unbal := false; c_has_id := true; c_has_w := false; c_never := false; c_ant := ant |}.
(** Staggered adoption at 2, 3, 4, nobody never treated: every effect that exists is 6, the overall is 4. *)
Definition stag_data : list raw :=
  [wq 1 1 (Fin 2) 0; wq 1 2 (Fin 2) 6; wq 1 3 (Fin 2) 6; wq 1 4 (Fin 2) 6;
   wq 2 1 (Fin 3) 0; wq 2 2 (Fin 3) 0; wq 2 3 (Fin 3) 6; wq 2 4 (Fin 3) 6;
   wq 3 1 (Fin 4) 0; wq 3 2 (Fin 4) 0; wq 3 3 (Fin 4) 0; wq 3 4 (Fin 4) 6]%Z.
Theorem C18_no_effect_cohorts_refuted :
  exists out cells r, valid_panel stag_data /\ did_pipeline (cfg_nyt 0) stag_data = Some out /\
    let D := build_did_data (cfg_nyt 0) out in
    compute_att_gt (EPanel did22) (cfg_nyt 0) D Varying = Some cells /\
    aggte TGroup false None None None (units_of D) (map mp_of cells) = Some r /\
    a_keys r = [2; 3; 4]%Z /\ a_by r = [Some (qz 6); Some (qz 6); None] /\
    a_overall r = Some (qz 4) /\ cohort_average (units_of D) (a_keys r) (a_by r) = Some (qz 6).
Proof.
  eexists. eexists. eexists. split; [by_valid|]. split; [vm_compute; reflexivity|]. cbn zeta. split; [vm_compute; reflexivity|].
  split; [vm_compute; reflexivity|]. split; [reflexivity|]. split; [by_loq|]. split; by_oq.
Qed.
Print Assumptions C18_no_effect_cohorts_refuted.
(** dropna=True does not help when max_e removes a cohort's only post-treatment effects: the finite window again
    turns it into a zero with full weight. *)
Theorem C18_dropna_window_refuted :
  exists units mp r, (forall m, In m mp -> m_att m = Some (qz 6)) /\ aggte TGroup true None None (Some 0%Z) units mp = Some r /\ a_by r = [Some (qz 6); None] /\ a_overall r = Some (qz 3).
Proof.
  exists [(Fin 2%Z, 1%Qc); (Fin 3%Z, 1%Qc)]%Z.
  exists [{| m_g := 2; m_t := 2; m_att := Some (qz 6); m_inf := [0%Qc; 0%Qc] |}; {| m_g := 3; m_t := 4; m_att := Some (qz 6); m_inf := [0%Qc; 0%Qc] |}]%Z.
  eexists. split; [intros m [<-|[<-|[]]]; reflexivity|]. split; [vm_compute; reflexivity|]. split; [by_loq|by_oq].
Qed.
Print Assumptions C18_dropna_window_refuted.

(** * C19. Recoding. [u]: the increasing list of distinct period and group values. *)
Theorem C19_recoding :
  forall u, StronglySorted Z.lt u ->
  (forall x, In x u -> exists i, orig2t u x = Some i /\ (1 <= i <= Z.of_nat (length u))%Z /\ t2orig u i = x) /\
  (forall x y i j, orig2t u x = Some i -> orig2t u y = Some j -> ((i < j)%Z <-> (x < y)%Z) /\ (i = j <-> x = y)) /\
  (forall x, orig2t_vec u (Fin x) = orig2t u x) /\
  (forall x, orig2t u x = None <-> ~ In x u) /\ orig2t_vec u Inf = None.
Proof. exact recoding. Qed.
Print Assumptions C19_recoding.
Example C19_witness : let u := [1; 2; 5; 9]%Z in orig2t u 5 = Some 3%Z /\ orig2t_vec u (Fin 5) = Some 3%Z /\ orig2t_vec u (Fin 7) = None /\
  orig2t_vec u (Fin 100) = None /\ t2orig u 3 = 5%Z.
Proof. repeat split. Qed.

(** * C20. Event study: keys, cells and weights; see [covers] for the cells. *)
Theorem C20_dynamic :
  forall dropna be mi ma units mp r, aggte TDynamic dropna be mi ma units mp = Some r ->
  let cells := used_cells TDynamic dropna mp in
  let effect e := share_average units (filter (covers TDynamic cells be ma e) cells) in
  StronglySorted Z.lt (a_keys r) /\
  (forall e, In e (a_keys r) <->
     (exists k, In k cells /\ (k_t k - k_g k)%Z = e /\ eligible cells be k = true) /\
     (forall m, mi = Some m -> (m <= e)%Z) /\ (forall m, ma = Some m -> (e <= m)%Z) /\
     (forall b lo hi, be = Some b -> is_min lo (map k_t cells) -> is_max hi (map k_t cells) -> (b - hi + lo <= e <= b)%Z)) /\
  (forall e, In e (a_keys r) -> filter (covers TDynamic cells be ma e) cells <> []) /\
  a_by r = map (fun e => Some (effect e)) (a_keys r) /\
  a_overall r = match filter (fun e => (0 <=? e)%Z) (a_keys r) with [] => None | es => Some (average (map effect es)) end.
Proof. exact dynamic_prop. Qed.
Print Assumptions C20_dynamic.

(** * C21. With balance_e = b the cohorts averaged at event times 0..b are always the same, namely the eligible ones
    (complete grid, consecutive periods, cohorts treated no earlier than the first evaluated period) ... *)
Theorem C21_balanced_post_partial :
  forall cells b e g, complete_grid cells -> no_gaps (map k_t cells) ->
  (forall k, In k cells -> exists c, In c cells /\ (k_t c <= k_g k)%Z) -> (0 <= e <= b)%Z ->
  (cohort_at cells (Some b) e g <-> exists k, In k cells /\ k_g k = g /\ eligible cells (Some b) k = true).
Proof. exact balance_composition. Qed.
Print Assumptions C21_balanced_post_partial.
(** ... but not at negative event times, although the grid is complete and consecutive ... *)
Definition grid (gs ts : list Z) : list mp_cell :=
  map (fun p => {| m_g := fst p; m_t := snd p; m_att := Some (qz (fst p + snd p)); m_inf := [0%Qc; 0%Qc; 0%Qc] |}) (list_prod gs ts).
Theorem C21_pre_periods_refuted :
  exists units mp r, let cells := used_cells TDynamic false mp in
  complete_grid cells /\ no_gaps (map k_t cells) /\ (forall k, In k cells -> exists c, In c cells /\ (k_t c <= k_g k)%Z) /\
  aggte TDynamic false (Some 1%Z) None None units mp = Some r /\ a_keys r = [-1; 0; 1]%Z /\
  cohort_at cells (Some 1%Z) 0 2 /\ ~ cohort_at cells (Some 1%Z) (-1) 2 /\ cohort_at cells (Some 1%Z) (-1) 3.
Proof.
  exists [(Fin 2%Z, 1%Qc); (Fin 3%Z, 1%Qc); (Inf, 1%Qc)]%Z. exists (grid [2; 3] [2; 3; 4; 5])%Z. eexists. cbn zeta.
  split; [apply complete_gridb_ok; vm_compute; reflexivity|].
  split; [apply no_gapsb_ok; vm_compute; reflexivity|].
  split. { intros k Hk. exists {| k_g := 2; k_t := 2; k_att := qz 4; k_inf := [0%Qc; 0%Qc; 0%Qc] |}%Z. split; [left; reflexivity|].
    apply (proj1 (forallb_forall (fun k => (2 <=? k_g k)%Z) (used_cells TDynamic false (grid [2; 3] [2; 3; 4; 5])%Z))) in Hk; [|vm_compute; reflexivity].
    apply Z.leb_le in Hk. exact Hk. }
  split; [vm_compute; reflexivity|]. split; [reflexivity|].
  split; [apply cohort_atb_ok; vm_compute; reflexivity|]. split; [|apply cohort_atb_ok; vm_compute; reflexivity].
  intros h. apply cohort_atb_ok in h. vm_compute in h. discriminate.
Qed.
Print Assumptions C21_pre_periods_refuted.
(** ... nor when the periods are not consecutive. *)
Theorem C21_gaps_refuted :
  exists units mp r, let cells := used_cells TDynamic false mp in
  complete_grid cells /\ aggte TDynamic false (Some 1%Z) None None units mp = Some r /\ In 0%Z (a_keys r) /\ In 1%Z (a_keys r) /\
  cohort_at cells (Some 1%Z) 0 2 /\ ~ cohort_at cells (Some 1%Z) 1 2.
Proof.
  exists [(Fin 2%Z, 1%Qc); (Fin 4%Z, 1%Qc); (Inf, 1%Qc)]%Z. exists (grid [2; 4] [2; 4; 5])%Z. eexists. cbn zeta.
  split; [apply complete_gridb_ok; vm_compute; reflexivity|]. split; [vm_compute; reflexivity|].
  split; [vm_compute; auto|]. split; [vm_compute; auto|]. split; [apply cohort_atb_ok; vm_compute; reflexivity|].
  intros h. apply cohort_atb_ok in h. vm_compute in h. discriminate.
Qed.
Print Assumptions C21_gaps_refuted.

(** * C22. [weight_if] is the adjustment matrix of the code; [tilted_weight x eps]: the normalised weights when the
    empirical distribution is moved by [eps] towards unit [x]. *)
Theorem C22_rows_sum_to_zero :
  forall cells units ks, (forall k, In k ks -> In k cells) -> forall x, sumf (fun k => share units (k_g k)) ks <> 0 ->
  sumf (weight_if (all_vals cells) units ks x) ks = 0.
Proof. exact wif_row_zero. Qed.
Print Assumptions C22_rows_sum_to_zero.
Theorem C22_columns_average_to_zero :
  forall cells units ks, (forall k, In k ks -> In k cells) -> forall k, units <> [] -> In k ks ->
  mean (fun x => weight_if (all_vals cells) units ks x k) units = 0.
Proof. exact wif_col_zero. Qed.
Print Assumptions C22_columns_average_to_zero.
Theorem C22_derivative_of_weights :
  forall cells units ks x k, (forall k, In k ks -> In k cells) -> In k ks ->
  0 < sumf (fun k => share units (k_g k)) ks ->
  is_limit0 (fun eps => (tilted_weight units ks x eps k - tilted_weight units ks x 0 k) / eps)
            (weight_if (all_vals cells) units ks x k).
Proof. exact wif_derivative. Qed.
Print Assumptions C22_derivative_of_weights.
Example C22_witness : let cells := [{| k_g := 2; k_t := 2; k_att := 1%Qc; k_inf := [] |}; {| k_g := 3; k_t := 3; k_att := 1%Qc; k_inf := [] |}]%Z in
  let units := [(Fin 2%Z, 1%Qc); (Fin 3%Z, 1%Qc); (Fin 3%Z, 1%Qc); (Inf, 1%Qc)]%Z in
  0 < sumf (fun k => share units (k_g k)) cells /\ weight_if (all_vals cells) units cells (Fin 2%Z, 1%Qc)%Z (nth 0 cells {| k_g := 2; k_t := 2; k_att := 1%Qc; k_inf := [] |}%Z) = qz 8 / qz 9.
Proof. split; [vm_compute; reflexivity|by_qc]. Qed.

(** * C23. 'dynamic': always; 'simple' and 'group': when the values are consecutive integers. *)
Theorem C23_dynamic_window :
  forall dropna be mi ma units mp r e m, aggte TDynamic dropna be mi ma units mp = Some r -> ma = Some m -> In e (a_keys r) ->
  let cells := used_cells TDynamic dropna mp in forall k, covers TDynamic cells be ma e k = true -> (k_t k - k_g k <= m)%Z.
Proof. exact window_dynamic. Qed.
Print Assumptions C23_dynamic_window.
Theorem C23_window_consecutive_partial :
  forall ty be ma dropna mp key k, let cells := used_cells ty dropna mp in ty = TSimple \/ ty = TGroup -> consecutive cells ->
  In k cells -> covers ty cells be ma key k = true -> forall m, ma = Some m -> (k_t k - k_g k <= m)%Z.
Proof. exact window_ok. Qed.
Print Assumptions C23_window_consecutive_partial.
(** Periods 1, 2, 10: max_e = 1 keeps the effect 8 periods after treatment in 'simple' and 'group' ... *)
Theorem C23_gaps_refuted :
  exists out cells r1 r2, valid_panel [wq 1 1 (Fin 2) 0; wq 1 2 (Fin 2) 1; wq 1 10 (Fin 2) 9; wq 2 1 (Fin 0) 0; wq 2 2 (Fin 0) 0; wq 2 10 (Fin 0) 0]%Z /\
    did_pipeline (cfg_nyt 0) [wq 1 1 (Fin 2) 0; wq 1 2 (Fin 2) 1; wq 1 10 (Fin 2) 9; wq 2 1 (Fin 0) 0; wq 2 2 (Fin 0) 0; wq 2 10 (Fin 0) 0]%Z = Some out /\
    let D := build_did_data (cfg_nyt 0) out in
    compute_att_gt (EPanel did22) (cfg_nyt 0) D Varying = Some cells /\
    map (fun a => (ac_group a, ac_year a, ac_att a)) cells = [(2%Z, 2%Z, ac_att (nth 0 cells (mk0 0))); (2%Z, 10%Z, ac_att (nth 1 cells (mk0 0)))] /\
    aggte TSimple false None None (Some 1%Z) (units_of D) (map mp_of cells) = Some r1 /\ a_overall r1 = Some (qz 5) /\
    aggte TGroup false None None (Some 1%Z) (units_of D) (map mp_of cells) = Some r2 /\ a_by r2 = [Some (qz 5)].
Proof.
  eexists. eexists. eexists. eexists. split; [by_valid|]. split; [vm_compute; reflexivity|]. cbn zeta. split; [vm_compute; reflexivity|].
  split; [reflexivity|]. split; [vm_compute; reflexivity|]. split; [by_oq|]. split; [vm_compute; reflexivity|by_loq].
Qed.
Print Assumptions C23_gaps_refuted.
(** ... and 'calendar' ignores max_e altogether. *)
Theorem C23_calendar_refuted :
  (forall dropna be mi ma ma' units mp, aggte TCalendar dropna be mi ma units mp = aggte TCalendar dropna be mi ma' units mp) /\
  exists units mp r, aggte TCalendar false None None (Some 0%Z) units mp = Some r /\ a_keys r = [2; 3]%Z /\ a_by r = [Some (qz 1); Some (qz 7)] /\
    forall m, In m mp -> m_t m = 3%Z -> (m_t m - m_g m > 0)%Z.
Proof.
  split; [reflexivity|]. exists [(Fin 2%Z, 1%Qc)].
  exists [{| m_g := 2; m_t := 2; m_att := Some (qz 1); m_inf := [0%Qc] |}; {| m_g := 2; m_t := 3; m_att := Some (qz 7); m_inf := [0%Qc] |}]%Z.
  eexists. split; [vm_compute; reflexivity|]. split; [reflexivity|]. split; [by_loq|].
  intros m [<-|[<-|[]]] H; cbn in *; lia.
Qed.
Print Assumptions C23_calendar_refuted.

(** * C24 *)
Theorem C24_weights_named_weights_partial :
  forall frame idname gname cl cov, weights_ind frame (ti_columns idname gname cl cov) (Some "weights"%string) = Some (frame "weights"%string).
Proof. exact weights_named_weights. Qed.
Print Assumptions C24_weights_named_weights_partial.
(** Any other column that is not also the id, the group, a cluster variable or a time-constant covariate never
    reaches aggte: every unit counts 1, whatever the weights. *)
Theorem C24_weights_ignored_refuted :
  forall frame idname gname cl cov w n, w <> idname -> w <> gname -> w <> "weights"%string -> ~ In w cl -> ~ In w cov ->
  unit_weights (weights_ind frame (ti_columns idname gname cl cov) (Some w)) n = repeat 1 n.
Proof. exact weights_ignored. Qed.
Print Assumptions C24_weights_ignored_refuted.
Example C24_witness : let frame := fun _ : string => [qz 1; qz 3] in
  let mp := [{| m_g := 2; m_t := 2; m_att := Some (qz 0); m_inf := [0%Qc; 0%Qc] |}; {| m_g := 3; m_t := 3; m_att := Some (qz 4); m_inf := [0%Qc; 0%Qc] |}]%Z in
  let agg w := option_map a_overall (aggte TSimple false None None None (combine [Fin 2; Fin 3]%Z w) mp) in
  agg (unit_weights (weights_ind frame (ti_columns "id" "g" [] []) (Some "pop"%string)) 2) = Some (Some (qz 2)) /\
  agg (frame "pop"%string) = Some (Some (qz 3)).
Proof. cbn zeta. split; (apply f_equal with (f := Some); by_oq) || (vm_compute; f_equal; by_oq). Qed.

(** * C34. An aggregate that covers no effect: 'dynamic', 'calendar' and the cohort effects of 'group' report none ... *)
Theorem C34_no_cover_no_effect :
  forall ty dropna be mi ma units mp r i key, aggte ty dropna be mi ma units mp = Some r -> nth_error (a_keys r) i = Some key ->
  filter (covers ty (used_cells ty dropna mp) be ma key) (used_cells ty dropna mp) = [] -> nth_error (a_by r) i = Some None.
Proof. exact no_cover_no_effect. Qed.
Print Assumptions C34_no_cover_no_effect.
Theorem C34_dynamic_overall :
  forall dropna be mi ma units mp r, aggte TDynamic dropna be mi ma units mp = Some r ->
  (a_overall r = None <-> forall e, In e (a_keys r) -> (e < 0)%Z).
Proof. exact dynamic_overall_none. Qed.
Print Assumptions C34_dynamic_overall.
(** ... but 'simple' reports the number 0 (and a zero influence function) ... *)
Theorem C34_simple_zero_refuted :
  forall dropna be mi ma units mp r, aggte TSimple dropna be mi ma units mp = Some r ->
  (forall k, In k (used_cells TSimple dropna mp) -> (k_t k < k_g k)%Z) ->
  a_overall r = Some 0 /\ a_inf r = repeat 0 (length units).
Proof. exact simple_zero. Qed.
Print Assumptions C34_simple_zero_refuted.
(** ... reachable from att_gt: cohorts 4 and 5, nobody never treated, one anticipation period. *)
Definition late_data : list raw :=
  [wq 1 1 (Fin 4) 0; wq 1 2 (Fin 4) 1; wq 1 3 (Fin 4) 1; wq 1 4 (Fin 4) 7; wq 1 5 (Fin 4) 7;
   wq 2 1 (Fin 5) 0; wq 2 2 (Fin 5) 0; wq 2 3 (Fin 5) 0; wq 2 4 (Fin 5) 0; wq 2 5 (Fin 5) 9]%Z.
Theorem C34_end_to_end_refuted :
  exists out cells r, valid_panel late_data /\ did_pipeline (cfg_nyt 1) late_data = Some out /\
    let D := build_did_data (cfg_nyt 1) out in
    compute_att_gt (EPanel did22) (cfg_nyt 1) D Varying = Some cells /\ cells <> [] /\
    aggte TSimple false None None None (units_of D) (map mp_of cells) = Some r /\ a_overall r = Some 0.
Proof.
  eexists. eexists. eexists. split; [by_valid|]. split; [vm_compute; reflexivity|]. cbn zeta. split; [vm_compute; reflexivity|].
  split; [discriminate|]. split; [vm_compute; reflexivity|]. by_oq.
Qed.
Print Assumptions C34_end_to_end_refuted.

(** * C35. Aggregation keeps influence functions centred, one value per unit. *)
Theorem C35_centred :
  forall ty dropna be mi ma units mp r, units <> [] ->
  (forall m, In m mp -> length (m_inf m) = length units /\ qsum (m_inf m) = 0) ->
  aggte ty dropna be mi ma units mp = Some r ->
  (length (a_inf r) = length units /\ qsum (a_inf r) = 0) /\
  (forall c, In c (a_inf_by r) -> length c = length units /\ qsum c = 0).
Proof. exact aggte_centred. Qed.
Print Assumptions C35_centred.

(** A concrete case for the theorems above: two cohorts, never-treated units, all four types. *)
Definition ex_mp : list mp_cell :=
  [{| m_g := 2; m_t := 2; m_att := Some (qz 1); m_inf := [qz 1; qz (-1); 0%Qc] |};
   {| m_g := 2; m_t := 3; m_att := Some (qz 3); m_inf := [qz 2; qz (-2); 0%Qc] |};
   {| m_g := 3; m_t := 2; m_att := Some (qz 0); m_inf := [0%Qc; qz 1; qz (-1)] |};
   {| m_g := 3; m_t := 3; m_att := Some (qz 5); m_inf := [0%Qc; qz 3; qz (-3)] |}]%Z.
Definition ex_units : list unit_rec := [(Fin 2, qz 2); (Fin 3, qz 1); (Inf, qz 1)]%Z.
Definition ex_agg ty := aggte ty false None None None ex_units ex_mp.
Example C17_C35_witness :
  option_map a_overall (ex_agg TSimple) = Some (Some (qz 13 / qz 5)) /\
  option_map (fun r => (a_keys r, a_by r)) (ex_agg TDynamic) <> None /\
  (forall m, In m ex_mp -> length (m_inf m) = length ex_units /\ qsum (m_inf m) = 0).
Proof.
  split; [vm_compute; f_equal; by_oq|]. split; [vm_compute; discriminate|].
  intros m H. repeat (destruct H as [<-|H]; [split; [reflexivity|by_qc]|]). destruct H.
Qed.
