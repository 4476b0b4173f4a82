(** Properties C06-C10. *)
From Verif Require Import Base ListLib PreprocessModel PreprocessSpec PreprocessProofs PreprocessProofs2 PreprocessProofs3.

(** C06. The encoding step maps every row to the same row with the documented group code. *)
Theorem C06_encode_step :
  forall (l : list row) (m : Z), last_period_of l m ->
    Forall2 (fun r r' => r_id r' = r_id r /\ r_t r' = r_t r /\ r_y r' = r_y r /\ r_w r' = r_w r /\ r_x r' = r_x r
                         /\ group_code m (r_g r) (r_g r')) l (encode l).
Proof. exact encode_step. Qed.
Print Assumptions C06_encode_step.

(** End to end: every processed row is a complete input row whose group is the documented code of the
    user's group, except that (only with control_group='nevertreated', and only when no
    never-treated unit is left) the last cohort is re-labelled. *)
Theorem C06_group_codes_end_to_end :
  forall c d out r m, did_pipeline c d = Some out -> In r out -> last_period_of (clean c d) m ->
    exists q g e, In q d /\ raw_t q = Some (r_t r) /\ raw_y q = Some (r_y r) /\
      (c_has_id c = true -> raw_id q = Some (r_id r)) /\
      raw_g q = Some g /\ group_code m g e /\
      (r_g r = e \/
       (c_never c = true /\ r_g r = Inf /\ exists z, e = Fin z /\ (r_t r < z - c_ant c)%Z /\
          no_never (early_filter c (did_stage_encoded c d)) /\
          latest_cohort (early_filter c (did_stage_encoded c d)) z)).
Proof. exact group_codes_end_to_end. Qed.
Print Assumptions C06_group_codes_end_to_end.

(** C07. No processed row belongs to a cohort treated by first period + anticipation. *)
Theorem C07_no_early_cohort_left :
  forall c d out r m z, did_pipeline c d = Some out -> In r out ->
    first_period_of (clean c d) m -> r_g r = Fin z -> (m + c_ant c < z)%Z.
Proof. exact no_early_cohort_left. Qed.
Print Assumptions C07_no_early_cohort_left.

(** The filter removes nothing else: a row whose unit is never at or before the bound is kept. *)
Theorem C07_no_eligible_unit_removed :
  forall c l r m, In r l -> first_period_of l m ->
    (forall r', In r' l -> (if c_has_id c then r_id r' = r_id r else r' = r) -> ~ treated_by (r_g r') (m + c_ant c)) ->
    In r (early_filter c l).
Proof. exact no_eligible_unit_removed. Qed.
Print Assumptions C07_no_eligible_unit_removed.

(** If some unit that is not already treated is observed in the first period, every remaining cohort
    has an observed period strictly before g - anticipation. *)
Theorem C07_base_period_exists :
  forall c d out m r z, did_pipeline c d = Some out ->
    (c_panel c = true -> c_has_id c = true /\ valid_panel d) ->
    first_period_of (clean c d) m ->
    (exists r0, In r0 (early_filter c (did_stage_encoded c d)) /\ r_t r0 = m) ->
    In r out -> r_g r = Fin z -> exists p, In p (d_times (build_did_data c out)) /\ (p < z - c_ant c)%Z.
Proof. exact base_period_exists. Qed.
Print Assumptions C07_base_period_exists.

(** Without that condition the claim fails: when only already-treated units are observed in the
    first period, a cohort without any pre-treatment period survives. *)
Theorem C07_base_period_refuted :
  exists c d out z, did_pipeline c d = Some out /\ c_panel c = true /\ c_unbal c = false /\ c_has_id c = true /\ valid_panel d /\
    In z (d_groups (build_did_data c out)) /\
    forall p, In p (d_times (build_did_data c out)) -> (z - c_ant c <= p)%Z.
Proof. exact base_period_refuted. Qed.
Print Assumptions C07_base_period_refuted.

(** C08. Without never-treated units the last cohort [z] is re-labelled ('nevertreated' only) and exactly
    the periods from z - anticipation on disappear. *)
Theorem C08_control_group_construction :
  forall c l z, no_never l -> latest_cohort l z ->
    forall r, In r (control_creator c l) <->
      exists r0, In r0 l /\ (r_t r0 < z - c_ant c)%Z /\
        r_id r = r_id r0 /\ r_t r = r_t r0 /\ r_y r = r_y r0 /\ r_w r = r_w r0 /\ r_x r = r_x r0 /\
        ((c_never c = true /\ r_g r0 = Fin z /\ r_g r = Inf) \/
         ((c_never c = false \/ r_g r0 <> Fin z) /\ r_g r = r_g r0)).
Proof. exact control_group_construction. Qed.
Print Assumptions C08_control_group_construction.

Theorem C08_never_treated_data_untouched :
  forall c l r, In r l -> r_g r = Inf -> control_creator c l = l.
Proof. exact control_untouched. Qed.
Print Assumptions C08_never_treated_data_untouched.

(** End to end: an observation labelled never-treated whose user-given cohort lies within the sample
    is always earlier than that cohort minus the anticipation window. *)
Theorem C08_relabelled_units_never_observed_treated :
  forall c d out r m, did_pipeline c d = Some out -> In r out -> last_period_of (clean c d) m -> r_g r = Inf ->
    exists q g, In q d /\ raw_t q = Some (r_t r) /\ raw_y q = Some (r_y r) /\
      (c_has_id c = true -> raw_id q = Some (r_id r)) /\ raw_g q = Some g /\
      (g = Inf \/ g = Fin 0 \/ exists z, g = Fin z /\ ((m < z)%Z \/ (r_t r < z - c_ant c)%Z)).
Proof. exact relabelled_never_treated. Qed.
Print Assumptions C08_relabelled_units_never_observed_treated.

(** C09. Balancing keeps exactly the rows of units observed in every period. *)
Theorem C09_balance_exact :
  forall c l out, c_panel c = true -> c_unbal c = false -> c_has_id c = true ->
    NoDup (map (fun r => (r_id r, r_t r)) l) -> balance c l = Some out ->
    (exists keep, out = filter keep l) /\
    (forall r, In r out <-> In r l /\ observed_always l (r_id r)) /\
    (forall r, In r out -> observed_always out (r_id r)) /\
    tlist out = tlist l /\
    length out = (length (zuniq (map r_id out)) * length (tlist out))%nat /\
    balance c out = Some out.
Proof. exact balance_exact. Qed.
Print Assumptions C09_balance_exact.

(** It fails (ValueError) exactly when no unit is observed in every period. *)
Theorem C09_balance_error :
  forall c l, c_panel c = true -> c_unbal c = false -> c_has_id c = true ->
    NoDup (map (fun r => (r_id r, r_t r)) l) ->
    (balance c l = None <-> forall r, In r l -> ~ observed_always l (r_id r)).
Proof. exact balance_error. Qed.
Print Assumptions C09_balance_error.

Theorem C09_pipeline_output_is_balanced :
  forall c d out, c_panel c = true -> c_unbal c = false -> c_has_id c = true ->
    valid_panel d -> did_pipeline c d = Some out -> balanced_panel out.
Proof. exact pipeline_balanced. Qed.
Print Assumptions C09_pipeline_output_is_balanced.

(** C10. Position [j] means the same unit in every tensor. *)
Theorem C10_tensor_alignment :
  forall c d out (b := build_did_data c out),
  c_panel c = true -> c_unbal c = false -> c_has_id c = true ->
  valid_panel d -> did_pipeline c d = Some out ->
  length (d_units b) = d_ids b /\ length (d_weights b) = d_ids b /\
  exists Y X, d_outcomes b = Some Y /\ d_covs b = Some X /\ length Y = length (d_times b) /\ length X = length (d_times b) /\
  (forall i, (i < length (d_times b))%nat -> length (nth i Y []) = d_ids b /\ length (nth i X []) = d_ids b) /\
  forall i j, (i < length (d_times b))%nat -> (j < d_ids b)%nat ->
    exists r, In r out /\ r_t r = nth i (d_times b) 0%Z /\
      r_id r = r_id (nth j (d_units b) drow0) /\ r_g r = r_g (nth j (d_units b) drow0) /\
      nth j (nth i Y []) 0 = r_y r /\ nth j (nth i X []) [] = 1 :: r_x r /\
      (i = 0%nat -> nth j (d_weights b) 0 = r_w r).
Proof. exact alignment. Qed.
Print Assumptions C10_tensor_alignment.

(** The processed data do not depend on the row order of the input (weights aside, which are a mean
    over the same rows). *)
Theorem C10_row_order_irrelevant :
  forall c d d' out, c_panel c = true -> c_unbal c = false -> c_has_id c = true -> valid_panel d ->
    Permutation d d' -> did_pipeline c d = Some out -> did_pipeline c d' = Some out.
Proof. exact row_order_irrelevant. Qed.
Print Assumptions C10_row_order_irrelevant.

(** A concrete panel that meets the hypotheses: 3 complete units, one incomplete, one early. *)
Example C06_C10_witness :
  let c := {| c_panel := true; c_unbal := false; c_has_id := true; c_has_w := true; c_never := true; c_ant := 0 |} in
  let q i t g y := {| raw_id := Some i; raw_t := Some t; raw_g := Some g; raw_y := Some (qz y); raw_w := Some 1; raw_x := [Some (qz i)] |} in
  let d := [q 3 2 (Fin 2) 5; q 3 1 (Fin 2) 4; q 1 1 (Fin 0) 1; q 1 2 (Fin 0) 2; q 7 1 (Fin 9) 3; q 7 2 (Fin 9) 3;
            q 8 1 (Fin 2) 0; q 9 1 (Fin 1) 0; q 9 2 (Fin 1) 0]%Z in
  exists out, did_pipeline c d = Some out /\ map gid out = [(Fin 2, 3); (Inf, 1); (Inf, 7); (Fin 2, 3); (Inf, 1); (Inf, 7)]%Z.
Proof. eexists. split; [vm_compute; reflexivity|]. reflexivity. Qed.
