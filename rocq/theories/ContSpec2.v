(** Specification vocabulary for the continuous-treatment estimators, second part (C99, C101-C103). *)
From Verif Require Import Base ReduceModel DrdidModel DrdidSpec SplineSpec ContModel ContSpec.

(** The same panel with every dose multiplied by [c], and the evaluation doses (if given) with it. *)
Definition rescale_dose (c : Qc) (u : cunit) : cunit := {| k_id := k_id u; k_g := k_g u; k_dose := c * k_dose u; k_w := k_w u; k_y := k_y u |}.
Definition rescale_grid (c : Qc) (o : copts) : copts :=
  {| co_nyt := co_nyt o; co_ant := co_ant o; co_univ := co_univ o; co_deg := co_deg o; co_nknots := co_nknots o; co_dvals := option_map (map (fun x => c * x)) (co_dvals o) |}.
(** The same panel with outcomes multiplied by [a], plus unit and period constants. *)
Definition transform_y (a : Qc) (al de : Z -> Qc) (u : cunit) : cunit :=
  {| k_id := k_id u; k_g := k_g u; k_dose := k_dose u; k_w := k_w u; k_y := fun t => a * k_y u t + al (k_id u) + de t |}.
(** The same options with evaluation doses [d]. *)
Definition at_doses (o : copts) (d : list Qc) : copts :=
  {| co_nyt := co_nyt o; co_ant := co_ant o; co_univ := co_univ o; co_deg := co_deg o; co_nknots := co_nknots o; co_dvals := Some d |}.

Definition times (p : Qc) (l : list Qc) : list Qc := map (fun x => p * x) l.
(** Two runs end the same way, and if with estimates, related by [R]. *)
Definition runs (R : cont_result -> cont_result -> Prop) (a b : cont_out) : Prop :=
  match a, b with
  | ContOk r, ContOk r' => R r r' | ContRaise, ContRaise => True | ContUnmodelled, ContUnmodelled => True | _, _ => False
  end.
(** Level estimates and their dose influence multiplied by [p], slopes and theirs by [q]. *)
Definition scaled (p q : Qc) (r r' : cont_result) : Prop :=
  r_weights r' = r_weights r /\ r_att r' = p * r_att r /\ r_acrt r' = q * r_acrt r /\
  r_att_d r' = option_map (times p) (r_att_d r) /\ r_acrt_d r' = option_map (times q) (r_acrt_d r) /\
  r_acrt_inf r' = times q (r_acrt_inf r) /\
  r_att_d_inf r' = map (times p) (r_att_d_inf r) /\ r_acrt_d_inf r' = map (times q) (r_acrt_d_inf r).

(** Interior knots in use: quantiles of the positive doses of post-treatment rows. *)
Definition knots_used (o : copts) (T : nat) (us : list cunit) : list Qc := choose_knots (positive_doses (rows T us)) (co_nknots o).

(** [u'] is [u] except possibly for its outcomes from period [s] on, if it belongs to cohort [h]. *)
Definition same_before (h s : Z) (u u' : cunit) : Prop :=
  k_id u' = k_id u /\ k_g u' = k_g u /\ k_dose u' = k_dose u /\ k_w u' = k_w u /\
  forall t, (k_g u = Some h /\ (s <= t)%Z) \/ k_y u' t = k_y u t.
(** Calendar and cohorts moved by [k] periods. *)
Definition shift_rows (k : Z) (l : list crow) : list crow :=
  map (fun r => {| c_id := c_id r; c_t := (c_t r + k)%Z; c_g := option_map (Z.add k) (c_g r); c_d := c_d r; c_y := c_y r; c_w := c_w r |}) l.
(** What an influence function gives for the sampling variance: (1/n^2) times its sum of squares. *)
Definition inf_var (l : list Qc) : Qc := sumf (fun x => x * x) l / (qn (length l) * qn (length l)).
