(** Specification vocabulary for C111 (several control cohorts). *)
From Verif Require Import Base ReduceModel PreprocessModel DrdidModel DrdidSpec DddModel DddMpModel DistDidModel DistDidSpec DistDddModel DistDddSpec.

(** The pooled sample of one control cohort: the units of cohort g and of cohort c. *)
Definition control_sample (g : Z) (c : grp) (rows : list mrow) : list tunit :=
  map (dist_unit g) (filter (fun r => grp_eqb (m_g r) (Fin g) || grp_eqb (m_g r) c) rows).
(** The local triple-difference estimator on the pooled sample of cohort c: estimate and influence value of every unit. *)
Definition local_control (o : oracle) (k : nat) (m : emethod) (g : Z) (rows : list mrow) (c : grp) (r : Qc * list (Z * Qc)) : Prop :=
  exists a3 a2 a1 inf, ddd_panel o k m (control_sample g c rows) = TEst (fst r) a3 a2 a1 inf /\
    snd r = combine (map t_id (control_sample g c rows)) inf.
(** Cohort c is visible in the first partition: that partition has a row of cohort g or of cohort c. *)
Definition in_first (g : Z) (parts : list (list mrow)) (c : grp) : bool :=
  existsb (fun r => grp_eqb (m_g r) (Fin g) || grp_eqb (m_g r) c) (hd [] parts).
(** The distributed logit fits agree with the local ones and nothing is clipped (no condition for "reg"). *)
Definition scores_ready (o : oracle) (od : dist_oracle) (k : nat) (m : emethod) (g : Z) (parts : list (list mrow)) (c : grp) : Prop :=
  m = Reg \/ same_ddd_scores o od (map (control_sample g c) parts) /\ unclipped o k (control_sample g c (concat parts)).
(** The cell reported from the estimates of the control cohorts: the GMM combination over the units of the cell, and the influence
    value of every unit of the panel, times n_units / n_cell. *)
Definition gmm_report (q : gmm_oracle) (ids cell_ids : list Z) (rs : list (Qc * list (Z * Qc))) : multi_result :=
  let '(att, inf, se2) := gmm_aggregate q (length ids) (map fst rs) (map (fun r => place cell_ids (snd r)) rs) in
  ZDone att (place ids (combine cell_ids inf)) (Some se2).
