(** C117-C118: two-way fixed effects regressions (twfe_did_panel, twfe_did_rc). *)
From Coq Require Import Qcabs.
From Verif Require Import Base ListLib ReduceModel Calc DrdidModel DrdidSpec DrdidProofs DrdidProofs2 DrdidProofs3 DrdidProofs5 DrdidWitness DrdidWitness2 Witness RcModel RcSpec TwfeModel TwfeSpec TwfeProofs TwfeProofs2 TwfeProofs3 TwfeWitness.
Notation est r := (is_est r = true).
Definition inf_of (r : pan_result) : list Qc := match r with PEst _ i => i | _ => nil end.

(** * C117. Panel data. *)
(** Whatever the covariates, the estimate is the unadjusted comparison of mean changes: time-constant covariates do not matter. *)
Theorem C117_covariates_do_not_matter : forall o p l att inf, (0 < p)%nat -> no_leading_ones l -> (exists u, In u l /\ p_d u = true) ->
  wls_ok o (4 + p) -> inv_ok o (4 + p) -> twfe_did_panel o p l = PEst att inf -> att = plain_did l.
Proof. intros o p l att inf Hp HX HT WO IO E. exact (panel_att o p l att inf Hp HX HT WO IO E). Qed.
Print Assumptions C117_covariates_do_not_matter.
Theorem C117_without_covariates : forall o l att inf, wls_ok o 1 -> inv_ok o 1 -> twfe_did_panel o 0 l = PEst att inf -> att = plain_did l.
Proof. exact panel_nocov. Qed.
Print Assumptions C117_without_covariates.
(** Hence the call with covariates and the call without report one estimate. *)
Corollary C117_same_estimate : forall o o' p l att inf att' inf', (0 < p)%nat -> no_leading_ones l -> (exists u, In u l /\ p_d u = true) ->
  wls_ok o (4 + p) -> inv_ok o (4 + p) -> wls_ok o' 1 -> inv_ok o' 1 ->
  twfe_did_panel o p l = PEst att inf -> twfe_did_panel o' 0 l = PEst att' inf' -> att = att'.
Proof. intros. rewrite (C117_covariates_do_not_matter o p l att inf) by assumption. symmetry. apply (C117_without_covariates o' l att' inf'); assumption. Qed.
Print Assumptions C117_same_estimate.
(** A leading column of ones changes nothing. *)
Theorem C117_leading_ones : forall o p l, (p = 0%nat \/ no_leading_ones l) -> twfe_did_panel o (S p) (map with_ones l) = twfe_did_panel o p l.
Proof. exact panel_ones. Qed.
Print Assumptions C117_leading_ones.
(** With covariates there are two influence values per unit, one per stacked row; they sum to zero, and a unit's two values average to
    its influence on the unadjusted comparison. *)
Theorem C117_influence : forall o p l att inf, (0 < p)%nat -> no_leading_ones l -> (exists u, In u l /\ p_d u = true) ->
  wls_ok o (4 + p) -> inv_ok o (4 + p) -> twfe_did_panel o p l = PEst att inf ->
  exists f g, inf = map f l ++ map g l /\ qsum inf = 0 /\ forall u, In u l -> (f u + g u) / (1 + 1) = did_influence l u.
Proof. intros o p l att inf Hp HX HT WO IO E. exact (panel_inf o p l att inf Hp HX HT WO IO E). Qed.
Print Assumptions C117_influence.
Lemma se2_centred inf : qsum inf = 0 -> se2 inf = sumf (fun v => v * v) inf / ((qn (length inf) - 1) * qn (length inf)).
Proof.
  intros C. unfold se2. cbn zeta. rewrite C. rewrite (sumf_ext _ (fun v => v * v)); [|intros v _; unfold Qcdiv; ring]. unfold Qcdiv. rewrite Qcinv_mult_distr. ring.
Qed.
(** The squared standard error reported with [n] units is the sum of the squares of the 2n influence values over (2n - 1) 2n. *)
Theorem C117_standard_error : forall o p l att inf, (0 < p)%nat -> no_leading_ones l -> (exists u, In u l /\ p_d u = true) ->
  wls_ok o (4 + p) -> inv_ok o (4 + p) -> twfe_did_panel o p l = PEst att inf ->
  se2 inf = sumf (fun v => v * v) inf / ((qn (2 * length l) - 1) * qn (2 * length l)).
Proof.
  intros o p l att inf Hp HX HT WO IO E. destruct (panel_inf o p l att inf Hp HX HT WO IO E) as [f [g [-> [C _]]]]. rewrite (se2_centred _ C), app_length, !map_length.
  replace (length l + length l)%nat with (2 * length l)%nat by lia. reflexivity.
Qed.
Print Assumptions C117_standard_error.
(** The standard error treats the two rows of a unit as independent observations: it is positive where every unit's influence value is
    zero, and it moves when each unit's two outcomes are shifted by a constant of its own, which changes no outcome change. *)
Theorem C117_standard_error_refuted : exists att inf inf',
  twfe_did_panel (wit_twfe 5) 1 wit_tf = PEst att inf /\ (forall u, In u wit_tf -> did_influence wit_tf u = 0) /\ 0 < se2 inf /\
  twfe_did_panel (wit_twfe 5) 1 (map (add_level (fun i => if (i =? 1)%Z then qz 10 else 0)) wit_tf) = PEst att inf' /\ se2 inf' <> se2 inf.
Proof.
  assert (E1 : est (twfe_did_panel (wit_twfe 5) 1 wit_tf)) by (vm_compute; reflexivity).
  assert (E2 : est (twfe_did_panel (wit_twfe 5) 1 (map (add_level (fun i => if (i =? 1)%Z then qz 10 else 0)) wit_tf))) by (vm_compute; reflexivity).
  assert (V1 : Qceqb (att_of (twfe_did_panel (wit_twfe 5) 1 (map (add_level (fun i => if (i =? 1)%Z then qz 10 else 0)) wit_tf))) (att_of (twfe_did_panel (wit_twfe 5) 1 wit_tf)) = true) by (vm_compute; reflexivity).
  assert (V2 : Qcltb 0 (se2 (inf_of (twfe_did_panel (wit_twfe 5) 1 wit_tf))) = true) by (vm_compute; reflexivity).
  assert (V3 : Qceqb (se2 (inf_of (twfe_did_panel (wit_twfe 5) 1 (map (add_level (fun i => if (i =? 1)%Z then qz 10 else 0)) wit_tf)))) (se2 (inf_of (twfe_did_panel (wit_twfe 5) 1 wit_tf))) = false) by (vm_compute; reflexivity).
  destruct (twfe_did_panel (wit_twfe 5) 1 wit_tf) as [| | |a1 i1]; try discriminate E1.
  destruct (twfe_did_panel (wit_twfe 5) 1 (map (add_level (fun i => if (i =? 1)%Z then qz 10 else 0)) wit_tf)) as [| | |a2 i2]; try discriminate E2.
  cbn [att_of inf_of] in *. apply Qceqb_eq in V1. subst a2. exists a1, i1, i2. split; [reflexivity|]. split; [|split; [|split; [reflexivity|]]].
  - intros u H. cbn in H. repeat (destruct H as [<-|H]; [apply Qc_is_canon; vm_compute; reflexivity|]). destruct H.
  - destruct (Qcltb_spec 0 (se2 i1)); [assumption|discriminate].
  - destruct (Qceqb_spec (se2 i2) (se2 i1)); [discriminate|assumption].
Qed.
Print Assumptions C117_standard_error_refuted.
(** A sample without treated units: 0 with zero influence values (so standard error 0) with covariates, an exception without. *)
Theorem C117_no_treated_refuted : forall o p l, (0 < p)%nat -> no_leading_ones l -> any_neg l = false -> (forall u, In u l -> p_d u = false) ->
  twfe_did_panel o p l = PEst 0 (map (fun _ => 0) (stack l)) /\ twfe_did_panel o 0 l = PRaise.
Proof. exact panel_no_treated. Qed.
Print Assumptions C117_no_treated_refuted.
Example C117_case : est (twfe_did_panel (wit_twfe 5) 1 wit_tp) /\ est (twfe_did_panel wit_oracle1 0 wit_tp) /\ no_leading_ones wit_tp /\ (exists u, In u wit_tp /\ p_d u = true) /\
  wls_ok (wit_twfe 5) 5 /\ inv_ok (wit_twfe 5) 5 /\ wls_ok wit_oracle1 1 /\ inv_ok wit_oracle1 1 /\
  Qceqb (plain_did wit_tp) 0 = false /\ any_neg (filter (fun u => negb (p_d u)) wit_tp) = false /\ no_leading_ones (filter (fun u => negb (p_d u)) wit_tp).
Proof.
  split; [vm_compute; reflexivity|]. split; [vm_compute; reflexivity|]. split; [exists (mkt 1 false 3 1 2 0); split; [left; reflexivity|discriminate]|].
  split; [exists (mkt 3 true 9 2 1 0); split; [right; right; left; reflexivity|reflexivity]|]. split; [apply wit_twfe_wls|]. split; [apply wit_twfe_inv|]. split; [exact wit1_wls_ok|]. split; [exact wit1_inv_ok|].
  split; [vm_compute; reflexivity|]. split; [vm_compute; reflexivity|]. exists (mkt 1 false 3 1 2 0); split; [left; reflexivity|discriminate].
Qed.

(** * C118. Repeated cross-sections. *)
(** The estimate is the four-cell comparison of the outcome minus its covariate part, whose coefficients are those of the pooled
    least squares within cells; without covariates it is the comparison of cell means. *)
Theorem C118_four_cells : forall o p l att inf, (p = 0%nat \/ rno_leading_ones l) -> wls_ok o (4 + p) -> inv_ok o (4 + p) ->
  twfe_did_rc o p l = PEst att inf ->
  exists gamma, att = four_cells_of (fun u => r_y u - dotk p (r_x u) gamma) l /\
  forall j, (j < p)%nat -> sumf (fun u => r_w u * rx_at u j * (r_y u - dotk p (r_x u) gamma - cell_mean (r_d u) (r_post u) (fun v => r_y v - dotk p (r_x v) gamma) l)) l = 0.
Proof. intros o p l att inf HX WO IO E. exact (rc_value o p l att inf HX WO IO E). Qed.
Print Assumptions C118_four_cells.
Theorem C118_no_covariates : forall o l att inf, wls_ok o 4 -> inv_ok o 4 -> twfe_did_rc o 0 l = PEst att inf -> att = four_cells l.
Proof.
  intros o l att inf WO IO E. destruct (C118_four_cells o 0 l att inf (or_introl eq_refl) WO IO E) as [g [-> _]]. unfold four_cells_of, four_cells.
  assert (X : forall b t, cell_mean b t (fun u => r_y u - dotk 0 (r_x u) g) l = cell_mean b t r_y l).
  { intros b t. unfold cell_mean. f_equal. apply sumf_ext. intros u _. unfold dotk. cbn [seq]. rewrite sumf_nil. ring. }
  rewrite !X. reflexivity.
Qed.
Print Assumptions C118_no_covariates.
Theorem C118_leading_ones : forall o p l, (p = 0%nat \/ rno_leading_ones l) -> twfe_did_rc o (S p) (map rwith_ones l) = twfe_did_rc o p l.
Proof. exact rc_ones. Qed.
Print Assumptions C118_leading_ones.
(** Influence values: one per row, summing to zero, and equal to the derivative of the estimate in the row weights. *)
Theorem C118_influence_centred : forall o p l att inf, (p = 0%nat \/ rno_leading_ones l) -> wls_ok o (4 + p) -> inv_ok o (4 + p) ->
  twfe_did_rc o p l = PEst att inf -> length inf = length l /\ qsum inf = 0.
Proof. intros o p l att inf HX WO IO E. exact (rc_centred o p l att inf HX WO IO E). Qed.
Print Assumptions C118_influence_centred.
Theorem C118_standard_error : forall o p l att inf, (p = 0%nat \/ rno_leading_ones l) -> wls_ok o (4 + p) -> inv_ok o (4 + p) ->
  twfe_did_rc o p l = PEst att inf -> se2 inf = sumf (fun v => v * v) inf / ((qn (length l) - 1) * qn (length l)).
Proof. intros o p l att inf HX WO IO E. destruct (rc_centred o p l att inf HX WO IO E) as [L C]. rewrite (se2_centred _ C), L. reflexivity. Qed.
Print Assumptions C118_standard_error.
Theorem C118_influence_is_derivative : forall o p l h att inf, (p = 0%nat \/ rno_leading_ones l) -> wls_ok o (4 + p) -> inv_ok o (4 + p) ->
  twfe_did_rc o p l = PEst att inf -> near0 (fun e => has_est (twfe_did_rc o p (map (rreweight e h) l))) ->
  derivative_at_0 (fun e => att_of (twfe_did_rc o p (map (rreweight e h) l))) (ravg_with h l inf).
Proof. exact rc_derivative. Qed.
Print Assumptions C118_influence_is_derivative.
Theorem C118_weight_scale : forall o p l c, 0 < c -> twfe_did_rc o p (map (rscale_w c) l) = twfe_did_rc o p l /\
  forall l', twfe_did_panel o p (map (scale_w c) l') = twfe_did_panel o p l'.
Proof. exact twfe_scale. Qed.
Print Assumptions C118_weight_scale.
Example C118_case : est (twfe_did_rc wit_sat 0 wit_tr) /\ wls_ok wit_sat 4 /\ inv_ok wit_sat 4 /\ near0 (fun e => has_est (twfe_did_rc wit_sat 0 (map (rreweight e wit_th) wit_tr))) /\
  Qceqb (ravg_with wit_th wit_tr (inf_of (twfe_did_rc wit_sat 0 wit_tr))) 0 = false /\
  est (twfe_did_rc (wit_twfe 5) 1 wit_trx) /\ wls_ok (wit_twfe 5) 5 /\ inv_ok (wit_twfe 5) 5 /\ rno_leading_ones wit_trx /\
  Qceqb (att_of (twfe_did_rc (wit_twfe 5) 1 wit_trx)) (four_cells wit_trx) = false.
Proof.
  split; [vm_compute; reflexivity|]. split; [exact wit_sat_wls|]. split; [exact wit_sat_inv|]. split; [exact wit_tr_est|]. split; [vm_compute; reflexivity|]. split; [vm_compute; reflexivity|].
  split; [apply wit_twfe_wls|]. split; [apply wit_twfe_inv|]. split; [|vm_compute; reflexivity]. eexists. split; [left; reflexivity|discriminate].
Qed.
