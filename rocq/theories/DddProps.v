(** C53-C56: two-period triple differences (panel). *)
From Verif Require Import Base ListLib ReduceModel Calc DrdidModel DrdidSpec DrdidProofs DrdidWitness DrdidWitness2 Witness DddModel DddSpec DddProofs DddProofs2 DddProofs3 DddProofs4 DddProofs5 DddWitness.

(** * C53. What is estimated. *)
(** The reported ATT is (4 vs 3) + (4 vs 2) - (4 vs 1), and each of the three reported comparisons is what the two-group estimator of
    the same est_method returns on the units of the two subgroups alone. *)
Theorem C53_three_comparisons : forall o k m l att a3 a2 a1 inf, inv_ok o k -> wls_ok o k -> fits_scale_free o ->
  (m = Reg -> t_intercept k l) -> (forall c, In c [3; 2; 1]%Z -> scores_interior o k m (pair_units c l)) ->
  ddd_panel o k m l = TEst att a3 a2 a1 inf ->
  forall b3 j3 b2 j2 b1 j1, two_group o k m (pair_units 3 l) = PEst b3 j3 -> two_group o k m (pair_units 2 l) = PEst b2 j2 ->
    two_group o k m (pair_units 1 l) = PEst b1 j1 -> a3 = b3 /\ a2 = b2 /\ a1 = b1 /\ att = b3 + b2 - b1.
Proof.
  intros o k m l att a3 a2 a1 inf IO WO FS RI SI E b3 j3 b2 j2 b1 j1 T3 T2 T1.
  destruct (ddd_two_group o k m l att a3 a2 a1 inf IO WO FS RI SI E b3 j3 b2 j2 b1 j1 T3 T2 T1) as [A [B [C [D _]]]]. auto.
Qed.
Print Assumptions C53_three_comparisons.
(** Intercept only: the triple difference of weighted mean outcome changes, whatever the method. *)
Theorem C53_no_covariates : forall o m l att a3 a2 a1 inf, (forall u, In u l -> t_x u = [1]) -> ddd_panel o 1 m l = TEst att a3 a2 a1 inf ->
  let d := fun s => sub_mean s t_dy l in
  att = (d 4%Z - d 3%Z) - (d 2%Z - d 1%Z) /\ a3 = d 4%Z - d 3%Z /\ a2 = d 4%Z - d 2%Z /\ a1 = d 4%Z - d 1%Z.
Proof. exact ddd_no_cov. Qed.
Print Assumptions C53_no_covariates.
(** No estimate without units (of positive total weight) in each of the four subgroups; a negative weight or a code other than
    1, 2, 3, 4 raises. *)
Theorem C53_all_subgroups_needed : forall o k m l att a3 a2 a1 inf, ddd_panel o k m l = TEst att a3 a2 a1 inf ->
  (forall s, In s [1; 2; 3; 4]%Z -> 0 < sub_weight s l) /\ (forall u, In u l -> 0 <= t_w u) /\ (forall u, In u l -> In (t_sg u) [1; 2; 3; 4]%Z).
Proof.
  intros o k m l att a3 a2 a1 inf E. split; [exact (ddd_all_subgroups o k m l att a3 a2 a1 inf E)|]. apply ddd_inv in E. destruct E as [W [SG _]]. split; [exact W|].
  intros u Hu. specialize (SG u Hu). unfold sg_ok in SG. cbn.
  destruct (Z.eqb_spec (t_sg u) 1); [auto|]. destruct (Z.eqb_spec (t_sg u) 2); [auto|]. destruct (Z.eqb_spec (t_sg u) 3); [auto|]. destruct (Z.eqb_spec (t_sg u) 4); [auto|discriminate].
Qed.
Print Assumptions C53_all_subgroups_needed.
Example C53_case : forall m, inv_ok wit_oracle 2 /\ wls_ok wit_oracle 2 /\ fits_scale_free wit_oracle /\ t_intercept 2 t_units /\
  (forall c, In c [3; 2; 1]%Z -> scores_interior wit_oracle 2 m (pair_units c t_units)) /\
  forallb (fun c => is_est (two_group wit_oracle 2 m (pair_units c t_units))) [3; 2; 1]%Z && is_test (ddd_panel wit_oracle 2 m t_units) = true.
Proof. intros m. exact (conj wit_inv_ok (conj wit_wls_ok (conj wit_scale_free (conj t_wit_intercept (conj (t_wit_interior m) (t_wit_two_group m)))))). Qed.
Example C53_case_no_covariates : forall m, match ddd_panel wit_oracle3 1 m t_flat with TEst a _ _ _ _ => Qceqb a (sub_mean 4 t_dy t_flat - sub_mean 3 t_dy t_flat - (sub_mean 2 t_dy t_flat - sub_mean 1 t_dy t_flat)) && negb (Qceqb a 0) | _ => false end = true.
Proof. destruct m; vm_compute; reflexivity. Qed.

(** * C54. Shocks that the triple difference removes. *)
(** Multiply outcomes by c; shift unit levels arbitrarily; shift the post period by g for all, by a for the treated states, by b for
    the eligible, by tau for the treated-eligible: the estimate becomes c * att + tau. *)
Theorem C54_shocks : forall o k m l c g a b tau f att a3 a2 a1 inf att' a3' a2' a1' inf',
  logit_blind o -> (m <> Ipw -> wls_ok o k /\ ddd_no_collinearity k l /\ t_intercept k l) ->
  ddd_panel o k m l = TEst att a3 a2 a1 inf -> ddd_panel o k m (map (shocked c g a b tau f) l) = TEst att' a3' a2' a1' inf' ->
  att' = c * att + tau /\ inf' = map (fun v => c * v) inf.
Proof. intros o k m l c g a b tau f att a3 a2 a1 inf att' a3' a2' a1' inf'. apply ddd_shock. Qed.
Print Assumptions C54_shocks.
Example C54_case : forall m, logit_blind wit_oracle /\ wls_ok wit_oracle 2 /\ ddd_no_collinearity 2 t_units /\ t_intercept 2 t_units /\
  is_test (ddd_panel wit_oracle 2 m t_units) = true /\
  is_test (ddd_panel wit_oracle 2 m (map (shocked (qz 3) (qz 5) (qz 2) (qz 7) (qz 4) t_lvl) t_units)) = true.
Proof.
  intros m. split; [exact wit_blind|]. split; [exact wit_wls_ok|]. split; [exact t_wit_nc|]. split; [exact t_wit_intercept|].
  split; [|exact (t_wit_shock m)]. destruct m; vm_compute; reflexivity.
Qed.

(** * C55. The influence function. *)
Theorem C55_centred : forall o k m l att a3 a2 a1 inf, wls_ok o k -> (m = Reg \/ ddd_scores o k l) -> ddd_panel o k m l = TEst att a3 a2 a1 inf ->
  length inf = length l /\ qsum inf = 0.
Proof. exact ddd_centred. Qed.
Print Assumptions C55_centred.
(** Multiply the weight of each unit u by 1 + e * h u and re-run: the estimate is differentiable in e at 0, with derivative the sample
    average of h times the reported influence values. *)
Theorem C55_inf_is_derivative : forall o k m l h att a3 a2 a1 inf, inv_ok o k -> wls_ok o k -> fits_scale_free o -> (m = Reg -> t_intercept k l) ->
  (m <> Reg -> forall c, In c [3; 2; 1]%Z -> smooth_logit o k trim995 (pair_units c l) (fun p => h (un_pair c p))) ->
  ddd_panel o k m l = TEst att a3 a2 a1 inf ->
  near0 (fun e => ddd_has_est (ddd_panel o k m (map (t_reweight e h) l)) /\
    forall c, In c [3; 2; 1]%Z -> has_est (two_group o k m (pair_units c (map (t_reweight e h) l)))) ->
  derivative_at_0 (fun e => ddd_att_of (ddd_panel o k m (map (t_reweight e h) l))) (t_avg_with h l inf).
Proof. exact ddd_derivative. Qed.
Print Assumptions C55_inf_is_derivative.
Example C55_case_centred : wls_ok wit_oracle 2 /\ ddd_scores wit_oracle 2 t_units /\ forall m, is_test (ddd_panel wit_oracle 2 m t_units) = true.
Proof. split; [exact wit_wls_ok|]. split; [exact t_wit_scores|]. destruct m; vm_compute; reflexivity. Qed.
(** eight units, intercept only: all hypotheses hold for every method and every direction h, and the derivative is not zero *)
Example C55_case_derivative : forall m h, inv_ok wit_oracle3 1 /\ wls_ok wit_oracle3 1 /\ fits_scale_free wit_oracle3 /\ t_intercept 1 t_flat /\
  (m <> Reg -> forall c, In c [3; 2; 1]%Z -> smooth_logit wit_oracle3 1 trim995 (pair_units c t_flat) (fun p => h (un_pair c p))) /\
  near0 (fun e => ddd_has_est (ddd_panel wit_oracle3 1 m (map (t_reweight e h) t_flat)) /\
    forall c, In c [3; 2; 1]%Z -> has_est (two_group wit_oracle3 1 m (pair_units c (map (t_reweight e h) t_flat)))).
Proof.
  intros m h. split; [exact wit3_inv_ok|]. split; [exact wit3_wls_ok|]. split; [exact scale_free3|]. split.
  - split; [lia|]. intros u Hu. cbn in Hu. repeat (destruct Hu as [<-|Hu]; [reflexivity|]). destruct Hu.
  - split; [exact (t_flat_smooth m h)|exact (t_flat_est m h)].
Qed.
Definition first_unit (u : tunit) : Qc := if (t_id u =? 1)%Z then 1 else 0.
Example C55_case_value : forall m, match ddd_panel wit_oracle3 1 m t_flat with TEst _ _ _ _ inf => negb (Qceqb (t_avg_with first_unit t_flat inf) 0) | _ => false end = true.
Proof. destruct m; vm_compute; reflexivity. Qed.

(** * C56. Weight scale and unit order. *)
Theorem C56_weight_scale : forall o k m l c, 0 < c -> ddd_panel o k m (map (t_scale_w c) l) = ddd_panel o k m l.
Proof. exact ddd_scale. Qed.
Print Assumptions C56_weight_scale.
Theorem C56_unit_order : forall o k m l l', fits_symmetric o -> Permutation l l' -> same_ddd l l' (ddd_panel o k m l) (ddd_panel o k m l').
Proof. exact ddd_perm. Qed.
Print Assumptions C56_unit_order.
Example C56_case : fits_symmetric wit_oracle /\ Permutation t_units (rev t_units) /\ forall m, is_test (ddd_panel wit_oracle 2 m (rev t_units)) = true /\
  is_test (ddd_panel wit_oracle 2 m (map (t_scale_w (qz 5)) t_units)) = true.
Proof. split; [exact wit_symmetric|]. split; [apply Permutation_rev|]. destruct m; split; vm_compute; reflexivity. Qed.
