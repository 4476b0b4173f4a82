(** C121-C122: the improved doubly robust estimators for repeated cross-sections (drdid_imp_rc, drdid_imp_local_rc). *)
From Verif Require Import Base ListLib ReduceModel Calc DrdidModel DrdidSpec DrdidProofs DrdidProofs8 DrdidWitness DrdidWitness2 Witness RcModel RcSpec RcProofs RcProofs2 RcProofs3 RcProofs4 RcProofs9 RcWitness RcWitness2 RcProps
  DddRcWitness3 ImpRcModel ImpRcSpec ImpRcProofs ImpRcProofs2 ImpRcProofs3 ImpRcProofs4 ImpRcWitness.

(** * C121: what the improved estimates are *)
(** Without covariates both are the comparison of the four weighted cell means. *)
Theorem C121_no_covariates : forall o tl l, (forall u, In u l -> r_x u = 1 :: nil) ->
  (forall att inf, drdid_imp_rc o 1 tl l = PEst att inf -> att = four_cells l) /\
  (forall att inf, drdid_imp_local_rc o 1 tl l = PEst att inf -> att = four_cells l).
Proof. intros o tl l HX. split; intros att inf; [exact (nocov_irc l HX o tl att inf)|exact (nocov_ilr l HX o tl att inf)]. Qed.
Print Assumptions C121_no_covariates.
(** The comparison regressions are least squares weighted by sampling weight times odds; the estimates are the documented differences. *)
Theorem C121_estimates_as_means : forall o k tl l att inf, rwls_ok o k ->
  (drdid_imp_rc o k tl l = PEst att inf -> exists gamma b0 b1, ro_logit o (rnormalise l) = Some gamma /\
     let ps := rps_fit (ro_mu o) k gamma in rodds_normal k ps false l b0 /\ rodds_normal k ps true l b1 /\
     att = (cell_mean true true (fun u => r_y u - dotk k (r_x u) b1) l - cell_mean true false (fun u => r_y u - dotk k (r_x u) b0) l)
           - (odds_cell_mean tl ps true (fun u => r_y u - dotk k (r_x u) b1) l - odds_cell_mean tl ps false (fun u => r_y u - dotk k (r_x u) b0) l)) /\
  (drdid_imp_local_rc o k tl l = PEst att inf -> exists gamma c0 c1 t0 t1, ro_logit o (rnormalise l) = Some gamma /\
     let ps := rps_fit (ro_mu o) k gamma in rodds_normal k ps false l c0 /\ rodds_normal k ps true l c1 /\
     rnormal_equations k (cell true false l) t0 /\ rnormal_equations k (cell true true l) t1 /\
     att = (cell_mean true true (fun u => r_y u - dotk k (r_x u) t1) l - cell_mean true false (fun u => r_y u - dotk k (r_x u) t0) l)
           - (odds_cell_mean tl ps true (fun u => r_y u - dotk k (r_x u) c1) l - odds_cell_mean tl ps false (fun u => r_y u - dotk k (r_x u) c0) l)
           + treated_mean (fun u => (dotk k (r_x u) t1 - dotk k (r_x u) c1) - (dotk k (r_x u) t0 - dotk k (r_x u) c0)) l).
Proof. intros o k tl l att inf W. split; intros E; [exact (irc_value o k tl l att inf W E)|exact (ilr_value o k tl l att inf W E)]. Qed.
Print Assumptions C121_estimates_as_means.
(** With an intercept and no row trimmed the comparison residuals average out: the estimates are pure regression imputations. *)
Theorem C121_regression_form : forall o k tl l att inf, rwls_ok o k -> rhas_intercept l -> (1 <= k)%nat ->
  (forall gamma, ro_logit o (rnormalise l) = Some gamma -> runtrimmed tl (rps_fit (ro_mu o) k gamma) l) ->
  (drdid_imp_rc o k tl l = PEst att inf -> exists gamma b0 b1, ro_logit o (rnormalise l) = Some gamma /\
     let ps := rps_fit (ro_mu o) k gamma in rodds_normal k ps false l b0 /\ rodds_normal k ps true l b1 /\
     att = cell_mean true true (fun u => r_y u - dotk k (r_x u) b1) l - cell_mean true false (fun u => r_y u - dotk k (r_x u) b0) l) /\
  (drdid_imp_local_rc o k tl l = PEst att inf -> exists gamma c0 c1 t0 t1, ro_logit o (rnormalise l) = Some gamma /\
     let ps := rps_fit (ro_mu o) k gamma in rodds_normal k ps false l c0 /\ rodds_normal k ps true l c1 /\
     rnormal_equations k (cell true false l) t0 /\ rnormal_equations k (cell true true l) t1 /\
     att = treated_mean (fun u => (dotk k (r_x u) t1 - dotk k (r_x u) c1) - (dotk k (r_x u) t0 - dotk k (r_x u) c0)) l).
Proof. intros o k tl l att inf W I Hk U. split; intros E; [exact (irc_regression o k tl l att inf W I Hk U E)|exact (ilr_regression o k tl l att inf W I Hk U E)]. Qed.
Print Assumptions C121_regression_form.
(** When the comparison outcomes follow the linear model exactly in both periods, the propensity score does not matter. *)
Theorem C121_exact_outcome_model : forall o k tl l s0 s1 att inf, rwls_ok o k -> rno_collinearity k (cell false false l) -> rno_collinearity k (cell false true l) ->
  rexact k false s0 l -> rexact k true s1 l ->
  (drdid_imp_rc o k tl l = PEst att inf ->
     att = cell_mean true true (fun u => r_y u - dotk k (r_x u) s1) l - cell_mean true false (fun u => r_y u - dotk k (r_x u) s0) l) /\
  (rhas_intercept l -> (1 <= k)%nat -> drdid_imp_local_rc o k tl l = PEst att inf -> exists t0 t1,
     rnormal_equations k (cell true false l) t0 /\ rnormal_equations k (cell true true l) t1 /\
     att = treated_mean (fun u => (dotk k (r_x u) t1 - dotk k (r_x u) s1) - (dotk k (r_x u) t0 - dotk k (r_x u) s0)) l).
Proof.
  intros o k tl l s0 s1 att inf W N0 N1 X0 X1. split; [intros E; exact (irc_exact o k tl l s0 s1 att inf W N0 N1 X0 X1 E)|intros I Hk E; exact (ilr_exact o k tl l s0 s1 att inf W N0 N1 X0 X1 I Hk E)].
Qed.
Print Assumptions C121_exact_outcome_model.
(** When the odds weights balance the covariates in each period, the outcome regressions do not matter. *)
Theorem C121_balance : forall o k tl l att inf, rwls_ok o k ->
  (forall gamma t, ro_logit o (rnormalise l) = Some gamma -> rbalanced tl k (rps_fit (ro_mu o) k gamma) t l) ->
  drdid_imp_rc o k tl l = PEst att inf -> exists gamma, ro_logit o (rnormalise l) = Some gamma /\ let ps := rps_fit (ro_mu o) k gamma in
  att = (cell_mean true true r_y l - cell_mean true false r_y l) - (odds_cell_mean tl ps true r_y l - odds_cell_mean tl ps false r_y l).
Proof. exact irc_balance. Qed.
Print Assumptions C121_balance.
(** cases: twelve rows, intercept and one covariate, unequal weights *)
Definition both_imp (o : roracle) (k : nat) (l : list runit) : list pan_result := [drdid_imp_rc o k 1 l; drdid_imp_local_rc o k 1 l].
Example C121_case_no_covariates : forallb is_est (both_imp rwit1 1 rwit_rows1) = true /\ four_cells rwit_rows1 <> 0.
Proof. split; [lazy; reflexivity|]. apply neqb. vm_compute. reflexivity. Qed.
Example C121_case : rwls_ok rwit2 2 /\ rhas_intercept rwit_rows /\ (forall gamma, runtrimmed 1 (rps_fit (ro_mu rwit2) 2 gamma) rwit_rows) /\ forallb is_est (both_imp rwit2 2 rwit_rows) = true.
Proof.
  split; [exact rwit2_wls_ok|]. split; [exact rwit_intercept|]. split; [|lazy; reflexivity].
  intros gamma u _ _. destruct (rps_bounds (ro_mu rwit2) 2 gamma u) as [_ B]. assert (0 < eps6) by reflexivity. qclra.
Qed.
Example C121_case_exact : rexact 2 false (1 :: qz 2 :: nil) rwit_exact /\ rexact 2 true (qz 3 :: qz 5 :: nil) rwit_exact /\ rhas_intercept rwit_exact /\
  map r_x rwit_exact = map r_x rwit_rows /\ forallb is_est (both_imp rwit2 2 rwit_exact) = true.
Proof. destruct C91_exact_case as [A [B [C [D _]]]]. split; [exact A|]. split; [exact B|]. split; [exact C|]. split; [exact D|]. lazy. reflexivity. Qed.
(** balance: a constant score, and the same covariate values with the same weights in the four cells *)
Definition rwit_flat : roracle := {| ro_logit := fun _ => Some (half :: 0 :: nil); ro_mu := fun z => z; ro_wls := ro_wls rwit2; ro_inv := ro_inv rwit2 |}.
Definition rwit_even : list runit := map (rset_w 1) rwit_rows.
Example C121_case_balance : rwls_ok rwit_flat 2 /\ (forall gamma t, ro_logit rwit_flat (rnormalise rwit_even) = Some gamma -> rbalanced 1 2 (rps_fit (ro_mu rwit_flat) 2 gamma) t rwit_even) /\
  forallb is_est (both_imp rwit_flat 2 rwit_even) = true.
Proof.
  split; [exact rwit2_wls_ok|]. split; [|lazy; reflexivity].
  intros gamma t E. injection E as <-. intros j Hj. destruct j as [|[|j]]; [| |lia]; destruct t; apply Qc_is_canon; vm_compute; reflexivity.
Qed.

(** * C122: invariances and influence values *)
Theorem C122_weight_scale : forall o k tl l c, 0 < c ->
  drdid_imp_rc o k tl (map (rscale_w c) l) = drdid_imp_rc o k tl l /\ drdid_imp_local_rc o k tl (map (rscale_w c) l) = drdid_imp_local_rc o k tl l.
Proof. exact imp_rc_scale. Qed.
Print Assumptions C122_weight_scale.
Theorem C122_row_order : forall o k tl l l', rfits_symmetric o -> Permutation l l' ->
  rsame_up_to_order l l' (drdid_imp_rc o k tl l) (drdid_imp_rc o k tl l') /\ rsame_up_to_order l l' (drdid_imp_local_rc o k tl l) (drdid_imp_local_rc o k tl l').
Proof. intros o k tl l l' S P. split; [exact (irc_perm o k tl l l' S P)|exact (ilr_perm o k tl l l' S P)]. Qed.
Print Assumptions C122_row_order.
(** Rescaling the outcome by [c] and adding one constant to all post-period and another to all pre-period outcomes multiplies the estimate
    and every influence value by [c]. *)
Theorem C122_affine_imp : forall o k tl l c a b att inf att' inf', rwls_ok o k -> rlogit_blind o ->
  rno_collinearity k (cell false false l) -> rno_collinearity k (cell false true l) -> rhas_intercept l -> (1 <= k)%nat ->
  drdid_imp_rc o k tl l = PEst att inf -> drdid_imp_rc o k tl (map (raffine_y c a b) l) = PEst att' inf' -> att' = c * att /\ inf' = map (fun v => c * v) inf.
Proof. intros o k tl l c a b att inf att' inf'. apply irc_affine. Qed.
Print Assumptions C122_affine_imp.
Theorem C122_affine_local : forall o k tl l c a b att inf att' inf', rwls_ok o k -> rlogit_blind o ->
  (forall d t, rno_collinearity k (cell d t l)) -> rhas_intercept l -> (1 <= k)%nat ->
  drdid_imp_local_rc o k tl l = PEst att inf -> drdid_imp_local_rc o k tl (map (raffine_y c a b) l) = PEst att' inf' -> att' = c * att /\ inf' = map (fun v => c * v) inf.
Proof. intros o k tl l c a b att inf att' inf'. apply ilr_affine. Qed.
Print Assumptions C122_affine_local.
(** One influence value per row, summing to zero. *)
Theorem C122_centred : forall o k tl l att inf, drdid_imp_rc o k tl l = PEst att inf \/ drdid_imp_local_rc o k tl l = PEst att inf -> length inf = length l /\ qsum inf = 0.
Proof. intros o k tl l att inf [E|E]; [exact (irc_centred o k tl l att inf E)|exact (ilr_centred o k tl l att inf E)]. Qed.
Print Assumptions C122_centred.
Example C122_case : rwls_ok rwit2 2 /\ rlogit_blind rwit2 /\ rfits_symmetric rwit2 /\ (forall d t, rno_collinearity 2 (cell d t rwit_rows)) /\ rhas_intercept rwit_rows /\
  forallb (fun l => forallb is_est (both_imp rwit2 2 l)) [rwit_rows; map (raffine_y (qz 2) (qz 3) (qz 5)) rwit_rows; rev rwit_rows] = true.
Proof.
  split; [exact rwit2_wls_ok|]. split; [exact rwit2_blind|]. split; [exact rwit2_symmetric|]. split; [exact rwit_nc|]. split; [exact rwit_intercept|]. lazy. reflexivity.
Qed.

(** The influence values and the derivative of the estimate in the row weights. With no trimmed comparison row, and fits that move smoothly, the
    derivative is the influence average plus, for each period, the covariate imbalance left by the odds weights times the movement of the
    comparison coefficients: the reported influence values leave out the estimation of the regressions. *)
Theorem C122_imp_derivative : forall o k tl l h d0 d1 att inf, rwls_ok o k -> rhas_intercept l -> (1 <= k)%nat -> rsmooth_score o k tl l h ->
  runtrimmed tl (rps_fit (ro_mu o) k (rgamma_of o l)) l ->
  (forall j, (j < k)%nat -> derivative_at_0 (fun e => nth j (rbeta_odds o k false (map (rreweight e h) l)) 0) (d0 j)) ->
  (forall j, (j < k)%nat -> derivative_at_0 (fun e => nth j (rbeta_odds o k true (map (rreweight e h) l)) 0) (d1 j)) ->
  drdid_imp_rc o k tl l = PEst att inf -> near0 (fun e => has_est (drdid_imp_rc o k tl (map (rreweight e h) l))) ->
  let ps := rps_fit (ro_mu o) k (rgamma_of o l) in
  derivative_at_0 (fun e => att_of (drdid_imp_rc o k tl (map (rreweight e h) l)))
    (ravg_with h l inf + (sumf (fun j => odds_imbalance tl ps false l j * d0 j) (seq 0 k) - sumf (fun j => odds_imbalance tl ps true l j * d1 j) (seq 0 k))).
Proof. exact imp_derivative. Qed.
Print Assumptions C122_imp_derivative.
Theorem C122_local_derivative : forall o k tl l h d0 d1 e0 e1 att inf, rwls_ok o k -> rhas_intercept l -> (1 <= k)%nat -> rsmooth_score o k tl l h ->
  runtrimmed tl (rps_fit (ro_mu o) k (rgamma_of o l)) l ->
  (forall j, (j < k)%nat -> derivative_at_0 (fun e => nth j (rbeta_odds o k false (map (rreweight e h) l)) 0) (d0 j)) ->
  (forall j, (j < k)%nat -> derivative_at_0 (fun e => nth j (rbeta_odds o k true (map (rreweight e h) l)) 0) (d1 j)) ->
  (forall j, (j < k)%nat -> derivative_at_0 (fun e => nth j (rbeta_of o true false (map (rreweight e h) l)) 0) (e0 j)) ->
  (forall j, (j < k)%nat -> derivative_at_0 (fun e => nth j (rbeta_of o true true (map (rreweight e h) l)) 0) (e1 j)) ->
  drdid_imp_local_rc o k tl l = PEst att inf -> near0 (fun e => has_est (drdid_imp_local_rc o k tl (map (rreweight e h) l))) ->
  let ps := rps_fit (ro_mu o) k (rgamma_of o l) in
  derivative_at_0 (fun e => att_of (drdid_imp_local_rc o k tl (map (rreweight e h) l)))
    (ravg_with h l inf + (sumf (fun j => pooled_imbalance tl ps false l j * d0 j) (seq 0 k) - sumf (fun j => pooled_imbalance tl ps true l j * d1 j) (seq 0 k))
      + (sumf (fun j => treated_drift true l j * e1 j) (seq 0 k) - sumf (fun j => treated_drift false l j * e0 j) (seq 0 k))).
Proof. exact local_derivative. Qed.
Print Assumptions C122_local_derivative.
Lemma sum_zero_mul (f d : nat -> Qc) k : (forall j, (j < k)%nat -> f j = 0) -> sumf (fun j => f j * d j) (seq 0 k) = 0.
Proof. intros Z. rewrite (sumf_ext _ (fun _ => 0)); [clear Z; induction (seq 0 k) as [|a t IH]; [reflexivity|rewrite sumf_cons, IH; ring]|]. intros j Hj. apply in_seq in Hj. rewrite Z by lia. ring. Qed.
(** So the values are derivatives when the odds weights balance the covariates in both periods; for the locally efficient variant the treated
    covariates must moreover have the same mean in both periods. Missing: exactness without balance, which the two theorems above show to fail in general. *)
Theorem C122_inf_is_derivative_partial : forall o k tl l h d0 d1 e0 e1, rwls_ok o k -> rhas_intercept l -> (1 <= k)%nat -> rsmooth_score o k tl l h ->
  runtrimmed tl (rps_fit (ro_mu o) k (rgamma_of o l)) l ->
  (forall j, (j < k)%nat -> derivative_at_0 (fun e => nth j (rbeta_odds o k false (map (rreweight e h) l)) 0) (d0 j)) ->
  (forall j, (j < k)%nat -> derivative_at_0 (fun e => nth j (rbeta_odds o k true (map (rreweight e h) l)) 0) (d1 j)) ->
  (forall t j, (j < k)%nat -> odds_imbalance tl (rps_fit (ro_mu o) k (rgamma_of o l)) t l j = 0) ->
  (forall att inf, drdid_imp_rc o k tl l = PEst att inf -> near0 (fun e => has_est (drdid_imp_rc o k tl (map (rreweight e h) l))) ->
   derivative_at_0 (fun e => att_of (drdid_imp_rc o k tl (map (rreweight e h) l))) (ravg_with h l inf)) /\
  (forall att inf, (forall t j, (j < k)%nat -> treated_drift t l j = 0) ->
   (forall j, (j < k)%nat -> derivative_at_0 (fun e => nth j (rbeta_of o true false (map (rreweight e h) l)) 0) (e0 j)) ->
   (forall j, (j < k)%nat -> derivative_at_0 (fun e => nth j (rbeta_of o true true (map (rreweight e h) l)) 0) (e1 j)) ->
   drdid_imp_local_rc o k tl l = PEst att inf -> near0 (fun e => has_est (drdid_imp_local_rc o k tl (map (rreweight e h) l))) ->
   derivative_at_0 (fun e => att_of (drdid_imp_local_rc o k tl (map (rreweight e h) l))) (ravg_with h l inf)).
Proof.
  intros o k tl l h d0 d1 e0 e1 WO I Hk SM U D0 D1 B. split.
  - intros att inf E HE. assert (X := imp_derivative o k tl l h d0 d1 att inf WO I Hk SM U D0 D1 E HE). cbn zeta in X.
rewrite (sum_zero_mul _ d0 k (B false)), (sum_zero_mul _ d1 k (B true)) in X. refine (D_eq _ _ _ _ X). ring.
  - intros att inf T F0 F1 E HE. assert (X := local_derivative o k tl l h d0 d1 e0 e1 att inf WO I Hk SM U D0 D1 F0 F1 E HE). cbn zeta in X.
    assert (P : forall t j, (j < k)%nat -> pooled_imbalance tl (rps_fit (ro_mu o) k (rgamma_of o l)) t l j = 0).
    { intros t j Hj. assert (X1 := B t j Hj). assert (X2 := T t j Hj). unfold odds_imbalance, treated_drift, pooled_imbalance in *.
      transitivity (treated_mean (fun u => rx_at u j) l - cell_mean true t (fun u => rx_at u j) l +
        (cell_mean true t (fun u => rx_at u j) l - odds_cell_mean tl (rps_fit (ro_mu o) k (rgamma_of o l)) t (fun u => rx_at u j) l)); [ring|rewrite X1, X2; ring]. }
    rewrite (sum_zero_mul _ d0 k (P false)), (sum_zero_mul _ d1 k (P true)), (sum_zero_mul _ e0 k (T false)), (sum_zero_mul _ e1 k (T true)) in X. refine (D_eq _ _ _ _ X). ring.
Qed.
Print Assumptions C122_inf_is_derivative_partial.
(** The hypotheses hold for an intercept-only sample with unequal weights, a score that moves, and a non-zero influence average. *)
Example C122_case_derivative : rwls_ok rwit3 1 /\ rhas_intercept rwit_bal /\ rsmooth_score rwit3 1 1 rwit_bal rwit_h /\ runtrimmed 1 (rps_fit (ro_mu rwit3) 1 (rgamma_of rwit3 rwit_bal)) rwit_bal /\
  (forall t j, (j < 1)%nat -> odds_imbalance 1 (rps_fit (ro_mu rwit3) 1 (rgamma_of rwit3 rwit_bal)) t rwit_bal j = 0 /\ treated_drift t rwit_bal j = 0) /\
  (exists att inf, drdid_imp_rc rwit3 1 1 rwit_bal = PEst att inf /\ ravg_with rwit_h rwit_bal inf <> 0 /\ derivative_at_0 (fun e => att_of (drdid_imp_rc rwit3 1 1 (map (rreweight e rwit_h) rwit_bal))) (ravg_with rwit_h rwit_bal inf)) /\
  (exists att inf, drdid_imp_local_rc rwit3 1 1 rwit_bal = PEst att inf /\ ravg_with rwit_h rwit_bal inf <> 0 /\ derivative_at_0 (fun e => att_of (drdid_imp_local_rc rwit3 1 1 (map (rreweight e rwit_h) rwit_bal))) (ravg_with rwit_h rwit_bal inf)).
Proof.
  assert (U : runtrimmed 1 (rps_fit (ro_mu rwit3) 1 (rgamma_of rwit3 rwit_bal)) rwit_bal) by (intros u Hu _; cbn in Hu; repeat (destruct Hu as [<-|Hu]; [vm_compute; reflexivity|]); destruct Hu).
  assert (B : forall t j, (j < 1)%nat -> odds_imbalance 1 (rps_fit (ro_mu rwit3) 1 (rgamma_of rwit3 rwit_bal)) t rwit_bal j = 0) by (intros t j Hj; assert (j = 0)%nat by lia; subst j; destruct t; apply Qc_is_canon; vm_compute; reflexivity).
  assert (T : forall t j, (j < 1)%nat -> treated_drift t rwit_bal j = 0) by (intros t j Hj; assert (j = 0)%nat by lia; subst j; destruct t; apply Qc_is_canon; vm_compute; reflexivity).
  destruct (C122_inf_is_derivative_partial rwit3 1 1 rwit_bal rwit_h _ _ (fun _ => 0) (fun _ => 0) rwit3_wls_ok bal_intercept (le_n 1) bal_score U (proj1 D_bal_odds) (proj2 D_bal_odds) B) as [D E].
  split; [exact rwit3_wls_ok|]. split; [exact bal_intercept|]. split; [exact bal_score|]. split; [exact U|]. split; [split; [apply B|apply T]; assumption|]. split.
  - assert (K : match drdid_imp_rc rwit3 1 1 rwit_bal with PEst _ i => negb (Qceqb (ravg_with rwit_h rwit_bal i) 0) | _ => false end = true) by (lazy; reflexivity).
    destruct (drdid_imp_rc rwit3 1 1 rwit_bal) as [| | |att inf] eqn:X; try discriminate K.
    exists att, inf. split; [reflexivity|]. split; [intros Z; rewrite Z in K; discriminate K|].
    apply (D att inf eq_refl). eapply near0_impl; [|exact bal_imp_est]. intros e [A _]. exact A.
  - assert (K : match drdid_imp_local_rc rwit3 1 1 rwit_bal with PEst _ i => negb (Qceqb (ravg_with rwit_h rwit_bal i) 0) | _ => false end = true) by (lazy; reflexivity).
    destruct (drdid_imp_local_rc rwit3 1 1 rwit_bal) as [| | |att inf] eqn:X; try discriminate K.
    exists att, inf. split; [reflexivity|]. split; [intros Z; rewrite Z in K; discriminate K|].
    apply (E att inf T (D_bal_treated false) (D_bal_treated true) eq_refl). eapply near0_impl; [|exact bal_imp_est]. intros e [_ A]. exact A.
Qed.

(** * C122: when they raise *)
(** Exactly for a negative weight, a failed score fit or an empty cell that must be regressed; an estimate needs as many rows as regressors in each. *)
Theorem C122_raises : forall o k tl l,
  (drdid_imp_rc o k tl l = PRaise <-> (exists u, In u l /\ r_w u < 0) \/ ro_logit o (rnormalise l) = None \/ exists t, cell false t l = []) /\
  (drdid_imp_local_rc o k tl l = PRaise <-> (exists u, In u l /\ r_w u < 0) \/ ro_logit o (rnormalise l) = None \/ exists b t, cell b t l = []).
Proof. intros o k tl l. split; [apply imp_raise|apply local_raise]. Qed.
Print Assumptions C122_raises.
Theorem C122_enough_rows : forall o k tl l att inf,
  (drdid_imp_rc o k tl l = PEst att inf -> forall t, (k <= length (cell false t l))%nat) /\
  (drdid_imp_local_rc o k tl l = PEst att inf -> forall b t, (k <= length (cell b t l))%nat).
Proof. intros o k tl l att inf. split; [apply imp_rows|apply local_rows]. Qed.
Print Assumptions C122_enough_rows.
(** the boundary: two regressors, two rows in each comparison cell, still an estimate; without the post-period comparison rows, an error *)
Definition rwit_two : list runit := filter (fun u => negb (existsb (Z.eqb (r_id u)) [3; 6; 9; 12]%Z)) rwit_rows.
Example C122_case_raises : map (fun t => length (cell false t rwit_two)) [false; true] = [2; 2]%nat /\ forallb is_est (both_imp rwit2 2 rwit_two) = true /\
  drdid_imp_rc rwit2 2 1 (filter (fun u => negb (in_cell false true u)) rwit_rows) = PRaise.
Proof. split; [reflexivity|]. split; [lazy; reflexivity|]. apply imp_raise. right. right. exists true. reflexivity. Qed.
