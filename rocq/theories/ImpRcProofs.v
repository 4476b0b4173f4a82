(** Proofs for C121-C122: values, invariances and centring of the improved repeated cross-section estimators. *)
From Verif Require Import Base ListLib ReduceModel ReduceProofs2 Calc DrdidModel DrdidSpec DrdidProofs DrdidProofs2 DrdidProofs3 DrdidProofs4 DrdidProofs5 DrdidProofs6 DrdidProofs7 RcModel RcSpec DrdidWitness2 RcCalc RcProofs RcProofs2 RcProofs3 RcProofs4 ImpRcModel ImpRcSpec.

Lemma wols_rc_inv o k ps b t l beta : wols_rc o k ps b t l = FCoef beta ->
  ro_wls o (if b then cell b t l else map (rtilt ps) (cell b t l)) = Some beta /\ cell b t l <> [] /\ (k <= length (cell b t l))%nat.
Proof.
  unfold wols_rc. destruct (cell b t l) as [|u c] eqn:E; [discriminate|]. rewrite <- E in *. destruct (Nat.ltb_spec (length (cell b t l)) k); [discriminate|].
  destruct (ro_wls o _) as [b'|]; [|discriminate]. intros H'. injection H' as ->. split; [reflexivity|]. split; [congruence|lia].
Qed.
Lemma ilr_zero_inv tl ps l : ilr_zero tl ps l = false ->
  mean wr_treat_pre l <> 0 /\ mean wr_treat_post l <> 0 /\ mean (w_cont_pre tl ps) l <> 0 /\ mean (w_cont_post tl ps) l <> 0.
Proof.
  unfold ilr_zero. rewrite !orb_false_iff. intros [[[H1 H2] H3] H4].
  repeat split; intros E; [destruct (Qceqb_spec (mean wr_treat_pre l) 0)|destruct (Qceqb_spec (mean wr_treat_post l) 0)
    |destruct (Qceqb_spec (mean (w_cont_pre tl ps) l) 0)|destruct (Qceqb_spec (mean (w_cont_post tl ps) l) 0)]; congruence.
Qed.
Lemma irc_inv o k tl l0 att inf (l := rnormalise l0) : drdid_imp_rc o k tl l0 = PEst att inf ->
  rany_neg l0 = false /\ exists gamma b0 b1, ro_logit o l = Some gamma /\ let ps := rps_fit (ro_mu o) k gamma in
  wols_rc o k ps false false l = FCoef b0 /\ wols_rc o k ps false true l = FCoef b1 /\ some_zero tl ps l = false /\
  att = irc_att k tl ps b0 b1 l /\ inf = map (irc_inf k tl ps b0 b1 l) l.
Proof.
  unfold drdid_imp_rc. fold l. destruct (rany_neg l0); [discriminate|]. cbn zeta. destruct (ro_logit o l) as [g|]; [|discriminate]. set (ps := rps_fit (ro_mu o) k g).
  destruct (wols_rc o k ps false false l) as [| |b0] eqn:E0, (wols_rc o k ps false true l) as [| |b1] eqn:E1; try discriminate.
  destruct (some_zero tl ps l) eqn:SZ; [discriminate|]. intros E. injection E as <- <-. split; [reflexivity|]. exists g, b0, b1. repeat split; auto.
Qed.
Lemma ilr_inv o k tl l0 att inf (l := rnormalise l0) : drdid_imp_local_rc o k tl l0 = PEst att inf ->
  rany_neg l0 = false /\ exists gamma c0 c1 t0 t1, ro_logit o l = Some gamma /\ let ps := rps_fit (ro_mu o) k gamma in
  wols_rc o k ps false false l = FCoef c0 /\ wols_rc o k ps false true l = FCoef c1 /\ wols_rc o k ps true false l = FCoef t0 /\ wols_rc o k ps true true l = FCoef t1 /\
  ilr_zero tl ps l = false /\ att = ilr_att k tl ps c0 c1 t0 t1 l /\ inf = map (ilr_inf k tl ps c0 c1 t0 t1 l) l.
Proof.
  unfold drdid_imp_local_rc. fold l. destruct (rany_neg l0); [discriminate|]. cbn zeta. destruct (ro_logit o l) as [g|]; [|discriminate]. set (ps := rps_fit (ro_mu o) k g).
  destruct (wols_rc o k ps false false l) as [| |c0] eqn:E0, (wols_rc o k ps false true l) as [| |c1] eqn:E1,
    (wols_rc o k ps true false l) as [| |t0] eqn:E2, (wols_rc o k ps true true l) as [| |t1] eqn:E3; try discriminate.
  destruct (ilr_zero tl ps l) eqn:SZ; [discriminate|]. intros E. injection E as <- <-. split; [reflexivity|]. exists g, c0, c1, t0, t1. repeat split; auto.
Qed.

(** ** tilted normal equations *)
Lemma odds_normal_raw o k mu g t l beta : rwls_ok o k -> mean r_w l <> 0 ->
  ro_wls o (map (rtilt (rps_fit mu k g)) (cell false t (rnormalise l))) = Some beta -> rodds_normal k (rps_fit mu k g) t l beta.
Proof.
  intros WO Hm E j Hj. apply WO in E. specialize (E j Hj). rewrite sumf_map, cell_normalise, sumf_map in E. unfold rx_at in *. cbn [rtilt rset_w r_w r_y r_x] in E.
  rewrite (sumf_ext _ (fun u => / mean r_w l * (r_w u * (rps_fit mu k g u / (1 - rps_fit mu k g u)) * (r_y u - dotk k (r_x u) beta) * nth j (r_x u) 0))) in E.
  - rewrite sumf_mul_l in E. apply Qcmult_integral in E. destruct E as [E|E]; [exfalso; revert E; apply inv_neq0; exact Hm|exact E].
  - intros u _. change (rps_fit mu k g (rset_w (r_w u / mean r_w l) u)) with (rps_fit mu k g u). unfold Qcdiv. ring.
Qed.
Lemma rps_odds_pos mu k g u : 0 < rps_fit mu k g u / (1 - rps_fit mu k g u).
Proof. destruct (rps_bounds mu k g u) as [A B]. assert (0 < eps6) by reflexivity. apply Qcdiv_pos; qclra. Qed.
Lemma ilr_loc k tl ps c0 c1 t0 t1 l : ilr_att k tl ps c0 c1 t0 t1 l = loc_att k tl ps c0 c1 t0 t1 l.
Proof.
  unfold ilr_att, loc_att, trad_att. cbn zeta. ratt. rewrite !(att_R _ cT1 _ _ wr1_c), !(att_R _ cT0 _ _ wr0_c), !(att_R wr_cont r_D) by reflexivity. reflexivity.
Qed.

(** ** values *)
Lemma irc_value o k tl l att inf : rwls_ok o k -> drdid_imp_rc o k tl l = PEst att inf -> exists gamma b0 b1,
  ro_logit o (rnormalise l) = Some gamma /\ let ps := rps_fit (ro_mu o) k gamma in
  rodds_normal k ps false l b0 /\ rodds_normal k ps true l b1 /\
  att = (cell_mean true true (fun u => r_y u - dotk k (r_x u) b1) l - cell_mean true false (fun u => r_y u - dotk k (r_x u) b0) l)
        - (odds_cell_mean tl ps true (fun u => r_y u - dotk k (r_x u) b1) l - odds_cell_mean tl ps false (fun u => r_y u - dotk k (r_x u) b0) l).
Proof.
  intros WO E. apply irc_inv in E. destruct E as [_ [g [b0 [b1 [Eg [E0 [E1 [SZ [-> _]]]]]]]]]. cbn zeta in *. exists g, b0, b1. split; [exact Eg|].
  apply some_zero_inv in SZ. assert (Hm := mean_weights_neq0 _ cT0 l (wt0_c _ _) (proj1 SZ)). apply wols_rc_inv in E0. apply wols_rc_inv in E1.
  split; [exact (odds_normal_raw o k _ _ _ _ _ WO Hm (proj1 E0))|]. split; [exact (odds_normal_raw o k _ _ _ _ _ WO Hm (proj1 E1))|].
  exact (trad_att_value k tl g (ro_mu o) b0 b1 l Hm).
Qed.
Lemma ilr_value o k tl l att inf : rwls_ok o k -> drdid_imp_local_rc o k tl l = PEst att inf -> exists gamma c0 c1 t0 t1,
  ro_logit o (rnormalise l) = Some gamma /\ let ps := rps_fit (ro_mu o) k gamma in
  rodds_normal k ps false l c0 /\ rodds_normal k ps true l c1 /\ rnormal_equations k (cell true false l) t0 /\ rnormal_equations k (cell true true l) t1 /\
  att = (cell_mean true true (fun u => r_y u - dotk k (r_x u) t1) l - cell_mean true false (fun u => r_y u - dotk k (r_x u) t0) l)
        - (odds_cell_mean tl ps true (fun u => r_y u - dotk k (r_x u) c1) l - odds_cell_mean tl ps false (fun u => r_y u - dotk k (r_x u) c0) l)
        + treated_mean (fun u => (dotk k (r_x u) t1 - dotk k (r_x u) c1) - (dotk k (r_x u) t0 - dotk k (r_x u) c0)) l.
Proof.
  intros WO E. apply ilr_inv in E. destruct E as [_ [g [c0 [c1 [t0 [t1 [Eg [E0 [E1 [E2 [E3 [SZ [-> _]]]]]]]]]]]]]. cbn zeta in *. exists g, c0, c1, t0, t1. split; [exact Eg|].
  apply ilr_zero_inv in SZ. assert (Hm := mean_weights_neq0 _ cT0 l wr0_c (proj1 SZ)).
  apply wols_rc_inv in E0. apply wols_rc_inv in E1. apply wols_rc_inv in E2. apply wols_rc_inv in E3.
  split; [exact (odds_normal_raw o k _ _ _ _ _ WO Hm (proj1 E0))|]. split; [exact (odds_normal_raw o k _ _ _ _ _ WO Hm (proj1 E1))|].
  split; [exact (normal_raw _ _ _ _ _ Hm (WO _ _ (proj1 E2)))|]. split; [exact (normal_raw _ _ _ _ _ Hm (WO _ _ (proj1 E3)))|].
  rewrite ilr_loc. unfold loc_att. rewrite trad_att_value by exact Hm. ratt. rewrite !R_normalise by (try exact Hm; intros w u; reflexivity).
  rewrite <- !R_T0, <- !R_T1, <- !R_D. unfold rout. rewrite !R_sub. ring.
Qed.
(** untrimmed, with an intercept: odds-weighted residuals of a period average to zero *)
Lemma odds_resid_zero k tl ps t l beta : rodds_normal k ps t l beta -> runtrimmed tl ps l -> rhas_intercept l -> (1 <= k)%nat ->
  odds_cell_mean tl ps t (fun u => r_y u - dotk k (r_x u) beta) l = 0.
Proof.
  intros N U I Hk. unfold odds_cell_mean. cbn zeta. rewrite sumf_filter.
  rewrite (sumf_ext _ (fun u => r_w u * (ps u / (1 - ps u)) * (r_y u - dotk k (r_x u) beta) * rx_at u 0)).
  - rewrite (N 0%nat Hk). apply Qcdiv_0_l.
  - intros u Hu. apply filter_In in Hu. destruct Hu as [Hu C]. unfold in_cell in C. apply andb_true_iff in C. destruct C as [C _]. apply Bool.eqb_prop in C.
    destruct (Qcltb_spec (ps u) tl) as [_|L]; [|exfalso; apply L, U; assumption]. unfold rx_at. rewrite (I u Hu). cbn [ind]. ring.
Qed.
Lemma irc_regression o k tl l att inf : rwls_ok o k -> rhas_intercept l -> (1 <= k)%nat ->
  (forall gamma, ro_logit o (rnormalise l) = Some gamma -> runtrimmed tl (rps_fit (ro_mu o) k gamma) l) ->
  drdid_imp_rc o k tl l = PEst att inf -> exists gamma b0 b1, ro_logit o (rnormalise l) = Some gamma /\ let ps := rps_fit (ro_mu o) k gamma in
  rodds_normal k ps false l b0 /\ rodds_normal k ps true l b1 /\
  att = cell_mean true true (fun u => r_y u - dotk k (r_x u) b1) l - cell_mean true false (fun u => r_y u - dotk k (r_x u) b0) l.
Proof.
  intros WO I Hk U E. apply irc_value in E; [|exact WO]. destruct E as [g [b0 [b1 [Eg [N0 [N1 ->]]]]]]. exists g, b0, b1. cbn zeta in *. split; [exact Eg|]. split; [exact N0|]. split; [exact N1|].
  rewrite !odds_resid_zero by (auto; apply U; exact Eg). ring.
Qed.
Lemma ilr_regression o k tl l att inf : rwls_ok o k -> rhas_intercept l -> (1 <= k)%nat ->
  (forall gamma, ro_logit o (rnormalise l) = Some gamma -> runtrimmed tl (rps_fit (ro_mu o) k gamma) l) ->
  drdid_imp_local_rc o k tl l = PEst att inf -> exists gamma c0 c1 t0 t1, ro_logit o (rnormalise l) = Some gamma /\ let ps := rps_fit (ro_mu o) k gamma in
  rodds_normal k ps false l c0 /\ rodds_normal k ps true l c1 /\ rnormal_equations k (cell true false l) t0 /\ rnormal_equations k (cell true true l) t1 /\
  att = treated_mean (fun u => (dotk k (r_x u) t1 - dotk k (r_x u) c1) - (dotk k (r_x u) t0 - dotk k (r_x u) c0)) l.
Proof.
  intros WO I Hk U E. apply ilr_value in E; [|exact WO]. destruct E as [g [c0 [c1 [t0 [t1 [Eg [N0 [N1 [N2 [N3 ->]]]]]]]]]]. exists g, c0, c1, t0, t1. cbn zeta in *. repeat (split; [assumption|]).
  rewrite !odds_resid_zero by (auto; apply U; exact Eg). assert (A0 := nz_den _ _ _ _ _ N2 I Hk). assert (A1 := nz_den _ _ _ _ _ N3 I Hk). unfold rout in A0, A1. rewrite A0, A1. ring.
Qed.

(** ** balance: the improved estimator is the weighting estimator *)
Lemma irc_balance o k tl l att inf : rwls_ok o k -> (forall gamma t, ro_logit o (rnormalise l) = Some gamma -> rbalanced tl k (rps_fit (ro_mu o) k gamma) t l) ->
  drdid_imp_rc o k tl l = PEst att inf -> exists gamma, ro_logit o (rnormalise l) = Some gamma /\ let ps := rps_fit (ro_mu o) k gamma in
  att = (cell_mean true true r_y l - cell_mean true false r_y l) - (odds_cell_mean tl ps true r_y l - odds_cell_mean tl ps false r_y l).
Proof.
  intros WO B E. apply irc_value in E; [|exact WO]. destruct E as [g [b0 [b1 [Eg [_ [_ ->]]]]]]. exists g. split; [exact Eg|]. cbn zeta. set (ps := rps_fit (ro_mu o) k g).
  assert (B0 := B g false Eg). assert (B1 := B g true Eg). fold ps in B0, B1.
  rewrite <- !R_T0, <- !R_T1, <- !R_C0, <- !R_C1, !R_sub, !R_lin.
  assert (X : forall c c' b, (forall j, (j < k)%nat -> R c (fun u => rx_at u j) l = R c' (fun u => rx_at u j) l) ->
    dotk k (vec_of k (fun j => R c (fun u => nth j (r_x u) 0) l)) b = dotk k (vec_of k (fun j => R c' (fun u => nth j (r_x u) 0) l)) b).
  { intros c c' b H. f_equal. unfold vec_of. apply map_ext_in. intros j Hj. apply in_seq in Hj. apply H. lia. }
  rewrite (X cT1 (cC1 tl ps)), (X cT0 (cC0 tl ps)); [ring| |].
  - intros j Hj. rewrite R_T0, R_C0. apply B0. exact Hj.
  - intros j Hj. rewrite R_T1, R_C1. apply B1. exact Hj.
Qed.

(** ** exact outcome model *)
Lemma cell_tilt ps b t l : cell b t (map (rtilt ps) l) = map (rtilt ps) (cell b t l).
Proof. unfold cell. rewrite filter_map. reflexivity. Qed.
Lemma tilt_nonneg mu k g l : (forall u, In u l -> 0 <= r_w u) -> forall u, In u (map (rtilt (rps_fit mu k g)) l) -> 0 <= r_w u.
Proof. intros W u Hu. apply in_map_iff in Hu. destruct Hu as [v [<- Hv]]. cbn. apply Qcmult_nonneg; [apply W, Hv|apply Qclt_le_weak, rps_odds_pos]. Qed.
Lemma tilt_nc mu k g b t l : rno_collinearity k (cell b t l) -> rno_collinearity k (cell b t (map (rtilt (rps_fit mu k g)) l)).
Proof.
  intros NC v H. apply NC. intros u Hu Hw. rewrite cell_tilt in H. apply (H _ (in_map (rtilt (rps_fit mu k g)) _ _ Hu)). cbn.
  apply Qcmult_pos; [exact Hw|apply rps_odds_pos].
Qed.
Lemma odds_normal_tilt k ps t l beta : rodds_normal k ps t l beta -> rnormal_equations k (cell false t (map (rtilt ps) l)) beta.
Proof. intros N j Hj. rewrite cell_tilt, sumf_map. exact (N j Hj). Qed.
Lemma odds_exact k mu g t l s beta : (forall u, In u l -> 0 <= r_w u) -> rno_collinearity k (cell false t l) -> rexact k t s l ->
  rodds_normal k (rps_fit mu k g) t l beta -> forall u, dotk k (r_x u) beta = dotk k (r_x u) s.
Proof.
  intros W NC X N u. change (rout k beta u = rout k s u).
  apply (wls_unique k false t (map (rtilt (rps_fit mu k g)) l)); [apply tilt_nonneg; exact W|apply tilt_nc; exact NC|apply odds_normal_tilt; exact N|].
  apply odds_normal_tilt. intros j _. apply sumf_zero. intros v Hv. apply filter_In in Hv. destruct Hv as [Hv C]. unfold in_cell in C. apply andb_true_iff in C.
  destruct C as [C1 C2]. apply Bool.eqb_prop in C1, C2. destruct (Qcle_lt_or_eq _ _ (W v Hv)) as [L|L]; [rewrite (X v Hv C1 C2 L)|rewrite <- L]; ring.
Qed.
Lemma irc_exact o k tl l s0 s1 att inf : rwls_ok o k -> rno_collinearity k (cell false false l) -> rno_collinearity k (cell false true l) ->
  rexact k false s0 l -> rexact k true s1 l -> drdid_imp_rc o k tl l = PEst att inf ->
  att = cell_mean true true (fun u => r_y u - dotk k (r_x u) s1) l - cell_mean true false (fun u => r_y u - dotk k (r_x u) s0) l.
Proof.
  intros WO NC0 NC1 X0 X1 E. assert (W := proj1 (rany_neg_false l) (proj1 (irc_inv _ _ _ _ _ _ E))).
  apply irc_value in E; [|exact WO]. destruct E as [g [b0 [b1 [Eg [N0 [N1 ->]]]]]]. cbn zeta in *.
  assert (F0 := odds_exact _ _ _ _ _ _ _ W NC0 X0 N0). assert (F1 := odds_exact _ _ _ _ _ _ _ W NC1 X1 N1).
  rewrite (exact_odds k _ _ true s1 _ l W X1) by (intros u; rewrite F1; reflexivity). rewrite (exact_odds k _ _ false s0 _ l W X0) by (intros u; rewrite F0; reflexivity).
  rewrite (cell_mean_ext l true true _ (fun u => r_y u - dotk k (r_x u) s1)) by (intros u; rewrite F1; reflexivity).
  rewrite (cell_mean_ext l true false _ (fun u => r_y u - dotk k (r_x u) s0)) by (intros u; rewrite F0; reflexivity). ring.
Qed.
Lemma ilr_exact o k tl l s0 s1 att inf : rwls_ok o k -> rno_collinearity k (cell false false l) -> rno_collinearity k (cell false true l) ->
  rexact k false s0 l -> rexact k true s1 l -> rhas_intercept l -> (1 <= k)%nat -> drdid_imp_local_rc o k tl l = PEst att inf -> exists t0 t1,
  rnormal_equations k (cell true false l) t0 /\ rnormal_equations k (cell true true l) t1 /\
  att = treated_mean (fun u => (dotk k (r_x u) t1 - dotk k (r_x u) s1) - (dotk k (r_x u) t0 - dotk k (r_x u) s0)) l.
Proof.
  intros WO NC0 NC1 X0 X1 I Hk E. assert (W := proj1 (rany_neg_false l) (proj1 (ilr_inv _ _ _ _ _ _ E))).
  apply ilr_value in E; [|exact WO]. destruct E as [g [c0 [c1 [t0 [t1 [Eg [N0 [N1 [N2 [N3 ->]]]]]]]]]]. cbn zeta in *. exists t0, t1. split; [exact N2|]. split; [exact N3|].
  assert (F0 := odds_exact _ _ _ _ _ _ _ W NC0 X0 N0). assert (F1 := odds_exact _ _ _ _ _ _ _ W NC1 X1 N1).
  rewrite (exact_odds k _ _ true s1 _ l W X1) by (intros u; rewrite F1; reflexivity). rewrite (exact_odds k _ _ false s0 _ l W X0) by (intros u; rewrite F0; reflexivity).
  assert (A0 := nz_den _ _ _ _ _ N2 I Hk). assert (A1 := nz_den _ _ _ _ _ N3 I Hk). unfold rout in A0, A1. rewrite A0, A1.
  transitivity (treated_mean (fun u => (dotk k (r_x u) t1 - dotk k (r_x u) c1) - (dotk k (r_x u) t0 - dotk k (r_x u) c0)) l); [ring|].
  unfold treated_mean. f_equal. apply sumf_ext. intros u _. rewrite F0, F1. reflexivity.
Qed.
