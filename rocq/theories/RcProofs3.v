(** Proofs for C89 and C90: no covariates, Horvitz-Thompson values, affine changes of the outcome. *)
From Verif Require Import Base ListLib ReduceModel ReduceProofs2 Calc DrdidModel DrdidSpec DrdidProofs DrdidProofs2 DrdidProofs3 DrdidProofs4 DrdidProofs5 DrdidProofs6 DrdidProofs7 RcModel RcSpec RcCalc RcProofs RcProofs2.

(** ** C89 *)
Section NoCov.
  Context (l : list runit) (HX : forall u, In u l -> r_x u = 1 :: nil).
  Lemma out1 b u : In u l -> rout 1 b u = nth 0 b 0.
  Proof. intros Hu. unfold rout, dotk. rewrite (HX u Hu). cbn. ring. Qed.
  Lemma ps1 mu g u v : In u l -> In v l -> rps_fit mu 1 g u = rps_fit mu 1 g v.
  Proof. intros Hu Hv. unfold rps_fit. rewrite (HX u Hu), (HX v Hv). reflexivity. Qed.
  (** the odds-weighted mean with a constant propensity score *)
  Lemma odds_const (tl : Qc) (ps : runit -> Qc) (t : bool) (v : runit -> Qc) (q : Qc) : (forall u, In u l -> ps u = q) -> sumf (fun u => r_w u * (if t then cC1 tl ps u else cC0 tl ps u)) l <> 0 ->
    odds_cell_mean tl ps t v l = cell_mean false t v l /\ sumf r_w (cell false t l) <> 0.
  Proof.
    intros Hq N.
    assert (E : sumf (fun u => r_w u * (if t then cC1 tl ps u else cC0 tl ps u)) l = (ind (Qcltb q tl) * (q / (1 - q))) * sumf r_w (cell false t l)).
    { unfold cell. rewrite sumf_filter, <- sumf_mul_l. apply sumf_ext. intros u Hu. unfold cC1, cC0. rewrite (Hq u Hu). destruct t, (in_cell false _ u), (Qcltb q tl); cbn [andb ind]; ring. }
    rewrite E in N. set (c := ind (Qcltb q tl) * (q / (1 - q))) in *.
    assert (Nc : c <> 0) by (intros Z0; apply N; rewrite Z0; ring). assert (Ns : sumf r_w (cell false t l) <> 0) by (intros Z0; apply N; rewrite Z0; ring).
    split; [|exact Ns]. unfold cell_mean. rewrite <- (ratio_scale c) by exact Nc. rewrite <- !sumf_mul_l. unfold odds_cell_mean. cbn zeta. rewrite !(sumf_filter _ (fun u => Qcltb (ps u) tl)).
    f_equal; apply sumf_ext; intros u Hu; apply filter_In in Hu; rewrite (Hq u (proj1 Hu)); unfold c; destruct (Qcltb q tl); cbn [ind]; ring.
  Qed.
  Lemma cell_mean_shift b t v s : (forall u, In u l -> v u = r_y u - s) -> sumf r_w (cell b t l) <> 0 -> cell_mean b t v l = cell_mean b t r_y l - s.
  Proof.
    intros Hv N. unfold cell_mean. rewrite (sumf_ext _ (fun u => r_w u * r_y u - r_w u * s)).
    - rewrite sumf_sub, sumf_mul_r. field. exact N.
    - intros u Hu. apply filter_In in Hu. rewrite (Hv u (proj1 Hu)). ring.
  Qed.
  Lemma T0_den : sumf (fun u => r_w u * cT0 u) l <> 0 -> sumf r_w (cell true false l) <> 0.
  Proof. intros N. unfold cell. rewrite sumf_filter. intros E. apply N. rewrite <- E. apply sumf_ext. intros u _. unfold cT0. cells u. Qed.
  Lemma T1_den : sumf (fun u => r_w u * cT1 u) l <> 0 -> sumf r_w (cell true true l) <> 0.
  Proof. intros N. unfold cell. rewrite sumf_filter. intros E. apply N. rewrite <- E. apply sumf_ext. intros u _. unfold cT1. cells u. Qed.
  Lemma D_den : (forall u, In u l -> 0 <= r_w u) -> sumf (fun u => r_w u * cT0 u) l <> 0 -> sumf r_w (filter r_d l) <> 0.
  Proof.
    intros W N. rewrite sumf_filter. intros E. apply N.
    apply sumf_zero. intros u Hu. assert (P : forall u, In u l -> 0 <= ind (r_d u) * r_w u) by (intros v Hv; apply Qcmult_nonneg; [destruct (r_d v); discriminate|apply W, Hv]).
    assert (Z0 := nonneg_sum_zero _ l P E u Hu). cbn beta in Z0. unfold cT0, r_D. transitivity ((ind (r_d u) * r_w u) * (1 - r_P u)); [ring|rewrite Z0; ring].
  Qed.
  Lemma dens tl ps mu g : ps = rps_fit mu 1 g -> some_zero tl ps (rnormalise l) = false -> mean r_w l <> 0 /\
    sumf (fun u => r_w u * cT0 u) l <> 0 /\ sumf (fun u => r_w u * cT1 u) l <> 0 /\ sumf (fun u => r_w u * cC0 tl ps u) l <> 0 /\ sumf (fun u => r_w u * cC1 tl ps u) l <> 0.
  Proof.
    intros -> SZ. apply some_zero_inv in SZ. destruct SZ as [N0 [N1 [N2 N3]]]. assert (Hm := mean_weights_neq0 _ cT0 l (wt0_c _ _) N0). split; [exact Hm|].
    repeat split; (apply sum_c_raw; [exact Hm|intros w u; reflexivity|]).
    - exact (mean_neq_sum _ _ _ (wt0_c _ _) N0). - exact (mean_neq_sum _ _ _ (wt1_c _ _) N1).
    - exact (mean_neq_sum _ _ _ (wc0_c _ _) N2). - exact (mean_neq_sum _ _ _ (wc1_c _ _) N3).
  Qed.
  Lemma const_ps mu g : exists q, forall u, In u l -> rps_fit mu 1 g u = q.
  Proof. exists (clip eps6 (1 - eps6) (mu (dotk 1 (1 :: nil) g))). intros u Hu. unfold rps_fit. rewrite (HX u Hu). reflexivity. Qed.
  Lemma nocov_ripw o tl att inf : std_ipw_did_rc o 1 tl l = PEst att inf -> att = four_cells l.
  Proof.
    intros E. assert (E' := E). apply ripw_inv in E'. destruct E' as [_ [_ [g [H [Eg [_ [SZ _]]]]]]]. cbn zeta in SZ.
    destruct (dens _ _ _ _ eq_refl SZ) as [Hm [N0 [N1 [N2 N3]]]].
    apply ripw_value in E. destruct E as [g' [Eg' ->]]. rewrite Eg in Eg'. injection Eg' as <-. cbn zeta.
    destruct (const_ps (ro_mu o) g) as [q Hq]. unfold four_cells.
    rewrite (proj1 (odds_const tl _ true r_y q Hq N3)), (proj1 (odds_const tl _ false r_y q Hq N2)). reflexivity.
  Qed.
  Lemma nocov_trad o tl att inf : drdid_trad_rc o 1 tl l = PEst att inf -> att = four_cells l.
  Proof.
    intros E. assert (E' := E). apply trad_inv in E'. destruct E' as [_ [_ [g [b0 [b1 [M0 [M1 [H [Eg [E0 [E1 [_ [_ [_ [SZ _]]]]]]]]]]]]]]]. cbn zeta in SZ.
    destruct (dens _ _ _ _ eq_refl SZ) as [Hm [N0 [N1 [N2 N3]]]].
    apply trad_value in E. destruct E as [g' [c0 [c1 [Eg' [F0 [F1 ->]]]]]]. rewrite Eg in Eg'. injection Eg' as <-. cbn zeta.
    destruct (const_ps (ro_mu o) g) as [q Hq]. unfold four_cells.
    destruct (odds_const tl _ true (fun u => r_y u - rout 1 c1 u) q Hq N3) as [-> Q1]. destruct (odds_const tl _ false (fun u => r_y u - rout 1 c0 u) q Hq N2) as [-> Q0].
    assert (P0 := T0_den N0). assert (P1 := T1_den N1).
    rewrite (cell_mean_shift true true (fun u => r_y u - rout 1 c1 u) (nth 0 c1 0)) by (try assumption; intros u Hu; rewrite (out1 c1 u Hu); reflexivity).
    rewrite (cell_mean_shift false true (fun u => r_y u - rout 1 c1 u) (nth 0 c1 0)) by (try assumption; intros u Hu; rewrite (out1 c1 u Hu); reflexivity).
    rewrite (cell_mean_shift true false (fun u => r_y u - rout 1 c0 u) (nth 0 c0 0)) by (try assumption; intros u Hu; rewrite (out1 c0 u Hu); reflexivity).
    rewrite (cell_mean_shift false false (fun u => r_y u - rout 1 c0 u) (nth 0 c0 0)) by (try assumption; intros u Hu; rewrite (out1 c0 u Hu); reflexivity). ring.
  Qed.
  Lemma nocov_loc o tl att inf : drdid_rc o 1 tl l = PEst att inf -> att = four_cells l.
  Proof.
    intros E. assert (E' := E). apply loc_inv in E'.
    destruct E' as [NN [_ [g [c0 [c1 [t0 [t1 [MC0 [MC1 [MT0 [MT1 [H [Eg [_ [_ [_ [_ [_ [_ [_ [_ [_ [SZ _]]]]]]]]]]]]]]]]]]]]]]]. cbn zeta in SZ.
    destruct (dens _ _ _ _ eq_refl SZ) as [Hm [N0 [N1 [N2 N3]]]].
    apply loc_value in E. destruct E as [g' [d0 [d1 [e0 [e1 [Eg' [_ [_ [_ [_ ->]]]]]]]]]]. rewrite Eg in Eg'. injection Eg' as <-. cbn zeta.
    destruct (const_ps (ro_mu o) g) as [q Hq]. unfold four_cells.
    destruct (odds_const tl _ true (fun u => r_y u - rout 1 d1 u) q Hq N3) as [-> Q1]. destruct (odds_const tl _ false (fun u => r_y u - rout 1 d0 u) q Hq N2) as [-> Q0].
    assert (P0 := T0_den N0). assert (P1 := T1_den N1). assert (PD := D_den (proj1 (rany_neg_false l) NN) N0).
    rewrite (cell_mean_shift true true _ (nth 0 e1 0)) by (try assumption; intros u Hu; rewrite (out1 e1 u Hu); reflexivity).
    rewrite (cell_mean_shift true false _ (nth 0 e0 0)) by (try assumption; intros u Hu; rewrite (out1 e0 u Hu); reflexivity).
    rewrite (cell_mean_shift false true _ (nth 0 d1 0)) by (try assumption; intros u Hu; rewrite (out1 d1 u Hu); reflexivity).
    rewrite (cell_mean_shift false false _ (nth 0 d0 0)) by (try assumption; intros u Hu; rewrite (out1 d0 u Hu); reflexivity).
    unfold treated_mean. rewrite (sumf_ext (fun u => r_w u * _) (fun u => r_w u * ((nth 0 e1 0 - nth 0 d1 0) - (nth 0 e0 0 - nth 0 d0 0)))).
    - rewrite sumf_mul_r. field. exact PD.
    - intros u Hu. apply filter_In in Hu. rewrite !out1 by apply Hu. reflexivity.
  Qed.
  (** an intercept-only fit is the mean of its cell *)
  Lemma nocov_fit b t beta : rnormal_equations 1 (cell b t l) beta -> sumf r_w (cell b t l) <> 0 -> nth 0 beta 0 = cell_mean b t r_y l.
  Proof.
    intros N D. specialize (N 0%nat ltac:(lia)). unfold cell_mean.
    rewrite (sumf_ext _ (fun u => r_w u * r_y u - r_w u * nth 0 beta 0)) in N.
    - rewrite sumf_sub, sumf_mul_r in N. apply Qc_sub_0_eq in N. rewrite N. field. exact D.
    - intros u Hu. apply filter_In in Hu. unfold rx_at. fold (rout 1 beta u). rewrite (out1 beta u (proj1 Hu)), (HX u (proj1 Hu)). cbn. ring.
  Qed.
  Lemma gram1_den b t M : mean r_w l <> 0 -> is_inverse 1 (rgram 1 b t (rnormalise l)) M -> sumf r_w (cell b t l) <> 0.
  Proof.
    intros Hm I Z0. destruct (I 0%nat 0%nat ltac:(lia) ltac:(lia)) as [I1 _]. unfold mat_mul in I1. cbn [seq] in I1. rewrite sumf_cons in I1.
    assert (G0 : mget (rgram 1 b t (rnormalise l)) 0 0 = 0); [|rewrite G0 in I1; replace (0 * mget M 0 0 + sumf _ []) with 0 in I1 by (unfold sumf; cbn [map qsum]; unfold qsum; cbn; ring); discriminate I1].
    unfold rgram. rewrite mget_mat_of by lia. apply mean_0.
    transitivity (/ mean r_w l * sumf r_w (cell b t l)); [|rewrite Z0; ring]. unfold cell. rewrite sumf_filter. unfold rnormalise. rewrite sumf_map, <- sumf_mul_l. apply sumf_ext. intros u Hu.
    rewrite wols_cell. unfold rx_at. cbn [rset_w r_w r_x]. rewrite (HX u Hu). cbn [nth]. unfold in_cell. cbn [rset_w r_d r_post]. unfold Qcdiv. ring.
  Qed.
  Lemma nocov_rreg o att inf : rwls_ok o 1 -> rinv_ok o 1 -> reg_did_rc o 1 l = PEst att inf -> att = four_cells l.
  Proof.
    intros WO IO E. assert (E' := E). apply rreg_inv in E'. destruct E' as [NN [b0 [b1 [M0 [M1 [E0 [E1 [I0 [I1 [N0 [N1 _]]]]]]]]]]].
    assert (Hm := mean_weights_neq0 _ cT0 l wr0_c N0). apply ols_rc_inv in E0. apply ols_rc_inv in E1.
    apply rreg_value in E. destruct E as [c0 [c1 [F0 [F1 ->]]]]. rewrite (proj1 E0) in F0. rewrite (proj1 E1) in F1. injection F0 as <-. injection F1 as <-.
    assert (G0 := normal_raw _ _ _ _ _ Hm (WO _ _ (proj1 E0))). assert (G1 := normal_raw _ _ _ _ _ Hm (WO _ _ (proj1 E1))).
    assert (Q0 := gram1_den _ _ _ Hm (IO _ _ I0)). assert (Q1 := gram1_den _ _ _ Hm (IO _ _ I1)).
    assert (PD : sumf r_w (filter r_d l) <> 0).
    { apply D_den; [exact (proj1 (rany_neg_false l) NN)|]. apply sum_c_raw; [exact Hm|intros w u; reflexivity|exact (mean_neq_sum _ _ _ wr0_c N0)]. }
    unfold four_cells. rewrite <- (nocov_fit _ _ _ G0 Q0), <- (nocov_fit _ _ _ G1 Q1). f_equal.
    unfold treated_mean. rewrite (sumf_ext (fun u => r_w u * _) (fun u => r_w u * (nth 0 b1 0 - nth 0 b0 0))).
    - rewrite sumf_mul_r. field. exact PD.
    - intros u Hu. apply filter_In in Hu. rewrite !out1 by apply Hu. reflexivity.
  Qed.
End NoCov.

(** ** Horvitz-Thompson *)
Lemma rps_bounds mu k g u : eps6 <= rps_fit mu k g u /\ rps_fit mu k g u <= 1 - eps6.
Proof. exact (ps_fit_bounds mu k g {| p_id := 0%Z; p_d := true; p_y1 := 0; p_y0 := 0; p_w := 0; p_x := r_x u |}). Qed.
Lemma Qcinv_0' : / 0 = 0. Proof. apply Qc_is_canon. reflexivity. Qed.
Lemma Qcinv_mul (a b : Qc) : / (a * b) = / a * / b.
Proof.
  destruct (Qceqb_spec a 0) as [->|Ha]; [replace (0 * b) with 0 by ring; rewrite Qcinv_0'; ring|].
  destruct (Qceqb_spec b 0) as [->|Hb]; [replace (a * 0) with 0 by ring; rewrite Qcinv_0'; ring|]. field. auto.
Qed.
Lemma rn_sum (v : runit -> Qc) l : blind v -> sumf (fun u => r_w u * v u) (rnormalise l) = / mean r_w l * sumf (fun u => r_w u * v u) l.
Proof. intros B. unfold rnormalise. rewrite sumf_map, <- sumf_mul_l. apply sumf_ext. intros u _. rewrite B. cbn [rset_w r_w]. unfold Qcdiv. ring. Qed.
Lemma rn_mean (v : runit -> Qc) l : blind v -> mean r_w l <> 0 -> mean (fun u => r_w u * v u) (rnormalise l) = sumf (fun u => r_w u * v u) l / sumf r_w l.
Proof.
  intros B Hm. unfold mean. rewrite rn_sum, rnormalise_length by exact B. unfold mean in *.
  destruct l as [|u0 l0]; [exfalso; apply Hm; reflexivity|]. set (l := u0 :: l0) in *. assert (Hn : qn (length l) <> 0) by (apply qn_neq0; cbn; lia).
  assert (Hs : sumf r_w l <> 0) by (intros E; apply Hm; rewrite E; apply Qcdiv_0_l). field. auto.
Qed.
Lemma wshare_sum p l : wshare p l = sumf (fun u => r_w u * ind (p u)) l / sumf r_w l.
Proof. unfold wshare. rewrite sumf_filter. f_equal. apply sumf_ext. intros; ring. Qed.
Lemma pi_share l : mean r_w l <> 0 -> pi_hat (rnormalise l) = wshare r_d l.
Proof. intros Hm. rewrite wshare_sum. apply (rn_mean r_D); [exact blind_D|exact Hm]. Qed.
Lemma lambda_share l : mean r_w l <> 0 -> lambda_hat (rnormalise l) = wshare r_post l.
Proof. intros Hm. rewrite wshare_sum. apply (rn_mean r_P); [intros w u; reflexivity|exact Hm]. Qed.
Lemma oml_share l : mean r_w l <> 0 -> oml_hat (rnormalise l) = wshare (fun u => negb (r_post u)) l.
Proof.
  intros Hm. rewrite wshare_sum. unfold oml_hat. rewrite (rn_mean (fun u => 1 - r_P u)); [|intros w u; reflexivity|exact Hm]. f_equal. apply sumf_ext. intros u _.
  unfold r_P. destruct (r_post u); cbn [ind negb]; ring.
Qed.
(** Sum of [v] over the cell, divided by the weight the cell would have were treatment and period independent in the sample. *)
Lemma ht_value o k tl l att inf : ipw_did_rc o k tl l = PEst att inf -> exists gamma, ro_logit o (rnormalise l) = Some gamma /\
  let ps := rps_fit (ro_mu o) k gamma in let one := fun _ => 1 in let odds := fun u => ind (Qcltb (ps u) tl) * (ps u / (1 - ps u)) in
  att = (ht_cell true true one l - ht_cell true false one l) - (ht_cell false true odds l - ht_cell false false odds l).
Proof.
  intros E. apply ht_inv in E. destruct E as [_ [_ [g [H [Eg [_ [Np [Nl [Nl1 [-> _]]]]]]]]]]. exists g. split; [exact Eg|]. cbn zeta in *.
  assert (Hm : mean r_w l <> 0). { intros E0. apply Np. apply mean_0, sumf_zero. intros u Hu. rewrite (rnormalise_zero l E0 u Hu). ring. }
  unfold ht_att. cbn zeta. set (ps := rps_fit (ro_mu o) k g). unfold eta_h. rewrite !mean_div_r.
  rewrite pi_share, lambda_share, oml_share by exact Hm.
  assert (X : forall (w c : runit -> Qc), (forall u, w u = r_w u * c u) -> blind c -> mean (fun u => w u * r_y u) (rnormalise l) = sumf (fun u => r_w u * (c u * r_y u)) l / sumf r_w l).
  { intros w c Hw Bc. rewrite <- (rn_mean (fun u => c u * r_y u)); [|intros w' u; rewrite Bc; reflexivity|exact Hm]. apply mean_ext. intros u _. rewrite Hw. ring. }
  rewrite (X _ cT1), (X _ cT0), (X _ (cC1 tl ps)), (X _ (cC0 tl ps))
    by (try (intros u; first [apply wc1_c|apply wc0_c|unfold wh_treat_post, wh_treat_pre, cT1, cT0; ring]); intros w u; reflexivity).
  unfold ht_cell, cell. rewrite !sumf_filter.
  assert (Y : forall (A B W d s : Qc), A = B -> A / W / (d * s) = B / (W * d * s)).
  { intros A B W d s ->. unfold Qcdiv. rewrite !Qcinv_mul. ring. }
  assert (W1 : wshare (fun u => Bool.eqb (r_post u) true) l = wshare r_post l) by (unfold wshare; rewrite (filter_ext _ r_post); [reflexivity|intros u; destruct (r_post u); reflexivity]).
  assert (W0 : wshare (fun u => Bool.eqb (r_post u) false) l = wshare (fun u => negb (r_post u)) l) by (unfold wshare; rewrite (filter_ext _ (fun u => negb (r_post u))); [reflexivity|intros u; destruct (r_post u); reflexivity]).
  rewrite W1, W0.
  f_equal; f_equal; apply Y; apply sumf_ext; intros u _; unfold cT0, cT1, cC0, cC1, in_cell, r_D, r_P; destruct (r_d u), (r_post u), (Qcltb (ps u) tl); cbn [Bool.eqb andb negb ind]; ring.
Qed.

(** with an intercept only and an uninformative logit, the Horvitz-Thompson estimate under independent shares is the two-by-two comparison *)
Lemma nocov_ht o tl l att inf : (forall u, In u l -> r_x u = 1 :: nil) -> rscore_ok o 1 ->
  (forall gamma u, ro_logit o (rnormalise l) = Some gamma -> In u l -> rps_fit (ro_mu o) 1 gamma u < tl) ->
  (forall b t, sumf r_w (cell b t l) = sumf r_w l * wshare (fun u => Bool.eqb (r_d u) b) l * wshare (fun u => Bool.eqb (r_post u) t) l) ->
  ipw_did_rc o 1 tl l = PEst att inf -> att = four_cells l.
Proof.
  intros HX SO TR IND E. assert (E' := E). apply ht_inv in E'. destruct E' as [_ [_ [g [H [Eg [_ [Np _]]]]]]].
  assert (Hm : mean r_w l <> 0). { intros E0. apply Np. apply mean_0, sumf_zero. intros u Hu. rewrite (rnormalise_zero l E0 u Hu). ring. }
  assert (Hs : sumf r_w l <> 0) by (intros E0; apply Hm; unfold mean; rewrite E0; apply Qcdiv_0_l).
  apply ht_value in E. destruct E as [g' [Eg' ->]]. rewrite Eg in Eg'. injection Eg' as <-. cbn zeta.
  destruct (const_ps l HX (ro_mu o) g) as [q Hq].
  (* the score equation: q is the treated share *)
  assert (Q : q = wshare r_d l).
  { assert (S0 := SO _ _ Eg 0%nat ltac:(lia)). unfold rnormalise in S0. rewrite sumf_map in S0.
    rewrite (sumf_ext _ (fun u => / mean r_w l * (r_w u * ind (r_d u) - r_w u * q))) in S0.
    - rewrite sumf_mul_l, sumf_sub, sumf_mul_r in S0. apply Qcmult_integral in S0. destruct S0 as [S0|S0]; [exfalso; revert S0; apply inv_neq0; exact Hm|].
      apply Qc_sub_0_eq in S0. rewrite wshare_sum, S0. field. exact Hs.
    - intros u Hu. unfold rx_at. cbn [rset_w r_x r_w r_D r_d]. change (rps_fit (ro_mu o) 1 g (rset_w (r_w u / mean r_w l) u)) with (rps_fit (ro_mu o) 1 g u).
      change (r_D (rset_w (r_w u / mean r_w l) u)) with (ind (r_d u)). rewrite (HX u Hu), (Hq u Hu). cbn [nth]. unfold Qcdiv. ring. }
  assert (BD : eps6 <= q /\ q <= 1 - eps6).
  { destruct l as [|u0 l0] eqn:EL; [exfalso; apply Hs; reflexivity|]. rewrite <- (Hq u0 (or_introl eq_refl)). apply rps_bounds. }
  assert (Q1 : q <> 0) by (apply Qc_pos_neq0; destruct BD as [B1 _]; assert (0 < eps6) by reflexivity; qclra).
  assert (Q2 : 1 - q <> 0) by (apply Qc_pos_neq0; destruct BD as [_ B2]; assert (0 < eps6) by reflexivity; qclra).
  assert (ST : wshare (fun u => Bool.eqb (r_d u) true) l = q) by (rewrite Q; unfold wshare; rewrite (filter_ext _ r_d); [reflexivity|intros u; destruct (r_d u); reflexivity]).
  assert (SC : wshare (fun u => Bool.eqb (r_d u) false) l = 1 - q).
  { rewrite Q, !wshare_sum. rewrite (sumf_ext (fun u => r_w u * ind (Bool.eqb (r_d u) false)) (fun u => r_w u - r_w u * ind (r_d u))) by (intros u _; destruct (r_d u); cbn [Bool.eqb ind]; ring).
    rewrite sumf_sub. field. exact Hs. }
  assert (XT : forall t, ht_cell true t (fun _ => 1) l = cell_mean true t r_y l).
  { intros t. unfold ht_cell, cell_mean. rewrite <- Q, (IND true t), ST. f_equal. apply sumf_ext. intros; ring. }
  assert (XC : forall t, ht_cell false t (fun u => ind (Qcltb (rps_fit (ro_mu o) 1 g u) tl) * (rps_fit (ro_mu o) 1 g u / (1 - rps_fit (ro_mu o) 1 g u))) l = cell_mean false t r_y l).
  { intros t. unfold ht_cell, cell_mean. rewrite <- Q, (IND false t), SC.
    rewrite (sumf_ext _ (fun u => q / (1 - q) * (r_w u * r_y u))).
    - rewrite sumf_mul_l. set (s := wshare _ l). unfold Qcdiv. rewrite !Qcinv_mul. set (is := / s). field. auto.
    - intros u Hu. apply filter_In in Hu. assert (T := TR g u Eg (proj1 Hu)). destruct (Qcltb_spec (rps_fit (ro_mu o) 1 g u) tl) as [_|N]; [|contradiction].
      rewrite (Hq u (proj1 Hu)). cbn [ind]. ring. }
  unfold four_cells. rewrite !XT, !XC. reflexivity.
Qed.
