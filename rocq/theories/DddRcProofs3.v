(** Proofs for C107: each comparison is the two-group repeated cross-section estimator of drdid on the rows of the two subgroups. *)
From Verif Require Import Base ListLib ReduceModel ReduceProofs2 Calc DrdidModel DrdidSpec DrdidProofs DrdidProofs2 DrdidProofs3 DrdidProofs4 DrdidProofs5 DrdidProofs6 DrdidProofs7 RcModel RcSpec RcCalc RcProofs RcProofs2 RcProofs3 RcProofs4 RcProofs9 DddModel DddProofs DddProofs3 DddProofs4 DddRcModel DddRcSpec DddRcProofs DddRcProofs2.

Section Sc.
  Context (k : nat) (c : Qc) (N : list runit) (Hc : c <> 0).
  Notation sc := (rscale_w c).
  Notation L := (map sc N).
  Definition tied (f g : runit -> Qc) : Prop := forall u, In u N -> f (sc u) = c * g u.
  Definition same (f g : runit -> Qc) : Prop := forall u, In u N -> f (sc u) = g u.
  Lemma mean_sc f g : tied f g -> mean f L = c * mean g N.
  Proof. intros H. rewrite mean_map, <- mean_mul_l. apply mean_ext. exact H. Qed.
  Lemma mean_same f g : same f g -> mean f L = mean g N.
  Proof. intros H. rewrite mean_map. apply mean_ext. exact H. Qed.
  Lemma eta_sc w1 w2 v1 v2 : tied w1 w2 -> same v1 v2 -> same (eta w1 v1 L) (eta w2 v2 N).
  Proof. intros Hw Hv u Hu. unfold eta. rewrite (mean_sc _ _ Hw), (Hw u Hu), (Hv u Hu). replace (c * w2 u * v2 u) with (c * (w2 u * v2 u)) by ring. apply ratio_scale. exact Hc. Qed.
  Lemma att_sc w1 w2 v1 v2 : tied w1 w2 -> same v1 v2 -> att_c w1 v1 L = att_c w2 v2 N.
  Proof. intros Hw Hv. unfold att_c. apply mean_same. apply eta_sc; assumption. Qed.
  Lemma lead_sc w1 w2 v1 v2 : tied w1 w2 -> same v1 v2 -> same (lead w1 v1 L) (lead w2 v2 N).
  Proof.
    intros Hw Hv u Hu. unfold lead. rewrite (eta_sc w1 w2 v1 v2 Hw Hv u Hu), (att_sc w1 w2 v1 v2 Hw Hv), (mean_sc _ _ Hw), (Hw u Hu). f_equal.
    replace (c * w2 u * att_c w2 v2 N) with (c * (w2 u * att_c w2 v2 N)) by ring. apply ratio_scale. exact Hc.
  Qed.
  Lemma rmean_col_sc f g : tied f g -> rmean_col k f L = vscale c (rmean_col k g N).
  Proof.
    intros H. unfold rmean_col, vec_of, vscale. rewrite map_map. apply map_ext. intros j. apply (mean_sc (fun u => f u * rx_at u j) (fun u => g u * rx_at u j)).
    intros u Hu. rewrite H by exact Hu. unfold rx_at, rscale_w. cbn. ring.
  Qed.
  Lemma rmean_col_same f g : same f g -> rmean_col k f L = rmean_col k g N.
  Proof.
    intros H. unfold rmean_col, vec_of. apply map_ext. intros j. apply (mean_same (fun u => f u * rx_at u j) (fun u => g u * rx_at u j)).
    intros u Hu. rewrite H by exact Hu. reflexivity.
  Qed.
  Lemma vdiv_sc v m : vdiv (vscale c v) (c * m) = vdiv v m.
  Proof. unfold vdiv, vscale. rewrite map_map. apply map_ext. intros a. apply ratio_scale. exact Hc. Qed.
  Lemma vneg_sc v : vneg (vscale c v) = vscale c (vneg v).
  Proof. unfold vneg, vscale. rewrite !map_map. apply map_ext. intros a. ring. Qed.
  Lemma ps_moment_sc w1 w2 v1 v2 : tied w1 w2 -> same v1 v2 -> ps_moment k w1 v1 L = ps_moment k w2 v2 N.
  Proof.
    intros Hw Hv. unfold ps_moment. rewrite (att_sc w1 w2 v1 v2 Hw Hv), (mean_sc _ _ Hw).
    rewrite (rmean_col_sc (fun u => w1 u * (v1 u - att_c w2 v2 N)) (fun u => w2 u * (v2 u - att_c w2 v2 N))) by (intros u Hu; rewrite (Hw u Hu), (Hv u Hu); ring).
    apply vdiv_sc.
  Qed.
  Lemma or_moment_sc w1 w2 s1 s2 : tied w1 w2 -> same s1 s2 -> or_moment k w1 s1 L = or_moment k w2 s2 N.
  Proof.
    intros Hw Hv. unfold or_moment. rewrite (mean_sc _ _ Hw).
    rewrite (rmean_col_sc (fun u => w1 u * s1 u) (fun u => w2 u * s2 u)) by (intros u Hu; rewrite (Hw u Hu), (Hv u Hu); ring).
    rewrite vneg_sc. apply vdiv_sc.
  Qed.
  Lemma mom_sc w1 w2 w3 w4 : tied w1 w2 -> tied w3 w4 ->
    rmean_col k (fun v => w1 v / mean w1 L - w3 v / mean w3 L) L = rmean_col k (fun v => w2 v / mean w2 N - w4 v / mean w4 N) N.
  Proof. intros H1 H2. apply rmean_col_same. intros u Hu. rewrite (mean_sc _ _ H1), (mean_sc _ _ H2), (H1 u Hu), (H2 u Hu), !ratio_scale by exact Hc. reflexivity. Qed.
  Lemma w_ols_sc b t u : w_ols b t (sc u) = c * w_ols b t u.
  Proof. unfold w_ols, r_D, r_P, rscale_w. cbn [rset_w r_w r_d r_post]. destruct b, t; ring. Qed.
  Lemma rgram_sc b t : rgram k b t L = mscale c (rgram k b t N).
  Proof.
    unfold rgram, mscale, mat_of. rewrite map_map. apply map_ext. intros i. unfold vscale. rewrite map_map. apply map_ext. intros j.
    apply (mean_sc (fun u => w_ols b t u * rx_at u i * rx_at u j) (fun u => w_ols b t u * rx_at u i * rx_at u j)). intros u Hu. rewrite w_ols_sc. unfold rx_at. cbn [rscale_w rset_w r_x]. ring.
  Qed.
  Lemma rps_gram_sc ps1 ps2 : same ps1 ps2 -> rps_gram k ps1 L = mscale c (rps_gram k ps2 N).
  Proof.
    intros H. unfold rps_gram, mscale, mat_of. rewrite map_map. apply map_ext. intros i. unfold vscale. rewrite map_map. apply map_ext. intros j.
    rewrite sumf_map, <- sumf_mul_l. apply sumf_ext. intros u Hu. rewrite (H u Hu). unfold rx_at. cbn [rscale_w rset_w r_x r_w]. ring.
  Qed.
  Definition mtied (M1 M2 : matrix) : Prop := forall i j, (i < k)%nat -> (j < k)%nat -> mget M2 i j = c * mget M1 i j.
  Lemma alr_ols_sc b t beta M1 M2 v u : mtied M1 M2 -> dotk k (alr_ols k b t beta M1 (sc u)) v = dotk k (alr_ols k b t beta M2 u) v.
  Proof.
    intros H. unfold alr_ols. rewrite w_ols_sc. change (rout k beta (sc u)) with (rout k beta u). cbn [rscale_w rset_w r_y r_x].
    rewrite <- (alr_scaled k c M1 M2 _ _ v H). f_equal. f_equal. f_equal. ring.
  Qed.
  Lemma alr_logit_sc ps1 ps2 H1 H2 v u : same ps1 ps2 -> In u N -> mtied H1 H2 -> dotk k (alr_logit k ps1 H1 (sc u)) v = dotk k (alr_logit k ps2 H2 u) v.
  Proof.
    intros Hp Hu H. unfold alr_logit. rewrite (Hp u Hu). unfold r_D. cbn [rscale_w rset_w r_d r_w r_x].
    rewrite <- (alr_scaled k c H1 H2 _ _ v H). f_equal. f_equal. f_equal. ring.
  Qed.
  (** the weights *)
  Context (p : q_ps) (tl : Qc) (ps : runit -> Qc).
  Context (PS : same (qp_ps p) ps) (KP : same (qp_keep p) (rtrim tl ps)).
  Lemma tied_t0 : tied (qw_t0 p) (w_treat_pre tl ps).
  Proof. intros u Hu. unfold qw_t0, w_treat_pre. rewrite (KP u Hu). unfold r_D, r_P. cbn [rscale_w rset_w r_d r_w r_post]. ring. Qed.
  Lemma tied_t1 : tied (qw_t1 p) (w_treat_post tl ps).
  Proof. intros u Hu. unfold qw_t1, w_treat_post. rewrite (KP u Hu). unfold r_D, r_P. cbn [rscale_w rset_w r_d r_w r_post]. ring. Qed.
  Lemma tied_d : tied (qw_d p) (w_d tl ps).
  Proof. intros u Hu. unfold qw_d, w_d. rewrite (KP u Hu). unfold r_D, r_P. cbn [rscale_w rset_w r_d r_w r_post]. ring. Qed.
  Lemma tied_c0 : tied (qw_c0 p) (w_cont_pre tl ps).
  Proof. intros u Hu. unfold qw_c0, w_cont_pre. rewrite (KP u Hu), (PS u Hu). unfold r_D, r_P, Qcdiv. cbn [rscale_w rset_w r_d r_w r_post]. ring. Qed.
  Lemma tied_c1 : tied (qw_c1 p) (w_cont_post tl ps).
  Proof. intros u Hu. unfold qw_c1, w_cont_post. rewrite (KP u Hu), (PS u Hu). unfold r_D, r_P, Qcdiv. cbn [rscale_w rset_w r_d r_w r_post]. ring. Qed.
  (** ipw *)
  Lemma sc_ipw_att : q_dr_att p outs0 L = ripw_att tl ps N.
  Proof.
    assert (Y : same (fun u => r_y u - q_own outs0 u) r_y) by (intros u _; unfold q_own; cbn; ring).
    assert (Z0 : same (fun _ => 0 - 0) (fun _ => 0)) by (intros u _; ring).
    unfold q_dr_att, ripw_att. cbn zeta. cbn [outs0 qo_c0 qo_c1 qo_t0 qo_t1].
    rewrite !(att_sc _ _ _ _ tied_t1 Y), !(att_sc _ _ _ _ tied_t0 Y), !(att_sc _ _ _ _ tied_c1 Y), !(att_sc _ _ _ _ tied_c0 Y).
    rewrite !(att_sc _ _ _ _ tied_d Z0), (att_sc _ _ _ _ tied_t1 Z0), (att_sc _ _ _ _ tied_t0 Z0).
    assert (A0 : forall w, att_c w (fun _ => 0) N = 0) by (intros w; unfold att_c; apply mean_0, sumf_zero; intros u _; unfold eta, Qcdiv; ring).
    rewrite !A0. ring.
  Qed.
  Context (H1 H2 : matrix) (HH : mtied H1 H2) (EH : qp_H p = H1).
  Lemma sc_ipw_inf u : In u N -> q_dr_inf p k outs0 (fun _ => (0, 0, 0)) L (sc u) = ripw_inf k tl ps H2 N u.
  Proof.
    intros Hu. assert (Y : same (fun u => r_y u - q_own outs0 u) r_y) by (intros v _; unfold q_own; cbn; ring).
    assert (Z0 : same (fun _ => 0 - 0) (fun _ => 0)) by (intros v _; ring).
    unfold q_dr_inf, ripw_inf. cbn zeta. cbn [outs0 qo_c0 qo_c1 qo_t0 qo_t1]. rewrite EH.
    rewrite !(lead_sc _ _ _ _ tied_t1 Y u Hu), !(lead_sc _ _ _ _ tied_t0 Y u Hu), !(lead_sc _ _ _ _ tied_c1 Y u Hu), !(lead_sc _ _ _ _ tied_c0 Y u Hu).
    rewrite !(lead_sc _ _ _ _ tied_d Z0 u Hu), (lead_sc _ _ _ _ tied_t1 Z0 u Hu), (lead_sc _ _ _ _ tied_t0 Z0 u Hu).
    rewrite (ps_moment_sc _ _ _ _ tied_c1 Y), (ps_moment_sc _ _ _ _ tied_c0 Y), (alr_logit_sc _ _ H1 H2 _ u PS Hu HH).
    assert (A0 : forall w, lead w (fun _ => 0) N u = 0).
    { intros w. unfold lead, att_c. rewrite (mean_0 (eta w _ N)) by (apply sumf_zero; intros v _; unfold eta, Qcdiv; ring). unfold eta, Qcdiv. ring. }
    rewrite !A0. ring.
  Qed.
  (** dr *)
  Context (c0 c1 t0 t1 : list Qc) (A0 A1 A2 A3 B0 B1 B2 B3 : matrix) (T0 : mtied A0 B0) (T1 : mtied A1 B1) (T2 : mtied A2 B2) (T3 : mtied A3 B3).
  Lemma sc_dr_att : q_dr_att p (drouts k c0 c1 t0 t1) L = loc_att k tl ps c0 c1 t0 t1 N.
  Proof.
    assert (Y : same (fun u => r_y u - q_own (drouts k c0 c1 t0 t1) u) (resid k c0 c1)) by (intros u _; reflexivity).
    assert (G1 : same (fun u => rout k t1 u - rout k c1 u) (fun u => rout k t1 u - rout k c1 u)) by (intros u _; reflexivity).
    assert (G0 : same (fun u => rout k t0 u - rout k c0 u) (fun u => rout k t0 u - rout k c0 u)) by (intros u _; reflexivity).
    unfold q_dr_att, loc_att, trad_att. cbn zeta. cbn [drouts qo_c0 qo_c1 qo_t0 qo_t1].
    rewrite !(att_sc _ _ _ _ tied_t1 Y), !(att_sc _ _ _ _ tied_t0 Y), !(att_sc _ _ _ _ tied_c1 Y), !(att_sc _ _ _ _ tied_c0 Y).
    rewrite (att_sc _ _ _ _ tied_d G1), (att_sc _ _ _ _ tied_d G0), (att_sc _ _ _ _ tied_t1 G1), (att_sc _ _ _ _ tied_t0 G0). reflexivity.
  Qed.
  Lemma sc_dr_inf u : In u N -> q_dr_inf p k (drouts k c0 c1 t0 t1) (q_or_inf p k (dralr k c0 c1 t0 t1 A0 A1 A2 A3) L) L (sc u)
    = loc_inf k tl ps c0 c1 t0 t1 B0 B1 B2 B3 H2 N u.
  Proof.
    intros Hu. assert (Y : same (fun u => r_y u - q_own (drouts k c0 c1 t0 t1) u) (resid k c0 c1)) by (intros v _; reflexivity).
    assert (G1 : same (fun u => rout k t1 u - rout k c1 u) (fun u => rout k t1 u - rout k c1 u)) by (intros v _; reflexivity).
    assert (G0 : same (fun u => rout k t0 u - rout k c0 u) (fun u => rout k t0 u - rout k c0 u)) by (intros v _; reflexivity).
    assert (P1 : same r_P r_P) by (intros v _; reflexivity). assert (P0 : same (fun u => 1 - r_P u) (fun u => 1 - r_P u)) by (intros v _; reflexivity).
    unfold q_dr_inf, q_or_inf, loc_inf, trad_inf. cbn zeta. cbn [drouts qo_c0 qo_c1 qo_t0 qo_t1 dralr qa_c0 qa_c1 qa_t0 qa_t1]. rewrite EH.
    rewrite !dotk_vsub_l.
    rewrite !(lead_sc _ _ _ _ tied_t1 Y u Hu), !(lead_sc _ _ _ _ tied_t0 Y u Hu), !(lead_sc _ _ _ _ tied_c1 Y u Hu), !(lead_sc _ _ _ _ tied_c0 Y u Hu).
    rewrite (lead_sc _ _ _ _ tied_d G1 u Hu), (lead_sc _ _ _ _ tied_d G0 u Hu), (lead_sc _ _ _ _ tied_t1 G1 u Hu), (lead_sc _ _ _ _ tied_t0 G0 u Hu).
    rewrite (ps_moment_sc _ _ _ _ tied_c1 Y), (ps_moment_sc _ _ _ _ tied_c0 Y), (alr_logit_sc _ _ H1 H2 _ u PS Hu HH).
    rewrite (or_moment_sc _ _ _ _ tied_t1 P1), (or_moment_sc _ _ _ _ tied_t0 P0), (or_moment_sc _ _ _ _ tied_c1 P1), (or_moment_sc _ _ _ _ tied_c0 P0).
    rewrite (mom_sc _ _ _ _ tied_d tied_t1), (mom_sc _ _ _ _ tied_d tied_t0).
    rewrite !(alr_ols_sc _ _ _ _ _ _ u T0), !(alr_ols_sc _ _ _ _ _ _ u T1), !(alr_ols_sc _ _ _ _ _ _ u T2), !(alr_ols_sc _ _ _ _ _ _ u T3). ring.
  Qed.
End Sc.
Section ScReg.
  Context (k : nat) (c : Qc) (N : list runit) (Hc : c <> 0).
  Notation sc := (rscale_w c).
  Notation L := (map sc N).
  Context (c0 c1 : list Qc) (A0 A1 B0 B1 : matrix) (T0 : mtied k c A0 B0) (T1 : mtied k c A1 B1).
  Lemma tied_r0 : tied c N (qw_t0 regps) wr_treat_pre. Proof. intros u _. unfold qw_t0, wr_treat_pre, r_D, r_P. cbn. ring. Qed.
  Lemma tied_r1 : tied c N (qw_t1 regps) wr_treat_post. Proof. intros u _. unfold qw_t1, wr_treat_post, r_D, r_P. cbn. ring. Qed.
  Lemma tied_rd : tied c N (qw_d regps) wr_cont. Proof. intros u _. unfold qw_d, wr_cont, r_D, r_P. cbn. ring. Qed.
  Lemma sc_reg_att : q_reg_att regps k c0 c1 L = rreg_att (rout k c0) (rout k c1) N.
  Proof.
    assert (Y : same c N r_y r_y) by (intros u _; reflexivity). assert (G : same c N (fun u => rout k c1 u - rout k c0 u) (fun u => rout k c1 u - rout k c0 u)) by (intros u _; reflexivity).
    unfold q_reg_att, rreg_att. fold (wmean (qw_d regps) (fun u => rout k c1 u - rout k c0 u) L). rewrite <- !att_wmean.
    rewrite (att_sc c N Hc _ _ _ _ tied_r1 Y), (att_sc c N Hc _ _ _ _ tied_r0 Y), (att_sc c N Hc _ _ _ _ tied_rd G). reflexivity.
  Qed.
  Lemma sc_reg_inf u : In u N -> q_reg_inf regps k c0 c1 A0 A1 L (sc u) = rreg_inf k c0 c1 B0 B1 N u.
  Proof.
    intros Hu. assert (Y : same c N r_y r_y) by (intros v _; reflexivity). assert (G : same c N (fun u => rout k c1 u - rout k c0 u) (fun u => rout k c1 u - rout k c0 u)) by (intros v _; reflexivity).
    rewrite q_reg_inf_lead, rreg_inf_lead. rewrite (lead_sc c N Hc _ _ _ _ tied_r1 Y u Hu), (lead_sc c N Hc _ _ _ _ tied_r0 Y u Hu), (lead_sc c N Hc _ _ _ _ tied_rd G u Hu).
    rewrite (rmean_col_sc k c N _ _ tied_rd), (mean_sc c N _ _ tied_rd), !dotk_scale_r, !(alr_ols_sc k c _ _ _ _ _ _ u T0), !(alr_ols_sc k c _ _ _ _ _ _ u T1). f_equal. f_equal.
    rewrite <- (ratio_scale c _ (mean wr_cont N) Hc). f_equal. ring.
  Qed.
End ScReg.

(** ** one comparison is the two-group estimator *)
Lemma mscale_inv c M : c <> 0 -> mscale (/ c) (mscale c M) = M.
Proof.
  intros Hc. unfold mscale. rewrite map_map. rewrite <- (map_id M) at 2. apply map_ext. intros v. unfold vscale. rewrite map_map. rewrite <- (map_id v) at 2. apply map_ext. intros a. field. exact Hc.
Qed.
Lemma inv_unscale o k c A M1 : rfits_scale_free o -> rinv_ok o k -> 0 < c -> ro_inv o (mscale c A) = Some M1 -> exists M2, ro_inv o A = Some M2 /\ mtied k c M1 M2.
Proof.
  intros FS IO Hc E. assert (Hc0 := Qc_pos_neq0 _ Hc). destruct (ro_inv o A) as [M2|] eqn:EA.
  - exists M2. split; [reflexivity|]. refine (inverse_scale k c (mscale c A) A M1 M2 _ (IO _ _ E) (IO _ _ EA)). intros i j _ _. apply mget_mscale.
  - exfalso. destruct (FS (/ c) (Qcinv_pos _ Hc)) as [_ F]. specialize (F (mscale c A)). rewrite (mscale_inv c A Hc0) in F. rewrite (F EA) in E. discriminate E.
Qed.
Lemma cell_scale b t c l : cell b t (map (rscale_w c) l) = map (rscale_w c) (cell b t l).
Proof. unfold cell. rewrite filter_map. reflexivity. Qed.
Lemma q_fit_unscale o k b t c l beta : rfits_scale_free o -> 0 < c -> q_fit o k b t (map (rscale_w c) l) = Some beta -> ols_rc o k b t l = FCoef beta.
Proof.
  intros FS Hc E. apply q_fit_ols. unfold q_fit in *. cbn zeta in *. rewrite cell_scale, map_length in E. destruct ((length (cell b t l) =? 0)%nat || (length (cell b t l) <? k)%nat); [discriminate|].
  rewrite (proj2 (proj1 (FS c Hc) _)) in E. exact E.
Qed.
Lemma rcap_fit mu k g u : eps6 <= mu (dotk k (r_x u) g) -> qps_cap mu k g u = rps_fit mu k g u.
Proof. intros H. unfold qps_cap, qps_raw, rps_fit, clip. destruct (Qcltb_spec (mu (dotk k (r_x u) g)) eps6) as [X|_]; [exfalso; apply (Qclt_not_le _ _ X H)|]. reflexivity. Qed.
Lemma rraw_fit mu k g u : eps6 <= mu (dotk k (r_x u) g) -> mu (dotk k (r_x u) g) <= 1 - eps6 -> qps_raw mu k g u = rps_fit mu k g u.
Proof.
  intros H H2. rewrite <- (rcap_fit mu k g u H). unfold qps_cap. destruct (Qcltb_spec (1 - eps6) (qps_raw mu k g u)) as [X|_]; [exfalso; apply (Qclt_not_le _ _ X H2)|reflexivity].
Qed.
Lemma nonneg_any l : (forall u, In u l -> 0 <= r_w u) -> rany_neg l = false.
Proof.
  intros W. unfold rany_neg. destruct (existsb _ l) eqn:E; [|reflexivity]. apply existsb_exists in E. destruct E as [u [Hu H]]. destruct (Qcltb_spec (r_w u) 0) as [X|X]; [|discriminate H].
  exfalso. apply (Qclt_not_le _ _ X). apply W, Hu.
Qed.
Lemma sum_cell_ex (f : runit -> Qc) b t l : (forall u, In u l -> in_cell b t u = false -> f u = 0) -> sumf f l <> 0 -> exists u, In u l /\ r_d u = b /\ r_post u = t.
Proof.
  intros H N. destruct (existsb (in_cell b t) l) eqn:E.
  - apply existsb_exists in E. destruct E as [u [Hu I]]. exists u. unfold in_cell in I. apply andb_true_iff in I. destruct I as [I1 I2]. apply eqb_prop in I1, I2. auto.
  - exfalso. apply N, sumf_zero. intros u Hu. apply H; [exact Hu|]. destruct (in_cell b t u) eqn:I; [|reflexivity]. assert (X : existsb (in_cell b t) l = true) by (apply existsb_exists; exists u; auto). congruence.
Qed.
Lemma mean_sum_neq {A} (f : A -> Qc) l : mean f l <> 0 -> sumf f l <> 0.
Proof. intros N Z0. apply N, mean_0, Z0. Qed.
Lemma some_zero_intro tl ps l : mean (w_treat_pre tl ps) l <> 0 -> mean (w_treat_post tl ps) l <> 0 -> mean (w_cont_pre tl ps) l <> 0 -> mean (w_cont_post tl ps) l <> 0 -> some_zero tl ps l = false.
Proof.
  intros A B C D. unfold some_zero. destruct (Qceqb_spec (mean (w_treat_pre tl ps) l) 0); [contradiction|]. destruct (Qceqb_spec (mean (w_treat_post tl ps) l) 0); [contradiction|].
  destruct (Qceqb_spec (mean (w_cont_pre tl ps) l) 0); [contradiction|]. destruct (Qceqb_spec (mean (w_cont_post tl ps) l) 0); [contradiction|]. reflexivity.
Qed.
Lemma rboth_intro tl ps l : some_zero tl ps l = false -> rboth l = true.
Proof.
  intros SZ. apply some_zero_inv in SZ. destruct SZ as [A [B [C _]]]. unfold rboth.
  destruct (sum_cell_ex (w_treat_pre tl ps) true false l) as [u [Hu [D P]]]; [|apply mean_sum_neq, A|].
  { intros v _ I. unfold w_treat_pre, r_D, r_P. unfold in_cell in I. destruct (r_d v), (r_post v); cbn in *; try discriminate; ring. }
  destruct (sum_cell_ex (w_treat_post tl ps) true true l) as [u1 [Hu1 [D1 P1]]]; [|apply mean_sum_neq, B|].
  { intros v _ I. unfold w_treat_post, r_D, r_P. unfold in_cell in I. destruct (r_d v), (r_post v); cbn in *; try discriminate; ring. }
  destruct (sum_cell_ex (w_cont_pre tl ps) false false l) as [u2 [Hu2 [D2 P2]]]; [|apply mean_sum_neq, C|].
  { intros v _ I. unfold w_cont_pre, r_D, r_P. unfold in_cell in I. destruct (r_d v), (r_post v); cbn in *; try discriminate; unfold Qcdiv; ring. }
  rewrite !andb_true_iff. repeat split; apply existsb_exists; [exists u|exists u2|exists u1|exists u]; rewrite ?D, ?D2, ?P1, ?P; auto.
Qed.
Lemma pair_bridge_rc o k m tl l s a i : 0 < s -> (forall u, In u l -> 0 <= r_w u) -> rinv_ok o k -> rfits_scale_free o -> rscores_interior o k m l ->
  did_rc o k m tl (map (rscale_w s) l) = PEst a i -> two_group_rc o k m tl l = PEst a i.
Proof.
  intros Hs W IO FS SI E. apply did_rc_inv in E. destruct E as [p [EP [N0 [N1 F]]]].
  assert (Hm : mean r_w l <> 0).
  { intros Z0. apply N0. apply mean_0, sumf_zero. intros u Hu. apply in_map_iff in Hu. destruct Hu as [v [<- Hv]]. rewrite (qt0_c p (ps_part_keep _ _ _ _ _ _ EP)). cbn [rscale_w rset_w r_w].
    rewrite (nonneg_sum_zero r_w l W); [ring| |exact Hv]. unfold mean in Z0. destruct l as [|u0 l0]; [reflexivity|]. assert (Hn : qn (length (u0 :: l0)) <> 0) by (apply qn_neq0; cbn; lia).
    transitivity (sumf r_w (u0 :: l0) / qn (length (u0 :: l0)) * qn (length (u0 :: l0))); [field; exact Hn|rewrite Z0; ring]. }
  assert (NN := nonneg_any l W).
  assert (PM' : 0 < mean r_w l). { destruct (Qc_le_or_lt (mean r_w l) 0) as [X|X]; [|exact X]. exfalso. apply Hm, Qcle_antisym; [exact X|]. apply mean_nonneg, W. }
  set (c := s * mean r_w l). assert (Hc : 0 < c) by (unfold c; setoid_replace 0 with (0 * mean r_w l) by ring; apply Qcmult_lt_compat_r; assumption).
  assert (Hc0 := Qc_pos_neq0 _ Hc). set (N := rnormalise l).
  assert (ES : map (rscale_w s) l = map (rscale_w c) N).
  { unfold N, rnormalise. rewrite map_map. apply map_ext. intros u. unfold rscale_w, rset_w. cbn. f_equal. unfold c. field. exact Hm. }
  rewrite ES in *. clear ES.
  assert (LN : length (map (rscale_w c) N) = length N) by apply map_length.
  assert (PSF : m <> Reg -> exists g V1 V2, ro_logit o N = Some g /\ ro_inv o (rps_gram k (rps_fit (ro_mu o) k g) N) = Some V2 /\ mtied k c V1 V2 /\
    qp_H p = mscale (qn (length N)) V1 /\ same c N (qp_ps p) (rps_fit (ro_mu o) k g) /\ same c N (qp_keep p) (rtrim tl (rps_fit (ro_mu o) k g))).
  { intros NR. assert (X : exists gamma V, ro_logit o (map (rscale_w c) N) = Some gamma /\ ro_inv o (rps_gram k (qps_raw (ro_mu o) k gamma) (map (rscale_w c) N)) = Some V /\ p = logps o k tl (map (rscale_w c) N) gamma V)
      by (destruct m; [exact EP|congruence|exact EP]).
    destruct X as [g [V1 [Eg [EV ->]]]]. rewrite (proj1 (proj1 (FS c Hc) N)) in Eg.
    assert (IN : forall u, In u N -> eps6 <= ro_mu o (dotk k (r_x u) g) /\ ro_mu o (dotk k (r_x u) g) <= 1 - eps6).
    { intros u Hu. unfold N, rnormalise in Hu. apply in_map_iff in Hu. destruct Hu as [v [<- Hv]]. destruct m; [exact (SI g v Eg Hv)|congruence|exact (SI g v Eg Hv)]. }
    assert (SR : same c N (qps_raw (ro_mu o) k g) (rps_fit (ro_mu o) k g)) by (intros u Hu; exact (rraw_fit _ _ _ _ (proj1 (IN u Hu)) (proj2 (IN u Hu)))).
    rewrite (rps_gram_sc k c N _ _ SR) in EV. destruct (inv_unscale o k c _ _ FS IO Hc EV) as [V2 [EV2 MT]].
    exists g, V1, V2. cbn [logps qp_H qp_ps qp_keep]. rewrite LN. repeat split; auto.
    - intros u Hu. exact (rcap_fit _ _ _ _ (proj1 (IN u Hu))).
    - intros u Hu. unfold q_keep, rtrim. rewrite (SR u Hu). reflexivity. }
  assert (NZ : forall g, m <> Reg -> same c N (qp_ps p) (rps_fit (ro_mu o) k g) -> same c N (qp_keep p) (rtrim tl (rps_fit (ro_mu o) k g)) ->
    mean (qw_c0 p) (map (rscale_w c) N) <> 0 -> mean (qw_c1 p) (map (rscale_w c) N) <> 0 -> some_zero tl (rps_fit (ro_mu o) k g) N = false).
  { intros g NR S1 S2 N2 N3. rewrite (mean_sc c N _ _ (tied_t0 c N p tl _ S2)) in N0. rewrite (mean_sc c N _ _ (tied_t1 c N p tl _ S2)) in N1.
    rewrite (mean_sc c N _ _ (tied_c0 c N p tl _ S1 S2)) in N2. rewrite (mean_sc c N _ _ (tied_c1 c N p tl _ S1 S2)) in N3.
    apply some_zero_intro; intros Z0; [apply N0|apply N1|apply N2|apply N3]; rewrite Z0; ring. }
  assert (MH : forall V1 V2, mtied k c V1 V2 -> mtied k c (mscale (qn (length N)) V1) (mscale (qn (length N)) V2)).
  { intros V1 V2 T x y Hx Hy. rewrite !mget_mscale, T by assumption. ring. }
  destruct m.
  - destruct (PSF ltac:(discriminate)) as [g [V1 [V2 [Eg [EV2 [MT [EH [S1 S2]]]]]]]].
    destruct F as [N2 [N3 [c0 [c1 [t0 [t1 [M0 [M1 [M2 [M3 [F0 [F1 [F2 [F3 [I0 [I1 [I2 [I3 [-> ->]]]]]]]]]]]]]]]]]]].
    assert (SZ := NZ g ltac:(discriminate) S1 S2 N2 N3).
    apply (q_fit_unscale o k _ _ c N _ FS Hc) in F0, F1, F2, F3. rewrite rgram_sc in I0, I1, I2, I3.
    destruct (inv_unscale o k c _ _ FS IO Hc I0) as [B0 [J0 T0]]. destruct (inv_unscale o k c _ _ FS IO Hc I1) as [B1 [J1 T1]].
    destruct (inv_unscale o k c _ _ FS IO Hc I2) as [B2 [J2 T2]]. destruct (inv_unscale o k c _ _ FS IO Hc I3) as [B3 [J3 T3]].
    cbn [two_group_rc]. unfold drdid_rc. fold N. rewrite NN. cbn zeta. rewrite (rboth_intro _ _ _ SZ), Eg, F0, F1, F2, F3, J0, J1, J2, J3, EV2, SZ. cbn [negb].
    f_equal; [symmetry; apply sc_dr_att; assumption|]. rewrite map_map. apply map_ext_in. intros u Hu. symmetry.
    exact (sc_dr_inf k c N Hc0 p tl _ S1 S2 (mscale (qn (length N)) V1) (mscale (qn (length N)) V2) (MH _ _ MT) EH c0 c1 t0 t1 M0 M1 M2 M3 B0 B1 B2 B3 T0 T1 T2 T3 u Hu).
  - cbn in EP. subst p. destruct F as [c0 [c1 [M0 [M1 [F0 [F1 [I0 [I1 [-> ->]]]]]]]]].
    apply (q_fit_unscale o k _ _ c N _ FS Hc) in F0, F1. rewrite rgram_sc in I0, I1.
    destruct (inv_unscale o k c _ _ FS IO Hc I0) as [B0 [J0 T0]]. destruct (inv_unscale o k c _ _ FS IO Hc I1) as [B1 [J1 T1]].
    rewrite (mean_sc c N _ _ (tied_r0 c N)) in N0. rewrite (mean_sc c N _ _ (tied_r1 c N)) in N1.
    cbn [two_group_rc]. unfold reg_did_rc. fold N. rewrite NN. cbn zeta. rewrite F0, F1, J0, J1.
    destruct (Qceqb_spec (mean wr_treat_pre N) 0) as [Z0|_]; [exfalso; apply N0; rewrite Z0; ring|]. destruct (Qceqb_spec (mean wr_treat_post N) 0) as [Z0|_]; [exfalso; apply N1; rewrite Z0; ring|]. cbn [orb].
    f_equal; [symmetry; apply sc_reg_att; assumption|]. rewrite map_map. apply map_ext_in. intros u Hu. symmetry. apply sc_reg_inf; assumption.
  - destruct (PSF ltac:(discriminate)) as [g [V1 [V2 [Eg [EV2 [MT [EH [S1 S2]]]]]]]].
    destruct F as [N2 [N3 [-> ->]]]. assert (SZ := NZ g ltac:(discriminate) S1 S2 N2 N3).
    cbn [two_group_rc]. unfold std_ipw_did_rc. fold N. rewrite NN. cbn zeta. rewrite (rboth_intro _ _ _ SZ), Eg, EV2, SZ. cbn [negb].
    f_equal; [symmetry; apply sc_ipw_att; assumption|]. rewrite map_map. apply map_ext_in. intros u Hu. symmetry.
    exact (sc_ipw_inf k c N Hc0 p tl _ S1 S2 (mscale (qn (length N)) V1) (mscale (qn (length N)) V2) (MH _ _ MT) EH u Hu).
Qed.
