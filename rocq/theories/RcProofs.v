(** Proofs for C89-C92: normalisation, inversion, weighted means, scale and order. *)
From Verif Require Import Base ListLib ReduceModel ReduceProofs2 DrdidModel DrdidSpec DrdidProofs DrdidProofs2 DrdidProofs3 DrdidProofs4 DrdidProofs5 RcModel RcSpec.

(** ** normalised weights *)
Lemma rnormalise_length l : length (rnormalise l) = length l. Proof. apply map_length. Qed.
Lemma in_rnormalise u l : In u (rnormalise l) -> exists v, In v l /\ u = rset_w (r_w v / mean r_w l) v.
Proof. unfold rnormalise. rewrite in_map_iff. intros [v [<- H]]. eauto. Qed.
Lemma rany_neg_false l : rany_neg l = false <-> forall u, In u l -> 0 <= r_w u.
Proof.
  unfold rany_neg. split.
  - intros H u Hu. destruct (Qcltb_spec (r_w u) 0) as [L|L].
    + assert (existsb (fun u => Qcltb (r_w u) 0) l = true) by (apply existsb_exists; exists u; split; [exact Hu|]; destruct (Qcltb_spec (r_w u) 0); congruence). congruence.
    + apply Qcnot_lt_le. exact L.
  - intros H. destruct (existsb _ l) eqn:E; [|reflexivity]. apply existsb_exists in E. destruct E as [u [Hu L]].
    destruct (Qcltb_spec (r_w u) 0) as [L'|]; [|discriminate]. exfalso. apply (Qcle_not_lt _ _ (H u Hu)). exact L'.
Qed.
Lemma rnormalise_zero l : mean r_w l = 0 -> forall u, In u (rnormalise l) -> r_w u = 0.
Proof. intros E u Hu. apply in_rnormalise in Hu. destruct Hu as [v [_ ->]]. cbn. rewrite E. apply Qcdiv_0_r. Qed.
Lemma rmean_pos l : (forall u, In u l -> 0 <= r_w u) -> mean r_w l <> 0 -> 0 < mean r_w l.
Proof.
  intros W Hm. destruct (Qc_le_or_lt (mean r_w l) 0) as [L|L]; [|exact L]. exfalso. apply Hm. apply Qcle_antisym; [exact L|apply mean_nonneg; exact W].
Qed.
Lemma rnormalise_nonneg l : (forall u, In u l -> 0 <= r_w u) -> mean r_w l <> 0 -> forall u, In u (rnormalise l) -> 0 <= r_w u.
Proof.
  intros W Hm u Hu. apply in_rnormalise in Hu. destruct Hu as [v [Hv ->]]. cbn. apply Qcdiv_nonneg; [apply W; exact Hv|apply rmean_pos; assumption].
Qed.
Lemma rnormalise_mean1 l : mean r_w l <> 0 -> mean r_w (rnormalise l) = 1.
Proof.
  intros Hm. unfold rnormalise. rewrite mean_map. cbn [rset_w r_w].
  rewrite (mean_ext _ (fun u => r_w u * / mean r_w l)) by reflexivity. rewrite mean_mul_r. field. exact Hm.
Qed.
Lemma inv_neq0 (a : Qc) : a <> 0 -> / a <> 0.
Proof. intros H E. apply H. transitivity (a * a * / a); [field; exact H|rewrite E; ring]. Qed.

(** ** the weights as sampling weight times a coefficient *)
Definition cT0 (u : runit) : Qc := r_D u * (1 - r_P u).
Definition cT1 (u : runit) : Qc := r_D u * r_P u.
Definition cC0 (tl : Qc) (ps : runit -> Qc) (u : runit) : Qc := ind (in_cell false false u && Qcltb (ps u) tl) * (ps u / (1 - ps u)).
Definition cC1 (tl : Qc) (ps : runit -> Qc) (u : runit) : Qc := ind (in_cell false true u && Qcltb (ps u) tl) * (ps u / (1 - ps u)).
Ltac cells u := unfold in_cell, rtrim, r_D, r_P; destruct (r_d u), (r_post u); cbn [Bool.eqb andb orb negb ind]; unfold Qcdiv; try ring.
Lemma wt0_c tl ps u : w_treat_pre tl ps u = r_w u * cT0 u. Proof. unfold w_treat_pre, cT0. cells u; destruct (Qcltb (ps u) tl); cbn [ind]; ring. Qed.
Lemma wt1_c tl ps u : w_treat_post tl ps u = r_w u * cT1 u. Proof. unfold w_treat_post, cT1. cells u; destruct (Qcltb (ps u) tl); cbn [ind]; ring. Qed.
Lemma wd_c tl ps u : w_d tl ps u = r_w u * r_D u. Proof. unfold w_d. cells u; destruct (Qcltb (ps u) tl); cbn [ind]; ring. Qed.
Lemma wc0_c tl ps u : w_cont_pre tl ps u = r_w u * cC0 tl ps u. Proof. unfold w_cont_pre, cC0. cells u; destruct (Qcltb (ps u) tl); cbn [ind]; ring. Qed.
Lemma wc1_c tl ps u : w_cont_post tl ps u = r_w u * cC1 tl ps u. Proof. unfold w_cont_post, cC1. cells u; destruct (Qcltb (ps u) tl); cbn [ind]; ring. Qed.
Lemma wr0_c u : wr_treat_pre u = r_w u * cT0 u. Proof. unfold wr_treat_pre, cT0. ring. Qed.
Lemma wr1_c u : wr_treat_post u = r_w u * cT1 u. Proof. unfold wr_treat_post, cT1. ring. Qed.
Lemma wols_cell b t u : w_ols b t u = r_w u * ind (in_cell b t u).
Proof. unfold w_ols. destruct b, t; cells u. Qed.

(** weighted mean with coefficient [c] *)
Definition R (c v : runit -> Qc) (l : list runit) : Qc := sumf (fun u => r_w u * c u * v u) l / sumf (fun u => r_w u * c u) l.
Lemma att_wmean w v l : att_c w v l = wmean w v l.
Proof. unfold att_c, wmean, eta. apply mean_div_r. Qed.
Lemma att_R w c v l : (forall u, w u = r_w u * c u) -> att_c w v l = R c v l.
Proof. intros H. rewrite att_wmean, wmean_sums. unfold R. f_equal; apply sumf_ext; intros; rewrite H; reflexivity. Qed.
Lemma R_ext c v v' l : (forall u, In u l -> v u = v' u) -> R c v l = R c v' l.
Proof. intros H. unfold R. f_equal. apply sumf_ext. intros u Hu. rewrite H by exact Hu. reflexivity. Qed.
(** [c], [v] do not look at the weight *)
Definition blind (f : runit -> Qc) : Prop := forall w u, f (rset_w w u) = f u.
Lemma R_normalise c v l : mean r_w l <> 0 -> blind c -> blind v -> R c v (rnormalise l) = R c v l.
Proof.
  intros Hm Bc Bv. unfold R, rnormalise. rewrite !sumf_map. rewrite <- (ratio_scale (/ mean r_w l) (sumf (fun u => r_w u * c u * v u) l)) by (apply inv_neq0, Hm).
  rewrite <- !sumf_mul_l. f_equal; apply sumf_ext; intros u _; rewrite Bc, ?Bv; cbn [rset_w r_w]; unfold Qcdiv; ring.
Qed.
Lemma R_sub c v v' l : R c (fun u => v u - v' u) l = R c v l - R c v' l.
Proof.
  unfold R. rewrite (sumf_ext (fun u => _ * (v u - v' u)) (fun u => r_w u * c u * v u - r_w u * c u * v' u)) by (intros; ring).
  rewrite sumf_sub. unfold Qcdiv. ring.
Qed.
Lemma R_lin c k (x : runit -> list Qc) b l : R c (fun u => dotk k (x u) b) l = dotk k (vec_of k (fun j => R c (fun u => nth j (x u) 0) l)) b.
Proof.
  unfold R, dotk. rewrite (sumf_ext (fun u => r_w u * c u * _) (fun u => sumf (fun j => r_w u * c u * nth j (x u) 0 * nth j b 0) (seq 0 k))).
  - rewrite sumf_swap, <- sumf_div. apply sumf_ext. intros j Hj. apply in_seq in Hj. rewrite nth_vec_of by lia. rewrite sumf_mul_r. unfold Qcdiv. ring.
  - intros u _. rewrite <- sumf_mul_l. apply sumf_ext. intros j _. ring.
Qed.
Lemma R_const c s v l : (forall u, In u l -> v u = s) -> sumf (fun u => r_w u * c u) l <> 0 -> R c v l = s.
Proof.
  intros H N. unfold R. rewrite (sumf_ext _ (fun u => r_w u * c u * s)) by (intros u Hu; rewrite (H u Hu); reflexivity). rewrite sumf_mul_r. field. exact N.
Qed.
Lemma blind_D : blind r_D. Proof. intros w u. reflexivity. Qed.
Lemma blind_y : blind r_y. Proof. intros w u. reflexivity. Qed.
Lemma blind_T0 : blind cT0. Proof. intros w u. reflexivity. Qed.
Lemma blind_T1 : blind cT1. Proof. intros w u. reflexivity. Qed.
Lemma blind_C0 tl ps : blind ps -> blind (cC0 tl ps). Proof. intros B w u. unfold cC0. rewrite B. reflexivity. Qed.
Lemma blind_C1 tl ps : blind ps -> blind (cC1 tl ps). Proof. intros B w u. unfold cC1. rewrite B. reflexivity. Qed.
Lemma blind_ps mu k g : blind (rps_fit mu k g). Proof. intros w u. reflexivity. Qed.
Lemma blind_out k b : blind (rout k b). Proof. intros w u. reflexivity. Qed.
Lemma blind_resid k b0 b1 : blind (resid k b0 b1). Proof. intros w u. reflexivity. Qed.

(** cells as coefficients *)
Lemma cell_mean_R b t v l : cell_mean b t v l = R (fun u => ind (in_cell b t u)) v l.
Proof. unfold cell_mean, R, cell. rewrite !sumf_filter. f_equal; apply sumf_ext; intros; ring. Qed.
Lemma R_c_ext c c' v l : (forall u, In u l -> c u = c' u) -> R c v l = R c' v l.
Proof. intros H. unfold R. f_equal; apply sumf_ext; intros u Hu; rewrite (H u Hu); reflexivity. Qed.
Lemma R_T0 v l : R cT0 v l = cell_mean true false v l.
Proof. rewrite cell_mean_R. apply R_c_ext. intros u _. unfold cT0. cells u. Qed.
Lemma R_T1 v l : R cT1 v l = cell_mean true true v l.
Proof. rewrite cell_mean_R. apply R_c_ext. intros u _. unfold cT1. cells u. Qed.
Lemma R_D v l : R r_D v l = treated_mean v l.
Proof. unfold treated_mean, R. rewrite !sumf_filter. unfold r_D. f_equal; apply sumf_ext; intros; ring. Qed.
Lemma R_C0 tl ps v l : R (cC0 tl ps) v l = odds_cell_mean tl ps false v l.
Proof. unfold odds_cell_mean, cell, R. cbn zeta. rewrite !sumf_filter. unfold cC0. f_equal; apply sumf_ext; intros u _; destruct (in_cell false false u), (Qcltb (ps u) tl); cbn [andb ind]; ring. Qed.
Lemma R_C1 tl ps v l : R (cC1 tl ps) v l = odds_cell_mean tl ps true v l.
Proof. unfold odds_cell_mean, cell, R. cbn zeta. rewrite !sumf_filter. unfold cC1. f_equal; apply sumf_ext; intros u _; destruct (in_cell false true u), (Qcltb (ps u) tl); cbn [andb ind]; ring. Qed.
Lemma mean_c (w c : runit -> Qc) l : (forall u, w u = r_w u * c u) -> mean w l = sumf (fun u => r_w u * c u) l / qn (length l).
Proof. intros H. unfold mean. f_equal. apply sumf_ext. intros; apply H. Qed.
Lemma mean_neq_sum (w c : runit -> Qc) l : (forall u, w u = r_w u * c u) -> mean w l <> 0 -> sumf (fun u => r_w u * c u) l <> 0.
Proof. intros H N E. apply N. rewrite (mean_c w c l H), E. apply Qcdiv_0_l. Qed.
Lemma mean_weights_neq0 (w c : runit -> Qc) l : (forall u, w u = r_w u * c u) -> mean w (rnormalise l) <> 0 -> mean r_w l <> 0.
Proof. intros H N E. apply N. apply mean_0, sumf_zero. intros u Hu. rewrite H, (rnormalise_zero l E u Hu). ring. Qed.
Lemma sum_c_normalise (c : runit -> Qc) l : mean r_w l <> 0 -> blind c ->
  sumf (fun u => r_w u * c u) (rnormalise l) = / mean r_w l * sumf (fun u => r_w u * c u) l.
Proof.
  intros Hm B. unfold rnormalise. rewrite sumf_map, <- sumf_mul_l. apply sumf_ext. intros u _. rewrite B. cbn [rset_w r_w]. unfold Qcdiv. ring.
Qed.
Lemma sum_c_raw (c : runit -> Qc) l : mean r_w l <> 0 -> blind c -> sumf (fun u => r_w u * c u) (rnormalise l) <> 0 -> sumf (fun u => r_w u * c u) l <> 0.
Proof. intros Hm B N E. apply N. rewrite sum_c_normalise by assumption. rewrite E. ring. Qed.

(** ** inversion *)
Lemma ols_rc_inv o k b t l beta : ols_rc o k b t l = FCoef beta -> ro_wls o (cell b t l) = Some beta /\ cell b t l <> [] /\ (k <= length (cell b t l))%nat.
Proof.
  unfold ols_rc. destruct (cell b t l) as [|u c] eqn:E; [discriminate|]. rewrite <- E in *. destruct (Nat.ltb_spec (length (cell b t l)) k); [discriminate|].
  destruct (ro_wls o (cell b t l)) as [b'|]; [|discriminate]. intros H'. injection H' as ->. split; [reflexivity|]. split; [congruence|lia].
Qed.
Lemma some_zero_inv tl ps l : some_zero tl ps l = false ->
  mean (w_treat_pre tl ps) l <> 0 /\ mean (w_treat_post tl ps) l <> 0 /\ mean (w_cont_pre tl ps) l <> 0 /\ mean (w_cont_post tl ps) l <> 0.
Proof.
  unfold some_zero. rewrite !orb_false_iff. intros [[[H1 H2] H3] H4].
  repeat split; intros E; [destruct (Qceqb_spec (mean (w_treat_pre tl ps) l) 0)|destruct (Qceqb_spec (mean (w_treat_post tl ps) l) 0)
    |destruct (Qceqb_spec (mean (w_cont_pre tl ps) l) 0)|destruct (Qceqb_spec (mean (w_cont_post tl ps) l) 0)]; congruence.
Qed.
Lemma rreg_inv o k l0 att inf (l := rnormalise l0) : reg_did_rc o k l0 = PEst att inf ->
  rany_neg l0 = false /\ exists b0 b1 M0 M1, ols_rc o k false false l = FCoef b0 /\ ols_rc o k false true l = FCoef b1 /\
  ro_inv o (rgram k false false l) = Some M0 /\ ro_inv o (rgram k false true l) = Some M1 /\
  mean wr_treat_pre l <> 0 /\ mean wr_treat_post l <> 0 /\
  att = rreg_att (rout k b0) (rout k b1) l /\ inf = map (rreg_inf k b0 b1 M0 M1 l) l.
Proof.
  unfold reg_did_rc. fold l. destruct (rany_neg l0); [discriminate|]. cbn zeta.
  destruct (ols_rc o k false false l) as [| |b0] eqn:E0; try discriminate. destruct (ols_rc o k false true l) as [| |b1] eqn:E1; try discriminate.
  destruct (ro_inv o (rgram k false false l)) as [M0|] eqn:I0; [|discriminate]. destruct (ro_inv o (rgram k false true l)) as [M1|] eqn:I1; [|discriminate].
  destruct (Qceqb_spec (mean wr_treat_pre l) 0); [discriminate|]. destruct (Qceqb_spec (mean wr_treat_post l) 0); [discriminate|]. cbn [orb].
  intros E. injection E as <- <-. split; [reflexivity|]. exists b0, b1, M0, M1. repeat split; auto.
Qed.
Lemma ripw_inv o k tl l0 att inf (l := rnormalise l0) : std_ipw_did_rc o k tl l0 = PEst att inf ->
  rany_neg l0 = false /\ rboth l = true /\ exists gamma H, ro_logit o l = Some gamma /\
  let ps := rps_fit (ro_mu o) k gamma in ro_inv o (rps_gram k ps l) = Some H /\ some_zero tl ps l = false /\
  att = ripw_att tl ps l /\ inf = map (ripw_inf k tl ps (mscale (qn (length l)) H) l) l.
Proof.
  unfold std_ipw_did_rc. fold l. destruct (rany_neg l0); [discriminate|]. cbn zeta. destruct (rboth l); [|discriminate]. cbn [negb].
  destruct (ro_logit o l) as [g|]; [|discriminate]. destruct (ro_inv o (rps_gram k (rps_fit (ro_mu o) k g) l)) as [H|] eqn:EH; [|discriminate].
  destruct (some_zero tl (rps_fit (ro_mu o) k g) l) eqn:SZ; [discriminate|].
  intros E. injection E as <- <-. split; [reflexivity|]. split; [reflexivity|]. exists g, H. repeat split; auto.
Qed.
Lemma ht_inv o k tl l0 att inf (l := rnormalise l0) : ipw_did_rc o k tl l0 = PEst att inf ->
  rany_neg l0 = false /\ rboth l = true /\ exists gamma H, ro_logit o l = Some gamma /\
  let ps := rps_fit (ro_mu o) k gamma in ro_inv o (rps_gram k ps l) = Some H /\ pi_hat l <> 0 /\ lambda_hat l <> 0 /\ lambda_hat l <> 1 /\
  att = ht_att tl ps l /\ inf = map (ht_inf k tl ps (mscale (qn (length l)) H) l) l.
Proof.
  unfold ipw_did_rc. fold l. destruct (rany_neg l0); [discriminate|]. cbn zeta. destruct (rboth l); [|discriminate]. cbn [negb].
  destruct (ro_logit o l) as [g|]; [|discriminate]. destruct (Qceqb_spec (pi_hat l) 0); [discriminate|].
  destruct (Qceqb_spec (lambda_hat l) 0); [discriminate|]. destruct (Qceqb_spec (lambda_hat l) 1); [discriminate|]. cbn [orb].
  destruct (ro_inv o (rps_gram k (rps_fit (ro_mu o) k g) l)) as [H|] eqn:EH; [|discriminate].
  intros E. injection E as <- <-. split; [reflexivity|]. split; [reflexivity|]. exists g, H. repeat split; auto.
Qed.
Lemma trad_inv o k tl l0 att inf (l := rnormalise l0) : drdid_trad_rc o k tl l0 = PEst att inf ->
  rany_neg l0 = false /\ rboth l = true /\ exists gamma b0 b1 M0 M1 H, ro_logit o l = Some gamma /\
  ols_rc o k false false l = FCoef b0 /\ ols_rc o k false true l = FCoef b1 /\
  ro_inv o (rgram k false false l) = Some M0 /\ ro_inv o (rgram k false true l) = Some M1 /\
  let ps := rps_fit (ro_mu o) k gamma in ro_inv o (rps_gram k ps l) = Some H /\ some_zero tl ps l = false /\
  att = trad_att k tl ps b0 b1 l /\ inf = map (trad_inf k tl ps b0 b1 M0 M1 (mscale (qn (length l)) H) l) l.
Proof.
  unfold drdid_trad_rc. fold l. destruct (rany_neg l0); [discriminate|]. cbn zeta. destruct (rboth l); [|discriminate]. cbn [negb].
  destruct (ro_logit o l) as [g|]; [|discriminate].
  destruct (ols_rc o k false false l) as [| |b0] eqn:E0; try discriminate. destruct (ols_rc o k false true l) as [| |b1] eqn:E1; try discriminate.
  destruct (ro_inv o (rgram k false false l)) as [M0|] eqn:I0; [|discriminate]. destruct (ro_inv o (rgram k false true l)) as [M1|] eqn:I1; [|discriminate].
  destruct (ro_inv o (rps_gram k (rps_fit (ro_mu o) k g) l)) as [H|] eqn:EH; [|discriminate].
  destruct (some_zero tl (rps_fit (ro_mu o) k g) l) eqn:SZ; [discriminate|].
  intros E. injection E as <- <-. split; [reflexivity|]. split; [reflexivity|]. exists g, b0, b1, M0, M1, H. repeat split; auto.
Qed.
Lemma loc_inv o k tl l0 att inf (l := rnormalise l0) : drdid_rc o k tl l0 = PEst att inf ->
  rany_neg l0 = false /\ rboth l = true /\ exists gamma c0 c1 t0 t1 MC0 MC1 MT0 MT1 H, ro_logit o l = Some gamma /\
  ols_rc o k false false l = FCoef c0 /\ ols_rc o k false true l = FCoef c1 /\ ols_rc o k true false l = FCoef t0 /\ ols_rc o k true true l = FCoef t1 /\
  ro_inv o (rgram k false false l) = Some MC0 /\ ro_inv o (rgram k false true l) = Some MC1 /\
  ro_inv o (rgram k true false l) = Some MT0 /\ ro_inv o (rgram k true true l) = Some MT1 /\
  let ps := rps_fit (ro_mu o) k gamma in ro_inv o (rps_gram k ps l) = Some H /\ some_zero tl ps l = false /\
  att = loc_att k tl ps c0 c1 t0 t1 l /\ inf = map (loc_inf k tl ps c0 c1 t0 t1 MC0 MC1 MT0 MT1 (mscale (qn (length l)) H) l) l.
Proof.
  unfold drdid_rc. fold l. destruct (rany_neg l0); [discriminate|]. cbn zeta. destruct (rboth l); [|discriminate]. cbn [negb].
  destruct (ro_logit o l) as [g|]; [|discriminate].
  destruct (ols_rc o k false false l) as [| |c0] eqn:E0, (ols_rc o k false true l) as [| |c1] eqn:E1, (ols_rc o k true false l) as [| |t0] eqn:E2,
    (ols_rc o k true true l) as [| |t1] eqn:E3; try discriminate.
  destruct (ro_inv o (rgram k false false l)) as [MC0|] eqn:I0; [|discriminate]. destruct (ro_inv o (rgram k false true l)) as [MC1|] eqn:I1; [|discriminate].
  destruct (ro_inv o (rgram k true false l)) as [MT0|] eqn:I2; [|discriminate]. destruct (ro_inv o (rgram k true true l)) as [MT1|] eqn:I3; [|discriminate].
  destruct (ro_inv o (rps_gram k (rps_fit (ro_mu o) k g) l)) as [H|] eqn:EH; [|discriminate].
  destruct (some_zero tl (rps_fit (ro_mu o) k g) l) eqn:SZ; [discriminate|].
  intros E. injection E as <- <-. split; [reflexivity|]. split; [reflexivity|]. exists g, c0, c1, t0, t1, MC0, MC1, MT0, MT1, H. repeat split; auto.
Qed.

(** ** the values *)
Lemma cell_normalise b t l : cell b t (rnormalise l) = map (fun u => rset_w (r_w u / mean r_w l) u) (cell b t l).
Proof. unfold cell, rnormalise. rewrite filter_map. reflexivity. Qed.
Lemma rreg_value o k l att inf : reg_did_rc o k l = PEst att inf -> exists b0 b1,
  ro_wls o (cell false false (rnormalise l)) = Some b0 /\ ro_wls o (cell false true (rnormalise l)) = Some b1 /\
  att = (cell_mean true true r_y l - cell_mean true false r_y l) - treated_mean (fun u => rout k b1 u - rout k b0 u) l.
Proof.
  intros E. apply rreg_inv in E. destruct E as [_ [b0 [b1 [M0 [M1 [E0 [E1 [_ [_ [N0 [N1 [-> _]]]]]]]]]]]].
  exists b0, b1. split; [apply (ols_rc_inv _ _ _ _ _ _ E0)|]. split; [apply (ols_rc_inv _ _ _ _ _ _ E1)|].
  assert (Hm := mean_weights_neq0 _ cT0 l wr0_c N0). unfold rreg_att. rewrite <- !att_wmean.
  rewrite (att_R _ cT1 _ _ wr1_c), (att_R _ cT0 _ _ wr0_c), (att_R wr_cont r_D) by reflexivity.
  rewrite !R_normalise by (try exact Hm; intros w u; reflexivity). rewrite R_T0, R_T1, R_D. reflexivity.
Qed.
Ltac ratt := repeat first [rewrite (att_R _ cT1 _ _ (wt1_c _ _)) | rewrite (att_R _ cT0 _ _ (wt0_c _ _)) | rewrite (att_R _ (cC0 _ _) _ _ (wc0_c _ _))
  | rewrite (att_R _ (cC1 _ _) _ _ (wc1_c _ _)) | rewrite (att_R _ r_D _ _ (wd_c _ _))].
Lemma ripw_value o k tl l att inf : std_ipw_did_rc o k tl l = PEst att inf -> exists gamma, ro_logit o (rnormalise l) = Some gamma /\
  let ps := rps_fit (ro_mu o) k gamma in
  att = (cell_mean true true r_y l - cell_mean true false r_y l) - (odds_cell_mean tl ps true r_y l - odds_cell_mean tl ps false r_y l).
Proof.
  intros E. apply ripw_inv in E. destruct E as [_ [_ [g [H [Eg [_ [SZ [-> _]]]]]]]]. exists g. split; [exact Eg|]. cbn zeta in *.
  apply some_zero_inv in SZ. destruct SZ as [N0 _]. assert (Hm := mean_weights_neq0 _ cT0 l (wt0_c _ _) N0).
  unfold ripw_att. ratt. rewrite !R_normalise by (try exact Hm; intros w u; reflexivity). rewrite R_T0, R_T1, R_C0, R_C1. reflexivity.
Qed.
Lemma trad_att_value k tl g mu b0 b1 l : mean r_w l <> 0 -> let ps := rps_fit mu k g in
  trad_att k tl ps b0 b1 (rnormalise l) = (cell_mean true true (fun u => r_y u - rout k b1 u) l - cell_mean true false (fun u => r_y u - rout k b0 u) l)
        - (odds_cell_mean tl ps true (fun u => r_y u - rout k b1 u) l - odds_cell_mean tl ps false (fun u => r_y u - rout k b0 u) l).
Proof.
  intros Hm ps. unfold trad_att. ratt. rewrite !R_normalise by (try exact Hm; intros w u; reflexivity).
  rewrite R_T0, R_T1, R_C0, R_C1.
  assert (X : forall b t, forall u, In u (cell b t l) -> resid k b0 b1 u = r_y u - rout k (if t then b1 else b0) u).
  { intros b t u Hu. apply filter_In in Hu. destruct Hu as [_ Hu]. unfold in_cell in Hu. apply andb_true_iff in Hu. destruct Hu as [_ Hu].
    apply Bool.eqb_prop in Hu. unfold resid, out_own, r_P. rewrite Hu. destruct t; cbn [ind]; ring. }
  assert (Y : forall b t, cell_mean b t (resid k b0 b1) l = cell_mean b t (fun u => r_y u - rout k (if t then b1 else b0) u) l).
  { intros b t. unfold cell_mean. f_equal. apply sumf_ext. intros u Hu. rewrite (X b t u Hu). reflexivity. }
  assert (Y2 : forall t, odds_cell_mean tl ps t (resid k b0 b1) l = odds_cell_mean tl ps t (fun u => r_y u - rout k (if t then b1 else b0) u) l).
  { intros t. unfold odds_cell_mean. cbn zeta. f_equal. apply sumf_ext. intros u Hu. apply filter_In in Hu. rewrite (X false t u (proj1 Hu)). reflexivity. }
  rewrite !Y, !Y2. reflexivity.
Qed.
Lemma trad_value o k tl l att inf : drdid_trad_rc o k tl l = PEst att inf -> exists gamma b0 b1,
  ro_logit o (rnormalise l) = Some gamma /\
  ro_wls o (cell false false (rnormalise l)) = Some b0 /\ ro_wls o (cell false true (rnormalise l)) = Some b1 /\
  let ps := rps_fit (ro_mu o) k gamma in
  att = (cell_mean true true (fun u => r_y u - rout k b1 u) l - cell_mean true false (fun u => r_y u - rout k b0 u) l)
        - (odds_cell_mean tl ps true (fun u => r_y u - rout k b1 u) l - odds_cell_mean tl ps false (fun u => r_y u - rout k b0 u) l).
Proof.
  intros E. apply trad_inv in E. destruct E as [_ [_ [g [b0 [b1 [M0 [M1 [H [Eg [E0 [E1 [_ [_ [_ [SZ [-> _]]]]]]]]]]]]]]]]. exists g, b0, b1. cbn zeta in *.
  split; [exact Eg|]. split; [apply (ols_rc_inv _ _ _ _ _ _ E0)|]. split; [apply (ols_rc_inv _ _ _ _ _ _ E1)|].
  apply some_zero_inv in SZ. destruct SZ as [N0 _]. assert (Hm := mean_weights_neq0 _ cT0 l (wt0_c _ _) N0). apply trad_att_value. exact Hm.
Qed.
(** normal equations with an intercept: residuals of a cell average to zero *)
Lemma loc_value o k tl l att inf : drdid_rc o k tl l = PEst att inf -> exists gamma c0 c1 t0 t1,
  ro_logit o (rnormalise l) = Some gamma /\
  ro_wls o (cell false false (rnormalise l)) = Some c0 /\ ro_wls o (cell false true (rnormalise l)) = Some c1 /\
  ro_wls o (cell true false (rnormalise l)) = Some t0 /\ ro_wls o (cell true true (rnormalise l)) = Some t1 /\
  let ps := rps_fit (ro_mu o) k gamma in
  att = (cell_mean true true (fun u => r_y u - rout k t1 u) l - cell_mean true false (fun u => r_y u - rout k t0 u) l)
        - (odds_cell_mean tl ps true (fun u => r_y u - rout k c1 u) l - odds_cell_mean tl ps false (fun u => r_y u - rout k c0 u) l)
        + treated_mean (fun u => (rout k t1 u - rout k c1 u) - (rout k t0 u - rout k c0 u)) l.
Proof.
  intros E. apply loc_inv in E. destruct E as [_ [_ [g [c0 [c1 [t0 [t1 [MC0 [MC1 [MT0 [MT1 [H [Eg [E0 [E1 [E2 [E3 [_ [_ [_ [_ [_ [SZ [-> _]]]]]]]]]]]]]]]]]]]]]]]].
  exists g, c0, c1, t0, t1. cbn zeta in *.
  split; [exact Eg|]. split; [apply (ols_rc_inv _ _ _ _ _ _ E0)|]. split; [apply (ols_rc_inv _ _ _ _ _ _ E1)|]. split; [apply (ols_rc_inv _ _ _ _ _ _ E2)|]. split; [apply (ols_rc_inv _ _ _ _ _ _ E3)|].
  apply some_zero_inv in SZ. destruct SZ as [N0 _]. assert (Hm := mean_weights_neq0 _ cT0 l (wt0_c _ _) N0).
  unfold loc_att. rewrite trad_att_value by exact Hm. ratt. rewrite !R_normalise by (try exact Hm; intros w u; reflexivity).
  rewrite <- !R_T0, <- !R_T1, <- !R_D.
  rewrite !R_sub. ring.
Qed.

(** ** scale *)
Lemma rnormalise_scale c l : c <> 0 -> rnormalise (map (rscale_w c) l) = rnormalise l.
Proof.
  intros Hc. unfold rnormalise. rewrite map_map. apply map_ext. intros u. rewrite mean_map.
  change (fun a => r_w (rscale_w c a)) with (fun a => c * r_w a). rewrite mean_mul_l. unfold rscale_w, rset_w. cbn [r_id r_d r_post r_y r_w r_x].
  f_equal. destruct (Qceqb_spec (mean r_w l) 0) as [E|N].
  - rewrite E. replace (c * 0) with 0 by ring. rewrite !Qcdiv_0_r. reflexivity.
  - field. split; assumption.
Qed.
Lemma rany_neg_scale c l : 0 < c -> rany_neg (map (rscale_w c) l) = rany_neg l.
Proof.
  intros Hc. destruct (rany_neg l) eqn:E.
  - destruct (rany_neg (map (rscale_w c) l)) eqn:E2; [reflexivity|]. rewrite <- E. symmetry. apply rany_neg_false. intros u Hu.
    assert (H := proj1 (rany_neg_false _) E2 (rscale_w c u) (in_map _ _ _ Hu)). cbn in H.
    destruct (Qc_le_or_lt 0 (r_w u)) as [L|L]; [exact L|]. exfalso. assert (c * r_w u < 0); [|qclra].
    setoid_replace 0 with (c * 0) by ring. rewrite (Qcmult_comm c (r_w u)), (Qcmult_comm c 0). apply Qcmult_lt_compat_r; assumption.
  - apply rany_neg_false. intros u Hu. apply in_map_iff in Hu. destruct Hu as [v [<- Hv]]. cbn.
    apply Qcmult_nonneg; [apply Qclt_le_weak; exact Hc|apply (proj1 (rany_neg_false l) E v Hv)].
Qed.
Lemma rc_scale o k tl l c : 0 < c ->
  reg_did_rc o k (map (rscale_w c) l) = reg_did_rc o k l /\ std_ipw_did_rc o k tl (map (rscale_w c) l) = std_ipw_did_rc o k tl l /\
  ipw_did_rc o k tl (map (rscale_w c) l) = ipw_did_rc o k tl l /\ drdid_trad_rc o k tl (map (rscale_w c) l) = drdid_trad_rc o k tl l /\
  drdid_rc o k tl (map (rscale_w c) l) = drdid_rc o k tl l.
Proof.
  intros Hc. unfold reg_did_rc, std_ipw_did_rc, ipw_did_rc, drdid_trad_rc, drdid_rc.
  rewrite rany_neg_scale, rnormalise_scale by (auto using Qc_pos_neq0). repeat split; reflexivity.
Qed.

(** ** order of the rows *)
Lemma rnormalise_perm l l' : Permutation l l' -> Permutation (rnormalise l) (rnormalise l').
Proof. intros P. unfold rnormalise. rewrite (mean_perm r_w _ _ P). apply Permutation_map. exact P. Qed.
Lemma rmean_col_perm k f l l' : Permutation l l' -> rmean_col k f l = rmean_col k f l'.
Proof. intros P. unfold rmean_col, vec_of. apply map_ext. intros j. apply mean_perm. exact P. Qed.
Lemma rgram_perm k b t l l' : Permutation l l' -> rgram k b t l = rgram k b t l'.
Proof. intros P. unfold rgram, mat_of. apply map_ext. intros i. apply map_ext. intros j. apply mean_perm. exact P. Qed.
Lemma rps_gram_perm k ps l l' : Permutation l l' -> rps_gram k ps l = rps_gram k ps l'.
Proof. intros P. unfold rps_gram, mat_of. apply map_ext. intros i. apply map_ext. intros j. apply sumf_perm. exact P. Qed.
Lemma eta_perm w v l l' u : Permutation l l' -> eta w v l u = eta w v l' u.
Proof. intros P. unfold eta. rewrite (mean_perm _ _ _ P). reflexivity. Qed.
Lemma att_perm w v l l' : Permutation l l' -> att_c w v l = att_c w v l'.
Proof. intros P. rewrite !att_wmean. apply wmean_perm. exact P. Qed.
Lemma lead_perm w v l l' u : Permutation l l' -> lead w v l u = lead w v l' u.
Proof. intros P. unfold lead. rewrite (eta_perm _ _ _ _ _ P), (att_perm _ _ _ _ P), (mean_perm _ _ _ P). reflexivity. Qed.
Lemma ps_moment_perm k w v l l' : Permutation l l' -> ps_moment k w v l = ps_moment k w v l'.
Proof. intros P. unfold ps_moment. rewrite (att_perm _ _ _ _ P), (mean_perm w _ _ P), (rmean_col_perm _ _ _ _ P). reflexivity. Qed.
Lemma or_moment_perm k w s l l' : Permutation l l' -> or_moment k w s l = or_moment k w s l'.
Proof. intros P. unfold or_moment. rewrite (mean_perm w _ _ P), (rmean_col_perm _ _ _ _ P). reflexivity. Qed.
Lemma ols_rc_perm o k b t l l' : rfits_symmetric o -> Permutation l l' -> ols_rc o k b t l = ols_rc o k b t l'.
Proof.
  intros S P. unfold ols_rc. assert (PC : Permutation (cell b t l) (cell b t l')) by (apply filter_perm; exact P).
  assert (E := proj2 (S _ _ PC)). assert (L := Permutation_length PC).
  destruct (cell b t l) as [|a c], (cell b t l') as [|a' c']; try discriminate; [reflexivity|]. rewrite L, E. reflexivity.
Qed.
Lemma rboth_perm l l' : Permutation l l' -> rboth l = rboth l'.
Proof. intros P. unfold rboth. rewrite !(existsb_perm _ _ _ P). reflexivity. Qed.
Lemma rany_neg_perm l l' : Permutation l l' -> rany_neg l = rany_neg l'.
Proof. intros P. unfold rany_neg. apply existsb_perm. exact P. Qed.
Lemma some_zero_perm tl ps l l' : Permutation l l' -> some_zero tl ps l = some_zero tl ps l'.
Proof. intros P. unfold some_zero. rewrite !(mean_perm _ _ _ P). reflexivity. Qed.
Lemma rcombine_perm (g g' : runit -> Qc) l l' : Permutation l l' -> (forall u, g u = g' u) ->
  Permutation (combine l (map g (rnormalise l))) (combine l' (map g' (rnormalise l'))).
Proof.
  intros P G. unfold rnormalise. rewrite !map_map, !combine_map_self, (mean_perm r_w _ _ P).
  rewrite (map_ext (fun a => (a, g (rset_w (r_w a / mean r_w l') a))) (fun a => (a, g' (rset_w (r_w a / mean r_w l') a)))) by (intros; rewrite G; reflexivity).
  apply Permutation_map. exact P.
Qed.
Ltac perms P := rewrite ?(lead_perm _ _ _ _ _ P), ?(att_perm _ _ _ _ P), ?(wmean_perm _ _ _ _ P), ?(ps_moment_perm _ _ _ _ _ P), ?(or_moment_perm _ _ _ _ _ P),
  ?(rmean_col_perm _ _ _ _ P), ?(mean_perm _ _ _ P).
Lemma rc_perm_reg o k l l' : rfits_symmetric o -> Permutation l l' -> rsame_up_to_order l l' (reg_did_rc o k l) (reg_did_rc o k l').
Proof.
  intros S P. assert (PN := rnormalise_perm _ _ P). unfold reg_did_rc. rewrite (rany_neg_perm _ _ P). destruct (rany_neg l'); [exact I|]. cbn zeta.
  rewrite !(ols_rc_perm _ _ _ _ _ _ S PN), !(rgram_perm _ _ _ _ _ PN), !(mean_perm _ _ _ PN).
  destruct (ols_rc o k false false _) as [| |b0]; try exact I. destruct (ols_rc o k false true _) as [| |b1]; try exact I.
  destruct (ro_inv o (rgram k false false _)) as [M0|]; [|exact I]. destruct (ro_inv o (rgram k false true _)) as [M1|]; [|exact I].
  destruct (_ || _); [exact I|]. cbn. split; [unfold rreg_att; perms PN; reflexivity|].
  apply rcombine_perm; [exact P|]. intros u. unfold rreg_inf. cbn zeta. perms PN. reflexivity.
Qed.
Lemma trad_inf_perm k tl ps b0 b1 M0 M1 H l l' u : Permutation l l' -> trad_inf k tl ps b0 b1 M0 M1 H l u = trad_inf k tl ps b0 b1 M0 M1 H l' u.
Proof. intros P. unfold trad_inf. cbn zeta. perms P. reflexivity. Qed.
Lemma rc_perm_ipw o k tl l l' : rfits_symmetric o -> Permutation l l' -> rsame_up_to_order l l' (std_ipw_did_rc o k tl l) (std_ipw_did_rc o k tl l').
Proof.
  intros S P. assert (PN := rnormalise_perm _ _ P). unfold std_ipw_did_rc. rewrite (rany_neg_perm _ _ P). destruct (rany_neg l'); [exact I|]. cbn zeta.
  rewrite (rboth_perm _ _ PN). destruct (rboth _); [|exact I]. cbn [negb]. rewrite (proj1 (S _ _ PN)). destruct (ro_logit o _) as [g|]; [|exact I].
  rewrite (rps_gram_perm _ _ _ _ PN), (some_zero_perm _ _ _ _ PN). destruct (ro_inv o _) as [H|]; [|exact I]. destruct (some_zero _ _ _); [exact I|].
  cbn. split; [unfold ripw_att; perms PN; reflexivity|]. apply rcombine_perm; [exact P|]. intros u. rewrite (Permutation_length PN).
  unfold ripw_inf. cbn zeta. perms PN. reflexivity.
Qed.
Lemma rc_perm_ht o k tl l l' : rfits_symmetric o -> Permutation l l' -> rsame_up_to_order l l' (ipw_did_rc o k tl l) (ipw_did_rc o k tl l').
Proof.
  intros S P. assert (PN := rnormalise_perm _ _ P). unfold ipw_did_rc. rewrite (rany_neg_perm _ _ P). destruct (rany_neg l'); [exact I|]. cbn zeta.
  rewrite (rboth_perm _ _ PN). destruct (rboth _); [|exact I]. cbn [negb]. rewrite (proj1 (S _ _ PN)). destruct (ro_logit o _) as [g|]; [|exact I].
  assert (Q1 : pi_hat (rnormalise l) = pi_hat (rnormalise l')) by (apply mean_perm; exact PN).
  assert (Q2 : lambda_hat (rnormalise l) = lambda_hat (rnormalise l')) by (apply mean_perm; exact PN).
  assert (Q3 : oml_hat (rnormalise l) = oml_hat (rnormalise l')) by (apply mean_perm; exact PN).
  rewrite Q1, Q2, (rps_gram_perm _ _ _ _ PN). destruct (Qceqb _ 0); [exact I|]. destruct (_ || _); [exact I|]. destruct (ro_inv o _) as [H|]; [|exact I].
  cbn. split; [unfold ht_att; cbn zeta; rewrite Q1, Q2, Q3; perms PN; reflexivity|]. apply rcombine_perm; [exact P|]. intros u. rewrite (Permutation_length PN).
  unfold ht_inf, ht_lead. cbn zeta. rewrite Q1, Q2, Q3. perms PN. reflexivity.
Qed.
Lemma rc_perm_trad o k tl l l' : rfits_symmetric o -> Permutation l l' -> rsame_up_to_order l l' (drdid_trad_rc o k tl l) (drdid_trad_rc o k tl l').
Proof.
  intros S P. assert (PN := rnormalise_perm _ _ P). unfold drdid_trad_rc. rewrite (rany_neg_perm _ _ P). destruct (rany_neg l'); [exact I|]. cbn zeta.
  rewrite (rboth_perm _ _ PN). destruct (rboth _); [|exact I]. cbn [negb]. rewrite (proj1 (S _ _ PN)). destruct (ro_logit o _) as [g|]; [|exact I].
  rewrite !(ols_rc_perm _ _ _ _ _ _ S PN), !(rgram_perm _ _ _ _ _ PN).
  destruct (ols_rc o k false false _) as [| |b0]; try exact I. destruct (ols_rc o k false true _) as [| |b1]; try exact I.
  rewrite (rps_gram_perm _ _ _ _ PN), (some_zero_perm _ _ _ _ PN).
  destruct (ro_inv o (rgram k false false _)) as [M0|]; [|exact I]. destruct (ro_inv o (rgram k false true _)) as [M1|]; [|exact I].
  destruct (ro_inv o (rps_gram _ _ _)) as [H|]; [|exact I]. destruct (some_zero _ _ _); [exact I|].
  cbn. split; [unfold trad_att; cbn zeta; perms PN; reflexivity|]. apply rcombine_perm; [exact P|]. intros u. rewrite (Permutation_length PN). apply trad_inf_perm. exact PN.
Qed.
Lemma rc_perm_loc o k tl l l' : rfits_symmetric o -> Permutation l l' -> rsame_up_to_order l l' (drdid_rc o k tl l) (drdid_rc o k tl l').
Proof.
  intros S P. assert (PN := rnormalise_perm _ _ P). unfold drdid_rc. rewrite (rany_neg_perm _ _ P). destruct (rany_neg l'); [exact I|]. cbn zeta.
  rewrite (rboth_perm _ _ PN). destruct (rboth _); [|exact I]. cbn [negb]. rewrite (proj1 (S _ _ PN)). destruct (ro_logit o _) as [g|]; [|exact I].
  rewrite !(ols_rc_perm _ _ _ _ _ _ S PN), !(rgram_perm _ _ _ _ _ PN).
  destruct (ols_rc o k false false (rnormalise l')) as [| |c0], (ols_rc o k false true (rnormalise l')) as [| |c1], (ols_rc o k true false (rnormalise l')) as [| |t0], (ols_rc o k true true (rnormalise l')) as [| |t1]; try exact I.
  rewrite (rps_gram_perm _ _ _ _ PN), (some_zero_perm _ _ _ _ PN).
  destruct (ro_inv o (rgram k false false _)) as [M0|]; [|exact I]. destruct (ro_inv o (rgram k false true _)) as [M1|]; [|exact I].
  destruct (ro_inv o (rgram k true false _)) as [M2|]; [|exact I]. destruct (ro_inv o (rgram k true true _)) as [M3|]; [|exact I].
  destruct (ro_inv o (rps_gram _ _ _)) as [H|]; [|exact I]. destruct (some_zero _ _ _); [exact I|].
  cbn. split; [unfold loc_att, trad_att; cbn zeta; perms PN; reflexivity|]. apply rcombine_perm; [exact P|]. intros u. rewrite (Permutation_length PN).
  unfold loc_inf. cbn zeta. rewrite (trad_inf_perm _ _ _ _ _ _ _ _ _ _ _ PN). perms PN.
  reflexivity.
Qed.
