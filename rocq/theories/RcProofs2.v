(** Proofs for C89-C92: centred influence functions, no covariates, exact outcome model, Horvitz-Thompson values. *)
From Verif Require Import Base ListLib ReduceModel ReduceProofs2 Calc DrdidModel DrdidSpec DrdidProofs DrdidProofs2 DrdidProofs3 DrdidProofs4 DrdidProofs5 DrdidProofs6 DrdidProofs7 RcModel RcSpec RcCalc RcProofs.

(** ** C92 *)
Lemma rsum_dotk k (f : runit -> Qc) (z : list Qc) l : sumf (fun u => dotk k (vscale (f u) (r_x u)) z) l = sumf (fun j => sumf (fun u => f u * rx_at u j) l * nth j z 0) (seq 0 k).
Proof.
  unfold dotk. rewrite sumf_swap. apply sumf_ext. intros j _. rewrite <- sumf_mul_r. apply sumf_ext. intros u _. rewrite nth_vscale. reflexivity.
Qed.
Lemma rsum_alr_zero k (f : runit -> Qc) M v l : (forall j, (j < k)%nat -> sumf (fun u => f u * rx_at u j) l = 0) ->
  mean (fun u => dotk k (vm k (vscale (f u) (r_x u)) M) v) l = 0.
Proof.
  intros H. apply mean_0. rewrite (sumf_ext _ (fun u => dotk k (vscale (f u) (r_x u)) (mv k M v))) by (intros; apply dotk_vm).
  rewrite rsum_dotk. apply sumf_zero. intros j Hj. apply in_seq in Hj. rewrite H by lia. ring.
Qed.
Lemma lead_centred w v l : mean w l <> 0 -> mean (lead w v l) l = 0.
Proof. intros N. unfold lead. rewrite mean_sub, mean_div_r, mean_mul_r. fold (att_c w v l). field. exact N. Qed.
Lemma cell_normal k b t l beta : rnormal_equations k (cell b t l) beta ->
  forall j, (j < k)%nat -> sumf (fun u => w_ols b t u * (r_y u - rout k beta u) * rx_at u j) l = 0.
Proof.
  intros N j Hj. rewrite <- (N j Hj). unfold cell. rewrite sumf_filter. apply sumf_ext. intros u _. rewrite wols_cell. unfold rout. ring.
Qed.
Lemma alr_ols_centred k b t beta M l v : rnormal_equations k (cell b t l) beta -> mean (fun u => dotk k (alr_ols k b t beta M u) v) l = 0.
Proof. intros N. unfold alr_ols. apply (rsum_alr_zero k (fun u => w_ols b t u * (r_y u - rout k beta u))). apply cell_normal. exact N. Qed.
Lemma alr_logit_centred k ps H l v : rscore_equations k ps l -> mean (fun u => dotk k (alr_logit k ps H u) v) l = 0.
Proof. intros N. unfold alr_logit. apply (rsum_alr_zero k (fun u => r_w u * (r_D u - ps u))). exact N. Qed.
Lemma dotk_vsub_l k a b v : dotk k (vsub k a b) v = dotk k a v - dotk k b v.
Proof. unfold dotk, vsub. rewrite <- sumf_sub. apply sumf_ext. intros j Hj. apply in_seq in Hj. rewrite nth_vec_of by lia. ring. Qed.

Lemma rreg_inf_lead k b0 b1 M0 M1 l u (g := fun u => rout k b1 u - rout k b0 u) (deriv := rmean_col k wr_cont l) :
  rreg_inf k b0 b1 M0 M1 l u = lead wr_treat_post r_y l u - lead wr_treat_pre r_y l u
    - (lead wr_cont g l u + (dotk k (alr_ols k false true b1 M1 u) deriv - dotk k (alr_ols k false false b0 M0 u) deriv) / mean wr_cont l).
Proof. unfold rreg_inf, lead, eta. cbn zeta. rewrite !att_wmean. subst g deriv. cbn beta. unfold Qcdiv. ring. Qed.

Lemma wr_cont_neq0 l : (forall u, In u l -> 0 <= r_w u) -> mean wr_treat_pre l <> 0 -> mean wr_cont l <> 0.
Proof.
  intros W N E. apply N. apply mean_0, sumf_zero. intros u Hu.
  assert (P : forall u, In u l -> 0 <= wr_cont u) by (intros v Hv; unfold wr_cont; apply Qcmult_nonneg; [apply W, Hv|unfold r_D; destruct (r_d v); discriminate]).
  assert (S : sumf wr_cont l = 0).
  { unfold mean in E. destruct l as [|u0 l0]; [destruct Hu|]. assert (Hn : qn (length (u0 :: l0)) <> 0) by (apply qn_neq0; cbn; lia).
    transitivity (sumf wr_cont (u0 :: l0) / qn (length (u0 :: l0)) * qn (length (u0 :: l0))); [field; exact Hn|rewrite E; ring]. }
  assert (Z0 := nonneg_sum_zero wr_cont l P S u Hu). unfold wr_treat_pre. unfold wr_cont in Z0. rewrite Z0. ring.
Qed.
Lemma wd_neq0 tl ps l : (forall u, In u l -> 0 <= r_w u) -> mean (w_treat_pre tl ps) l <> 0 -> mean (w_d tl ps) l <> 0.
Proof.
  intros W N. rewrite (mean_ext (w_d tl ps) wr_cont) by (intros; apply wd_c). apply wr_cont_neq0; [exact W|].
  rewrite (mean_ext wr_treat_pre (w_treat_pre tl ps)) by (intros; rewrite wr0_c, wt0_c; reflexivity). exact N.
Qed.

Lemma rreg_centred o k l att inf : rwls_ok o k -> reg_did_rc o k l = PEst att inf -> length inf = length l /\ qsum inf = 0.
Proof.
  intros WO E. apply rreg_inv in E. destruct E as [NN [b0 [b1 [M0 [M1 [E0 [E1 [_ [_ [N0 [N1 [_ ->]]]]]]]]]]]].
  rewrite map_length, rnormalise_length. split; [reflexivity|]. rewrite qsum_map. apply mean_zero_sum.
  assert (Hm := mean_weights_neq0 _ cT0 l wr0_c N0).
  assert (W := rnormalise_nonneg l (proj1 (rany_neg_false l) NN) Hm).
  assert (NC := wr_cont_neq0 _ W N0).
  apply ols_rc_inv in E0. apply ols_rc_inv in E1. destruct E0 as [E0 _], E1 as [E1 _]. apply WO in E0. apply WO in E1.
  rewrite (mean_ext _ _ _ (fun u _ => rreg_inf_lead k b0 b1 M0 M1 (rnormalise l) u)).
  rewrite !mean_sub, mean_add, mean_div_r, mean_sub, !lead_centred, !alr_ols_centred by assumption. unfold Qcdiv. ring.
Qed.
Lemma ripw_centred o k tl l att inf : std_ipw_did_rc o k tl l = PEst att inf ->
  (forall gamma, ro_logit o (rnormalise l) = Some gamma -> rscore_equations k (rps_fit (ro_mu o) k gamma) (rnormalise l)) ->
  length inf = length l /\ qsum inf = 0.
Proof.
  intros E SC. apply ripw_inv in E. destruct E as [NN [_ [g [H [Eg [_ [SZ [_ ->]]]]]]]]. cbn zeta in *.
  rewrite map_length, rnormalise_length. split; [reflexivity|]. rewrite qsum_map. apply mean_zero_sum.
  apply some_zero_inv in SZ. destruct SZ as [N0 [N1 [N2 N3]]]. unfold ripw_inf. cbn zeta.
  rewrite !mean_sub, mean_add, mean_sub, !lead_centred, alr_logit_centred by auto. ring.
Qed.
Lemma mean_const_mul {A} (f : A -> Qc) (s : Qc) l : mean (fun u => - (f u - mean f l) * s) l = 0.
Proof.
  rewrite mean_mul_r, mean_opp, mean_sub. destruct l as [|u l]; [unfold mean, sumf; cbn; unfold Qcdiv; ring|].
  rewrite (mean_const (mean f (u :: l))) by (discriminate). ring.
Qed.
Lemma ht_lead_centred e s lam l : mean (fun u => r_w u * s u) l = lam -> mean (ht_lead e s lam l) l = 0.
Proof.
  intros <-. unfold ht_lead. cbn zeta. rewrite !mean_add, mean_sub.
  rewrite (mean_ext (fun a => - (r_w a * r_D a - pi_hat l) * mean e l / pi_hat l) (fun a => - (r_w a * r_D a - mean (fun a => r_w a * r_D a) l) * (mean e l / pi_hat l))) by (intros; unfold pi_hat, Qcdiv; ring).
  rewrite (mean_ext (fun a => - (r_w a * s a - _) * mean e l / _) (fun a => - (r_w a * s a - mean (fun u => r_w u * s u) l) * (mean e l / mean (fun u => r_w u * s u) l))) by (intros; unfold Qcdiv; ring).
  rewrite !mean_const_mul. destruct l as [|u l]; [unfold mean, sumf; cbn; unfold Qcdiv; ring|]. rewrite mean_const by discriminate. ring.
Qed.
Lemma ht_centred o k tl l att inf : ipw_did_rc o k tl l = PEst att inf ->
  (forall gamma, ro_logit o (rnormalise l) = Some gamma -> rscore_equations k (rps_fit (ro_mu o) k gamma) (rnormalise l)) ->
  length inf = length l /\ qsum inf = 0.
Proof.
  intros E SC. apply ht_inv in E. destruct E as [NN [_ [g [H [Eg [_ [_ [_ [_ [_ ->]]]]]]]]]]. cbn zeta in *.
  rewrite map_length, rnormalise_length. split; [reflexivity|]. rewrite qsum_map. apply mean_zero_sum.
  unfold ht_inf. cbn zeta. rewrite mean_add, !mean_sub, !ht_lead_centred, alr_logit_centred by (auto; reflexivity). ring.
Qed.
Lemma trad_inf_centred k tl ps b0 b1 M0 M1 H l : some_zero tl ps l = false -> rscore_equations k ps l ->
  rnormal_equations k (cell false false l) b0 -> rnormal_equations k (cell false true l) b1 ->
  mean (trad_inf k tl ps b0 b1 M0 M1 H l) l = 0.
Proof.
  intros SZ SC E0 E1. apply some_zero_inv in SZ. destruct SZ as [N0 [N1 [N2 N3]]]. unfold trad_inf. cbn zeta.
  rewrite mean_sub, !mean_add, !mean_sub, !lead_centred, alr_logit_centred, !alr_ols_centred by assumption. ring.
Qed.
Lemma trad_centred o k tl l att inf : rwls_ok o k -> drdid_trad_rc o k tl l = PEst att inf ->
  (forall gamma, ro_logit o (rnormalise l) = Some gamma -> rscore_equations k (rps_fit (ro_mu o) k gamma) (rnormalise l)) ->
  length inf = length l /\ qsum inf = 0.
Proof.
  intros WO E SC. apply trad_inv in E. destruct E as [_ [_ [g [b0 [b1 [M0 [M1 [H [Eg [E0 [E1 [_ [_ [_ [SZ [_ ->]]]]]]]]]]]]]]]]. cbn zeta in *.
  rewrite map_length, rnormalise_length. split; [reflexivity|]. rewrite qsum_map. apply mean_zero_sum.
  apply ols_rc_inv in E0. apply ols_rc_inv in E1. destruct E0 as [E0 _], E1 as [E1 _]. apply WO in E0. apply WO in E1. apply trad_inf_centred; auto.
Qed.
Lemma loc_centred o k tl l att inf : rwls_ok o k -> drdid_rc o k tl l = PEst att inf ->
  (forall gamma, ro_logit o (rnormalise l) = Some gamma -> rscore_equations k (rps_fit (ro_mu o) k gamma) (rnormalise l)) ->
  length inf = length l /\ qsum inf = 0.
Proof.
  intros WO E SC. apply loc_inv in E. destruct E as [NN [_ [g [c0 [c1 [t0 [t1 [MC0 [MC1 [MT0 [MT1 [H [Eg [E0 [E1 [E2 [E3 [_ [_ [_ [_ [_ [SZ [_ ->]]]]]]]]]]]]]]]]]]]]]]]]. cbn zeta in *.
  rewrite map_length, rnormalise_length. split; [reflexivity|]. rewrite qsum_map. apply mean_zero_sum.
  apply ols_rc_inv in E0. apply ols_rc_inv in E1. apply ols_rc_inv in E2. apply ols_rc_inv in E3.
  destruct E0 as [E0 _], E1 as [E1 _], E2 as [E2 _], E3 as [E3 _]. apply WO in E0. apply WO in E1. apply WO in E2. apply WO in E3.
  destruct (some_zero_inv _ _ _ SZ) as [N0 [N1 _]]. assert (Hm := mean_weights_neq0 _ cT0 l (wt0_c _ _) N0).
  assert (ND := wd_neq0 _ _ _ (rnormalise_nonneg l (proj1 (rany_neg_false l) NN) Hm) N0).
  unfold loc_inf. cbn zeta. rewrite !mean_add, !mean_sub, trad_inf_centred by auto.
  rewrite !(mean_ext (fun a => dotk k (vsub k _ _) _) _ _ (fun u _ => dotk_vsub_l k _ _ _)), !mean_sub.
  rewrite !lead_centred, !alr_ols_centred by assumption. ring.
Qed.

(** ** C91: values with an intercept *)
Lemma nz_den b t k beta l : rnormal_equations k (cell b t l) beta -> rhas_intercept l -> (1 <= k)%nat ->
  cell_mean b t (fun u => r_y u - rout k beta u) l = 0.
Proof.
  intros N I Hk. unfold cell_mean. rewrite (sumf_ext _ (fun u => r_w u * (r_y u - dotk k (r_x u) beta) * rx_at u 0)).
  - rewrite (N 0%nat Hk). apply Qcdiv_0_l.
  - intros u Hu. apply filter_In in Hu. unfold rx_at. rewrite (I u (proj1 Hu)). unfold rout. ring.
Qed.
Lemma normal_raw k b t l beta : mean r_w l <> 0 -> rnormal_equations k (cell b t (rnormalise l)) beta -> rnormal_equations k (cell b t l) beta.
Proof.
  intros Hm N j Hj. specialize (N j Hj). rewrite cell_normalise, sumf_map in N. unfold rx_at in *. cbn [rset_w r_w r_y r_x] in N.
  rewrite (sumf_ext _ (fun u => / mean r_w l * (r_w u * (r_y u - dotk k (r_x u) beta) * nth j (r_x u) 0))) in N by (intros; unfold Qcdiv; ring).
  rewrite sumf_mul_l in N. apply Qcmult_integral in N. destruct N as [N|N]; [exfalso; revert N; apply inv_neq0; exact Hm|exact N].
Qed.
Lemma loc_value_intercept o k tl l att inf : rwls_ok o k -> rhas_intercept l -> (1 <= k)%nat -> drdid_rc o k tl l = PEst att inf -> exists gamma c0 c1 t0 t1,
  ro_logit o (rnormalise l) = Some gamma /\
  ro_wls o (cell false false (rnormalise l)) = Some c0 /\ ro_wls o (cell false true (rnormalise l)) = Some c1 /\
  ro_wls o (cell true false (rnormalise l)) = Some t0 /\ ro_wls o (cell true true (rnormalise l)) = Some t1 /\
  let ps := rps_fit (ro_mu o) k gamma in
  att = treated_mean (fun u => (rout k t1 u - rout k c1 u) - (rout k t0 u - rout k c0 u)) l
        - (odds_cell_mean tl ps true (fun u => r_y u - rout k c1 u) l - odds_cell_mean tl ps false (fun u => r_y u - rout k c0 u) l).
Proof.
  intros WO I Hk E.
  assert (Hm : mean r_w l <> 0).
  { apply loc_inv in E. destruct E as [_ [_ [g [c0 [c1 [t0 [t1 [MC0 [MC1 [MT0 [MT1 [H [Eg [_ [_ [_ [_ [_ [_ [_ [_ [_ [SZ _]]]]]]]]]]]]]]]]]]]]]]]. cbn zeta in *.
    apply some_zero_inv in SZ. destruct SZ as [N0 _]. exact (mean_weights_neq0 _ cT0 l (wt0_c _ _) N0). }
  apply loc_value in E. destruct E as [g [c0 [c1 [t0 [t1 [Eg [E0 [E1 [E2 [E3 ->]]]]]]]]]].
  exists g, c0, c1, t0, t1. repeat (split; [assumption|]). cbn zeta.
  assert (A0 := normal_raw _ _ _ _ _ Hm (WO _ _ E2)). assert (A1 := normal_raw _ _ _ _ _ Hm (WO _ _ E3)).
  rewrite (nz_den _ _ _ _ _ A0 I Hk), (nz_den _ _ _ _ _ A1 I Hk). ring.
Qed.

(** ** exact outcome model *)
Lemma cell_nonneg b t l : (forall u, In u l -> 0 <= r_w u) -> forall u, In u l -> 0 <= r_w u * ind (in_cell b t u).
Proof. intros W u Hu. apply Qcmult_nonneg; [apply W, Hu|destruct (in_cell b t u); discriminate]. Qed.
Lemma cell_nc k b t l : rno_collinearity k (cell b t l) ->
  forall v, (forall u, In u l -> 0 < r_w u * ind (in_cell b t u) -> dotk k (r_x u) v = 0) -> forall j, (j < k)%nat -> nth j v 0 = 0.
Proof.
  intros NC v H. apply NC. intros u Hu Hw. apply filter_In in Hu. apply (H u (proj1 Hu)). rewrite (proj2 Hu). cbn [ind]. replace (r_w u * 1) with (r_w u) by ring. exact Hw.
Qed.
Lemma nc_normal k b t l : (forall u, In u l -> 0 <= r_w u) -> mean r_w l <> 0 -> rno_collinearity k (cell b t l) -> rno_collinearity k (cell b t (rnormalise l)).
Proof.
  intros W Hm NC v H. apply NC. intros u Hu Hw. rewrite cell_normalise in H. apply (H _ (in_map (fun u => rset_w (r_w u / mean r_w l) u) _ _ Hu)). cbn.
  apply Qcdiv_pos; [exact Hw|apply rmean_pos; assumption].
Qed.
(** two solutions of the same normal equations give the same fitted values everywhere *)
Lemma wls_unique k b t l b1 b2 : (forall u, In u l -> 0 <= r_w u) -> rno_collinearity k (cell b t l) ->
  rnormal_equations k (cell b t l) b1 -> rnormal_equations k (cell b t l) b2 -> forall u, rout k b1 u = rout k b2 u.
Proof.
  intros W NC N1 N2 u. set (v := vec_of k (fun j => nth j b1 0 - nth j b2 0)).
  assert (E : forall x, dotk k x v = dotk k x b1 - dotk k x b2) by (intros; apply dotk_sub_r).
  assert (Z0 : forall j, (j < k)%nat -> nth j v 0 = 0).
  { apply (grank_zero k l r_w r_x (fun u => ind (in_cell b t u)) v (cell_nonneg b t l W) (cell_nc k b t l NC)). intros j Hj.
    assert (A1 := N1 j Hj). assert (A2 := N2 j Hj). unfold cell in A1, A2. rewrite sumf_filter in A1, A2.
    transitivity (sumf (fun u => ind (in_cell b t u) * (r_w u * (r_y u - dotk k (r_x u) b2) * rx_at u j) - ind (in_cell b t u) * (r_w u * (r_y u - dotk k (r_x u) b1) * rx_at u j)) l).
    - apply sumf_ext. intros a _. rewrite E. unfold rx_at. ring.
    - rewrite sumf_sub, A1, A2. ring. }
  unfold rout. apply Qc_sub_0_eq. rewrite <- E. unfold dotk. apply sumf_zero. intros j Hj. apply in_seq in Hj. rewrite Z0 by lia. ring.
Qed.
Lemma exact_normal k t bs l : (forall u, In u l -> 0 <= r_w u) -> rexact k t bs l -> rnormal_equations k (cell false t l) bs.
Proof.
  intros W H j _. apply sumf_zero. intros u Hu. apply filter_In in Hu. destruct Hu as [Hu C]. unfold in_cell in C. apply andb_true_iff in C.
  destruct C as [C1 C2]. apply Bool.eqb_prop in C1, C2.
  destruct (Qcle_lt_or_eq _ _ (W u Hu)) as [L|L]; [rewrite (H u Hu C1 C2 L)|rewrite <- L]; ring.
Qed.
Lemma exact_odds k tl ps t bs v l : (forall u, In u l -> 0 <= r_w u) -> rexact k t bs l -> (forall u, v u = r_y u - dotk k (r_x u) bs) ->
  odds_cell_mean tl ps t v l = 0.
Proof.
  intros W H V. unfold odds_cell_mean. cbn zeta. rewrite sumf_zero; [apply Qcdiv_0_l|]. intros u Hu. apply filter_In in Hu. destruct Hu as [Hu _].
  apply filter_In in Hu. destruct Hu as [Hu C]. unfold in_cell in C. apply andb_true_iff in C. destruct C as [C1 C2]. apply Bool.eqb_prop in C1, C2.
  rewrite V. destruct (Qcle_lt_or_eq _ _ (W u Hu)) as [L|L]; [rewrite (H u Hu C1 C2 L)|rewrite <- L]; ring.
Qed.
Section Exact.
  Context (o : roracle) (k : nat) (tl : Qc) (l : list runit) (s0 s1 : list Qc).
  Context (WO : rwls_ok o k) (NC0 : rno_collinearity k (cell false false l)) (NC1 : rno_collinearity k (cell false true l)).
  Context (X0 : rexact k false s0 l) (X1 : rexact k true s1 l).
  Lemma exact_fit W (Hm : mean r_w l <> 0) (t : bool) b : (forall u, In u l -> 0 <= r_w u) = W -> W ->
    ro_wls o (cell false t (rnormalise l)) = Some b -> forall u, rout k b u = dotk k (r_x u) (if t then s1 else s0).
  Proof.
    intros <- HW E u. change (dotk k (r_x u) (if t then s1 else s0)) with (rout k (if t then s1 else s0) u).
    apply (wls_unique k false t l); [exact HW|destruct t; assumption|apply normal_raw; [exact Hm|apply WO; exact E]|]. destruct t; apply exact_normal; assumption.
  Qed.
  Lemma rreg_exact att inf : reg_did_rc o k l = PEst att inf ->
    att = (cell_mean true true r_y l - cell_mean true false r_y l) - treated_mean (fun u => dotk k (r_x u) s1 - dotk k (r_x u) s0) l.
  Proof.
    intros E. assert (E' := E). apply rreg_inv in E'. destruct E' as [NN [b0 [b1 [M0 [M1 [E0 [E1 [_ [_ [N0 _]]]]]]]]]]. 
    assert (W := proj1 (rany_neg_false l) NN). assert (Hm := mean_weights_neq0 _ cT0 l wr0_c N0).
    apply rreg_value in E. destruct E as [b0' [b1' [E0' [E1' ->]]]]. f_equal.
    unfold treated_mean. f_equal. apply sumf_ext. intros u _. rewrite (exact_fit _ Hm false b0' eq_refl W E0' u), (exact_fit _ Hm true b1' eq_refl W E1' u). reflexivity.
  Qed.
  Lemma cell_mean_ext b t v v' : (forall u, v u = v' u) -> cell_mean b t v l = cell_mean b t v' l.
  Proof. intros H. unfold cell_mean. f_equal. apply sumf_ext. intros u _. rewrite H. reflexivity. Qed.
  Lemma trad_exact att inf : drdid_trad_rc o k tl l = PEst att inf ->
    att = cell_mean true true (fun u => r_y u - dotk k (r_x u) s1) l - cell_mean true false (fun u => r_y u - dotk k (r_x u) s0) l.
  Proof.
    intros E. assert (E' := E). apply trad_inv in E'. destruct E' as [NN [_ [g [b0 [b1 [M0 [M1 [H [_ [_ [_ [_ [_ [_ [SZ _]]]]]]]]]]]]]]]. cbn zeta in SZ.
    assert (W := proj1 (rany_neg_false l) NN). apply some_zero_inv in SZ. assert (Hm := mean_weights_neq0 _ cT0 l (wt0_c _ _) (proj1 SZ)).
    apply trad_value in E. destruct E as [g' [b0' [b1' [Eg' [E0' [E1' ->]]]]]]. cbn zeta.
    assert (F0 := exact_fit _ Hm false b0' eq_refl W E0'). assert (F1 := exact_fit _ Hm true b1' eq_refl W E1'). cbn in F0, F1.
    rewrite (exact_odds k _ _ true s1 _ l W X1) by (intros u; rewrite F1; reflexivity). rewrite (exact_odds k _ _ false s0 _ l W X0) by (intros u; rewrite F0; reflexivity).
    rewrite (cell_mean_ext true true _ (fun u => r_y u - dotk k (r_x u) s1)) by (intros u; rewrite F1; reflexivity).
    rewrite (cell_mean_ext true false _ (fun u => r_y u - dotk k (r_x u) s0)) by (intros u; rewrite F0; reflexivity). ring.
  Qed.
  Lemma loc_exact att inf : rhas_intercept l -> (1 <= k)%nat -> drdid_rc o k tl l = PEst att inf -> exists t0 t1,
    ro_wls o (cell true false (rnormalise l)) = Some t0 /\ ro_wls o (cell true true (rnormalise l)) = Some t1 /\
    att = treated_mean (fun u => (dotk k (r_x u) t1 - dotk k (r_x u) s1) - (dotk k (r_x u) t0 - dotk k (r_x u) s0)) l.
  Proof.
    intros I Hk E. assert (E' := E). apply loc_inv in E'.
    destruct E' as [NN [_ [g [c0 [c1 [t0 [t1 [MC0 [MC1 [MT0 [MT1 [H [Eg [_ [_ [_ [_ [_ [_ [_ [_ [_ [SZ _]]]]]]]]]]]]]]]]]]]]]]]. cbn zeta in SZ.
    assert (W := proj1 (rany_neg_false l) NN). apply some_zero_inv in SZ. assert (Hm := mean_weights_neq0 _ cT0 l (wt0_c _ _) (proj1 SZ)).
    apply loc_value_intercept in E; [|assumption..]. destruct E as [g' [c0' [c1' [t0' [t1' [Eg' [E0' [E1' [E2' [E3' ->]]]]]]]]]]. cbn zeta.
    exists t0', t1'. split; [exact E2'|]. split; [exact E3'|].
    assert (F0 := exact_fit _ Hm false c0' eq_refl W E0'). assert (F1 := exact_fit _ Hm true c1' eq_refl W E1'). cbn in F0, F1.
    rewrite (exact_odds k _ _ true s1 _ l W X1) by (intros u; rewrite F1; reflexivity). rewrite (exact_odds k _ _ false s0 _ l W X0) by (intros u; rewrite F0; reflexivity).
    replace (0 - 0) with 0 by ring. unfold Qcminus at 1. replace (- 0) with 0 by ring. rewrite Qcplus_0_r.
    unfold treated_mean. f_equal. apply sumf_ext. intros u _. rewrite F0, F1. reflexivity.
  Qed.
End Exact.
