(** Proofs for C114-C115, end. *)
From Verif Require Import Base ListLib ReduceModel ReduceProofs2 Calc DrdidModel DrdidSpec DrdidProofs DrdidProofs2 DrdidProofs3 DrdidProofs4 DrdidProofs5 DrdidProofs7 DrdidProofs8 DrdidProofs9 DrdidProofs10 ImpModel ImpSpec ImpProofs ImpProofs2 ImpProofs3.

Lemma calibrated_scale k ps l c : (forall w u, ps (set_w w u) = ps u) -> calibrated k ps l -> calibrated k ps (map (scale_w c) l).
Proof.
  intros Hp C j Hj. specialize (C j Hj). rewrite !filter_map, !sumf_map.
  transitivity (c * sumf (fun u => p_w u * x_at u j) (filter p_d l)); [rewrite <- sumf_mul_l; apply sumf_ext; intros u _; unfold scale_w, x_at; cbn [set_w p_w p_x]; ring|].
  rewrite C, <- sumf_mul_l. apply sumf_ext. intros u _. unfold scale_w, x_at. cbn [set_w p_w p_x]. rewrite Hp. ring.
Qed.
Lemma tilt_normalise o k tl l h : mean p_w l <> 0 -> smooth_tilt o k tl l h -> smooth_tilt o k tl (normalise l) (h_norm l h).
Proof.
  intros Hm [H1 [H2 H3]]. assert (Hi : / mean p_w l <> 0).
  { intros Z0. apply Hm. transitivity (mean p_w l * mean p_w l * / mean p_w l); [field; exact Hm|rewrite Z0; ring]. }
  assert (N : forall e, normalise (map (reweight e (h_norm l h)) (normalise l)) = normalise (map (reweight e h) l)) by (intros e; rewrite reweight_norm by exact Hm; apply normalise_scale; exact Hi).
  assert (G : forall e, gamma_of o (map (reweight e (h_norm l h)) (normalise l)) = gamma_of o (map (reweight e h) l)) by (intros e; unfold gamma_of; rewrite N; reflexivity).
  split; [|split]; cbn zeta in *.
  - intros j Hj. destruct (H1 j Hj) as [d Hd]. exists d. apply (D_ext (fun e => nth j (gamma_of o (map (reweight e h) l)) 0)); [apply near0_all; intros e; rewrite G; reflexivity|exact Hd].
  - eapply near0_impl; [|exact H2]. cbn beta. intros e He. rewrite G, reweight_norm by exact Hm. apply calibrated_scale; [reflexivity|exact He].
  - intros u Hu. apply in_normalise in Hu. destruct Hu as [v [Hv ->]]. rewrite G. apply (H3 v Hv).
Qed.
Lemma imp_derivative o k tl l h att inf : wls_ok o k -> smooth_tilt o k tl l h ->
  drdid_imp_panel o k tl l = PEst att inf -> near0 (fun e => has_est (drdid_imp_panel o k tl (map (reweight e h) l))) ->
  derivative_at_0 (fun e => att_of (drdid_imp_panel o k tl (map (reweight e h) l))) (avg_with h l inf).
Proof.
  intros WO SM E HE. assert (E' := E). apply imp_inv in E'. destruct E' as [N0 [g [b [_ [_ [Hm _]]]]]]. apply mean_d_weights in Hm.
  assert (P := mean_pos_of l N0 Hm).
  assert (R : forall e, drdid_imp_panel o k tl (map (reweight e (h_norm l h)) (normalise l)) = drdid_imp_panel o k tl (map (reweight e h) l)).
  { intros e. rewrite reweight_norm by exact Hm. apply imp_scale. exact P. }
  rewrite <- (avg_norm l h inf Hm).
  apply (D_ext (fun e => att_of (drdid_imp_panel o k tl (map (reweight e (h_norm l h)) (normalise l))))); [apply near0_all; intros e; rewrite R; reflexivity|].
  apply (imp_derivative_normalised o k tl (normalise l) (h_norm l h) (normalise_idem l Hm) att inf WO (tilt_normalise _ _ _ _ _ Hm SM)).
  - rewrite normalise_as_scale, imp_scale by exact P. exact E.
  - eapply near0_impl; [|exact HE]. cbn beta. intros e. rewrite R. auto.
Qed.
Section Main.
  Context (o : oracle) (k : nat) (tl : Qc) (l : list punit) (h : punit -> Qc).
  Context (IO : inv_ok o k) (NL : normalise l = l) (SM : smooth_logit o k tl l h).
  Let g (e : Qc) : list Qc := gamma_of o (map (reweight e h) l).
  Notation p u e := (ps_fit (o_mu o) k (g e) u).
  Lemma pht_derivative_normalised att inf : ipw_did_panel o k tl l = PEst att inf ->
    near0 (fun e => has_est (ipw_did_panel o k tl (map (reweight e h) l))) ->
    derivative_at_0 (fun e => att_of (ipw_did_panel o k tl (map (reweight e h) l))) (avg_with h l inf).
  Proof.
    intros E HE.
    assert (HW : near0 (fun e => mean p_w (map (reweight e h) l) <> 0)).
    { eapply near0_impl; [|exact HE]. cbn beta. intros e [a [i Ee]]. apply pht_inv in Ee. destruct Ee as [_ [_ [g1 [H1 [_ [Ht _]]]]]]. apply mean_d_weights. exact Ht. }
    assert (AE : near0 (fun e => sumf (fun u => p_w u * (1 + e * h u) * ((p_D u - cw tl (fun u => p u e) u) * p_dy u)) l / sumf (fun u => p_w u * (1 + e * h u) * p_D u) l
        = att_of (ipw_did_panel o k tl (map (reweight e h) l)))).
    { eapply near0_impl; [|exact HE]. cbn beta. intros e He. destruct (has_est_inv _ He) as [i Ei]. apply pht_value in Ei. destruct Ei as [g1 [Eg ->]].
      replace g1 with (g e) by (unfold g, gamma_of; rewrite Eg; reflexivity).
      rewrite group_true, odds_total_cw. unfold Qcdiv. rewrite <- Qcmult_sub_r. rewrite <- sumf_sub, !sumf_map. f_equal.
      apply sumf_ext. intros u Hu. change (cw tl (ps_fit (o_mu o) k (g e)) (reweight e h u)) with (cw tl (fun u => p u e) u). unfold reweight, p_D, p_dy. cbn [set_w p_w p_d p_y1 p_y0]. ring. }
    apply pht_inv in E. rewrite NL in E. destruct E as [_ [_ [g0 [H [Eg [Hd [EH [Ea ->]]]]]]]]. cbn zeta in *.
    assert (Hl : l <> []) by (intros ->; apply Hd; reflexivity).
    assert (G0 : g 0 = g0) by (unfold g, gamma_of; rewrite reweight0, NL, Eg; reflexivity).
    assert (Hn := n_neq0 l Hl).
    assert (MD : mean_d l = sumf (fun u => p_w u * p_D u) l / qn (length l)) by (unfold mean_d, mean; f_equal; apply sumf_ext; intros; ring).
    assert (HT : sumf (fun u => p_w u * p_D u) l <> 0) by (intros Z0; apply Hd; rewrite MD, Z0; apply Qcdiv_0_l).
    apply (D_ext _ _ _ AE). destruct (choose_d o k tl l h SM) as [d Hdd].
    assert (GD := gamma_derivative o k tl l h SM HW d H Hdd). cbv beta zeta in GD. fold (g 0) in GD. rewrite G0 in GD. specialize (GD (IO _ _ EH)).
    assert (DN : derivative_at_0 (fun e => sumf (fun u => p_w u * (1 + e * h u) * ((p_D u - cw tl (fun u => p u e) u) * p_dy u)) l)
      (sumf (fun u => p_w u * h u * ((p_D u - cw tl (fun u => p u 0) u) * p_dy u)) l - sumf (fun u => p_w u * cw tl (fun u => p u 0) u * p_dy u * xdot k d u) l)).
    { eapply D_eq; [|apply (D_wsum l h (fun u e => (p_D u - cw tl (fun u => p u e) u) * p_dy u) (fun u => (0 - cw tl (fun u => p u 0) u * xdot k d u) * p_dy u + (p_D u - cw tl (fun u => p u 0) u) * 0))].
      - cbn beta. rewrite <- sumf_sub, <- sumf_add. apply sumf_ext. intros u _. ring.
      - intros u Hu. apply (D_mul (fun e => p_D u - cw tl (fun u => p u e) u) (fun _ => p_dy u)); [|apply D_const].
        apply (D_sub (fun _ => p_D u) (fun e => cw tl (fun u => p u e) u)); [apply D_const|apply (cw_deriv o k tl l h SM d u Hdd Hu)]. }
    assert (DT := D_wsum l h (fun u _ => p_D u) (fun _ => 0) (fun u _ => D_const (p_D u))). cbn beta in DT.
    assert (T0 : sumf (fun u => p_w u * (1 + 0 * h u) * p_D u) l = sumf (fun u => p_w u * p_D u) l) by (apply sumf_ext; intros; ring).
    eapply D_eq; [|apply (D_div _ _ _ _ DN DT); rewrite T0; exact HT].
    cbn beta. fold (g 0). rewrite T0, !G0. clear DN DT AE. set (ps := ps_fit (o_mu o) k g0) in *.
    change (fun u => ps u) with ps.
    rewrite (score_cross k l h Hl ps d H (fun u => p_w u * cw tl ps u * p_dy u)) by exact GD.
    set (MH := mscale (qn (length l)) H). 
    assert (A0 : sumf (fun u => p_w u * (1 + 0 * h u) * ((p_D u - cw tl ps u) * p_dy u)) l / sumf (fun u => p_w u * p_D u) l = pht_att tl ps l).
    { unfold pht_att. rewrite MD. unfold mean.
      rewrite (sumf_ext (fun u => w_treat tl ps u * p_dy u) (fun u => p_w u * p_D u * p_dy u)) by (intros; rewrite w_treat_D; ring).
      rewrite (sumf_ext (fun u => w_cont tl ps u * p_dy u) (fun u => p_w u * cw tl ps u * p_dy u)) by (intros; rewrite w_cont_cw; ring).
      rewrite (sumf_ext (fun u => p_w u * (1 + 0 * h u) * ((p_D u - cw tl ps u) * p_dy u)) (fun u => p_w u * p_D u * p_dy u - p_w u * cw tl ps u * p_dy u)) by (intros; ring).
      rewrite sumf_sub. field. split; assumption. }
    rewrite A0, avg_map.
    rewrite (sumf_ext (fun u => p_w u * 0) (fun _ => 0)), sumf_0 by (intros; ring).
    rewrite (mean_col_ext k (fun u => p_w u * cw tl ps u * p_dy u) (fun v => w_cont tl ps v * p_dy v)) by (intros; rewrite w_cont_cw; reflexivity).
    rewrite (sumf_ext (fun u => h u * pht_inf k tl ps MH l u) (fun u => (p_w u * h u * ((p_D u - cw tl ps u) * p_dy u)
      - h u * dotk k (alr_ps k ps MH u) (mean_col k (fun v => w_cont tl ps v * p_dy v) l) - p_w u * h u * p_D u * pht_att tl ps l) * / mean_d l)).
    2:{ intros u Hu. unfold pht_inf. cbn zeta. rewrite w_treat_D, w_cont_cw. unfold Qcdiv. ring. }
    rewrite sumf_mul_r, !sumf_sub, sumf_mul_r, MD. field. split; assumption.
  Qed.
End Main.
Lemma pht_derivative o k tl l h att inf : inv_ok o k -> smooth_logit o k tl l h ->
  ipw_did_panel o k tl l = PEst att inf -> near0 (fun e => has_est (ipw_did_panel o k tl (map (reweight e h) l))) ->
  derivative_at_0 (fun e => att_of (ipw_did_panel o k tl (map (reweight e h) l))) (avg_with h l inf).
Proof.
  intros IO SM E HE. assert (E' := E). apply pht_inv in E'. destruct E' as [N0 [_ [g [b [_ [Hm _]]]]]]. apply mean_d_weights in Hm.
  assert (P := mean_pos_of l N0 Hm).
  assert (R : forall e, ipw_did_panel o k tl (map (reweight e (h_norm l h)) (normalise l)) = ipw_did_panel o k tl (map (reweight e h) l)).
  { intros e. rewrite reweight_norm by exact Hm. apply pht_scale. exact P. }
  rewrite <- (avg_norm l h inf Hm).
  apply (D_ext (fun e => att_of (ipw_did_panel o k tl (map (reweight e (h_norm l h)) (normalise l))))); [apply near0_all; intros e; rewrite R; reflexivity|].
  apply (pht_derivative_normalised o k tl (normalise l) (h_norm l h) IO (normalise_idem l Hm) (smooth_normalise _ _ _ _ _ Hm SM) att inf).
  - rewrite normalise_as_scale, pht_scale by exact P. exact E.
  - eapply near0_impl; [|exact HE]. cbn beta. intros e. rewrite R. auto.
Qed.
(** affine outcomes, Horvitz-Thompson *)
Lemma odds_total_affine c a b tl mu k g l :
  odds_total tl (ps_fit mu k g) p_dy (map (affine_y c a b) l) = c * odds_total tl (ps_fit mu k g) p_dy l + (a - b) * odds_total tl (ps_fit mu k g) (fun _ => 1) l.
Proof.
  rewrite !odds_total_cw, !sumf_map. change (fun u => p_w (affine_y c a b u) * p_D (affine_y c a b u)) with (fun u => p_w u * p_D u).
  rewrite (sumf_ext (fun u => p_w (affine_y c a b u) * _ * _) (fun u => c * (p_w u * cw tl (ps_fit mu k g) u * p_dy u) + (a - b) * (p_w u * cw tl (ps_fit mu k g) u * 1))).
  - rewrite sumf_add, !sumf_mul_l. unfold Qcdiv. ring.
  - intros u _. rewrite dy_affine. change (cw tl (ps_fit mu k g) (affine_y c a b u)) with (cw tl (ps_fit mu k g) u). cbn [affine_y p_w]. ring.
Qed.
Lemma mean_d_sum l : mean_d (normalise l) <> 0 -> sumf (fun u => p_w u * p_D u) l <> 0.
Proof.
  intros Hd Z0. assert (Hm := mean_d_weights l Hd). apply Hd. unfold mean_d. apply mean_0. unfold normalise. rewrite sumf_map.
  rewrite (sumf_ext _ (fun u => / mean p_w l * (p_w u * p_D u))) by (intros u _; unfold p_D; cbn [set_w p_d p_w]; unfold Qcdiv; ring).
  rewrite sumf_mul_l, Z0. ring.
Qed.
Lemma group_true_affine c a b l : sumf (fun u => p_w u * p_D u) l <> 0 -> group_mean true p_dy (map (affine_y c a b) l) = c * group_mean true p_dy l + (a - b).
Proof.
  intros HT. rewrite !group_true, !sumf_map. change (fun u => p_w (affine_y c a b u) * p_D (affine_y c a b u)) with (fun u => p_w u * p_D u).
  rewrite (sumf_ext (fun u => p_w (affine_y c a b u) * _ * _) (fun u => c * (p_w u * p_D u * p_dy u) + (a - b) * (p_w u * p_D u))).
  - rewrite sumf_add, !sumf_mul_l. field. exact HT.
  - intros u _. rewrite dy_affine. unfold p_D. cbn [affine_y p_w p_d]. ring.
Qed.
Lemma pht_affine o k tl l c a b att inf att' inf' : logit_blind o ->
  ipw_did_panel o k tl l = PEst att inf -> ipw_did_panel o k tl (map (affine_y c a b) l) = PEst att' inf' ->
  exists gamma, o_logit o (normalise l) = Some gamma /\
  att' = c * att + (a - b) * (1 - odds_total tl (ps_fit (o_mu o) k gamma) (fun _ => 1) l) /\
  (a = b -> inf' = map (fun v => c * v) inf).
Proof.
  intros LB E E'. assert (V := pht_value _ _ _ _ _ _ E). assert (V' := pht_value _ _ _ _ _ _ E').
  apply pht_inv in E. apply pht_inv in E'. rewrite normalise_affine in E', V'. rewrite any_neg_affine in E'.
  destruct E as [_ [_ [g [H [Eg [Hd [EH [Ea ->]]]]]]]]. destruct E' as [_ [_ [g' [H' [Eg' [Hd' [EH' [Ea' ->]]]]]]]]. cbn zeta in *.
  rewrite (LB _ (normalise l) (view_affine c a b _)), Eg in Eg'. injection Eg' as <-.
  destruct V as [g1 [Eg1 V]]. rewrite Eg in Eg1. injection Eg1 as <-. destruct V' as [g2 [Eg2 V']]. rewrite (LB _ (normalise l) (view_affine c a b _)), Eg in Eg2. injection Eg2 as <-.
  exists g. split; [exact Eg|]. split.
  - rewrite V', V, odds_total_affine, group_true_affine by (apply mean_d_sum; exact Hd). ring.
  - intros ->. rewrite ps_gram_affine, EH in EH' by reflexivity. injection EH' as <-. rewrite !map_map, map_length. apply map_ext_in. intros u Hu.
    assert (EA : att' = c * att) by (rewrite V', V, odds_total_affine, group_true_affine by (apply mean_d_sum; exact Hd); ring). rewrite Ea, Ea' in EA.
    unfold pht_inf. cbn zeta. rewrite mean_d_affine, EA. rewrite !w_treat_affine, !w_cont_affine by reflexivity.
    rewrite (mean_col_affine c b b k (fun v => w_cont tl (ps_fit (o_mu o) k g) v * p_dy v) (fun v => w_cont tl (ps_fit (o_mu o) k g) v * p_dy v) (normalise l) c).
    + rewrite dotk_scale_r, !dy_affine. change (alr_ps k (ps_fit (o_mu o) k g) (mscale (qn (length (normalise l))) H) (affine_y c b b u)) with (alr_ps k (ps_fit (o_mu o) k g) (mscale (qn (length (normalise l))) H) u).
      unfold p_D. cbn [affine_y p_w p_d]. unfold Qcdiv. ring.
    + intros v _. rewrite w_cont_affine by reflexivity. rewrite dy_affine. ring.
Qed.
Lemma odds_total_one k tl ps l : has_intercept l -> (1 <= k)%nat -> calibrated k ps l -> untrimmed tl ps l -> sumf (fun u => p_w u * p_D u) l <> 0 -> odds_total tl ps (fun _ => 1) l = 1.
Proof.
  intros HI Hk C U HT. rewrite odds_total_cw. assert (S0 := intercept_total k _ l HI Hk (calibrated_sgn k tl ps l C U)).
  replace (sumf (fun u => p_w u * cw tl ps u * 1) l) with (sumf (fun u => p_w u * p_D u) l); [field; exact HT|].
  apply Qc_sub_0_eq. rewrite <- sumf_sub, <- S0. apply sumf_ext. intros u _. unfold sgn. ring.
Qed.
(** no covariates, Horvitz-Thompson: needs the score equation *)
Lemma nocov_pht o tl l att inf : (forall u, In u l -> p_x u = [1]) -> ipw_did_panel o 1 tl l = PEst att inf ->
  (forall gamma, o_logit o (normalise l) = Some gamma -> score_equations 1 (ps_fit (o_mu o) 1 gamma) (normalise l) /\ untrimmed tl (ps_fit (o_mu o) 1 gamma) l) ->
  att = group_mean true p_dy l - group_mean false p_dy l.
Proof.
  intros HX E SC. assert (V := pht_value _ _ _ _ _ _ E). apply pht_inv in E. destruct E as [N0 [TG [g [H [Eg [Hd _]]]]]]. cbn zeta in Hd.
  destruct V as [g1 [Eg1 ->]]. rewrite Eg in Eg1. injection Eg1 as <-. destruct (SC g Eg) as [S1 U]. clear SC.
  enough (GG : odds_total tl (ps_fit (o_mu o) 1 g) p_dy l = group_mean false p_dy l) by (rewrite GG; reflexivity).
  destruct (mean_d_pos l N0 Hd) as [Pm W]. assert (Hm := Qc_pos_neq0 _ Pm). assert (HT := mean_d_sum l Hd).
  rewrite odds_total_cw.
  destruct l as [|u0 t0]; [exfalso; apply HT; reflexivity|]. set (l := u0 :: t0) in *.
  assert (FL : forall u, In u l -> ps_fit (o_mu o) 1 g u = ps_fit (o_mu o) 1 g u0) by (intros u Hu; unfold ps_fit; rewrite (HX u Hu), (HX u0 (or_introl eq_refl)); reflexivity).
  set (q := ps_fit (o_mu o) 1 g u0) in *. assert (Nq : 1 - q <> 0) by apply ps_neq.
  specialize (S1 0%nat ltac:(lia)). unfold normalise in S1. rewrite sumf_map in S1.
  assert (SE : (1 - q) * sumf (fun u => p_w u * p_D u) l = q * sumf (fun u => p_w u * (1 - p_D u)) l).
  { apply Qc_sub_0_eq. transitivity (mean p_w l * 0); [|ring]. rewrite <- S1, <- !sumf_mul_l, <- sumf_sub. apply sumf_ext. intros u Hu.
    change (ps_fit (o_mu o) 1 g (set_w (p_w u / mean p_w l) u)) with (ps_fit (o_mu o) 1 g u). rewrite (FL u Hu). unfold p_D, x_at. cbn [set_w p_w p_d p_x]. rewrite (HX u Hu). cbn [nth]. field. exact Hm. }
  assert (HCn : sumf (fun u => p_w u * (1 - p_D u)) l <> 0).
  { intros Z0. rewrite Z0 in SE. assert (SE' : (1 - q) * sumf (fun u => p_w u * p_D u) l = 0) by (rewrite SE; ring). apply Qcmult_integral in SE'. destruct SE' as [SE'|SE']; [apply Nq; exact SE'|apply HT; exact SE']. }
  rewrite (sumf_ext (fun u => p_w u * cw tl _ u * p_dy u) (fun u => q / (1 - q) * (p_w u * (1 - p_D u) * p_dy u))).
  2:{ intros u Hu. rewrite (cw_untrimmed tl _ l u U Hu), (FL u Hu). ring. }
  rewrite sumf_mul_l. unfold group_mean. rewrite !sumf_filter.
  rewrite (sumf_ext (fun u => ind (Bool.eqb (p_d u) false) * (p_w u * p_dy u)) (fun u => p_w u * (1 - p_D u) * p_dy u)) by (intros u _; unfold p_D; destruct (p_d u); cbn; ring).
  rewrite (sumf_ext (fun u => ind (Bool.eqb (p_d u) false) * p_w u) (fun u => p_w u * (1 - p_D u))) by (intros u _; unfold p_D; destruct (p_d u); cbn; ring).
  set (A := sumf (fun u => p_w u * (1 - p_D u) * p_dy u) l) in *. set (C := sumf (fun u => p_w u * (1 - p_D u)) l) in *. set (T := sumf (fun u => p_w u * p_D u) l) in *.
  transitivity (A * (q * C) / ((1 - q) * T) / C); [field; repeat split; assumption|]. rewrite <- SE. field. repeat split; assumption.
Qed.
