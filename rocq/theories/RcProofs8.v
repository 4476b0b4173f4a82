(** Proofs for C93: ipw_did_rc against derivatives, and removal of the weight normalisation. *)
From Verif Require Import Base ListLib ReduceModel ReduceProofs2 Calc DrdidModel DrdidSpec DrdidProofs DrdidProofs2 DrdidProofs3 DrdidProofs4 DrdidProofs5 DrdidProofs6 DrdidProofs7 DrdidProofs8 RcModel RcSpec RcCalc RcProofs RcProofs2 RcProofs3 RcProofs4 RcProofs5 RcProofs6 RcProofs7.

Lemma Qcinv_inv (a : Qc) : / / a = a.
Proof. destruct (Qceqb_spec a 0) as [->|N]; [rewrite !Qcinv_0'; reflexivity|]. field. split; [exact N|]. discriminate. Qed.

Section Pieces.
  Context (l : list runit) (h : runit -> Qc) (Hl : l <> nil).
  Notation we e u := (r_w u * (1 + e * h u)).
  Notation n := (qn (length l)).
  Lemma D_wf (f : runit -> Qc) : derivative_at_0 (fun e => sumf (fun u => we e u * f u) l) (sumf (fun u => h u * (r_w u * f u)) l).
  Proof.
    assert (D := gD_wsum l r_w h (fun u _ => f u) (fun _ => 0) (fun u _ => D_const (f u))). revert D. apply D_eq.
    rewrite (sumf_ext (fun u => r_w u * 0) (fun _ => 0)), sumf_0 by (intros; ring). rewrite Qcplus_0_r. apply sumf_ext. intros; ring.
  Qed.
  Lemma at0_wf (f : runit -> Qc) : sumf (fun u => we 0 u * f u) l = sumf (fun u => r_w u * f u) l.
  Proof. apply sumf_ext. intros; ring. Qed.
  (** total x (sum of c y) / (treated total x period total) *)
  Definition HTe (c : runit -> Qc) (s : runit -> Qc) (e : Qc) : Qc :=
    sumf (fun u => we e u * 1) l * sumf (fun u => we e u * (c u * r_y u)) l / (sumf (fun u => we e u * r_D u) l * sumf (fun u => we e u * s u) l).
  Context (S1 : sumf r_w l = n) (s : runit -> Qc) (KD : sumf (fun u => r_w u * r_D u) l <> 0) (KS : sumf (fun u => r_w u * s u) l <> 0).
  Notation PI := (sumf (fun u => r_w u * r_D u) l). Notation LA := (sumf (fun u => r_w u * s u) l).
  Lemma HT_D (c : runit -> Qc -> Qc) (dc : runit -> Qc) : (forall u, In u l -> derivative_at_0 (c u) (dc u)) ->
    let a := n * sumf (fun u => r_w u * (c u 0 * r_y u)) l / (PI * LA) in
    derivative_at_0 (fun e => HTe (fun u => c u e) s e)
      (n * (sumf (fun u => h u * (r_w u * (c u 0 * r_y u))) l + sumf (fun u => r_w u * (dc u * r_y u)) l) / (PI * LA)
       + a * (sumf (fun u => h u * r_w u) l / n) - a * (sumf (fun u => h u * (r_w u * r_D u)) l / PI) - a * (sumf (fun u => h u * (r_w u * s u)) l / LA)).
  Proof.
    intros Hc a. assert (Hn := rn_neq0 l Hl).
    assert (DC : forall u, In u l -> derivative_at_0 (fun e => c u e * r_y u) (dc u * r_y u)).
    { intros u Hu. apply (D_eq _ (dc u * r_y u + c u 0 * 0)); [ring|]. apply (D_mul (c u) (fun _ => r_y u) _ _ (Hc u Hu) (D_const (r_y u))). }
    assert (DA := gD_wsum l r_w h (fun u e => c u e * r_y u) (fun u => dc u * r_y u) DC).
    assert (DN := D_mul _ _ _ _ (D_wf (fun _ => 1)) DA). assert (DD := D_mul _ _ _ _ (D_wf r_D) (D_wf s)). cbn beta in DN, DD.
    rewrite !at0_wf in DN, DD.
    assert (KK : sumf (fun u => we 0 u * r_D u) l * sumf (fun u => we 0 u * s u) l <> 0) by (rewrite !at0_wf; intros E; apply Qcmult_integral in E; destruct E; contradiction).
    assert (DF := D_div _ _ _ _ DN DD KK). cbn beta in DF. revert DF. apply D_eq. rewrite !at0_wf. subst a.
    rewrite (sumf_ext (fun u => r_w u * 1) r_w) by (intros; ring). rewrite S1.
    rewrite (sumf_ext (fun u => h u * (r_w u * 1)) (fun u => h u * r_w u)) by (intros; ring).
    rewrite (sumf_ext (fun u => r_w u * h u * (c u 0 * r_y u)) (fun u => h u * (r_w u * (c u 0 * r_y u)))) by (intros; ring).
    field. auto.
  Qed.
  Lemma HT_avg (w c : runit -> Qc) lam cc : (forall u, w u = r_w u * c u) -> lam = mean (fun u => r_w u * s u) l -> cc = pi_hat l * lam ->
    let a := n * sumf (fun u => r_w u * (c u * r_y u)) l / (PI * LA) in
    av h l (ht_lead (eta_h w cc) s lam l) = n * sumf (fun u => h u * (r_w u * (c u * r_y u))) l / (PI * LA)
      + a * (sumf h l / n) - a * (sumf (fun u => h u * (r_w u * r_D u)) l / PI) - a * (sumf (fun u => h u * (r_w u * s u)) l / LA).
  Proof.
    intros Hw -> -> a. assert (Hn := rn_neq0 l Hl).
    assert (Ec : pi_hat l = PI / n) by reflexivity. assert (El : mean (fun u => r_w u * s u) l = LA / n) by reflexivity.
    assert (EA : mean (eta_h w (pi_hat l * mean (fun u => r_w u * s u) l)) l = a).
    { unfold eta_h. rewrite mean_div_r, Ec, El. unfold mean. rewrite (sumf_ext (fun u => w u * r_y u) (fun u => r_w u * (c u * r_y u))) by (intros u _; rewrite Hw; ring). subst a. field. auto. }
    unfold ht_lead. cbn zeta. rewrite EA. unfold av.
    rewrite (sumf_ext _ (fun u => h u * (r_w u * (c u * r_y u)) * (n * n / (PI * LA)) + h u * a - h u * (r_w u * r_D u) * (a * n / PI) - h u * (r_w u * s u) * (a * n / LA))).
    - rewrite !sumf_sub, sumf_add, !sumf_mul_r. field. auto.
    - intros u _. unfold eta_h. rewrite Hw, Ec, El. field. auto.
  Qed.
End Pieces.

Section Main.
  Context (o : roracle) (k : nat) (tl : Qc) (l : list runit) (h : runit -> Qc) (IO : rinv_ok o k) (NL : rnormalise l = l) (SM : rsmooth_logit o k tl l h).
  Let g (e : Qc) : list Qc := rgamma_of o (map (rreweight e h) l).
  Let p (u : runit) (e : Qc) : Qc := rps_fit (ro_mu o) k (g e) u.
  Notation cc0 e := (cC0 tl (fun u => p u e)). Notation cc1 e := (cC1 tl (fun u => p u e)).
  Notation H' e c s := (HTe l h c s e).
  Notation rQ := (fun u => 1 - r_P u).

  Lemma ht_derivative_n att inf : ipw_did_rc o k tl l = PEst att inf -> near0 (fun e => has_est (ipw_did_rc o k tl (map (rreweight e h) l))) ->
    derivative_at_0 (fun e => att_of (ipw_did_rc o k tl (map (rreweight e h) l)))
      (ravg_with h l inf + att * mean (fun u => h u * (r_w u - 1)) l).
  Proof.
    intros E HE.
    assert (MW : forall e a i, ipw_did_rc o k tl (map (rreweight e h) l) = PEst a i -> mean r_w (map (rreweight e h) l) <> 0).
    { intros e a i Ei E0. apply ht_inv in Ei. destruct Ei as [_ [_ [g1 [H1 [_ [_ [Np _]]]]]]]. apply Np. apply mean_0, sumf_zero. intros u Hu. rewrite (rnormalise_zero _ E0 u Hu). ring. }
    assert (HW : near0 (fun e => mean r_w (map (rreweight e h) l) <> 0)).
    { eapply near0_impl; [|exact HE]. cbn beta. intros e [a0 [i Ee]]. exact (MW _ _ _ Ee). }
    assert (AE : near0 (fun e => (H' e cT1 r_P - H' e cT0 rQ) - (H' e (cc1 e) r_P - H' e (cc0 e) rQ) = att_of (ipw_did_rc o k tl (map (rreweight e h) l)))).
    { eapply near0_impl; [|exact HE]. cbn beta. intros e He. destruct (has_est_inv _ He) as [i Ei]. assert (Hm := MW _ _ _ Ei). apply ht_inv in Ei.
      destruct Ei as [_ [_ [g1 [H1 [Eg [_ [Np [Nl [Nl1 [-> _]]]]]]]]]]. cbn zeta in *.
      assert (Eg' : g1 = g e) by (unfold g, rgamma_of; rewrite Eg; reflexivity). subst g1. clear Eg.
      set (le := map (rreweight e h) l) in *. unfold ht_att. cbn zeta. set (ps := rps_fit (ro_mu o) k (g e)).
      assert (HS : sumf r_w le <> 0) by (intros E0; apply Hm; unfold mean; rewrite E0; apply Qcdiv_0_l).
      assert (B : forall f : runit -> Qc, blind f -> sumf (fun u => r_w u * f u) le = sumf (fun u => r_w u * (1 + e * h u) * f u) l).
      { intros f Bf. unfold le. rewrite sumf_map. apply sumf_ext. intros u _. unfold rreweight. rewrite Bf. reflexivity. }
      assert (SW : sumf (fun u => r_w u * (1 + e * h u) * 1) l = sumf r_w le).
      { unfold le. rewrite sumf_map. apply sumf_ext. intros u _. unfold rreweight. cbn [rset_w r_w]. ring. }
      assert (PZ : forall (w c s : runit -> Qc), (forall u, w u = r_w u * c u) -> blind c -> blind s ->
         mean (eta_h w (pi_hat (rnormalise le) * mean (fun u => r_w u * s u) (rnormalise le))) (rnormalise le) = H' e c s).
      { intros w c s Hw Bc Bs. unfold eta_h. rewrite mean_div_r, (mean_ext (fun u => w u * r_y u) (fun u => r_w u * (c u * r_y u))) by (intros u _; rewrite Hw; ring).
        unfold pi_hat. rewrite !rn_mean by first [exact Hm|exact Bs|exact blind_D|intros w' u; rewrite Bc; reflexivity].
        unfold HTe. rewrite SW, <- !B by first [exact Bs|exact blind_D|intros w' u; rewrite Bc; reflexivity].
        unfold Qcdiv. rewrite !Qcinv_mul. set (iD := / sumf (fun u => r_w u * r_D u) le). set (iS := / sumf (fun u => r_w u * s u) le). rewrite !Qcinv_inv. field. exact HS. }
      unfold lambda_hat, oml_hat.
      rewrite (PZ wh_treat_post cT1 r_P), (PZ wh_treat_pre cT0 rQ), (PZ (w_cont_post tl ps) (cC1 tl ps) r_P), (PZ (w_cont_pre tl ps) (cC0 tl ps) rQ)
        by (first [apply wc1_c|apply wc0_c|intros u; unfold wh_treat_post, wh_treat_pre, cT1, cT0; ring|intros w u; reflexivity]).
      reflexivity. }
    apply ht_inv in E. rewrite NL in E. destruct E as [NN [_ [g0 [H [Eg [EH [Np [Nl [Nl1 [-> ->]]]]]]]]]]. cbn zeta in *.
    assert (Hl : l <> nil) by (intros ->; apply Np; reflexivity). assert (Hn := rn_neq0 l Hl).
    assert (G0 : g 0 = g0) by (unfold g, rgamma_of; rewrite rreweight0, NL, Eg; reflexivity).
    destruct (rchoose_d o k tl l h SM) as [d Hd].
    assert (GD := rgamma_deriv o k tl l h SM HW d H Hd). cbv beta zeta in GD. fold (g 0) in GD. rewrite G0 in GD. specialize (GD (IO _ _ EH)).
    set (ps := rps_fit (ro_mu o) k g0) in *.
    assert (Hm : mean r_w l <> 0) by (assert (X := near0_at0 _ HW); cbn beta in X; rewrite rreweight0 in X; exact X).
    assert (S1 : sumf r_w l = qn (length l)).
    { assert (X : mean r_w (rnormalise l) = 1) by (unfold rnormalise, mean at 1; rewrite map_length, sumf_map; cbn [rset_w r_w]; rewrite sumf_div; change (sumf r_w l / mean r_w l / qn (length l) = 1);
        assert (Hs : sumf r_w l <> 0) by (intros E0; apply Hm; unfold mean; rewrite E0; apply Qcdiv_0_l); unfold mean; field; auto).
      rewrite NL in X. unfold mean in X. transitivity (sumf r_w l / qn (length l) * qn (length l)); [field; exact Hn|rewrite X; ring]. }
    assert (KD : sumf (fun u => r_w u * r_D u) l <> 0) by (intros E0; apply Np; unfold pi_hat, mean; rewrite E0; apply Qcdiv_0_l).
    assert (KP : sumf (fun u => r_w u * r_P u) l <> 0) by (intros E0; apply Nl; unfold lambda_hat, mean; rewrite E0; apply Qcdiv_0_l).
    assert (KQ : sumf (fun u => r_w u * rQ u) l <> 0).
    { intros E0. apply Nl1. rewrite (sumf_ext _ (fun u => r_w u - r_w u * r_P u)) in E0 by (intros; ring). rewrite sumf_sub, S1 in E0. apply Qc_sub_0_eq in E0.
      unfold lambda_hat, mean. rewrite <- E0. field. exact Hn. }
    apply (D_ext _ _ _ AE).
    assert (Q0 : cc0 0 = cC0 tl ps) by (unfold p; rewrite G0; reflexivity). assert (Q1 : cc1 0 = cC1 tl ps) by (unfold p; rewrite G0; reflexivity).
    assert (X1 := HT_D l h Hl S1 r_P KD KP (fun u _ => cT1 u) (fun _ => 0) (fun u _ => D_const (cT1 u))).
    assert (X0 := HT_D l h Hl S1 rQ KD KQ (fun u _ => cT0 u) (fun _ => 0) (fun u _ => D_const (cT0 u))).
    assert (Y1 := HT_D l h Hl S1 r_P KD KP (fun u e => cc1 e u) (fun u => cc1 0 u * gxdot k r_x d u) (fun u Hu => odds_deriv o k tl l h SM (in_cell false true) d u Hd Hu)).
    assert (Y0 := HT_D l h Hl S1 rQ KD KQ (fun u e => cc0 e u) (fun u => cc0 0 u * gxdot k r_x d u) (fun u Hu => odds_deriv o k tl l h SM (in_cell false false) d u Hd Hu)).
    cbn beta zeta in X1, X0, Y1, Y0.
    eapply D_eq; [|exact (D_sub _ _ _ _ (D_sub _ _ _ _ X1 X0) (D_sub _ _ _ _ Y1 Y0))]. clear X1 X0 Y1 Y0.
    rewrite !Q1, !Q0. rewrite !(sumf_ext (fun u => r_w u * (0 * r_y u)) (fun _ => 0)), !sumf_0 by (intros; ring).
    rewrite ravg_map. fold (av h l (ht_inf k tl ps (mscale (qn (length l)) H) l)).
    set (cpre := pi_hat l * oml_hat l). set (cpost := pi_hat l * lambda_hat l).
    rewrite (av_ext h l _ (fun u => ((ht_lead (eta_h wh_treat_post cpost) r_P (lambda_hat l) l u - ht_lead (eta_h wh_treat_pre cpre) rQ (oml_hat l) l u)
       - (ht_lead (eta_h (w_cont_post tl ps) cpost) r_P (lambda_hat l) l u - ht_lead (eta_h (w_cont_pre tl ps) cpre) rQ (oml_hat l) l u))
       - (dotk k (alr_logit k ps (mscale (qn (length l)) H) u) (rmean_col k (eta_h (w_cont_post tl ps) cpost) l) - dotk k (alr_logit k ps (mscale (qn (length l)) H) u) (rmean_col k (eta_h (w_cont_pre tl ps) cpre) l))))
      by (intros u _; unfold ht_inf; cbn zeta; rewrite dotk_vsub_r, !dotk_vneg_r; fold cpre cpost; ring).
    rewrite !av_sub.
    change (av h l (fun u => ht_lead (eta_h wh_treat_post cpost) r_P (lambda_hat l) l u)) with (av h l (ht_lead (eta_h wh_treat_post cpost) r_P (lambda_hat l) l)).
    change (av h l (fun u => ht_lead (eta_h wh_treat_pre cpre) rQ (oml_hat l) l u)) with (av h l (ht_lead (eta_h wh_treat_pre cpre) rQ (oml_hat l) l)).
    change (av h l (fun u => ht_lead (eta_h (w_cont_post tl ps) cpost) r_P (lambda_hat l) l u)) with (av h l (ht_lead (eta_h (w_cont_post tl ps) cpost) r_P (lambda_hat l) l)).
    change (av h l (fun u => ht_lead (eta_h (w_cont_pre tl ps) cpre) rQ (oml_hat l) l u)) with (av h l (ht_lead (eta_h (w_cont_pre tl ps) cpre) rQ (oml_hat l) l)).
    rewrite (HT_avg l h Hl r_P KD KP wh_treat_post cT1 (lambda_hat l) cpost), (HT_avg l h Hl rQ KD KQ wh_treat_pre cT0 (oml_hat l) cpre),
      (HT_avg l h Hl r_P KD KP (w_cont_post tl ps) (cC1 tl ps) (lambda_hat l) cpost), (HT_avg l h Hl rQ KD KQ (w_cont_pre tl ps) (cC0 tl ps) (oml_hat l) cpre)
      by (first [apply wc1_c|apply wc0_c|intros u; unfold wh_treat_post, wh_treat_pre, cT1, cT0; ring|reflexivity]).
    cbn zeta. unfold av. rewrite !(logit_cross k l h Hl ps H _ d GD).
    assert (EP : forall w c cc, (forall u, w u = r_w u * c u) -> sumf (fun u => eta_h w cc u * gxdot k r_x d u) l = sumf (fun u => r_w u * (c u * gxdot k r_x d u * r_y u)) l / cc).
    { intros w c cc Hw. rewrite <- sumf_div. apply sumf_ext. intros u _. unfold eta_h. rewrite Hw. unfold Qcdiv. ring. }
    rewrite (EP _ (cC1 tl ps) cpost (wc1_c tl ps)), (EP _ (cC0 tl ps) cpre (wc0_c tl ps)).
    assert (CP : cpost = sumf (fun u => r_w u * r_D u) l / qn (length l) * (sumf (fun u => r_w u * r_P u) l / qn (length l))) by reflexivity.
    assert (CQ : cpre = sumf (fun u => r_w u * r_D u) l / qn (length l) * (sumf (fun u => r_w u * rQ u) l / qn (length l))) by reflexivity.
    assert (EA : forall w c s cc, (forall u, w u = r_w u * c u) -> cc = sumf (fun u => r_w u * r_D u) l / qn (length l) * (sumf (fun u => r_w u * s u) l / qn (length l)) -> sumf (fun u => r_w u * s u) l <> 0 ->
       mean (eta_h w cc) l = qn (length l) * sumf (fun u => r_w u * (c u * r_y u)) l / (sumf (fun u => r_w u * r_D u) l * sumf (fun u => r_w u * s u) l)).
    { intros w c s cc Hw -> Ks. unfold eta_h. rewrite mean_div_r. unfold mean. rewrite (sumf_ext (fun u => w u * r_y u) (fun u => r_w u * (c u * r_y u))) by (intros u _; rewrite Hw; ring). field. auto. }
    unfold ht_att. cbn zeta. fold cpre cpost.
    rewrite (EA wh_treat_post cT1 r_P cpost), (EA wh_treat_pre cT0 rQ cpre), (EA (w_cont_post tl ps) (cC1 tl ps) r_P cpost), (EA (w_cont_pre tl ps) (cC0 tl ps) rQ cpre)
      by (first [assumption|apply wc1_c|apply wc0_c|intros u; unfold wh_treat_post, wh_treat_pre, cT1, cT0; ring]).
    assert (MH : mean (fun u => h u * (r_w u - 1)) l = sumf (fun u => h u * r_w u) l / qn (length l) - sumf h l / qn (length l)).
    { unfold mean. rewrite (sumf_ext _ (fun u => h u * r_w u - h u)) by (intros; ring). rewrite sumf_sub. unfold Qcdiv. ring. }
    rewrite MH, CP, CQ. field. auto.
  Qed.
End Main.
