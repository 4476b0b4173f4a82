(** Proofs for C93, end: influence functions against derivatives. *)
From Verif Require Import Base ListLib ReduceModel ReduceProofs2 Calc DrdidModel DrdidSpec DrdidProofs DrdidProofs2 DrdidProofs3 DrdidProofs4 DrdidProofs5 DrdidProofs6 DrdidProofs7 DrdidProofs8 RcModel RcSpec RcCalc RcProofs RcProofs2 RcProofs3 RcProofs4 RcProofs5.

(** sample average of [h] times a row function *)
Definition av (h : runit -> Qc) (l : list runit) (f : runit -> Qc) : Qc := sumf (fun u => h u * f u) l / qn (length l).
Lemma av_add h l f g : av h l (fun u => f u + g u) = av h l f + av h l g.
Proof. unfold av. rewrite (sumf_ext _ (fun u => h u * f u + h u * g u)) by (intros; ring). rewrite sumf_add. unfold Qcdiv. ring. Qed.
Lemma av_sub h l f g : av h l (fun u => f u - g u) = av h l f - av h l g.
Proof. unfold av. rewrite (sumf_ext _ (fun u => h u * f u - h u * g u)) by (intros; ring). rewrite sumf_sub. unfold Qcdiv. ring. Qed.
Lemma av_div h l f c : av h l (fun u => f u / c) = av h l f / c.
Proof. unfold av. rewrite (sumf_ext _ (fun u => h u * f u / c)) by (intros; unfold Qcdiv; ring). rewrite sumf_div. unfold Qcdiv. ring. Qed.
Lemma av_ext h l f g : (forall u, In u l -> f u = g u) -> av h l f = av h l g.
Proof. intros H. unfold av. f_equal. apply sumf_ext. intros u Hu. rewrite (H u Hu). reflexivity. Qed.

Section Moving.
  Context (l : list runit) (h : runit -> Qc).
  Notation we e u := (r_w u * (1 + e * h u)).
  Lemma RD_const (c : runit -> Qc) (v : runit -> Qc -> Qc) (dv : runit -> Qc) : (forall u, In u l -> derivative_at_0 (v u) (dv u)) -> sumf (fun u => r_w u * c u) l <> 0 ->
    derivative_at_0 (fun e => sumf (fun u => we e u * (c u * v u e)) l / sumf (fun u => we e u * c u) l)
      (sumf (fun u => h u * (r_w u * c u * (v u 0 - R c (fun u => v u 0) l))) l / sumf (fun u => r_w u * c u) l + sumf (fun u => r_w u * c u * dv u) l / sumf (fun u => r_w u * c u) l).
  Proof.
    intros Hv N. assert (D := gD_wmean l r_w h (fun u _ => c u) v (fun _ => 0) dv (fun u _ => D_const (c u)) Hv N). cbv zeta beta in D.
    revert D. apply D_eq. unfold R. rewrite (sumf_ext (fun u => r_w u * 0 * _) (fun _ => 0)), sumf_0 by (intros; ring). unfold Qcdiv. ring.
  Qed.
  Lemma RD_move (c : runit -> Qc -> Qc) (dc : runit -> Qc) (v : runit -> Qc -> Qc) (dv : runit -> Qc) : (forall u, In u l -> derivative_at_0 (c u) (dc u)) ->
    (forall u, In u l -> derivative_at_0 (v u) (dv u)) -> sumf (fun u => r_w u * c u 0) l <> 0 ->
    derivative_at_0 (fun e => sumf (fun u => we e u * (c u e * v u e)) l / sumf (fun u => we e u * c u e) l)
      (sumf (fun u => h u * (r_w u * c u 0 * (v u 0 - R (fun u => c u 0) (fun u => v u 0) l))) l / sumf (fun u => r_w u * c u 0) l
       + sumf (fun u => r_w u * dc u * (v u 0 - R (fun u => c u 0) (fun u => v u 0) l)) l / sumf (fun u => r_w u * c u 0) l
       + sumf (fun u => r_w u * c u 0 * dv u) l / sumf (fun u => r_w u * c u 0) l).
  Proof.
    intros Hc Hv N. assert (D := gD_wmean l r_w h c v dc dv Hc Hv N). cbv zeta beta in D. revert D. apply D_eq. unfold R. unfold Qcdiv. ring.
  Qed.
  Lemma RD_fixed (c v : runit -> Qc) : sumf (fun u => r_w u * c u) l <> 0 ->
    derivative_at_0 (fun e => sumf (fun u => we e u * (c u * v u)) l / sumf (fun u => we e u * c u) l)
      (sumf (fun u => h u * (r_w u * c u * (v u - R c v l))) l / sumf (fun u => r_w u * c u) l).
  Proof.
    intros N. assert (D := RD_const c (fun u _ => v u) (fun _ => 0) (fun u _ => D_const (v u)) N). revert D. apply D_eq.
    rewrite (sumf_ext (fun u => r_w u * c u * 0) (fun _ => 0)), sumf_0 by (intros; ring). change (R c (fun u => v u) l) with (R c v l). field. exact N.
  Qed.
  Lemma RD_odds (c : runit -> Qc -> Qc) (dc v : runit -> Qc) : (forall u, In u l -> derivative_at_0 (c u) (dc u)) -> sumf (fun u => r_w u * c u 0) l <> 0 ->
    derivative_at_0 (fun e => sumf (fun u => we e u * (c u e * v u)) l / sumf (fun u => we e u * c u e) l)
      (sumf (fun u => h u * (r_w u * c u 0 * (v u - R (fun u => c u 0) v l))) l / sumf (fun u => r_w u * c u 0) l
       + sumf (fun u => r_w u * dc u * (v u - R (fun u => c u 0) v l)) l / sumf (fun u => r_w u * c u 0) l).
  Proof.
    intros Hc N. assert (D := RD_move c dc (fun u _ => v u) (fun _ => 0) Hc (fun u _ => D_const (v u)) N). revert D. apply D_eq.
    rewrite (sumf_ext (fun u => r_w u * c u 0 * 0) (fun _ => 0)), sumf_0 by (intros; ring). change (R (fun u => c u 0) (fun u => v u) l) with (R (fun u => c u 0) v l). field. exact N.
  Qed.
End Moving.

Section Main.
  Context (o : roracle) (k : nat) (tl : Qc) (l : list runit) (h : runit -> Qc) (IO : rinv_ok o k) (NL : rnormalise l = l).
  Let g (e : Qc) : list Qc := rgamma_of o (map (rreweight e h) l).
  Let be (b t : bool) (e : Qc) : list Qc := rbeta_of o b t (map (rreweight e h) l).
  Let p (u : runit) (e : Qc) : Qc := rps_fit (ro_mu o) k (g e) u.
  Notation we e u := (r_w u * (1 + e * h u)).
  Lemma g_at e gm : ro_logit o (rnormalise (map (rreweight e h) l)) = Some gm -> gm = g e.
  Proof. intros E. unfold g, rgamma_of. rewrite E. reflexivity. Qed.
  Lemma be_at b t e v : ro_wls o (cell b t (rnormalise (map (rreweight e h) l))) = Some v -> v = be b t e.
  Proof. intros E. unfold be, rbeta_of. rewrite E. reflexivity. Qed.
  Lemma g_at0 gm : ro_logit o l = Some gm -> g 0 = gm.
  Proof. intros E. unfold g, rgamma_of. rewrite rreweight0, NL, E. reflexivity. Qed.
  Lemma be_at0 b t v : ro_wls o (cell b t l) = Some v -> be b t 0 = v.
  Proof. intros E. unfold be, rbeta_of. rewrite rreweight0, NL, E. reflexivity. Qed.

  (** reg_did_rc *)
  Lemma rreg_derivative_n att inf : rwls_ok o k -> reg_did_rc o k l = PEst att inf -> near0 (fun e => has_est (reg_did_rc o k (map (rreweight e h) l))) ->
    derivative_at_0 (fun e => att_of (reg_did_rc o k (map (rreweight e h) l))) (ravg_with h l inf).
  Proof.
    intros WO E HE.
    assert (HB : forall t, near0 (fun e => (exists v, ro_wls o (cell false t (rnormalise (map (rreweight e h) l))) = Some v) /\ mean r_w (map (rreweight e h) l) <> 0)).
    { intros t. eapply near0_impl; [|exact HE]. cbn beta. intros e [a0 [i Ee]]. apply rreg_inv in Ee. destruct Ee as [_ [b0 [b1 [M0 [M1 [E0 [E1 [_ [_ [N0 _]]]]]]]]]].
      split; [|exact (mean_weights_neq0 _ cT0 _ wr0_c N0)]. destruct t; [exists b1; apply (ols_rc_inv _ _ _ _ _ _ E1)|exists b0; apply (ols_rc_inv _ _ _ _ _ _ E0)]. }
    assert (AE : near0 (fun e => (sumf (fun u => we e u * (cT1 u * r_y u)) l / sumf (fun u => we e u * cT1 u) l - sumf (fun u => we e u * (cT0 u * r_y u)) l / sumf (fun u => we e u * cT0 u) l)
       - sumf (fun u => we e u * (r_D u * (rout k (be false true e) u - rout k (be false false e) u))) l / sumf (fun u => we e u * r_D u) l = att_of (reg_did_rc o k (map (rreweight e h) l)))).
    { eapply near0_impl; [|exact HE]. cbn beta. intros e He. destruct (has_est_inv _ He) as [i Ei]. apply rreg_value in Ei. destruct Ei as [b0 [b1 [E0 [E1 ->]]]].
      apply be_at in E0. apply be_at in E1. subst b0 b1. rewrite <- R_T1, <- R_T0, <- R_D, !R_reweight by (intros w u; reflexivity). reflexivity. }
    apply rreg_inv in E. rewrite NL in E. destruct E as [NN [b0 [b1 [M0 [M1 [E0 [E1 [I0 [I1 [N0 [N1 [-> ->]]]]]]]]]]]].
    assert (Hl : l <> nil) by (intros ->; apply N0; reflexivity). assert (Hn := rn_neq0 l Hl).
    assert (ND := wr_cont_neq0 l (proj1 (rany_neg_false l) NN) N0).
    apply ols_rc_inv in E0. apply ols_rc_inv in E1. destruct E0 as [E0 _], E1 as [E1 _].
    assert (KT0 := mean_neq_sum _ cT0 l wr0_c N0). assert (KT1 := mean_neq_sum _ cT1 l wr1_c N1). assert (KD := mean_neq_sum wr_cont r_D l (fun u => eq_refl) ND).
    assert (D0 := rbeta_derivative o k false false l h NL Hl WO IO (HB false) b0 M0 E0 I0). assert (D1 := rbeta_derivative o k false true l h NL Hl WO IO (HB true) b1 M1 E1 I1).
    set (d0 := fun i => sumf (fun j => mget M0 j i / qn (length l) * sumf (fun u => h u * (w_ols false false u * (r_y u - rout k b0 u) * nth j (r_x u) 0)) l) (seq 0 k)) in D0.
    set (d1 := fun i => sumf (fun j => mget M1 j i / qn (length l) * sumf (fun u => h u * (w_ols false true u * (r_y u - rout k b1 u) * nth j (r_x u) 0)) l) (seq 0 k)) in D1.
    apply (D_ext _ _ _ AE).
    assert (DV : forall u, In u l -> derivative_at_0 (fun e => rout k (be false true e) u - rout k (be false false e) u) (gxdot k r_x d1 u - gxdot k r_x d0 u)).
    { intros u _. apply D_sub; [apply (D_dotk k (r_x u) (be false true) d1 D1)|apply (D_dotk k (r_x u) (be false false) d0 D0)]. }
    assert (X1 := RD_fixed l h cT1 r_y KT1). assert (X0 := RD_fixed l h cT0 r_y KT0).
    assert (XD := RD_const l h r_D _ _ DV KD). cbn beta in X1, X0, XD.
    eapply D_eq; [|exact (D_sub _ _ _ _ (D_sub _ _ _ _ X1 X0) XD)].
    rewrite ravg_map. fold (av h l (rreg_inf k b0 b1 M0 M1 l)). rewrite (av_ext h l _ _ (fun u _ => rreg_inf_lead k b0 b1 M0 M1 l u)).
    rewrite av_sub, av_add, av_div, !av_sub. unfold av at 1 2 3. rewrite (avg_lead l h Hl wr_treat_post cT1 r_y wr1_c KT1), (avg_lead l h Hl wr_treat_pre cT0 r_y wr0_c KT0), (avg_lead l h Hl wr_cont r_D _ (fun u => eq_refl) KD).
    unfold av. rewrite (ols_cross k false true l h Hl M1 b1 _ d1 (fun i _ => eq_refl)), (ols_cross k false false l h Hl M0 b0 _ d0 (fun i _ => eq_refl)).
    rewrite (be_at0 false true b1 E1), (be_at0 false false b0 E0).
    rewrite (mean_c wr_cont r_D l (fun u => eq_refl)).
    rewrite (sumf_ext (fun u => r_w u * r_D u * (gxdot k r_x d1 u - gxdot k r_x d0 u)) (fun u => wr_cont u * gxdot k r_x d1 u - wr_cont u * gxdot k r_x d0 u)) by (intros; unfold wr_cont; ring).
    rewrite sumf_sub. field. auto.
  Qed.

  Context (SM : rsmooth_logit o k tl l h).
  Notation cc0 e := (cC0 tl (fun u => p u e)). Notation cc1 e := (cC1 tl (fun u => p u e)).

  (** std_ipw_did_rc *)
  Lemma ripw_derivative_n att inf : std_ipw_did_rc o k tl l = PEst att inf -> near0 (fun e => has_est (std_ipw_did_rc o k tl (map (rreweight e h) l))) ->
    derivative_at_0 (fun e => att_of (std_ipw_did_rc o k tl (map (rreweight e h) l))) (ravg_with h l inf).
  Proof.
    intros E HE.
    assert (HW : near0 (fun e => mean r_w (map (rreweight e h) l) <> 0)).
    { eapply near0_impl; [|exact HE]. cbn beta. intros e [a0 [i Ee]]. apply ripw_inv in Ee. destruct Ee as [_ [_ [g1 [H1 [_ [_ [SZ _]]]]]]]. apply some_zero_inv in SZ.
      exact (mean_weights_neq0 _ cT0 _ (wt0_c _ _) (proj1 SZ)). }
    assert (AE : near0 (fun e => (sumf (fun u => we e u * (cT1 u * r_y u)) l / sumf (fun u => we e u * cT1 u) l - sumf (fun u => we e u * (cT0 u * r_y u)) l / sumf (fun u => we e u * cT0 u) l)
       - (sumf (fun u => we e u * (cc1 e u * r_y u)) l / sumf (fun u => we e u * cc1 e u) l - sumf (fun u => we e u * (cc0 e u * r_y u)) l / sumf (fun u => we e u * cc0 e u) l)
       = att_of (std_ipw_did_rc o k tl (map (rreweight e h) l)))).
    { eapply near0_impl; [|exact HE]. cbn beta. intros e He. destruct (has_est_inv _ He) as [i Ei]. apply ripw_value in Ei. destruct Ei as [g1 [Eg ->]].
      apply g_at in Eg. subst g1. cbn zeta. rewrite <- R_T1, <- R_T0, <- R_C1, <- R_C0, !R_reweight by (intros w u; reflexivity). reflexivity. }
    apply ripw_inv in E. rewrite NL in E. destruct E as [NN [_ [g0 [H [Eg [EH [SZ [_ ->]]]]]]]]. cbn zeta in *.
    apply some_zero_inv in SZ. destruct SZ as [N0 [N1 [N2 N3]]].
    assert (Hl : l <> nil) by (intros ->; apply N0; reflexivity). assert (Hn := rn_neq0 l Hl). assert (G0 := g_at0 g0 Eg).
    destruct (rchoose_d o k tl l h SM) as [d Hd].
    assert (GD := rgamma_deriv o k tl l h SM HW d H Hd). cbv beta zeta in GD. fold (g 0) in GD. rewrite G0 in GD. specialize (GD (IO _ _ EH)).
    assert (P0 : forall u, p u 0 = rps_fit (ro_mu o) k g0 u) by (intros u; unfold p; rewrite G0; reflexivity).
    assert (KT0 := mean_neq_sum _ cT0 l (wt0_c _ _) N0). assert (KT1 := mean_neq_sum _ cT1 l (wt1_c _ _) N1). assert (KC0 := mean_neq_sum _ _ l (wc0_c _ _) N2). assert (KC1 := mean_neq_sum _ _ l (wc1_c _ _) N3).
    assert (Q0 : cc0 0 = cC0 tl (rps_fit (ro_mu o) k g0)) by (unfold p; rewrite G0; reflexivity). assert (Q1 : cc1 0 = cC1 tl (rps_fit (ro_mu o) k g0)) by (unfold p; rewrite G0; reflexivity).
    rewrite <- Q0 in KC0. rewrite <- Q1 in KC1.
    apply (D_ext _ _ _ AE).
    assert (X1 := RD_fixed l h cT1 r_y KT1). assert (X0 := RD_fixed l h cT0 r_y KT0).
    assert (Y1 := RD_odds l h (fun u e => cc1 e u) (fun u => cc1 0 u * gxdot k r_x d u) r_y (fun u Hu => odds_deriv o k tl l h SM (in_cell false true) d u Hd Hu) KC1).
    assert (Y0 := RD_odds l h (fun u e => cc0 e u) (fun u => cc0 0 u * gxdot k r_x d u) r_y (fun u Hu => odds_deriv o k tl l h SM (in_cell false false) d u Hd Hu) KC0).
    cbn beta in X1, X0, Y1, Y0.
    eapply D_eq; [|exact (D_sub _ _ _ _ (D_sub _ _ _ _ X1 X0) (D_sub _ _ _ _ Y1 Y0))].
    rewrite ravg_map. fold (av h l (ripw_inf k tl (rps_fit (ro_mu o) k g0) (mscale (qn (length l)) H) l)). set (ps := rps_fit (ro_mu o) k g0) in *.
    rewrite (av_ext h l _ (fun u => (lead (w_treat_post tl ps) r_y l u - lead (w_treat_pre tl ps) r_y l u)
      - ((lead (w_cont_post tl ps) r_y l u - lead (w_cont_pre tl ps) r_y l u) + (dotk k (alr_logit k ps (mscale (qn (length l)) H) u) (ps_moment k (w_cont_post tl ps) r_y l)
         - dotk k (alr_logit k ps (mscale (qn (length l)) H) u) (ps_moment k (w_cont_pre tl ps) r_y l))))) by (intros u _; unfold ripw_inf; cbn zeta; rewrite dotk_vsub_r; reflexivity).
    rewrite av_sub, av_add, !av_sub. unfold av. rewrite Q1 in KC1. rewrite Q0 in KC0.
    rewrite (avg_lead l h Hl _ cT1 r_y (wt1_c _ _) KT1), (avg_lead l h Hl _ cT0 r_y (wt0_c _ _) KT0), (avg_lead l h Hl _ _ r_y (wc1_c _ _) KC1), (avg_lead l h Hl _ _ r_y (wc0_c _ _) KC0).
    rewrite (avg_ps_moment k l h Hl _ _ r_y (wc1_c _ _) KC1 ps H d GD), (avg_ps_moment k l h Hl _ _ r_y (wc0_c _ _) KC0 ps H d GD).
    change (fun u : runit => cC1 tl (fun u0 => p u0 0) u) with (cc1 0). change (fun u : runit => cC0 tl (fun u0 => p u0 0) u) with (cc0 0). rewrite !Q1, !Q0.
    unfold Qcdiv. ring.
  Qed.
End Main.
