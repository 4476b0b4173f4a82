(** Proofs for C93: drdid_trad_rc and drdid_rc against derivatives. *)
From Verif Require Import Base ListLib ReduceModel ReduceProofs2 Calc DrdidModel DrdidSpec DrdidProofs DrdidProofs2 DrdidProofs3 DrdidProofs4 DrdidProofs5 DrdidProofs6 DrdidProofs7 DrdidProofs8 RcModel RcSpec RcCalc RcProofs RcProofs2 RcProofs3 RcProofs4 RcProofs5 RcProofs6.

Lemma out_own_dot k b0 b1 u : resid k b0 b1 u = r_y u - (r_P u * dotk k (r_x u) b1 + (1 - r_P u) * dotk k (r_x u) b0).
Proof. reflexivity. Qed.

Section Main.
  Context (o : roracle) (k : nat) (tl : Qc) (l : list runit) (h : runit -> Qc) (IO : rinv_ok o k) (NL : rnormalise l = l) (SM : rsmooth_logit o k tl l h).
  Let g (e : Qc) : list Qc := rgamma_of o (map (rreweight e h) l).
  Let be (b t : bool) (e : Qc) : list Qc := rbeta_of o b t (map (rreweight e h) l).
  Let p (u : runit) (e : Qc) : Qc := rps_fit (ro_mu o) k (g e) u.
  Notation we e u := (r_w u * (1 + e * h u)).
  Notation cc0 e := (cC0 tl (fun u => p u e)). Notation cc1 e := (cC1 tl (fun u => p u e)).
  Notation Re e c v := (sumf (fun u => we e u * (c u * v u)) l / sumf (fun u => we e u * c u) l).
  Let rs (e : Qc) : runit -> Qc := resid k (be false false e) (be false true e).
  Let T (e : Qc) : Qc := (Re e cT1 (rs e) - Re e cT0 (rs e)) - (Re e (cc1 e) (rs e) - Re e (cc0 e) (rs e)).
  Notation sx c d := (sumf (fun u => r_w u * c u * gxdot k r_x d u) l / sumf (fun u => r_w u * c u) l).

  Lemma cell_dv (c : runit -> Qc) (d0 d1 : nat -> Qc) (t : bool) : (forall u, c u * ind (Bool.eqb (r_post u) t) = c u) ->
    sumf (fun u => r_w u * c u * - (r_P u * gxdot k r_x d1 u + (1 - r_P u) * gxdot k r_x d0 u)) l
    = - sumf (fun u => r_w u * c u * gxdot k r_x (if t then d1 else d0) u) l.
  Proof.
    intros Hc. rewrite <- sumf_opp. apply sumf_ext. intros u _. specialize (Hc u). unfold r_P in *. destruct t, (r_post u); cbn [ind Bool.eqb] in *; try ring;
      (assert (E : c u = 0) by (rewrite <- Hc; ring); rewrite E; ring).
  Qed.
  Lemma cT0_own u : cT0 u * ind (Bool.eqb (r_post u) false) = cT0 u. Proof. unfold cT0, r_P. destruct (r_post u); cbn; ring. Qed.
  Lemma cT1_own u : cT1 u * ind (Bool.eqb (r_post u) true) = cT1 u. Proof. unfold cT1, r_P. destruct (r_post u); cbn; ring. Qed.
  Lemma cC0_own ps u : cC0 tl ps u * ind (Bool.eqb (r_post u) false) = cC0 tl ps u. Proof. unfold cC0, in_cell. destruct (r_post u), (r_d u), (Qcltb (ps u) tl); cbn [Bool.eqb andb ind]; ring. Qed.
  Lemma cC1_own ps u : cC1 tl ps u * ind (Bool.eqb (r_post u) true) = cC1 tl ps u. Proof. unfold cC1, in_cell. destruct (r_post u), (r_d u), (Qcltb (ps u) tl); cbn [Bool.eqb andb ind]; ring. Qed.
  Lemma own_P c : (forall u, c u * ind (Bool.eqb (r_post u) true) = c u) -> forall u : runit, c u * r_P u = c u.
  Proof. intros H u. rewrite <- (H u) at 2. unfold r_P. destruct (r_post u); cbn; ring. Qed.
  Lemma own_Q c : (forall u, c u * ind (Bool.eqb (r_post u) false) = c u) -> forall u : runit, c u * (1 - r_P u) = c u.
  Proof. intros H u. rewrite <- (H u) at 2. unfold r_P. destruct (r_post u); cbn; ring. Qed.

  Section Part.
    Context (g0 b0 b1 : list Qc) (H M0 M1 : matrix) (d d0 d1 : nat -> Qc) (Hl : l <> nil)
      (G0 : g 0 = g0) (B0 : be false false 0 = b0) (B1 : be false true 0 = b1) (SZ : some_zero tl (rps_fit (ro_mu o) k g0) l = false)
      (Hd : forall j, (j < k)%nat -> derivative_at_0 (fun e => nth j (g e) 0) (d j))
      (D0 : forall j, (j < k)%nat -> derivative_at_0 (fun e => nth j (be false false e) 0) (d0 j))
      (D1 : forall j, (j < k)%nat -> derivative_at_0 (fun e => nth j (be false true e) 0) (d1 j))
      (HG : forall i, (i < k)%nat -> d i = sumf (fun j => mget H j i * sumf (fun u => h u * (r_w u * (r_D u - rps_fit (ro_mu o) k g0 u) * nth j (r_x u) 0)) l) (seq 0 k))
      (H0 : forall i, (i < k)%nat -> d0 i = sumf (fun j => mget M0 j i / qn (length l) * sumf (fun u => h u * (w_ols false false u * (r_y u - rout k b0 u) * nth j (r_x u) 0)) l) (seq 0 k))
      (H1 : forall i, (i < k)%nat -> d1 i = sumf (fun j => mget M1 j i / qn (length l) * sumf (fun u => h u * (w_ols false true u * (r_y u - rout k b1 u) * nth j (r_x u) 0)) l) (seq 0 k)).
    Let ps := rps_fit (ro_mu o) k g0.

    Lemma trad_part : derivative_at_0 T
      (av h l (trad_inf k tl ps b0 b1 M0 M1 (mscale (qn (length l)) H) l) + Q2Qc 2 * sumf (fun j => (R cT0 (fun u => rx_at u j) l - R (cC0 tl ps) (fun u => rx_at u j) l) * d0 j) (seq 0 k)).
    Proof.
      assert (Hn := rn_neq0 l Hl). apply some_zero_inv in SZ. fold ps in SZ. destruct SZ as [N0 [N1 [N2 N3]]].
      assert (KT0 := mean_neq_sum _ cT0 l (wt0_c _ _) N0). assert (KT1 := mean_neq_sum _ cT1 l (wt1_c _ _) N1). assert (KC0 := mean_neq_sum _ _ l (wc0_c _ _) N2). assert (KC1 := mean_neq_sum _ _ l (wc1_c _ _) N3).
      assert (Q0 : cc0 0 = cC0 tl ps) by (unfold p; rewrite G0; reflexivity). assert (Q1 : cc1 0 = cC1 tl ps) by (unfold p; rewrite G0; reflexivity).
      assert (KC0' := KC0). assert (KC1' := KC1). rewrite <- Q0 in KC0'. rewrite <- Q1 in KC1'.
      assert (V0 : rs 0 = resid k b0 b1) by (unfold rs; rewrite B0, B1; reflexivity).
      set (dv := fun u => - (r_P u * gxdot k r_x d1 u + (1 - r_P u) * gxdot k r_x d0 u)).
      assert (DV : forall u, In u l -> derivative_at_0 (fun e => rs e u) (dv u)).
      { intros u _. unfold rs. apply (D_eq _ (0 - (r_P u * gxdot k r_x d1 u + (1 - r_P u) * gxdot k r_x d0 u))); [unfold dv; ring|].
        apply (D_sub (fun _ => r_y u)); [apply D_const|]. unfold out_own. apply D_add; apply D_scale; [apply (D_dotk k (r_x u) (be false true) d1 D1)|apply (D_dotk k (r_x u) (be false false) d0 D0)]. }
      assert (X1 := RD_const l h cT1 (fun u e => rs e u) dv DV KT1). assert (X0 := RD_const l h cT0 (fun u e => rs e u) dv DV KT0).
      assert (Y1 := RD_move l h (fun u e => cc1 e u) (fun u => cc1 0 u * gxdot k r_x d u) (fun u e => rs e u) dv (fun u Hu => odds_deriv o k tl l h SM (in_cell false true) d u Hd Hu) DV KC1').
      assert (Y0 := RD_move l h (fun u e => cc0 e u) (fun u => cc0 0 u * gxdot k r_x d u) (fun u e => rs e u) dv (fun u Hu => odds_deriv o k tl l h SM (in_cell false false) d u Hd Hu) DV KC0').
      cbn beta in X1, X0, Y1, Y0. unfold T.
      eapply D_eq; [|exact (D_sub _ _ _ _ (D_sub _ _ _ _ X1 X0) (D_sub _ _ _ _ Y1 Y0))].
      change (fun u : runit => cC1 tl (fun u0 => p u0 0) u) with (cc1 0). change (fun u : runit => cC0 tl (fun u0 => p u0 0) u) with (cc0 0).
      change (fun u : runit => rs 0 u) with (rs 0). rewrite !Q1, !Q0, !V0. unfold dv.
      rewrite (cell_dv cT1 d0 d1 true cT1_own), (cell_dv cT0 d0 d1 false cT0_own), (cell_dv _ d0 d1 true (cC1_own ps)), (cell_dv _ d0 d1 false (cC0_own ps)).
      cbv iota.
      rewrite (av_ext h l _ (fun u => ((lead (w_treat_post tl ps) (resid k b0 b1) l u - lead (w_treat_pre tl ps) (resid k b0 b1) l u)
            + (dotk k (alr_ols k false true b1 M1 u) (or_moment k (w_treat_post tl ps) r_P l) + dotk k (alr_ols k false false b0 M0 u) (or_moment k (w_treat_pre tl ps) (fun u => 1 - r_P u) l)))
         - (((lead (w_cont_post tl ps) (resid k b0 b1) l u - lead (w_cont_pre tl ps) (resid k b0 b1) l u)
            + (dotk k (alr_logit k ps (mscale (qn (length l)) H) u) (ps_moment k (w_cont_post tl ps) (resid k b0 b1) l)
               - dotk k (alr_logit k ps (mscale (qn (length l)) H) u) (ps_moment k (w_cont_pre tl ps) (resid k b0 b1) l)))
            + (dotk k (alr_ols k false true b1 M1 u) (or_moment k (w_cont_post tl ps) r_P l) + dotk k (alr_ols k false false b0 M0 u) (or_moment k (w_cont_pre tl ps) (fun u => 1 - r_P u) l)))))
        by (intros u _; unfold trad_inf; cbn zeta; rewrite dotk_vsub_r; reflexivity).
      rewrite av_sub, !av_add, !av_sub. unfold av.
      rewrite (avg_lead l h Hl _ cT1 _ (wt1_c _ _) KT1), (avg_lead l h Hl _ cT0 _ (wt0_c _ _) KT0), (avg_lead l h Hl _ _ _ (wc1_c _ _) KC1), (avg_lead l h Hl _ _ _ (wc0_c _ _) KC0).
      rewrite (avg_ps_moment k l h Hl _ _ _ (wc1_c _ _) KC1 ps H d HG), (avg_ps_moment k l h Hl _ _ _ (wc0_c _ _) KC0 ps H d HG).
      rewrite (avg_or_moment k l h Hl _ cT1 (wt1_c _ _) KT1 false true b1 M1 r_P d1 H1 (own_P _ cT1_own)).
      rewrite (avg_or_moment k l h Hl _ cT0 (wt0_c _ _) KT0 false false b0 M0 (fun u => 1 - r_P u) d0 H0 (own_Q _ cT0_own)).
      rewrite (avg_or_moment k l h Hl _ _ (wc1_c _ _) KC1 false true b1 M1 r_P d1 H1 (own_P _ (cC1_own ps))).
      rewrite (avg_or_moment k l h Hl _ _ (wc0_c _ _) KC0 false false b0 M0 (fun u => 1 - r_P u) d0 H0 (own_Q _ (cC0_own ps))).
      rewrite (sumf_ext (fun j => (R cT0 _ l - R (cC0 tl ps) _ l) * d0 j) (fun j => R cT0 (fun u => rx_at u j) l * d0 j - R (cC0 tl ps) (fun u => rx_at u j) l * d0 j)) by (intros; ring).
      rewrite sumf_sub, <- !R_gxdot. change (Q2Qc 2) with (1 + 1). unfold Qcdiv. ring.
    Qed.
  End Part.

  Lemma g_at' e gm : ro_logit o (rnormalise (map (rreweight e h) l)) = Some gm -> gm = g e.
  Proof. intros E. unfold g, rgamma_of. rewrite E. reflexivity. Qed.
  Lemma be_at' b t e v : ro_wls o (cell b t (rnormalise (map (rreweight e h) l))) = Some v -> v = be b t e.
  Proof. intros E. unfold be, rbeta_of. rewrite E. reflexivity. Qed.
  Lemma g_at0' gm : ro_logit o l = Some gm -> g 0 = gm.
  Proof. intros E. unfold g, rgamma_of. rewrite rreweight0, NL, E. reflexivity. Qed.
  Lemma be_at0' b t v : ro_wls o (cell b t l) = Some v -> be b t 0 = v.
  Proof. intros E. unfold be, rbeta_of. rewrite rreweight0, NL, E. reflexivity. Qed.

  Context (WO : rwls_ok o k).
  Lemma trad_derivative_n att inf : drdid_trad_rc o k tl l = PEst att inf -> near0 (fun e => has_est (drdid_trad_rc o k tl (map (rreweight e h) l))) ->
    exists d0, (forall j, (j < k)%nat -> derivative_at_0 (fun e => nth j (be false false e) 0) (d0 j)) /\
    derivative_at_0 (fun e => att_of (drdid_trad_rc o k tl (map (rreweight e h) l)))
      (ravg_with h l inf + Q2Qc 2 * sumf (fun j => pre_imbalance tl (rps_fit (ro_mu o) k (rgamma_of o l)) l j * d0 j) (seq 0 k)).
  Proof.
    intros E HE.
    assert (HB : forall t, near0 (fun e => (exists v, ro_wls o (cell false t (rnormalise (map (rreweight e h) l))) = Some v) /\ mean r_w (map (rreweight e h) l) <> 0)).
    { intros t. eapply near0_impl; [|exact HE]. cbn beta. intros e [a0 [i Ee]]. apply trad_inv in Ee. destruct Ee as [_ [_ [g1 [b0 [b1 [M0 [M1 [H1 [_ [E0 [E1 [_ [_ [_ [SZ _]]]]]]]]]]]]]]].
      apply some_zero_inv in SZ.
      split; [|exact (mean_weights_neq0 _ cT0 _ (wt0_c _ _) (proj1 SZ))]. destruct t; [exists b1; apply (ols_rc_inv _ _ _ _ _ _ E1)|exists b0; apply (ols_rc_inv _ _ _ _ _ _ E0)]. }
    assert (AE : near0 (fun e => T e = att_of (drdid_trad_rc o k tl (map (rreweight e h) l)))).
    { eapply near0_impl; [|exact HE]. cbn beta. intros e He. destruct (has_est_inv _ He) as [i Ei]. apply trad_inv in Ei.
      destruct Ei as [_ [_ [g1 [b0 [b1 [M0 [M1 [H1 [Eg [E0 [E1 [_ [_ [_ [SZ [-> _]]]]]]]]]]]]]]]]. cbn zeta in *. apply some_zero_inv in SZ.
      assert (Hm := mean_weights_neq0 _ cT0 _ (wt0_c _ _) (proj1 SZ)).
      apply ols_rc_inv in E0. apply ols_rc_inv in E1. destruct E0 as [E0 _], E1 as [E1 _]. apply be_at' in E0. apply be_at' in E1. apply g_at' in Eg. subst b0 b1 g1.
      unfold trad_att. cbn zeta. ratt. rewrite !R_normalise by (try exact Hm; intros w u; reflexivity). rewrite !R_reweight by (intros w u; reflexivity). reflexivity. }
    apply trad_inv in E. rewrite NL in E. destruct E as [NN [_ [g0 [b0 [b1 [M0 [M1 [H [Eg [E0 [E1 [I0 [I1 [EH [SZ [_ ->]]]]]]]]]]]]]]]]. cbn zeta in *.
    assert (Hl : l <> nil) by (intros ->; discriminate SZ).
    apply ols_rc_inv in E0. apply ols_rc_inv in E1. destruct E0 as [E0 _], E1 as [E1 _].
    assert (D0 := rbeta_derivative o k false false l h NL Hl WO IO (HB false) b0 M0 E0 I0). assert (D1 := rbeta_derivative o k false true l h NL Hl WO IO (HB true) b1 M1 E1 I1).
    destruct (rchoose_d o k tl l h SM) as [d Hd]. assert (G0 := g_at0' g0 Eg).
    assert (HW : near0 (fun e => mean r_w (map (rreweight e h) l) <> 0)) by (eapply near0_impl; [|exact (HB true)]; cbn beta; intros e [_ X]; exact X).
    assert (GD := rgamma_deriv o k tl l h SM HW d H Hd). cbv beta zeta in GD. fold (g 0) in GD. rewrite G0 in GD. specialize (GD (IO _ _ EH)).
    match type of D0 with forall i, _ -> derivative_at_0 _ (@?f i) => set (d0 := f) in D0 end.
    match type of D1 with forall i, _ -> derivative_at_0 _ (@?f i) => set (d1 := f) in D1 end.
    exists d0. split; [exact D0|]. apply (D_ext _ _ _ AE). assert (G1 : rgamma_of o l = g0) by (rewrite <- G0; unfold g; rewrite rreweight0; reflexivity).
    rewrite G1, ravg_map.
    assert (X := trad_part g0 b0 b1 H M0 M1 d d0 d1 Hl G0 (be_at0' _ _ _ E0) (be_at0' _ _ _ E1) SZ Hd D0 D1 GD (fun i _ => eq_refl) (fun i _ => eq_refl)).
    revert X. apply D_eq. unfold av. f_equal. f_equal. apply sumf_ext. intros j _. unfold pre_imbalance. rewrite R_T0, R_C0. reflexivity.
  Qed.

  Lemma loc_derivative_n att inf : drdid_rc o k tl l = PEst att inf -> near0 (fun e => has_est (drdid_rc o k tl (map (rreweight e h) l))) ->
    exists d0, (forall j, (j < k)%nat -> derivative_at_0 (fun e => nth j (be false false e) 0) (d0 j)) /\
    derivative_at_0 (fun e => att_of (drdid_rc o k tl (map (rreweight e h) l)))
      (ravg_with h l inf + Q2Qc 2 * sumf (fun j => pre_imbalance tl (rps_fit (ro_mu o) k (rgamma_of o l)) l j * d0 j) (seq 0 k)).
  Proof.
    intros E HE.
    assert (HB : forall b t, near0 (fun e => (exists v, ro_wls o (cell b t (rnormalise (map (rreweight e h) l))) = Some v) /\ mean r_w (map (rreweight e h) l) <> 0)).
    { intros b t. eapply near0_impl; [|exact HE]. cbn beta. intros e [a0 [i Ee]]. apply loc_inv in Ee.
      destruct Ee as [_ [_ [g1 [c0 [c1 [t0 [t1 [MC0 [MC1 [MT0 [MT1 [H1 [_ [E0 [E1 [E2 [E3 [_ [_ [_ [_ [_ [SZ _]]]]]]]]]]]]]]]]]]]]]]].
      apply some_zero_inv in SZ.
      split; [|exact (mean_weights_neq0 _ cT0 _ (wt0_c _ _) (proj1 SZ))].
      destruct b, t; [exists t1; apply (ols_rc_inv _ _ _ _ _ _ E3)|exists t0; apply (ols_rc_inv _ _ _ _ _ _ E2)|exists c1; apply (ols_rc_inv _ _ _ _ _ _ E1)|exists c0; apply (ols_rc_inv _ _ _ _ _ _ E0)]. }
    assert (AE : near0 (fun e => T e + (Re e r_D (fun u => rout k (be true true e) u - rout k (be false true e) u) - Re e cT1 (fun u => rout k (be true true e) u - rout k (be false true e) u))
        - (Re e r_D (fun u => rout k (be true false e) u - rout k (be false false e) u) - Re e cT0 (fun u => rout k (be true false e) u - rout k (be false false e) u))
        = att_of (drdid_rc o k tl (map (rreweight e h) l)))).
    { eapply near0_impl; [|exact HE]. cbn beta. intros e He. destruct (has_est_inv _ He) as [i Ei]. apply loc_inv in Ei.
      destruct Ei as [_ [_ [g1 [c0 [c1 [t0 [t1 [MC0 [MC1 [MT0 [MT1 [H1 [Eg [E0 [E1 [E2 [E3 [_ [_ [_ [_ [_ [SZ [-> _]]]]]]]]]]]]]]]]]]]]]]]]. cbn zeta in *. apply some_zero_inv in SZ.
      assert (Hm := mean_weights_neq0 _ cT0 _ (wt0_c _ _) (proj1 SZ)).
      apply ols_rc_inv in E0. apply ols_rc_inv in E1. apply ols_rc_inv in E2. apply ols_rc_inv in E3. destruct E0 as [E0 _], E1 as [E1 _], E2 as [E2 _], E3 as [E3 _].
      apply be_at' in E0. apply be_at' in E1. apply be_at' in E2. apply be_at' in E3. apply g_at' in Eg. subst c0 c1 t0 t1 g1.
      unfold loc_att, trad_att. cbn zeta. ratt. rewrite !R_normalise by (try exact Hm; intros w u; reflexivity). rewrite !R_reweight by (intros w u; reflexivity). reflexivity. }
    apply loc_inv in E. rewrite NL in E.
    destruct E as [NN [_ [g0 [c0 [c1 [t0 [t1 [MC0 [MC1 [MT0 [MT1 [H [Eg [E0 [E1 [E2 [E3 [I0 [I1 [I2 [I3 [EH [SZ [_ ->]]]]]]]]]]]]]]]]]]]]]]]]. cbn zeta in *.
    assert (Hl : l <> nil) by (intros ->; discriminate SZ). assert (Hn := rn_neq0 l Hl).
    apply ols_rc_inv in E0. apply ols_rc_inv in E1. apply ols_rc_inv in E2. apply ols_rc_inv in E3. destruct E0 as [E0 _], E1 as [E1 _], E2 as [E2 _], E3 as [E3 _].
    assert (D0 := rbeta_derivative o k false false l h NL Hl WO IO (HB false false) c0 MC0 E0 I0). assert (D1 := rbeta_derivative o k false true l h NL Hl WO IO (HB false true) c1 MC1 E1 I1).
    assert (D2 := rbeta_derivative o k true false l h NL Hl WO IO (HB true false) t0 MT0 E2 I2). assert (D3 := rbeta_derivative o k true true l h NL Hl WO IO (HB true true) t1 MT1 E3 I3).
    destruct (rchoose_d o k tl l h SM) as [d Hd]. assert (G0 := g_at0' g0 Eg).
    assert (HW : near0 (fun e => mean r_w (map (rreweight e h) l) <> 0)) by (eapply near0_impl; [|exact (HB true true)]; cbn beta; intros e [_ X]; exact X).
    assert (GD := rgamma_deriv o k tl l h SM HW d H Hd). cbv beta zeta in GD. fold (g 0) in GD. rewrite G0 in GD. specialize (GD (IO _ _ EH)).
    match type of D0 with forall i, _ -> derivative_at_0 _ (@?f i) => set (d0 := f) in D0 end.
    match type of D1 with forall i, _ -> derivative_at_0 _ (@?f i) => set (d1 := f) in D1 end.
    match type of D2 with forall i, _ -> derivative_at_0 _ (@?f i) => set (d2 := f) in D2 end.
    match type of D3 with forall i, _ -> derivative_at_0 _ (@?f i) => set (d3 := f) in D3 end.
    exists d0. split; [exact D0|]. apply (D_ext _ _ _ AE). assert (G1 : rgamma_of o l = g0) by (rewrite <- G0; unfold g; rewrite rreweight0; reflexivity).
    rewrite G1, ravg_map.
    assert (B0 := be_at0' _ _ _ E0). assert (B1 := be_at0' _ _ _ E1). assert (B2 := be_at0' _ _ _ E2). assert (B3 := be_at0' _ _ _ E3).
    assert (X := trad_part g0 c0 c1 H MC0 MC1 d d0 d1 Hl G0 B0 B1 SZ Hd D0 D1 GD (fun i _ => eq_refl) (fun i _ => eq_refl)).
    apply some_zero_inv in SZ. set (ps := rps_fit (ro_mu o) k g0) in *. destruct SZ as [N0 [N1 [N2 N3]]].
    assert (ND := wd_neq0 tl ps l (proj1 (rany_neg_false l) NN) N0).
    assert (KT0 := mean_neq_sum _ cT0 l (wt0_c _ _) N0). assert (KT1 := mean_neq_sum _ cT1 l (wt1_c _ _) N1). assert (KD := mean_neq_sum _ r_D l (wd_c tl ps) ND).
    assert (DP : forall u, In u l -> derivative_at_0 (fun e => rout k (be true true e) u - rout k (be false true e) u) (gxdot k r_x d3 u - gxdot k r_x d1 u)).
    { intros u _. apply D_sub; [apply (D_dotk k (r_x u) (be true true) d3 D3)|apply (D_dotk k (r_x u) (be false true) d1 D1)]. }
    assert (DQ : forall u, In u l -> derivative_at_0 (fun e => rout k (be true false e) u - rout k (be false false e) u) (gxdot k r_x d2 u - gxdot k r_x d0 u)).
    { intros u _. apply D_sub; [apply (D_dotk k (r_x u) (be true false) d2 D2)|apply (D_dotk k (r_x u) (be false false) d0 D0)]. }
    assert (P1 := RD_const l h r_D _ _ DP KD). assert (P2 := RD_const l h cT1 _ _ DP KT1). assert (P3 := RD_const l h r_D _ _ DQ KD). assert (P4 := RD_const l h cT0 _ _ DQ KT0). cbn beta in P1, P2, P3, P4.
    eapply D_eq; [|exact (D_sub _ _ _ _ (D_add _ _ _ _ X (D_sub _ _ _ _ P1 P2)) (D_sub _ _ _ _ P3 P4))]. clear X P1 P2 P3 P4.
    rewrite B0, B1, B2, B3. fold (av h l (loc_inf k tl ps c0 c1 t0 t1 MC0 MC1 MT0 MT1 (mscale (qn (length l)) H) l)).
    set (G1' := fun u => rout k t1 u - rout k c1 u). set (G0' := fun u => rout k t0 u - rout k c0 u).
    set (mp := rmean_col k (fun v => w_d tl ps v / mean (w_d tl ps) l - w_treat_post tl ps v / mean (w_treat_post tl ps) l) l).
    set (mq := rmean_col k (fun v => w_d tl ps v / mean (w_d tl ps) l - w_treat_pre tl ps v / mean (w_treat_pre tl ps) l) l).
    rewrite (av_ext h l (loc_inf k tl ps c0 c1 t0 t1 MC0 MC1 MT0 MT1 (mscale (qn (length l)) H) l) (fun u => trad_inf k tl ps c0 c1 MC0 MC1 (mscale (qn (length l)) H) l u
       + ((lead (w_d tl ps) G1' l u - lead (w_treat_post tl ps) G1' l u) - (lead (w_d tl ps) G0' l u - lead (w_treat_pre tl ps) G0' l u))
       + ((dotk k (alr_ols k true true t1 MT1 u) mp - dotk k (alr_ols k false true c1 MC1 u) mp) - (dotk k (alr_ols k true false t0 MT0 u) mq - dotk k (alr_ols k false false c0 MC0 u) mq))))
      by (intros u _; unfold loc_inf; cbn zeta; rewrite !dotk_vsub_l; reflexivity).
    rewrite !av_add, !av_sub. fold (av h l (trad_inf k tl ps c0 c1 MC0 MC1 (mscale (qn (length l)) H) l)).
    set (TR := av h l (fun u => trad_inf k tl ps c0 c1 MC0 MC1 (mscale (qn (length l)) H) l u)). change (av h l (trad_inf k tl ps c0 c1 MC0 MC1 (mscale (qn (length l)) H) l)) with TR.
    unfold av. unfold mp, mq.
    rewrite (avg_lead l h Hl _ r_D G1' (wd_c tl ps) KD), (avg_lead l h Hl _ cT1 G1' (wt1_c tl ps) KT1), (avg_lead l h Hl _ r_D G0' (wd_c tl ps) KD), (avg_lead l h Hl _ cT0 G0' (wt0_c tl ps) KT0).
    rewrite (ols_cross k true true l h Hl MT1 t1 _ d3 (fun i _ => eq_refl)), (ols_cross k false true l h Hl MC1 c1 _ d1 (fun i _ => eq_refl)).
    rewrite (ols_cross k true false l h Hl MT0 t0 _ d2 (fun i _ => eq_refl)), (ols_cross k false false l h Hl MC0 c0 _ d0 (fun i _ => eq_refl)).
    assert (F : forall (w c : runit -> Qc) dd, (forall u, w u = r_w u * c u) -> sumf (fun u => r_w u * c u) l <> 0 -> 
       sumf (fun u => (w_d tl ps u / mean (w_d tl ps) l - w u / mean w l) * gxdot k r_x dd u) l / qn (length l) = sx r_D dd - sx c dd).
    { intros w c dd Hw K. rewrite (mean_c (w_d tl ps) r_D l (wd_c tl ps)), (mean_c w c l Hw).
      rewrite (sumf_ext _ (fun u => r_w u * r_D u * gxdot k r_x dd u * (qn (length l) / sumf (fun u => r_w u * r_D u) l) - r_w u * c u * gxdot k r_x dd u * (qn (length l) / sumf (fun u => r_w u * c u) l)))
        by (intros u _; rewrite wd_c, Hw; field; auto).
      rewrite sumf_sub, !sumf_mul_r. field. auto. }
    rewrite (F _ cT1 d3 (wt1_c tl ps) KT1), (F _ cT1 d1 (wt1_c tl ps) KT1), (F _ cT0 d2 (wt0_c tl ps) KT0), (F _ cT0 d0 (wt0_c tl ps) KT0).
    assert (Y : forall c d3 d1, sumf (fun u => r_w u * c u * (gxdot k r_x d3 u - gxdot k r_x d1 u)) l = sumf (fun u => r_w u * c u * gxdot k r_x d3 u) l - sumf (fun u => r_w u * c u * gxdot k r_x d1 u) l).
    { intros c e3 e1. rewrite <- sumf_sub. apply sumf_ext. intros; ring. }
    rewrite !Y. rewrite (sumf_ext (fun j => pre_imbalance tl ps l j * d0 j) (fun j => (R cT0 (fun u => rx_at u j) l - R (cC0 tl ps) (fun u => rx_at u j) l) * d0 j)) by (intros j _; unfold pre_imbalance; rewrite R_T0, R_C0; reflexivity).
    unfold G1', G0'. unfold Qcdiv. ring.
  Qed.
End Main.
