(** Proofs for C122: the influence values of the improved estimators against derivatives. *)
From Verif Require Import Base ListLib ReduceModel ReduceProofs2 Calc DrdidModel DrdidSpec DrdidProofs DrdidProofs2 DrdidProofs3 DrdidProofs4 DrdidProofs5 DrdidProofs6 DrdidProofs7 DrdidProofs8 RcModel RcSpec RcCalc RcProofs RcProofs2 RcProofs3 RcProofs4 RcProofs5 RcProofs6 RcProofs7 RcProofs8 RcProofs9
  ImpRcModel ImpRcSpec ImpRcProofs ImpRcProofs2.

Section SScore.
  Context (o : roracle) (k : nat) (tl : Qc) (l : list runit) (h : runit -> Qc).
  Context (SM : rsmooth_score o k tl l h).
  Let g (e : Qc) : list Qc := rgamma_of o (map (rreweight e h) l).
  Let p (u : runit) (e : Qc) : Qc := rps_fit (ro_mu o) k (g e) u.
  Lemma srchoose_d : exists d : nat -> Qc, forall j, (j < k)%nat -> derivative_at_0 (fun e => nth j (g e) 0) (d j).
  Proof.
    destruct SM as [Hd _]. clear SM. fold g in Hd. cbn beta zeta in Hd. revert Hd. induction k as [|n IH]; intros Hd.
    - exists (fun _ => 0). intros j Hj. lia.
    - destruct IH as [d Hd']; [intros j Hj; apply Hd; lia|]. destruct (Hd n) as [dn Hn]; [lia|].
      exists (fun j => if (j =? n)%nat then dn else d j). intros j Hj. destruct (Nat.eqb_spec j n) as [->|N]; [exact Hn|apply Hd'; lia].
  Qed.
  Lemma srp_mu u : In u l -> near0 (fun e => ro_mu o (dotk k (r_x u) (g e)) = p u e).
  Proof.
    intros Hu. destruct SM as [_ Hz]. destruct (Hz u Hu) as [Dm [Lo [Hi _]]]. fold g in Dm, Lo, Hi. destruct srchoose_d as [d Hd].
    assert (DD := D_comp (ro_mu o) (fun e => dotk k (r_x u) (g e)) _ _ Dm (D_dotk k (r_x u) g d Hd)).
    assert (N1 := D_gt _ _ _ DD Lo). assert (N2 := D_lt _ _ _ DD Hi).
    eapply near0_impl; [|apply (near0_and _ _ N1 N2)]. cbn beta. intros e [H1 H2]. unfold p, rps_fit, clip.
    destruct (Qcltb_spec (ro_mu o (dotk k (r_x u) (g e))) eps6) as [L|_]; [exfalso; apply (Qclt_not_le _ _ H1), Qclt_le_weak, L|].
    destruct (Qcltb_spec (1 - eps6) (ro_mu o (dotk k (r_x u) (g e)))) as [L|_]; [exfalso; apply (Qclt_not_le _ _ H2), Qclt_le_weak, L|]. reflexivity.
  Qed.
  Lemma srp_deriv d u : (forall j, (j < k)%nat -> derivative_at_0 (fun e => nth j (g e) 0) (d j)) -> In u l ->
    derivative_at_0 (p u) (p u 0 * (1 - p u 0) * gxdot k r_x d u).
  Proof.
    intros Hd Hu. assert (P := srp_mu u Hu). assert (P0 := near0_at0 _ P). cbn beta in P0. apply (D_ext _ _ _ P).
    destruct SM as [_ Hz]. destruct (Hz u Hu) as [Dm _]. fold g in Dm.
    rewrite <- P0. exact (D_comp (ro_mu o) (fun e => dotk k (r_x u) (g e)) _ _ Dm (D_dotk k (r_x u) g d Hd)).
  Qed.
  Lemma srp_bounds u e : 0 < p u e /\ 0 < 1 - p u e.
  Proof. destruct (rps_bounds (ro_mu o) k (g e) u) as [A B]. fold (p u e) in A, B. assert (0 < eps6) by reflexivity. split; qclra. Qed.
  Lemma srp_tl u : In u l -> near0 (fun e => Qcltb (p u e) tl = Qcltb (p u 0) tl).
  Proof.
    intros Hu. destruct srchoose_d as [d Hd]. assert (DP := srp_deriv d u Hd Hu). assert (P0 := near0_at0 _ (srp_mu u Hu)). cbn beta in P0.
    destruct SM as [_ Hz]. destruct (Hz u Hu) as [_ [_ [_ NT]]]. change (ro_mu o (dotk k (r_x u) (g 0)) <> tl) in NT. rewrite P0 in NT.
    destruct (Qc_dec (p u 0) tl) as [[L|L]|E]; [| |contradiction].
    - eapply near0_impl; [|apply (D_lt _ _ _ DP L)]. cbn beta. intros e He. destruct (Qcltb_spec (p u e) tl), (Qcltb_spec (p u 0) tl); congruence || contradiction.
    - eapply near0_impl; [|apply (D_gt _ _ _ DP L)]. cbn beta. intros e He.
      destruct (Qcltb_spec (p u e) tl) as [L2|]; [exfalso; apply (Qclt_not_le _ _ He), Qclt_le_weak, L2|].
      destruct (Qcltb_spec (p u 0) tl) as [L2|]; [exfalso; apply (Qclt_not_le _ _ L), Qclt_le_weak, L2|]. reflexivity.
  Qed.
  (** odds times an indicator that does not move *)
  Lemma sodds_deriv (q : runit -> bool) d u : (forall j, (j < k)%nat -> derivative_at_0 (fun e => nth j (g e) 0) (d j)) -> In u l ->
    derivative_at_0 (fun e => ind (q u && Qcltb (p u e) tl) * (p u e / (1 - p u e))) (ind (q u && Qcltb (p u 0) tl) * (p u 0 / (1 - p u 0)) * gxdot k r_x d u).
  Proof.
    intros Hd Hu. apply (D_ext (fun e => ind (q u && Qcltb (p u 0) tl) * (p u e / (1 - p u e)))).
    { eapply near0_impl; [|apply (srp_tl u Hu)]. cbn beta. intros e He. rewrite He. reflexivity. }
    assert (DP := srp_deriv d u Hd Hu). destruct (srp_bounds u 0) as [B1 B2]. assert (N := Qc_pos_neq0 _ B2).
    assert (DQ := D_div (p u) (fun e => 1 - p u e) _ _ DP (D_sub (fun _ => 1) (p u) 0 _ (D_const 1) DP) N).
    assert (DR := D_scale (ind (q u && Qcltb (p u 0) tl)) _ _ DQ). revert DR. apply D_eq. cbn beta. field. exact N.
  Qed.
End SScore.

Lemma rbeta_odds_tilt o k t l : rbeta_odds o k t l = match ro_wls o (map (rtilt (rps_fit (ro_mu o) k (rgamma_of o l))) (cell false t (rnormalise l))) with Some v => v | None => nil end.
Proof. reflexivity. Qed.
(** at the odds-weighted fit the score has no first-order effect *)
Definition cC (tl : Qc) (ps : runit -> Qc) (t : bool) : runit -> Qc := if t then cC1 tl ps else cC0 tl ps.
Lemma odds_foc k tl ps (t : bool) l b0 b1 j : rodds_normal k ps t l (if t then b1 else b0) -> runtrimmed tl ps l -> (j < k)%nat ->
  sumf (fun u => r_w u * cC tl ps t u * resid k b0 b1 u * nth j (r_x u) 0) l = 0.
Proof.
  intros N U Hj. refine (eq_trans _ (N j Hj)). unfold cell. rewrite sumf_filter. apply sumf_ext. intros u Hu. unfold resid, out_own, rout, rx_at, r_P.
  destruct t; cbn [cC]; unfold cC0, cC1; destruct (in_cell false _ u) eqn:C; cbn [andb ind]; try ring; unfold in_cell in C; apply andb_true_iff in C; destruct C as [C1 C2]; apply Bool.eqb_prop in C1, C2;
    rewrite C2; cbn [ind]; destruct (Qcltb_spec (ps u) tl) as [_|L]; try (exfalso; apply L, U; assumption); cbn [ind]; ring.
Qed.
Lemma odds_R0 k tl ps (t : bool) l b0 b1 : rodds_normal k ps t l (if t then b1 else b0) -> runtrimmed tl ps l -> rhas_intercept l -> (1 <= k)%nat -> R (cC tl ps t) (resid k b0 b1) l = 0.
Proof.
  intros N U I Hk. unfold R. rewrite (sumf_ext _ (fun u => r_w u * cC tl ps t u * resid k b0 b1 u * nth 0 (r_x u) 0)) by (intros u Hu; rewrite (I u Hu); ring).
  rewrite (odds_foc k tl ps t l b0 b1 0 N U Hk). apply Qcdiv_0_l.
Qed.
Lemma odds_flat k tl ps (t : bool) l b0 b1 d : rodds_normal k ps t l (if t then b1 else b0) -> runtrimmed tl ps l -> rhas_intercept l -> (1 <= k)%nat ->
  sumf (fun u => r_w u * (cC tl ps t u * gxdot k r_x d u) * (resid k b0 b1 u - R (cC tl ps t) (resid k b0 b1) l)) l = 0.
Proof.
  intros N U I Hk. rewrite (odds_R0 k tl ps t l b0 b1 N U I Hk). unfold gxdot.
  rewrite (sumf_ext _ (fun u => sumf (fun j => r_w u * cC tl ps t u * resid k b0 b1 u * nth j (r_x u) 0 * d j) (seq 0 k))).
  - rewrite sumf_swap. apply sumf_zero. intros j Hj. apply in_seq in Hj. rewrite sumf_mul_r, (odds_foc k tl ps t l b0 b1 j N U) by lia. ring.
  - intros u _. transitivity (r_w u * cC tl ps t u * resid k b0 b1 u * sumf (fun j => nth j (r_x u) 0 * d j) (seq 0 k)); [ring|]. rewrite <- sumf_mul_l. apply sumf_ext. intros; ring.
Qed.

Section Main.
  Context (o : roracle) (k : nat) (tl : Qc) (l : list runit) (h : runit -> Qc) (NL : rnormalise l = l) (SM : rsmooth_score o k tl l h) (WO : rwls_ok o k)
    (I : rhas_intercept l) (Hk : (1 <= k)%nat) (U : runtrimmed tl (rps_fit (ro_mu o) k (rgamma_of o l)) l).
  Let g (e : Qc) : list Qc := rgamma_of o (map (rreweight e h) l).
  Let bo (t : bool) (e : Qc) : list Qc := rbeta_odds o k t (map (rreweight e h) l).
  Let p (u : runit) (e : Qc) : Qc := rps_fit (ro_mu o) k (g e) u.
  Context (d0 d1 : nat -> Qc)
    (D0 : forall j, (j < k)%nat -> derivative_at_0 (fun e => nth j (rbeta_odds o k false (map (rreweight e h) l)) 0) (d0 j))
    (D1 : forall j, (j < k)%nat -> derivative_at_0 (fun e => nth j (rbeta_odds o k true (map (rreweight e h) l)) 0) (d1 j)).
  Notation we e u := (r_w u * (1 + e * h u)).
  Notation cc t e := (cC tl (fun u => p u e) t).
  Notation Re e c v := (sumf (fun u => we e u * (c u * v u)) l / sumf (fun u => we e u * c u) l).
  Let rs (e : Qc) : runit -> Qc := resid k (bo false e) (bo true e).
  Let T (e : Qc) : Qc := (Re e cT1 (rs e) - Re e cT0 (rs e)) - (Re e (cc true e) (rs e) - Re e (cc false e) (rs e)).
  Notation sx c d := (sumf (fun u => r_w u * c u * gxdot k r_x d u) l / sumf (fun u => r_w u * c u) l).
  Let ps := rps_fit (ro_mu o) k (rgamma_of o l).
  Lemma g0_eq : g 0 = rgamma_of o l. Proof. unfold g. rewrite rreweight0. reflexivity. Qed.
  Lemma bo0_eq t : bo t 0 = rbeta_odds o k t l. Proof. unfold bo. rewrite rreweight0. reflexivity. Qed.

  Section Part.
    Context (N0 : rodds_normal k ps false l (rbeta_odds o k false l)) (N1 : rodds_normal k ps true l (rbeta_odds o k true l)) (Hl : l <> nil)
      (KT0 : sumf (fun u => r_w u * cT0 u) l <> 0) (KT1 : sumf (fun u => r_w u * cT1 u) l <> 0)
      (KC : forall t, sumf (fun u => r_w u * cC tl ps t u) l <> 0).
    Let v := resid k (rbeta_odds o k false l) (rbeta_odds o k true l).
    Let L c := sumf (fun u => h u * (r_w u * c u * (v u - R c v l))) l / sumf (fun u => r_w u * c u) l.
    Lemma imp_part : derivative_at_0 T ((L cT1 - sx cT1 d1) - (L cT0 - sx cT0 d0) - ((L (cC tl ps true) - sx (cC tl ps true) d1) - (L (cC tl ps false) - sx (cC tl ps false) d0))).
    Proof.
      destruct (srchoose_d o k tl l h SM) as [d Hd].
      assert (Q : forall t, cc t 0 = cC tl ps t) by (intros t; unfold p; rewrite g0_eq; reflexivity).
      assert (V0 : rs 0 = v) by (unfold rs, v; rewrite !bo0_eq; reflexivity).
      set (dv := fun u => - (r_P u * gxdot k r_x d1 u + (1 - r_P u) * gxdot k r_x d0 u)).
      assert (DV : forall u, In u l -> derivative_at_0 (fun e => rs e u) (dv u)).
      { intros u _. unfold rs. apply (D_eq _ (0 - (r_P u * gxdot k r_x d1 u + (1 - r_P u) * gxdot k r_x d0 u))); [unfold dv; ring|].
        apply (D_sub (fun _ => r_y u)); [apply D_const|]. unfold out_own. apply D_add; apply D_scale; [apply (D_dotk k (r_x u) (bo true) d1 D1)|apply (D_dotk k (r_x u) (bo false) d0 D0)]. }
      assert (X1 := RD_const l h cT1 (fun u e => rs e u) dv DV KT1). assert (X0 := RD_const l h cT0 (fun u e => rs e u) dv DV KT0).
      assert (OD : forall t u, In u l -> derivative_at_0 (fun e => cc t e u) (cc t 0 u * gxdot k r_x d u)).
      { intros t u Hu. destruct t; [exact (sodds_deriv o k tl l h SM (in_cell false true) d u Hd Hu)|exact (sodds_deriv o k tl l h SM (in_cell false false) d u Hd Hu)]. }
      assert (KC' : forall t, sumf (fun u => r_w u * cc t 0 u) l <> 0) by (intros t; rewrite Q; apply KC).
      assert (Y1 := RD_move l h (fun u e => cc true e u) (fun u => cc true 0 u * gxdot k r_x d u) (fun u e => rs e u) dv (OD true) DV (KC' true)).
      assert (Y0 := RD_move l h (fun u e => cc false e u) (fun u => cc false 0 u * gxdot k r_x d u) (fun u e => rs e u) dv (OD false) DV (KC' false)).
      cbn beta in X1, X0, Y1, Y0. unfold T.
      eapply D_eq; [|exact (D_sub _ _ _ _ (D_sub _ _ _ _ X1 X0) (D_sub _ _ _ _ Y1 Y0))].
      change (fun u : runit => cc true 0 u) with (cc true 0). change (fun u : runit => cc false 0 u) with (cc false 0).
      change (fun u : runit => rs 0 u) with (rs 0). rewrite !(Q true), !(Q false), !V0. unfold dv.
      assert (F1 := odds_flat k tl ps true l (rbeta_odds o k false l) (rbeta_odds o k true l) d N1 U I Hk). assert (F0 := odds_flat k tl ps false l (rbeta_odds o k false l) (rbeta_odds o k true l) d N0 U I Hk).
      unfold v. rewrite F1, F0.
      cbn [cC].
      rewrite (cell_dv k l cT1 d0 d1 true cT1_own), (cell_dv k l cT0 d0 d1 false cT0_own), (cell_dv k l _ d0 d1 true (cC1_own tl ps)), (cell_dv k l _ d0 d1 false (cC0_own tl ps)).
      cbv iota. unfold L, v. cbn [cC]. unfold Qcdiv. ring.
    Qed.
  End Part.

  Lemma ig_at e gm : ro_logit o (rnormalise (map (rreweight e h) l)) = Some gm -> gm = g e.
  Proof. intros E. unfold g, rgamma_of. rewrite E. reflexivity. Qed.
  Lemma ibo_at t e gm v : ro_logit o (rnormalise (map (rreweight e h) l)) = Some gm -> ro_wls o (map (rtilt (rps_fit (ro_mu o) k gm)) (cell false t (rnormalise (map (rreweight e h) l)))) = Some v -> v = bo t e.
  Proof. intros E F. unfold bo. rewrite rbeta_odds_tilt. rewrite <- (ig_at e gm E : gm = rgamma_of o (map (rreweight e h) l)), F. reflexivity. Qed.
  Lemma ig_at0 gm : ro_logit o l = Some gm -> gm = rgamma_of o l.
  Proof. intros E. unfold rgamma_of. rewrite NL, E. reflexivity. Qed.
  Lemma ibo_at0 t gm v : ro_logit o l = Some gm -> ro_wls o (map (rtilt (rps_fit (ro_mu o) k gm)) (cell false t l)) = Some v -> v = rbeta_odds o k t l /\ rodds_normal k ps t l (rbeta_odds o k t l).
  Proof.
    intros E F. assert (G := ig_at0 gm E). subst gm. assert (B : rbeta_odds o k t l = v) by (rewrite rbeta_odds_tilt, NL, F; reflexivity). split; [symmetry; exact B|]. rewrite B.
    intros j Hj. assert (N := WO _ _ F j Hj). rewrite sumf_map in N. exact N.
  Qed.
  Lemma imbalance_sum c c' d : sumf (fun j => (R c (fun u => rx_at u j) l - R c' (fun u => rx_at u j) l) * d j) (seq 0 k) = sx c d - sx c' d.
  Proof.
    rewrite !R_gxdot, <- sumf_sub. apply sumf_ext. intros; ring.
  Qed.

  Lemma imp_derivative_n att inf : drdid_imp_rc o k tl l = PEst att inf -> near0 (fun e => has_est (drdid_imp_rc o k tl (map (rreweight e h) l))) ->
    derivative_at_0 (fun e => att_of (drdid_imp_rc o k tl (map (rreweight e h) l)))
      (ravg_with h l inf + (sumf (fun j => odds_imbalance tl ps false l j * d0 j) (seq 0 k) - sumf (fun j => odds_imbalance tl ps true l j * d1 j) (seq 0 k))).
  Proof.
    intros E HE.
    assert (AE : near0 (fun e => T e = att_of (drdid_imp_rc o k tl (map (rreweight e h) l)))).
    { eapply near0_impl; [|exact HE]. cbn beta. intros e He. destruct (has_est_inv _ He) as [i Ei]. apply irc_inv in Ei.
      destruct Ei as [_ [g1 [b0 [b1 [Eg [E0 [E1 [SZ [-> _]]]]]]]]]. cbn zeta in *. apply some_zero_inv in SZ. assert (Hm := mean_weights_neq0 _ cT0 _ (wt0_c _ _) (proj1 SZ)).
      apply wols_rc_inv in E0. apply wols_rc_inv in E1. destruct E0 as [E0 _], E1 as [E1 _]. apply (ibo_at _ _ _ _ Eg) in E0. apply (ibo_at _ _ _ _ Eg) in E1. apply ig_at in Eg. subst b0 b1 g1.
      unfold irc_att. cbn zeta. ratt. rewrite !R_normalise by (try exact Hm; intros w u; reflexivity). rewrite !R_reweight by (intros w u; reflexivity). reflexivity. }
    apply irc_inv in E. rewrite NL in E. destruct E as [_ [g1 [b0 [b1 [Eg [E0 [E1 [SZ [_ ->]]]]]]]]]. cbn zeta in *.
    assert (Hl : l <> nil) by (intros ->; discriminate SZ).
    apply wols_rc_inv in E0. apply wols_rc_inv in E1. destruct E0 as [E0 _], E1 as [E1 _]. destruct (ibo_at0 _ _ _ Eg E0) as [B0 N0]. destruct (ibo_at0 _ _ _ Eg E1) as [B1 N1]. apply ig_at0 in Eg. subst b0 b1 g1. fold ps in SZ |- *.
    apply some_zero_inv in SZ. destruct SZ as [Z0 [Z1 [Z2 Z3]]].
    assert (KT0 := mean_neq_sum _ cT0 l (wt0_c _ _) Z0). assert (KT1 := mean_neq_sum _ cT1 l (wt1_c _ _) Z1). assert (KC0 := mean_neq_sum _ _ l (wc0_c _ _) Z2). assert (KC1 := mean_neq_sum _ _ l (wc1_c _ _) Z3).
    assert (X := imp_part N0 N1 KT0 KT1 (fun t => match t as b return sumf (fun u => r_w u * cC tl ps b u) l <> 0 with true => KC1 | false => KC0 end)).
    apply (D_ext _ _ _ AE). revert X. apply D_eq. rewrite ravg_map.
    set (v := resid k (rbeta_odds o k false l) (rbeta_odds o k true l)).
    change (sumf (fun u => h u * irc_inf k tl ps (rbeta_odds o k false l) (rbeta_odds o k true l) l u) l / qn (length l))
      with (av h l (fun u => (lead (w_treat_post tl ps) v l u - lead (w_treat_pre tl ps) v l u) - (lead (w_cont_post tl ps) v l u - lead (w_cont_pre tl ps) v l u))).
    rewrite !av_sub. unfold av.
    rewrite (avg_lead l h Hl _ cT1 _ (wt1_c _ _) KT1), (avg_lead l h Hl _ cT0 _ (wt0_c _ _) KT0), (avg_lead l h Hl _ _ _ (wc1_c _ _) KC1), (avg_lead l h Hl _ _ _ (wc0_c _ _) KC0).
    rewrite (sumf_ext (fun j => odds_imbalance tl ps false l j * d0 j) (fun j => (R cT0 (fun u => rx_at u j) l - R (cC0 tl ps) (fun u => rx_at u j) l) * d0 j)) by (intros j _; unfold odds_imbalance; rewrite R_T0, R_C0; reflexivity).
    rewrite (sumf_ext (fun j => odds_imbalance tl ps true l j * d1 j) (fun j => (R cT1 (fun u => rx_at u j) l - R (cC1 tl ps) (fun u => rx_at u j) l) * d1 j)) by (intros j _; unfold odds_imbalance; rewrite R_T1, R_C1; reflexivity).
    rewrite !imbalance_sum. cbn [cC]. unfold Qcdiv. ring.
  Qed.

  Section Local.
    Context (e0 e1 : nat -> Qc)
      (F0 : forall j, (j < k)%nat -> derivative_at_0 (fun e => nth j (rbeta_of o true false (map (rreweight e h) l)) 0) (e0 j))
      (F1 : forall j, (j < k)%nat -> derivative_at_0 (fun e => nth j (rbeta_of o true true (map (rreweight e h) l)) 0) (e1 j)).
    Let bt (t : bool) (e : Qc) : list Qc := rbeta_of o true t (map (rreweight e h) l).
    Lemma ibt_at t e v : ro_wls o (cell true t (rnormalise (map (rreweight e h) l))) = Some v -> v = bt t e.
    Proof. intros E. unfold bt, rbeta_of. rewrite E. reflexivity. Qed.
    Lemma ibt_at0 t v : ro_wls o (cell true t l) = Some v -> v = bt t 0.
    Proof. intros E. unfold bt, rbeta_of. rewrite rreweight0, NL, E. reflexivity. Qed.
    Lemma local_derivative_n att inf : drdid_imp_local_rc o k tl l = PEst att inf -> near0 (fun e => has_est (drdid_imp_local_rc o k tl (map (rreweight e h) l))) ->
      derivative_at_0 (fun e => att_of (drdid_imp_local_rc o k tl (map (rreweight e h) l)))
        (ravg_with h l inf + (sumf (fun j => pooled_imbalance tl ps false l j * d0 j) (seq 0 k) - sumf (fun j => pooled_imbalance tl ps true l j * d1 j) (seq 0 k))
          + (sumf (fun j => treated_drift true l j * e1 j) (seq 0 k) - sumf (fun j => treated_drift false l j * e0 j) (seq 0 k))).
    Proof.
      intros E HE.
      assert (AE : near0 (fun e => T e + (Re e r_D (fun u => rout k (bt true e) u - rout k (bo true e) u) - Re e cT1 (fun u => rout k (bt true e) u - rout k (bo true e) u))
          - (Re e r_D (fun u => rout k (bt false e) u - rout k (bo false e) u) - Re e cT0 (fun u => rout k (bt false e) u - rout k (bo false e) u))
          = att_of (drdid_imp_local_rc o k tl (map (rreweight e h) l)))).
      { eapply near0_impl; [|exact HE]. cbn beta. intros e He. destruct (has_est_inv _ He) as [i Ei]. apply ilr_inv in Ei.
        destruct Ei as [_ [g1 [c0 [c1 [t0 [t1 [Eg [E0 [E1 [E2 [E3 [SZ [-> _]]]]]]]]]]]]]. cbn zeta in *. apply ilr_zero_inv in SZ. assert (Hm := mean_weights_neq0 _ cT0 _ wr0_c (proj1 SZ)).
        apply wols_rc_inv in E0. apply wols_rc_inv in E1. apply wols_rc_inv in E2. apply wols_rc_inv in E3. destruct E0 as [E0 _], E1 as [E1 _], E2 as [E2 _], E3 as [E3 _].
        apply (ibo_at _ _ _ _ Eg) in E0. apply (ibo_at _ _ _ _ Eg) in E1. apply ibt_at in E2. apply ibt_at in E3. apply ig_at in Eg. subst c0 c1 t0 t1 g1.
        rewrite ilr_loc. unfold loc_att, trad_att. cbn zeta. ratt. rewrite !R_normalise by (try exact Hm; intros w u; reflexivity). rewrite !R_reweight by (intros w u; reflexivity). reflexivity. }
      apply ilr_inv in E. rewrite NL in E. destruct E as [NN [g1 [c0 [c1 [t0 [t1 [Eg [E0 [E1 [E2 [E3 [SZ [_ ->]]]]]]]]]]]]]. cbn zeta in *.
      assert (Hl : l <> nil) by (intros ->; discriminate SZ).
      apply wols_rc_inv in E0. apply wols_rc_inv in E1. apply wols_rc_inv in E2. apply wols_rc_inv in E3. destruct E0 as [E0 _], E1 as [E1 _], E2 as [E2 _], E3 as [E3 _].
      destruct (ibo_at0 _ _ _ Eg E0) as [B0 N0]. destruct (ibo_at0 _ _ _ Eg E1) as [B1 N1]. apply ibt_at0 in E2. apply ibt_at0 in E3. apply ig_at0 in Eg. subst c0 c1 t0 t1 g1. fold ps in SZ |- *.
      apply ilr_zero_inv in SZ. destruct SZ as [Z0 [Z1 [Z2 Z3]]].
      assert (ZD := wr_cont_neq0 l (proj1 (rany_neg_false l) NN) Z0).
      assert (KT0 := mean_neq_sum _ cT0 l wr0_c Z0). assert (KT1 := mean_neq_sum _ cT1 l wr1_c Z1). assert (KC0 := mean_neq_sum _ _ l (wc0_c _ _) Z2). assert (KC1 := mean_neq_sum _ _ l (wc1_c _ _) Z3).
      assert (KD := mean_neq_sum wr_cont r_D l (fun u => eq_refl) ZD).
      assert (X := imp_part N0 N1 KT0 KT1 (fun t => match t as b return sumf (fun u => r_w u * cC tl ps b u) l <> 0 with true => KC1 | false => KC0 end)).
      assert (DP : forall u, In u l -> derivative_at_0 (fun e => rout k (bt true e) u - rout k (bo true e) u) (gxdot k r_x e1 u - gxdot k r_x d1 u)).
      { intros u _. apply D_sub; [apply (D_dotk k (r_x u) (bt true) e1 F1)|apply (D_dotk k (r_x u) (bo true) d1 D1)]. }
      assert (DQ : forall u, In u l -> derivative_at_0 (fun e => rout k (bt false e) u - rout k (bo false e) u) (gxdot k r_x e0 u - gxdot k r_x d0 u)).
      { intros u _. apply D_sub; [apply (D_dotk k (r_x u) (bt false) e0 F0)|apply (D_dotk k (r_x u) (bo false) d0 D0)]. }
      assert (P1 := RD_const l h r_D _ _ DP KD). assert (P2 := RD_const l h cT1 _ _ DP KT1). assert (P3 := RD_const l h r_D _ _ DQ KD). assert (P4 := RD_const l h cT0 _ _ DQ KT0). cbn beta in P1, P2, P3, P4.
      apply (D_ext _ _ _ AE). eapply D_eq; [|exact (D_sub _ _ _ _ (D_add _ _ _ _ X (D_sub _ _ _ _ P1 P2)) (D_sub _ _ _ _ P3 P4))]. clear X P1 P2 P3 P4. rewrite !bo0_eq, ravg_map.
      set (v := resid k (rbeta_odds o k false l) (rbeta_odds o k true l)).
      set (G1 := fun u => rout k (bt true 0) u - rout k (rbeta_odds o k true l) u). set (G0 := fun u => rout k (bt false 0) u - rout k (rbeta_odds o k false l) u).
      match goal with |- context [sumf (fun u => h u * ilr_inf ?a ?b ?c ?d ?e ?f ?g ?i u) l / qn (length l)] => change (sumf (fun u => h u * ilr_inf a b c d e f g i u) l / qn (length l))
        with (av h l (fun u => (lead wr_treat_post v l u - lead wr_treat_pre v l u) - (lead (w_cont_post tl ps) v l u - lead (w_cont_pre tl ps) v l u)
          + ((lead wr_cont G1 l u - lead wr_treat_post G1 l u) - (lead wr_cont G0 l u - lead wr_treat_pre G0 l u)))) end.
      rewrite !av_add, !av_sub. unfold av.
      rewrite (avg_lead l h Hl _ cT1 v wr1_c KT1), (avg_lead l h Hl _ cT0 v wr0_c KT0), (avg_lead l h Hl _ _ v (wc1_c _ _) KC1), (avg_lead l h Hl _ _ v (wc0_c _ _) KC0).
      rewrite (avg_lead l h Hl wr_cont r_D G1 (fun u => eq_refl) KD), (avg_lead l h Hl _ cT1 G1 wr1_c KT1), (avg_lead l h Hl wr_cont r_D G0 (fun u => eq_refl) KD), (avg_lead l h Hl _ cT0 G0 wr0_c KT0).
      rewrite (sumf_ext (fun j => pooled_imbalance tl ps false l j * d0 j) (fun j => (R r_D (fun u => rx_at u j) l - R (cC0 tl ps) (fun u => rx_at u j) l) * d0 j)) by (intros j _; unfold pooled_imbalance; rewrite R_D, R_C0; reflexivity).
      rewrite (sumf_ext (fun j => pooled_imbalance tl ps true l j * d1 j) (fun j => (R r_D (fun u => rx_at u j) l - R (cC1 tl ps) (fun u => rx_at u j) l) * d1 j)) by (intros j _; unfold pooled_imbalance; rewrite R_D, R_C1; reflexivity).
      rewrite (sumf_ext (fun j => treated_drift false l j * e0 j) (fun j => (R r_D (fun u => rx_at u j) l - R cT0 (fun u => rx_at u j) l) * e0 j)) by (intros j _; unfold treated_drift; rewrite R_D, R_T0; reflexivity).
      rewrite (sumf_ext (fun j => treated_drift true l j * e1 j) (fun j => (R r_D (fun u => rx_at u j) l - R cT1 (fun u => rx_at u j) l) * e1 j)) by (intros j _; unfold treated_drift; rewrite R_D, R_T1; reflexivity).
      rewrite !imbalance_sum. cbn [cC].
      assert (Y : forall c d3 d1, sumf (fun u => r_w u * c u * (gxdot k r_x d3 u - gxdot k r_x d1 u)) l = sumf (fun u => r_w u * c u * gxdot k r_x d3 u) l - sumf (fun u => r_w u * c u * gxdot k r_x d1 u) l).
      { intros c a3 a1. rewrite <- sumf_sub. apply sumf_ext. intros; ring. }
      rewrite !Y. unfold G1, G0. unfold Qcdiv. ring.
    Qed.
  End Local.
End Main.

(** ** removing the weight normalisation *)
Section Raw.
  Context (o : roracle) (k : nat) (tl : Qc) (l : list runit) (h : runit -> Qc) (Hm : mean r_w l <> 0).
  Lemma gamma_h e : rgamma_of o (map (rreweight e (rh_norm l h)) (rnormalise l)) = rgamma_of o (map (rreweight e h) l).
  Proof. unfold rgamma_of. rewrite rfit_norm by exact Hm. reflexivity. Qed.
  Lemma odds_h t e : rbeta_odds o k t (map (rreweight e (rh_norm l h)) (rnormalise l)) = rbeta_odds o k t (map (rreweight e h) l).
  Proof. unfold rbeta_odds. cbn zeta. rewrite gamma_h, rfit_norm by exact Hm. reflexivity. Qed.
  Lemma beta_h b t e : rbeta_of o b t (map (rreweight e (rh_norm l h)) (rnormalise l)) = rbeta_of o b t (map (rreweight e h) l).
  Proof. unfold rbeta_of. rewrite rfit_norm by exact Hm. reflexivity. Qed.
  Lemma score_h : rsmooth_score o k tl l h -> rsmooth_score o k tl (rnormalise l) (rh_norm l h).
  Proof.
    intros [H1 H3]. split; cbn zeta in *.
    - intros j Hj. destruct (H1 j Hj) as [d Hd]. exists d. apply (D_ext (fun e => nth j (rgamma_of o (map (rreweight e h) l)) 0)); [apply near0_all; intros e; rewrite gamma_h; reflexivity|exact Hd].
    - intros u Hu. unfold rnormalise in Hu. apply in_map_iff in Hu. destruct Hu as [v [<- Hv]]. rewrite gamma_h. apply (H3 v Hv).
  Qed.
  Lemma untrimmed_norm g : runtrimmed tl (rps_fit (ro_mu o) k g) l -> runtrimmed tl (rps_fit (ro_mu o) k g) (rnormalise l).
  Proof. intros U u Hu D. unfold rnormalise in Hu. apply in_map_iff in Hu. destruct Hu as [v [<- Hv]]. exact (U v Hv D). Qed.
  Lemma intercept_norm : rhas_intercept l -> rhas_intercept (rnormalise l).
  Proof. intros I u Hu. unfold rnormalise in Hu. apply in_map_iff in Hu. destruct Hu as [v [<- Hv]]. exact (I v Hv). Qed.
  Lemma odds_imb_norm g t j : odds_imbalance tl (rps_fit (ro_mu o) k g) t (rnormalise l) j = odds_imbalance tl (rps_fit (ro_mu o) k g) t l j.
  Proof. unfold odds_imbalance. destruct t; rewrite <- ?R_T0, <- ?R_C0, <- ?R_T1, <- ?R_C1; rewrite !R_normalise by (try exact Hm; intros w u; reflexivity); reflexivity. Qed.
  Lemma pooled_imb_norm g t j : pooled_imbalance tl (rps_fit (ro_mu o) k g) t (rnormalise l) j = pooled_imbalance tl (rps_fit (ro_mu o) k g) t l j.
  Proof. unfold pooled_imbalance. destruct t; rewrite <- ?R_D, <- ?R_C0, <- ?R_C1; rewrite !R_normalise by (try exact Hm; intros w u; reflexivity); reflexivity. Qed.
  Lemma drift_norm t j : treated_drift t (rnormalise l) j = treated_drift t l j.
  Proof. unfold treated_drift. destruct t; rewrite <- ?R_D, <- ?R_T0, <- ?R_T1; rewrite !R_normalise by (try exact Hm; intros w u; reflexivity); reflexivity. Qed.
End Raw.

Lemma imp_derivative o k tl l h d0 d1 att inf : rwls_ok o k -> rhas_intercept l -> (1 <= k)%nat -> rsmooth_score o k tl l h ->
  runtrimmed tl (rps_fit (ro_mu o) k (rgamma_of o l)) l ->
  (forall j, (j < k)%nat -> derivative_at_0 (fun e => nth j (rbeta_odds o k false (map (rreweight e h) l)) 0) (d0 j)) ->
  (forall j, (j < k)%nat -> derivative_at_0 (fun e => nth j (rbeta_odds o k true (map (rreweight e h) l)) 0) (d1 j)) ->
  drdid_imp_rc o k tl l = PEst att inf -> near0 (fun e => has_est (drdid_imp_rc o k tl (map (rreweight e h) l))) ->
  let ps := rps_fit (ro_mu o) k (rgamma_of o l) in
  derivative_at_0 (fun e => att_of (drdid_imp_rc o k tl (map (rreweight e h) l)))
    (ravg_with h l inf + (sumf (fun j => odds_imbalance tl ps false l j * d0 j) (seq 0 k) - sumf (fun j => odds_imbalance tl ps true l j * d1 j) (seq 0 k))).
Proof.
  intros WO I Hk SM U D0 D1 E HE ps. assert (E' := E). apply irc_inv in E'. destruct E' as [N0 [g1 [b0 [b1 [_ [_ [_ [SZ _]]]]]]]]. cbn zeta in SZ. apply some_zero_inv in SZ.
  assert (Hm := mean_weights_neq0 _ cT0 l (wt0_c _ _) (proj1 SZ)). assert (P := rmean_pos_of l N0 Hm).
  assert (R : forall e, drdid_imp_rc o k tl (map (rreweight e (rh_norm l h)) (rnormalise l)) = drdid_imp_rc o k tl (map (rreweight e h) l)).
  { intros e. rewrite rreweight_norm by exact Hm. apply imp_rc_scale. exact P. }
  assert (X := imp_derivative_n o k tl (rnormalise l) (rh_norm l h) (rnormalise_idem l Hm) (score_h o k tl l h Hm SM) WO (intercept_norm l I) Hk).
  rewrite rgamma_norm in X by exact Hm. specialize (X (untrimmed_norm o k tl l _ U) d0 d1).
  rewrite <- (ravg_norm l h inf Hm).
  rewrite (sumf_ext (fun j => odds_imbalance tl ps false l j * d0 j) (fun j => odds_imbalance tl ps false (rnormalise l) j * d0 j)) by (intros j _; unfold ps; rewrite odds_imb_norm by exact Hm; reflexivity).
  rewrite (sumf_ext (fun j => odds_imbalance tl ps true l j * d1 j) (fun j => odds_imbalance tl ps true (rnormalise l) j * d1 j)) by (intros j _; unfold ps; rewrite odds_imb_norm by exact Hm; reflexivity).
  eapply D_ext; [|eapply X with (att := att)].
  - apply near0_all. intros e. cbn beta. rewrite R. reflexivity.
  - intros j Hj. eapply D_ext; [|exact (D0 j Hj)]. apply near0_all. intros e. rewrite odds_h by exact Hm. reflexivity.
  - intros j Hj. eapply D_ext; [|exact (D1 j Hj)]. apply near0_all. intros e. rewrite odds_h by exact Hm. reflexivity.
  - rewrite rnormalise_as_scale. rewrite (proj1 (imp_rc_scale o k tl l _ P)). exact E.
  - eapply near0_impl; [|exact HE]. cbn beta. intros e. rewrite R. auto.
Qed.
Lemma local_derivative o k tl l h d0 d1 e0 e1 att inf : rwls_ok o k -> rhas_intercept l -> (1 <= k)%nat -> rsmooth_score o k tl l h ->
  runtrimmed tl (rps_fit (ro_mu o) k (rgamma_of o l)) l ->
  (forall j, (j < k)%nat -> derivative_at_0 (fun e => nth j (rbeta_odds o k false (map (rreweight e h) l)) 0) (d0 j)) ->
  (forall j, (j < k)%nat -> derivative_at_0 (fun e => nth j (rbeta_odds o k true (map (rreweight e h) l)) 0) (d1 j)) ->
  (forall j, (j < k)%nat -> derivative_at_0 (fun e => nth j (rbeta_of o true false (map (rreweight e h) l)) 0) (e0 j)) ->
  (forall j, (j < k)%nat -> derivative_at_0 (fun e => nth j (rbeta_of o true true (map (rreweight e h) l)) 0) (e1 j)) ->
  drdid_imp_local_rc o k tl l = PEst att inf -> near0 (fun e => has_est (drdid_imp_local_rc o k tl (map (rreweight e h) l))) ->
  let ps := rps_fit (ro_mu o) k (rgamma_of o l) in
  derivative_at_0 (fun e => att_of (drdid_imp_local_rc o k tl (map (rreweight e h) l)))
    (ravg_with h l inf + (sumf (fun j => pooled_imbalance tl ps false l j * d0 j) (seq 0 k) - sumf (fun j => pooled_imbalance tl ps true l j * d1 j) (seq 0 k))
      + (sumf (fun j => treated_drift true l j * e1 j) (seq 0 k) - sumf (fun j => treated_drift false l j * e0 j) (seq 0 k))).
Proof.
  intros WO I Hk SM U D0 D1 F0 F1 E HE ps. assert (E' := E). apply ilr_inv in E'. destruct E' as [N0 [g1 [c0 [c1 [t0 [t1 [_ [_ [_ [_ [_ [SZ _]]]]]]]]]]]]. cbn zeta in SZ. apply ilr_zero_inv in SZ.
  assert (Hm := mean_weights_neq0 _ cT0 l wr0_c (proj1 SZ)). assert (P := rmean_pos_of l N0 Hm).
  assert (R : forall e, drdid_imp_local_rc o k tl (map (rreweight e (rh_norm l h)) (rnormalise l)) = drdid_imp_local_rc o k tl (map (rreweight e h) l)).
  { intros e. rewrite rreweight_norm by exact Hm. apply imp_rc_scale. exact P. }
  assert (X := local_derivative_n o k tl (rnormalise l) (rh_norm l h) (rnormalise_idem l Hm) (score_h o k tl l h Hm SM) WO (intercept_norm l I) Hk).
  rewrite rgamma_norm in X by exact Hm. specialize (X (untrimmed_norm o k tl l _ U) d0 d1).
  rewrite <- (ravg_norm l h inf Hm).
  rewrite (sumf_ext (fun j => pooled_imbalance tl ps false l j * d0 j) (fun j => pooled_imbalance tl ps false (rnormalise l) j * d0 j)) by (intros j _; unfold ps; rewrite pooled_imb_norm by exact Hm; reflexivity).
  rewrite (sumf_ext (fun j => pooled_imbalance tl ps true l j * d1 j) (fun j => pooled_imbalance tl ps true (rnormalise l) j * d1 j)) by (intros j _; unfold ps; rewrite pooled_imb_norm by exact Hm; reflexivity).
  rewrite (sumf_ext (fun j => treated_drift false l j * e0 j) (fun j => treated_drift false (rnormalise l) j * e0 j)) by (intros j _; rewrite drift_norm by exact Hm; reflexivity).
  rewrite (sumf_ext (fun j => treated_drift true l j * e1 j) (fun j => treated_drift true (rnormalise l) j * e1 j)) by (intros j _; rewrite drift_norm by exact Hm; reflexivity).
  eapply D_ext; [|eapply X with (att := att)].
  - apply near0_all. intros e. cbn beta. rewrite R. reflexivity.
  - intros j Hj. eapply D_ext; [|exact (D0 j Hj)]. apply near0_all. intros e. rewrite odds_h by exact Hm. reflexivity.
  - intros j Hj. eapply D_ext; [|exact (D1 j Hj)]. apply near0_all. intros e. rewrite odds_h by exact Hm. reflexivity.
  - intros j Hj. eapply D_ext; [|exact (F0 j Hj)]. apply near0_all. intros e. rewrite beta_h by exact Hm. reflexivity.
  - intros j Hj. eapply D_ext; [|exact (F1 j Hj)]. apply near0_all. intros e. rewrite beta_h by exact Hm. reflexivity.
  - rewrite rnormalise_as_scale. rewrite (proj2 (imp_rc_scale o k tl l _ P)). exact E.
  - eapply near0_impl; [|exact HE]. cbn beta. intros e. rewrite R. auto.
Qed.
