(** Proofs for C115: the influence values are derivatives with respect to the unit weights. *)
From Verif Require Import Base ListLib ReduceModel ReduceProofs2 Calc DrdidModel DrdidSpec DrdidProofs DrdidProofs2 DrdidProofs3 DrdidProofs4 DrdidProofs5 DrdidProofs7 DrdidProofs8 DrdidProofs9 DrdidProofs10 ImpModel ImpSpec ImpProofs ImpProofs2.

Lemma Qc_eq_sub_0 (a b : Qc) : a = b -> a - b = 0.
Proof. intros ->. ring. Qed.
Section Tilt.
  Context (o : oracle) (k : nat) (tl : Qc) (l : list punit) (h : punit -> Qc) (SM : smooth_tilt o k tl l h).
  Let g (e : Qc) : list Qc := gamma_of o (map (reweight e h) l).
  Let p (u : punit) (e : Qc) : Qc := ps_fit (o_mu o) k (g e) u.
  Lemma tchoose_d : exists d : nat -> Qc, forall j, (j < k)%nat -> derivative_at_0 (fun e => nth j (g e) 0) (d j).
  Proof.
    destruct SM as [Hd _]. clear SM. fold g in Hd. cbn beta zeta in Hd. revert Hd. induction k as [|n IH]; intros Hd.
    - exists (fun _ => 0). intros j Hj. lia.
    - destruct IH as [d Hd']; [intros j Hj; apply Hd; lia|]. destruct (Hd n) as [dn Hn]; [lia|].
      exists (fun j => if (j =? n)%nat then dn else d j). intros j Hj. destruct (Nat.eqb_spec j n) as [->|N]; [exact Hn|apply Hd'; lia].
  Qed.
  Lemma tp_mu u : In u l -> near0 (fun e => o_mu o (dotk k (p_x u) (g e)) = p u e).
  Proof.
    intros Hu. destruct SM as [_ [_ Hz]]. destruct (Hz u Hu) as [Dm [Lo [Hi _]]]. fold g in Dm, Lo, Hi. destruct tchoose_d as [d Hd].
    assert (DD := D_comp (o_mu o) (fun e => dotk k (p_x u) (g e)) _ _ Dm (D_dotk k (p_x u) g d Hd)).
    assert (N1 := D_gt _ _ _ DD Lo). assert (N2 := D_lt _ _ _ DD Hi).
    eapply near0_impl; [|apply (near0_and _ _ N1 N2)]. cbn beta. intros e [H1 H2]. unfold p, ps_fit, clip.
    destruct (Qcltb_spec (o_mu o (dotk k (p_x u) (g e))) eps6) as [L|_]; [exfalso; apply (Qclt_not_le _ _ H1), Qclt_le_weak, L|].
    destruct (Qcltb_spec (1 - eps6) (o_mu o (dotk k (p_x u) (g e)))) as [L|_]; [exfalso; apply (Qclt_not_le _ _ H2), Qclt_le_weak, L|]. reflexivity.
  Qed.
  Lemma tp_deriv d u : (forall j, (j < k)%nat -> derivative_at_0 (fun e => nth j (g e) 0) (d j)) -> In u l ->
    derivative_at_0 (p u) (p u 0 * (1 - p u 0) * xdot k d u).
  Proof.
    intros Hd Hu. assert (P := tp_mu u Hu). assert (P0 := near0_at0 _ P). cbn beta in P0. apply (D_ext _ _ _ P).
    destruct SM as [_ [_ Hz]]. destruct (Hz u Hu) as [Dm _]. fold g in Dm.
    rewrite <- P0. exact (D_comp (o_mu o) (fun e => dotk k (p_x u) (g e)) _ _ Dm (D_dotk k (p_x u) g d Hd)).
  Qed.
  Lemma tp_below u : In u l -> p_d u = false -> near0 (fun e => p u e < tl).
  Proof.
    intros Hu D. destruct tchoose_d as [d Hd]. assert (DP := tp_deriv d u Hd Hu). assert (P0 := near0_at0 _ (tp_mu u Hu)). cbn beta in P0.
    destruct SM as [_ [_ Hz]]. destruct (Hz u Hu) as [_ [_ [_ NT]]]. specialize (NT D). change (o_mu o (dotk k (p_x u) (g 0)) < tl) in NT. rewrite P0 in NT.
    exact (D_lt _ _ _ DP NT).
  Qed.
  Lemma t_untrimmed : near0 (fun e => untrimmed tl (ps_fit (o_mu o) k (g e)) l).
  Proof.
    assert (F : near0 (fun e => forall u, In u l -> p_d u = false -> p u e < tl)).
    { apply near0_forall. intros u Hu. destruct (p_d u) eqn:D; [apply near0_all; discriminate|]. eapply near0_impl; [|apply (tp_below u Hu D)]. cbn beta. auto. }
    eapply near0_impl; [|exact F]. cbn beta. intros e He u Hu D. apply He; assumption.
  Qed.
  (** the odds of comparison units move by xdot *)
  Lemma todds_deriv d u : (forall j, (j < k)%nat -> derivative_at_0 (fun e => nth j (g e) 0) (d j)) -> In u l ->
    derivative_at_0 (fun e => (1 - p_D u) * (p u e / (1 - p u e))) ((1 - p_D u) * (p u 0 / (1 - p u 0)) * xdot k d u).
  Proof.
    intros Hd Hu. assert (DP := tp_deriv d u Hd Hu). assert (N := ps_neq (o_mu o) k (g 0) u). fold (p u 0) in N.
    assert (DQ := D_div (p u) (fun e => 1 - p u e) _ _ DP (D_sub (fun _ => 1) (p u) 0 _ (D_const 1) DP) N).
    assert (DR := D_scale (1 - p_D u) _ _ DQ). revert DR. apply D_eq. cbn beta. field. exact N.
  Qed.
  Notation c0 := (fun u => (1 - p_D u) * (p u 0 / (1 - p u 0))).
  (** the tilted total of a fixed variable *)
  Lemma tsum_deriv d (v : punit -> Qc) : (forall j, (j < k)%nat -> derivative_at_0 (fun e => nth j (g e) 0) (d j)) ->
    derivative_at_0 (fun e => sumf (fun u => p_w u * (1 + e * h u) * ((p_D u - (1 - p_D u) * (p u e / (1 - p u e))) * v u)) l)
      (sumf (fun u => p_w u * h u * ((p_D u - c0 u) * v u)) l - sumf (fun u => p_w u * c0 u * v u * xdot k d u) l).
  Proof.
    intros Hd. eapply D_eq; [|apply (D_wsum l h (fun u e => (p_D u - (1 - p_D u) * (p u e / (1 - p u e))) * v u) (fun u => (0 - (1 - p_D u) * (p u 0 / (1 - p u 0)) * xdot k d u) * v u + (p_D u - c0 u) * 0))].
    - cbn beta. rewrite <- sumf_sub, <- sumf_add. apply sumf_ext. intros u _. ring.
    - intros u Hu. apply (D_mul (fun e => p_D u - (1 - p_D u) * (p u e / (1 - p u e))) (fun _ => v u)); [|apply D_const].
      apply (D_sub (fun _ => p_D u) (fun e => (1 - p_D u) * (p u e / (1 - p u e)))); [apply D_const|apply todds_deriv; assumption].
  Qed.
  Lemma t_calibration d : (forall j, (j < k)%nat -> derivative_at_0 (fun e => nth j (g e) 0) (d j)) -> forall j, (j < k)%nat ->
    sumf (fun u => p_w u * h u * ((p_D u - c0 u) * x_at u j)) l = sumf (fun u => p_w u * c0 u * x_at u j * xdot k d u) l.
  Proof.
    intros Hd j Hj. apply Qc_sub_0_eq. assert (D1 := tsum_deriv d (fun u => x_at u j) Hd). destruct SM as [_ [C _]]. fold g in C.
    assert (D0 : derivative_at_0 (fun e => sumf (fun u => p_w u * (1 + e * h u) * ((p_D u - (1 - p_D u) * (p u e / (1 - p u e))) * x_at u j)) l) 0).
    { apply (D_ext (fun _ => 0)); [|apply D_const]. eapply near0_impl; [|exact C]. cbn beta. intros e Ce. specialize (Ce j Hj). rewrite !sumf_filter, !sumf_map in Ce. symmetry.
      rewrite (sumf_ext _ (fun u => ind (p_d u) * (p_w (reweight e h u) * x_at u j) - ind (negb (p_d u)) * (p_w (reweight e h u) * (p u e / (1 - p u e)) * x_at u j))).
      - rewrite sumf_sub. apply Qc_eq_sub_0. exact Ce.
      - intros u _. unfold reweight. cbn [set_w p_w]. unfold p_D. destruct (p_d u); cbn [ind negb]; ring. }
    exact (D_unique _ _ _ D1 D0).
  Qed.
End Tilt.
Lemma calibrated_reweight_normalise k ps l c : (forall w u, ps (set_w w u) = ps u) -> c <> 0 -> calibrated k ps (map (scale_w c) l) -> calibrated k ps l.
Proof.
  intros Hp Hc C j Hj. specialize (C j Hj). rewrite !filter_map, !sumf_map in C.
  assert (E : c * sumf (fun u => p_w u * x_at u j) (filter p_d l) = c * sumf (fun u => p_w u * (ps u / (1 - ps u)) * x_at u j) (filter (fun u => negb (p_d u)) l)).
  { rewrite <- !sumf_mul_l. refine (eq_trans _ (eq_trans C _)); apply sumf_ext; intros u _; unfold scale_w, x_at; cbn [set_w p_w p_x]; rewrite ?Hp; ring. }
  apply (f_equal (fun q => / c * q)) in E. transitivity (/ c * (c * sumf (fun u => p_w u * x_at u j) (filter p_d l))); [field; exact Hc|]. rewrite E. field. exact Hc.
Qed.
Section Deriv.
  Context (o : oracle) (k : nat) (tl : Qc) (l : list punit) (h : punit -> Qc) (NL : normalise l = l).
  Let g (e : Qc) : list Qc := gamma_of o (map (reweight e h) l).
  Notation p u e := (ps_fit (o_mu o) k (g e) u).
  Lemma untrimmed_reweight e ps : (forall w u, ps (set_w w u) = ps u) -> untrimmed tl ps l -> untrimmed tl ps (map (reweight e h) l).
  Proof. intros Hp U u Hu D. apply in_map_iff in Hu. destruct Hu as [v [<- Hv]]. unfold reweight. rewrite Hp. apply U; [exact Hv|exact D]. Qed.
  Lemma imp_derivative_normalised att inf : wls_ok o k -> smooth_tilt o k tl l h -> drdid_imp_panel o k tl l = PEst att inf ->
    near0 (fun e => has_est (drdid_imp_panel o k tl (map (reweight e h) l))) ->
    derivative_at_0 (fun e => att_of (drdid_imp_panel o k tl (map (reweight e h) l))) (avg_with h l inf).
  Proof.
    intros WO SM E HE. assert (SM' := SM). destruct SM' as [_ [CAL _]]. fold g in CAL.
    assert (UT := t_untrimmed o k tl l h SM). cbv beta zeta in UT. fold g in UT.
    assert (AE : near0 (fun e => sumf (fun u => p_w u * (1 + e * h u) * ((p_D u - (1 - p_D u) * (p u e / (1 - p u e))) * p_dy u)) l / sumf (fun u => p_w u * (1 + e * h u) * p_D u) l
        = att_of (drdid_imp_panel o k tl (map (reweight e h) l)))).
    { eapply near0_impl; [|apply (near0_and _ _ HE (near0_and _ _ CAL UT))]. cbn beta. intros e [He [Ce Ue]]. destruct (has_est_inv _ He) as [i Ei].
      assert (G : o_logit o (normalise (map (reweight e h) l)) = Some (g e)) by (assert (Ei' := Ei); apply imp_value in Ei'; destruct Ei' as [g1 [b1 [Eg _]]]; unfold g, gamma_of; rewrite Eg; reflexivity).
      rewrite (imp_weighting o k tl _ _ _ (g e) Ei G Ce (untrimmed_reweight e (ps_fit (o_mu o) k (g e)) (fun _ _ => eq_refl) Ue)).
      rewrite group_true, odds_total_cw. unfold Qcdiv. rewrite <- Qcmult_sub_r. rewrite <- sumf_sub, !sumf_map. f_equal.
      apply sumf_ext. intros u Hu. change (cw tl (ps_fit (o_mu o) k (g e)) (reweight e h u)) with (cw tl (ps_fit (o_mu o) k (g e)) u). rewrite (cw_untrimmed tl (ps_fit (o_mu o) k (g e)) l u Ue Hu). unfold reweight, p_D, p_dy, Qcdiv. cbn [set_w p_w p_d p_y1 p_y0]. ring. }
    apply imp_inv in E. rewrite NL in E. destruct E as [_ [g0 [b [Eg [Eb [Hd [Ea ->]]]]]]]. cbn zeta in *.
    assert (Hl : l <> []) by (intros ->; apply Hd; reflexivity).
    assert (G0 : g 0 = g0) by (unfold g, gamma_of; rewrite reweight0, NL, Eg; reflexivity).
    assert (Hn := n_neq0 l Hl).
    assert (HT : sumf (fun u => p_w u * p_D u) l <> 0).
    { intros Z0. apply Hd. unfold mean_d. apply mean_0. rewrite <- Z0. apply sumf_ext. intros; ring. }
    assert (Hm : mean p_w l <> 0) by (rewrite <- NL in Hd; apply mean_d_weights; exact Hd).
    apply (D_ext _ _ _ AE). destruct (tchoose_d o k tl l h SM) as [d Hdd].
    assert (DN := tsum_deriv o k tl l h SM d p_dy Hdd). cbv beta zeta in DN. fold g in DN. fold (g 0) in DN.
    assert (DT := D_wsum l h (fun u _ => p_D u) (fun _ => 0) (fun u _ => D_const (p_D u))). cbn beta in DT.
    assert (T0 : sumf (fun u => p_w u * (1 + 0 * h u) * p_D u) l = sumf (fun u => p_w u * p_D u) l) by (apply sumf_ext; intros; ring).
    eapply D_eq; [|apply (D_div _ _ _ _ DN DT); rewrite T0; exact HT].
    cbn beta. fold (g 0). rewrite T0, !G0. clear DN DT AE.
    assert (ON : odds_normal k (ps_fit (o_mu o) k g0) l b) by (apply (odds_normal_of o k); [exact WO|exact Hm|reflexivity|rewrite NL; exact Eb]).
    assert (TC := t_calibration o k tl l h SM d Hdd). cbv beta zeta in TC. fold (g 0) in TC. rewrite G0 in TC.
    assert (U0 := near0_at0 _ UT). cbn beta in U0. fold (g 0) in U0. rewrite G0 in U0.
    set (ps := ps_fit (o_mu o) k g0) in *. set (c0 := fun u => (1 - p_D u) * (ps u / (1 - ps u))).
    (* xdot moves the tilted residual total by nothing *)
    assert (X1 : sumf (fun u => p_w u * c0 u * (p_dy u - dotk k (p_x u) b) * xdot k d u) l = 0).
    { rewrite (sumf_ext _ (fun u => sumf (fun j => p_w u * c0 u * (p_dy u - dotk k (p_x u) b) * x_at u j * d j) (seq 0 k))) by (intros u _; unfold xdot; rewrite <- sumf_mul_l; apply sumf_ext; intros; ring).
      rewrite sumf_swap. apply sumf_zero. intros j Hj. apply in_seq in Hj. rewrite sumf_mul_r. specialize (ON j ltac:(lia)). rewrite sumf_filter in ON.
      rewrite (sumf_ext _ (fun u => ind (negb (p_d u)) * (p_w u * (ps u / (1 - ps u)) * (p_dy u - dotk k (p_x u) b) * x_at u j))); [rewrite ON; ring|].
      intros u _. unfold c0, p_D. destruct (p_d u); cbn [ind negb]; ring. }
    assert (X2 : sumf (fun u => p_w u * h u * ((p_D u - c0 u) * dotk k (p_x u) b)) l = sumf (fun u => p_w u * c0 u * dotk k (p_x u) b * xdot k d u) l).
    { rewrite (sumf_ext (fun u => p_w u * h u * ((p_D u - c0 u) * dotk k (p_x u) b)) (fun u => sumf (fun j => p_w u * h u * ((p_D u - c0 u) * x_at u j) * nth j b 0) (seq 0 k))) by (intros u _; unfold dotk; rewrite <- !sumf_mul_l; apply sumf_ext; intros; unfold x_at; ring).
      rewrite (sumf_ext (fun u => p_w u * c0 u * dotk k (p_x u) b * xdot k d u) (fun u => sumf (fun j => p_w u * c0 u * x_at u j * xdot k d u * nth j b 0) (seq 0 k))).
      2:{ intros u _. unfold dotk. transitivity (p_w u * c0 u * xdot k d u * sumf (fun j => nth j (p_x u) 0 * nth j b 0) (seq 0 k)); [ring|]. rewrite <- sumf_mul_l. apply sumf_ext. intros j _. unfold x_at. ring. }
      rewrite !(sumf_swap _ l). apply sumf_ext. intros j Hj. apply in_seq in Hj. rewrite !sumf_mul_r. f_equal. apply TC. lia. }
    assert (A0 : sumf (fun u => p_w u * (1 + 0 * h u) * ((p_D u - (1 - p_D u) * (ps u / (1 - ps u))) * p_dy u)) l / sumf (fun u => p_w u * p_D u) l = imp_att tl ps (outf k b) l).
    { assert (C0 := near0_at0 _ CAL). cbn beta in C0. fold (g 0) in C0. rewrite reweight0, G0 in C0. fold ps in C0.
      assert (EE : drdid_imp_panel o k tl l = PEst (imp_att tl ps (outf k b) l) (map (imp_inf tl ps (outf k b) l) l)).
      { assert (H0 := near0_at0 _ HE). cbn beta in H0. rewrite reweight0 in H0. destruct H0 as [a0 [i0 E0]]. rewrite E0. apply imp_inv in E0. rewrite NL in E0.
        destruct E0 as [_ [g2 [b2 [Eg2 [Eb2 [_ [-> ->]]]]]]]. rewrite Eg in Eg2. injection Eg2 as <-. cbn zeta in *. fold ps in Eb2. rewrite Eb in Eb2. injection Eb2 as <-. reflexivity. }
      assert (EG : o_logit o (normalise l) = Some g0) by (rewrite NL; exact Eg).
      rewrite (imp_weighting o k tl l _ _ g0 EE EG C0 U0).
      rewrite group_true, odds_total_cw. unfold Qcdiv. rewrite <- Qcmult_sub_r. rewrite <- sumf_sub. f_equal. apply sumf_ext. intros u Hu. fold ps. rewrite (cw_untrimmed tl ps l u U0 Hu). unfold Qcdiv. ring. }
    rewrite A0. rewrite avg_map. 
    assert (MD : mean_d l = sumf (fun u => p_w u * p_D u) l / qn (length l)) by (unfold mean_d, mean; f_equal; apply sumf_ext; intros; ring).
    set (T := sumf (fun u => p_w u * p_D u) l) in *. set (A := imp_att tl ps (outf k b) l) in *.
    rewrite (sumf_ext (fun u => h u * imp_inf tl ps (outf k b) l u) (fun u => (p_w u * h u * ((p_D u - c0 u) * p_dy u) - p_w u * h u * ((p_D u - c0 u) * dotk k (p_x u) b) - p_w u * h u * p_D u * A) * / mean_d l)).
    2:{ intros u Hu. rewrite imp_inf_sgn by apply ps_neq. fold A. unfold sgn. rewrite (cw_untrimmed tl ps l u U0 Hu). fold (c0 u). unfold Qcdiv. ring. }
    rewrite (sumf_ext (fun u => p_w u * 0) (fun _ => 0)), sumf_0 by (intros; ring).
    rewrite sumf_mul_r, !sumf_sub, sumf_mul_r, X2.
    assert (X3 : sumf (fun u => p_w u * c0 u * p_dy u * xdot k d u) l = sumf (fun u => p_w u * c0 u * dotk k (p_x u) b * xdot k d u) l).
    { apply Qc_sub_0_eq. rewrite <- sumf_sub, <- X1. apply sumf_ext. intros; ring. }
    change (sumf (fun u => p_w u * ((1 - p_D u) * (ps u / (1 - ps u))) * p_dy u * xdot k d u) l) with (sumf (fun u => p_w u * c0 u * p_dy u * xdot k d u) l). rewrite X3.
    change (sumf (fun u => p_w u * h u * ((p_D u - (1 - p_D u) * (ps u / (1 - ps u))) * p_dy u)) l) with (sumf (fun u => p_w u * h u * ((p_D u - c0 u) * p_dy u)) l).
    rewrite MD. field. split; assumption.
  Qed.
End Deriv.
