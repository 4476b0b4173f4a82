(** Proofs for C27, end: the DR and IPW influence functions are derivatives. *)
From Verif Require Import Base ListLib ReduceModel ReduceProofs2 Calc DrdidModel DrdidSpec DrdidProofs DrdidProofs2 DrdidProofs3 DrdidProofs4 DrdidProofs5 DrdidProofs6 DrdidProofs7 DrdidProofs8 DrdidProofs9.

Lemma mean_col_ext k f f' l : (forall u, In u l -> f u = f' u) -> mean_col k f l = mean_col k f' l.
Proof. intros H. unfold mean_col, vec_of. apply map_ext. intros j. apply mean_ext. intros u Hu. rewrite H by exact Hu. reflexivity. Qed.
Lemma mean_col_scale k f l c : mean_col k (fun u => c * f u) l = vscale c (mean_col k f l).
Proof. unfold mean_col, vec_of, vscale. rewrite map_map. apply map_ext. intros j. rewrite <- mean_mul_l. apply mean_ext. intros; ring. Qed.

Section Common.
  Context (k : nat) (tl : Qc) (l : list punit) (h : punit -> Qc) (Hl : l <> []).
  Notation n := (qn (length l)).
  Lemma n_neq0 : n <> 0. Proof. apply qn_neq0. destruct l; [congruence|cbn; lia]. Qed.
  Lemma score_cross ps d H (f : punit -> Qc) :
    (forall i, (i < k)%nat -> d i = sumf (fun j => mget H j i * s_ps l h ps j) (seq 0 k)) ->
    sumf (fun u => f u * xdot k d u) l = sumf (fun u => h u * dotk k (alr_ps k ps (mscale n H) u) (mean_col k f l)) l.
  Proof.
    intros Hd. rewrite cross2_ps, <- (cross1 k l _ _ f Hl). apply sumf_ext. intros u _. f_equal. unfold xdot. apply sumf_ext. intros i Hi. apply in_seq in Hi.
    rewrite Hd by lia. f_equal. apply sumf_ext. intros j _. rewrite mget_mscale. field. apply n_neq0.
  Qed.
  Lemma reg_cross b M (f : punit -> Qc) :
    let d := fun i => sumf (fun j => mget M j i / n * s_reg k l h b j) (seq 0 k) in
    sumf (fun u => f u * xdot k d u) l = sumf (fun u => h u * dotk k (alr_wols k (outf k b) M u) (mean_col k f l)) l.
  Proof. cbn zeta. rewrite (cross2 k l h M b _ (outf k b)) by reflexivity. rewrite <- (cross1 k l M (s_reg k l h b) f Hl). reflexivity. Qed.

  Context (ps : punit -> Qc).
  Notation T := (sumf (fun u => p_w u * p_D u) l).
  Notation C := (sumf (fun u => p_w u * cw tl ps u) l).
  Notation etat v := (sumf (fun u => p_w u * p_D u * v u) l / T).
  Notation etac v := (sumf (fun u => p_w u * cw tl ps u * v u) l / C).
  Lemma mean_wt : mean (w_treat tl ps) l = T / n.
  Proof. unfold mean. f_equal. apply sumf_ext. intros; apply w_treat_D. Qed.
  Lemma mean_wc : mean (w_cont tl ps) l = C / n.
  Proof. unfold mean. f_equal. apply sumf_ext. intros; apply w_cont_cw. Qed.
  Lemma wmean_wt v : wmean (w_treat tl ps) v l = etat v.
  Proof. rewrite wmean_sums. f_equal; apply sumf_ext; intros; rewrite w_treat_D; reflexivity. Qed.
  Lemma wmean_wc v : wmean (w_cont tl ps) v l = etac v.
  Proof. rewrite wmean_sums. f_equal; apply sumf_ext; intros; rewrite w_cont_cw; reflexivity. Qed.
  Lemma avg_dr_inf out M H : T <> 0 -> C <> 0 ->
    let r := fun u => p_dy u - out u in
    sumf (fun u => h u * dr_inf k tl ps out M H l u) l / n
    = (sumf (fun u => h u * (p_w u * p_D u * (r u - etat r))) l - sumf (fun u => h u * dotk k (alr_wols k out M u) (mean_col k (fun u => p_w u * p_D u) l)) l) / T
      - (sumf (fun u => h u * (p_w u * cw tl ps u * (r u - etac r))) l
         + sumf (fun u => h u * dotk k (alr_ps k ps H u) (mean_col k (fun u => p_w u * cw tl ps u * (r u - etac r)) l)) l
         - sumf (fun u => h u * dotk k (alr_wols k out M u) (mean_col k (fun u => p_w u * cw tl ps u) l)) l) / C.
  Proof.
    intros HT HC r. assert (Hn := n_neq0).
    rewrite (sumf_ext _ (fun u => (h u * (p_w u * p_D u * (r u - etat r)) - h u * dotk k (alr_wols k out M u) (mean_col k (fun u => p_w u * p_D u) l)) / (T / n)
      - (h u * (p_w u * cw tl ps u * (r u - etac r)) + h u * dotk k (alr_ps k ps H u) (mean_col k (fun u => p_w u * cw tl ps u * (r u - etac r)) l)
         - h u * dotk k (alr_wols k out M u) (mean_col k (fun u => p_w u * cw tl ps u) l)) / (C / n))).
    - rewrite sumf_sub, !sumf_div, !sumf_sub, sumf_add. field. repeat split; assumption.
    - intros u Hu. unfold dr_inf. cbn zeta. fold r. rewrite mean_wt, mean_wc, wmean_wt, wmean_wc.
      rewrite (mean_col_ext k (w_treat tl ps) (fun u => p_w u * p_D u)) by (intros; apply w_treat_D).
      rewrite (mean_col_ext k (w_cont tl ps) (fun u => p_w u * cw tl ps u)) by (intros; apply w_cont_cw).
      rewrite (mean_col_ext k (fun v => w_cont tl ps v * r v - w_cont tl ps v * etac r) (fun u => p_w u * cw tl ps u * (r u - etac r))) by (intros; rewrite w_cont_cw; ring).
      rewrite w_treat_D, w_cont_cw. unfold Qcdiv. change (p_dy u - out u) with (r u). ring.
  Qed.
  Lemma avg_ipw_inf H : T <> 0 -> C <> 0 ->
    sumf (fun u => h u * ipw_inf k tl ps H l u) l / n
    = (sumf (fun u => h u * (p_w u * p_D u * (p_dy u - etat p_dy))) l) / T
      - (sumf (fun u => h u * (p_w u * cw tl ps u * (p_dy u - etac p_dy))) l
         + sumf (fun u => h u * dotk k (alr_ps k ps H u) (mean_col k (fun u => p_w u * cw tl ps u * (p_dy u - etac p_dy)) l)) l) / C.
  Proof.
    intros HT HC. assert (Hn := n_neq0).
    rewrite (sumf_ext _ (fun u => h u * (p_w u * p_D u * (p_dy u - etat p_dy)) / (T / n)
      - (h u * (p_w u * cw tl ps u * (p_dy u - etac p_dy)) + h u * dotk k (alr_ps k ps H u) (mean_col k (fun u => p_w u * cw tl ps u * (p_dy u - etac p_dy)) l)) / (C / n))).
    - rewrite sumf_sub, !sumf_div, sumf_add. field. repeat split; assumption.
    - intros u Hu. unfold ipw_inf. cbn zeta. rewrite !mean_div_r.
      fold (wmean (w_treat tl ps) p_dy l). fold (wmean (w_cont tl ps) p_dy l). rewrite wmean_wt, wmean_wc, mean_wt, mean_wc.
      rewrite (mean_col_ext k (fun v => w_cont tl ps v * (p_dy v - etac p_dy)) (fun u => p_w u * cw tl ps u * (p_dy u - etac p_dy))) by (intros; rewrite w_cont_cw; ring).
      replace (map (fun v => v / (C / n)) (mean_col k (fun u0 => p_w u0 * cw tl ps u0 * (p_dy u0 - etac p_dy)) l))
        with (vscale (/ (C / n)) (mean_col k (fun u0 => p_w u0 * cw tl ps u0 * (p_dy u0 - etac p_dy)) l)) by (unfold vscale; apply map_ext; intros; unfold Qcdiv; ring).
      rewrite dotk_scale_r, w_treat_D, w_cont_cw. unfold Qcdiv. ring.
  Qed.
End Common.

Section Main.
  Context (o : oracle) (k : nat) (tl : Qc) (l : list punit) (h : punit -> Qc).
  Context (IO : inv_ok o k) (NL : normalise l = l) (SM : smooth_logit o k tl l h).
  Let g (e : Qc) : list Qc := gamma_of o (map (reweight e h) l).
  Notation p u e := (ps_fit (o_mu o) k (g e) u).

  Lemma ipw_derivative_normalised att inf : std_ipw_did_panel o k tl l = PEst att inf ->
    near0 (fun e => has_est (std_ipw_did_panel o k tl (map (reweight e h) l))) ->
    derivative_at_0 (fun e => att_of (std_ipw_did_panel o k tl (map (reweight e h) l))) (avg_with h l inf).
  Proof.
    intros E HE.
    assert (HW : near0 (fun e => mean p_w (map (reweight e h) l) <> 0)).
    { eapply near0_impl; [|exact HE]. cbn beta. intros e [a [i Ee]]. apply ipw_inv in Ee. destruct Ee as [_ [_ [g1 [H1 [_ [Ht _]]]]]]. eapply mean_wt_pos_weights; exact Ht. }
    assert (AE : near0 (fun e => sumf (fun u => p_w u * (1 + e * h u) * (p_D u * p_dy u)) l / sumf (fun u => p_w u * (1 + e * h u) * p_D u) l
        - sumf (fun u => p_w u * (1 + e * h u) * (cw tl (fun u => p u e) u * p_dy u)) l / sumf (fun u => p_w u * (1 + e * h u) * cw tl (fun u => p u e) u) l
        = att_of (std_ipw_did_panel o k tl (map (reweight e h) l)))).
    { eapply near0_impl; [|exact HE]. cbn beta. intros e He. destruct (has_est_inv _ He) as [i Ei]. apply ipw_value in Ei. destruct Ei as [g1 [Eg ->]].
      rewrite group_mean_reweight by reflexivity.
      replace g1 with (g e) by (unfold g, gamma_of; rewrite Eg; reflexivity). unfold g. rewrite odds_mean_reweight by reflexivity. reflexivity. }
    apply ipw_inv in E. rewrite NL in E. destruct E as [_ [_ [g0 [H [Eg [Ht [Hc [EH [_ ->]]]]]]]]]. cbn zeta in *.
    assert (Hl : l <> []) by (intros ->; apply Ht; reflexivity).
    assert (G0 : g 0 = g0) by (unfold g, gamma_of; rewrite reweight0, NL, Eg; reflexivity).
    assert (Hn := n_neq0 l Hl).
    rewrite mean_wt in Ht. rewrite mean_wc in Hc. 
    assert (HT : sumf (fun u => p_w u * p_D u) l <> 0) by (intros Z; apply Ht; rewrite Z; apply Qcdiv_0_l).
    assert (HC : sumf (fun u => p_w u * cw tl (ps_fit (o_mu o) k g0) u) l <> 0) by (intros Z; apply Hc; rewrite Z; apply Qcdiv_0_l).
    apply (D_ext _ _ _ AE).
    destruct (choose_d o k tl l h SM) as [d Hd].
    assert (GD := gamma_derivative o k tl l h SM HW d H Hd). cbv beta zeta in GD. fold g in GD. fold (g 0) in GD. rewrite G0 in GD. specialize (GD (IO _ _ EH)).
    assert (D1 := treat_mean_deriv l h (fun u _ => p_dy u) (fun _ => 0) (fun u _ => D_const (p_dy u)) HT). cbv zeta beta in D1.
    assert (D2 := cont_mean_deriv o k tl l h SM d (fun u _ => p_dy u) (fun _ => 0) Hd (fun u _ => D_const (p_dy u))). cbv zeta beta in D2. fold (g 0) in D2. rewrite G0 in D2. specialize (D2 HC).
    eapply D_eq; [|exact (D_sub _ _ _ _ D1 D2)].
    rewrite avg_map, avg_ipw_inf by assumption.
    rewrite (score_cross k l h Hl (ps_fit (o_mu o) k g0) d H) by exact GD.
    rewrite !(sumf_ext (fun u => _ * 0) (fun _ => 0)), !sumf_0 by (intros; ring). rewrite !Qcplus_0_r. reflexivity.
  Qed.
  Lemma dr_derivative_normalised att inf : wls_ok o k -> drdid_panel o k tl l = PEst att inf ->
    near0 (fun e => has_est (drdid_panel o k tl (map (reweight e h) l))) ->
    derivative_at_0 (fun e => att_of (drdid_panel o k tl (map (reweight e h) l))) (avg_with h l inf).
  Proof.
    intros WO E HE. set (beta := fun e => beta_of o (map (reweight e h) l)).
    assert (HW2 : near0 (fun e => o_wls o (ctrl (normalise (map (reweight e h) l))) <> None /\ mean p_w (map (reweight e h) l) <> 0)).
    { eapply near0_impl; [|exact HE]. cbn beta. intros e [a [i Ee]]. apply dr_inv in Ee. destruct Ee as [_ [_ [g1 [b1 [M1 [H1 [_ [Eb [Ht _]]]]]]]]].
      split; [congruence|eapply mean_wt_pos_weights; exact Ht]. }
    assert (HW : near0 (fun e => mean p_w (map (reweight e h) l) <> 0)) by (eapply near0_impl; [|exact HW2]; cbn beta; tauto).
    assert (NE := beta_near o k l h WO HW2). fold beta in NE.
    assert (AE : near0 (fun e => sumf (fun u => p_w u * (1 + e * h u) * (p_D u * (p_dy u - dotk k (p_x u) (beta e)))) l / sumf (fun u => p_w u * (1 + e * h u) * p_D u) l
        - sumf (fun u => p_w u * (1 + e * h u) * (cw tl (fun u => p u e) u * (p_dy u - dotk k (p_x u) (beta e)))) l / sumf (fun u => p_w u * (1 + e * h u) * cw tl (fun u => p u e) u) l
        = att_of (drdid_panel o k tl (map (reweight e h) l)))).
    { eapply near0_impl; [|exact HE]. cbn beta. intros e He. destruct (has_est_inv _ He) as [i Ei]. apply dr_value in Ei. destruct Ei as [g1 [b1 [Eg [Eb ->]]]]. cbn zeta.
      rewrite group_mean_reweight by reflexivity.
      replace g1 with (g e) by (unfold g, gamma_of; rewrite Eg; reflexivity). replace b1 with (beta e) by (unfold beta, beta_of; rewrite Eb; reflexivity).
      unfold g. rewrite odds_mean_reweight by reflexivity. reflexivity. }
    apply dr_inv in E. rewrite NL in E. destruct E as [_ [_ [g0 [b [M [H [Eg [Eb [Ht [Hc [EM [EH [_ ->]]]]]]]]]]]]]. cbn zeta in *.
    assert (Hl : l <> []) by (intros ->; apply Ht; reflexivity).
    assert (G0 : g 0 = g0) by (unfold g, gamma_of; rewrite reweight0, NL, Eg; reflexivity).
    assert (B0 : beta 0 = b) by (unfold beta, beta_of; rewrite reweight0, NL, Eb; reflexivity).
    assert (Hn := n_neq0 l Hl).
    rewrite mean_wt in Ht. rewrite mean_wc in Hc. 
    assert (HT : sumf (fun u => p_w u * p_D u) l <> 0) by (intros Z; apply Ht; rewrite Z; apply Qcdiv_0_l).
    assert (HC : sumf (fun u => p_w u * cw tl (ps_fit (o_mu o) k g0) u) l <> 0) by (intros Z; apply Hc; rewrite Z; apply Qcdiv_0_l).
    apply (D_ext _ _ _ AE).
    set (db := fun i => sumf (fun j => mget M j i / qn (length l) * s_reg k l h b j) (seq 0 k)).
    assert (DB : forall i, (i < k)%nat -> derivative_at_0 (fun e => nth i (beta e) 0) (db i)).
    { intros i Hi. unfold db. rewrite <- B0. apply (beta_derivative k l h beta (fun i j => mget M j i / qn (length l)) NE); [|exact Hi]. apply gram_inverse; [exact Hl|apply IO; exact EM]. }
    assert (DV : forall u, In u l -> derivative_at_0 (fun e => p_dy u - dotk k (p_x u) (beta e)) (0 - xdot k db u)).
    { intros u _. apply (D_sub (fun _ => p_dy u) (fun e => dotk k (p_x u) (beta e))); [apply D_const|]. apply (D_dotk k (p_x u) beta db DB). }
    destruct (choose_d o k tl l h SM) as [d Hd].
    assert (GD := gamma_derivative o k tl l h SM HW d H Hd). cbv beta zeta in GD. fold (g 0) in GD. rewrite G0 in GD. specialize (GD (IO _ _ EH)).
    assert (D1 := treat_mean_deriv l h (fun u e => p_dy u - dotk k (p_x u) (beta e)) (fun u => 0 - xdot k db u) DV HT). cbv zeta beta in D1.
    assert (D2 := cont_mean_deriv o k tl l h SM d (fun u e => p_dy u - dotk k (p_x u) (beta e)) (fun u => 0 - xdot k db u) Hd DV). cbv zeta beta in D2. fold (g 0) in D2. rewrite G0 in D2. specialize (D2 HC).
    eapply D_eq; [|exact (D_sub _ _ _ _ D1 D2)]. rewrite !B0.
    rewrite avg_map, avg_dr_inf by assumption.
    rewrite (score_cross k l h Hl (ps_fit (o_mu o) k g0) d H) by exact GD.
    rewrite (sumf_ext (fun u => p_w u * p_D u * (0 - xdot k db u)) (fun u => - (p_w u * p_D u * xdot k db u))) by (intros; ring).
    rewrite (sumf_ext (fun u => p_w u * cw tl (ps_fit (o_mu o) k g0) u * (0 - xdot k db u)) (fun u => - (p_w u * cw tl (ps_fit (o_mu o) k g0) u * xdot k db u))) by (intros; ring).
    rewrite !sumf_opp. unfold db. rewrite !(reg_cross k l h Hl b M). unfold Qcminus. reflexivity.
  Qed.
End Main.
Lemma smooth_normalise o k tl l h : mean p_w l <> 0 -> smooth_logit o k tl l h -> smooth_logit o k tl (normalise l) (h_norm l h).
Proof.
  intros Hm [H1 [H2 H3]]. assert (Hi : / mean p_w l <> 0).
  { intros Z. apply Hm. transitivity (mean p_w l * mean p_w l * / mean p_w l); [field; exact Hm|rewrite Z; ring]. }
  assert (N : forall e, normalise (map (reweight e (h_norm l h)) (normalise l)) = normalise (map (reweight e h) l)) by (intros e; rewrite reweight_norm by exact Hm; apply normalise_scale; exact Hi).
  assert (G : forall e, gamma_of o (map (reweight e (h_norm l h)) (normalise l)) = gamma_of o (map (reweight e h) l)) by (intros e; unfold gamma_of; rewrite N; reflexivity).
  split; [|split]; cbn zeta in *.
  - intros j Hj. destruct (H1 j Hj) as [d Hd]. exists d. apply (D_ext (fun e => nth j (gamma_of o (map (reweight e h) l)) 0)); [apply near0_all; intros e; rewrite G; reflexivity|exact Hd].
  - eapply near0_impl; [|exact H2]. cbn beta. intros e He. rewrite N, G. exact He.
  - intros u Hu. apply in_normalise in Hu. destruct Hu as [v [Hv ->]]. rewrite G. apply (H3 v Hv).
Qed.
Lemma ipw_derivative o k tl l h att inf : inv_ok o k -> smooth_logit o k tl l h ->
  std_ipw_did_panel o k tl l = PEst att inf -> near0 (fun e => has_est (std_ipw_did_panel o k tl (map (reweight e h) l))) ->
  derivative_at_0 (fun e => att_of (std_ipw_did_panel o k tl (map (reweight e h) l))) (avg_with h l inf).
Proof.
  intros IO SM E HE. assert (E' := E). apply ipw_inv in E'. destruct E' as [N0 [_ [b [M [_ [Hm _]]]]]]. apply mean_wt_pos_weights in Hm.
  assert (P := mean_pos_of l N0 Hm).
  assert (R : forall e, std_ipw_did_panel o k tl (map (reweight e (h_norm l h)) (normalise l)) = std_ipw_did_panel o k tl (map (reweight e h) l)).
  { intros e. rewrite reweight_norm by exact Hm. apply ipw_scale. exact P. }
  rewrite <- (avg_norm l h inf Hm).
  apply (D_ext (fun e => att_of (std_ipw_did_panel o k tl (map (reweight e (h_norm l h)) (normalise l))))); [apply near0_all; intros e; rewrite R; reflexivity|].
  apply (ipw_derivative_normalised o k tl (normalise l) (h_norm l h) IO (normalise_idem l Hm) (smooth_normalise _ _ _ _ _ Hm SM) att inf).
  - rewrite normalise_as_scale, ipw_scale by exact P. exact E.
  - eapply near0_impl; [|exact HE]. cbn beta. intros e. rewrite R. auto.
Qed.
Lemma dr_derivative o k tl l h att inf : wls_ok o k -> inv_ok o k -> smooth_logit o k tl l h ->
  drdid_panel o k tl l = PEst att inf -> near0 (fun e => has_est (drdid_panel o k tl (map (reweight e h) l))) ->
  derivative_at_0 (fun e => att_of (drdid_panel o k tl (map (reweight e h) l))) (avg_with h l inf).
Proof.
  intros WO IO SM E HE. assert (E' := E). apply dr_inv in E'. destruct E' as [N0 [_ [g [b [M [H [_ [_ [Hm _]]]]]]]]]. apply mean_wt_pos_weights in Hm.
  assert (P := mean_pos_of l N0 Hm).
  assert (R : forall e, drdid_panel o k tl (map (reweight e (h_norm l h)) (normalise l)) = drdid_panel o k tl (map (reweight e h) l)).
  { intros e. rewrite reweight_norm by exact Hm. apply dr_scale. exact P. }
  rewrite <- (avg_norm l h inf Hm).
  apply (D_ext (fun e => att_of (drdid_panel o k tl (map (reweight e (h_norm l h)) (normalise l))))); [apply near0_all; intros e; rewrite R; reflexivity|].
  apply (dr_derivative_normalised o k tl (normalise l) (h_norm l h) IO (normalise_idem l Hm) (smooth_normalise _ _ _ _ _ Hm SM) att inf WO).
  - rewrite normalise_as_scale, dr_scale by exact P. exact E.
  - eapply near0_impl; [|exact HE]. cbn beta. intros e. rewrite R. auto.
Qed.
