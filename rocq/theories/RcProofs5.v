(** Proofs for C93: derivatives of the repeated cross-section estimates with respect to the row weights. *)
From Verif Require Import Base ListLib ReduceModel ReduceProofs2 Calc DrdidModel DrdidSpec DrdidProofs DrdidProofs2 DrdidProofs3 DrdidProofs4 DrdidProofs5 DrdidProofs6 DrdidProofs7 DrdidProofs8 RcModel RcSpec RcCalc RcProofs RcProofs2 RcProofs3 RcProofs4.

Lemma rreweight0 h l : map (rreweight 0 h) l = l.
Proof. transitivity (map (fun u => u) l); [|apply map_id]. apply map_ext. intros [i d t y w x]. unfold rreweight, rset_w. cbn. f_equal. ring. Qed.
Lemma ravg_map h l (g : runit -> Qc) : ravg_with h l (map g l) = sumf (fun u => h u * g u) l / qn (length l).
Proof. unfold ravg_with. rewrite combine_map_self, sumf_map. reflexivity. Qed.
Lemma R_reweight e h c v l : blind c -> blind v ->
  R c v (map (rreweight e h) l) = sumf (fun u => r_w u * (1 + e * h u) * (c u * v u)) l / sumf (fun u => r_w u * (1 + e * h u) * c u) l.
Proof.
  intros Bc Bv. unfold R. rewrite !sumf_map. f_equal; apply sumf_ext; intros u _; unfold rreweight; rewrite Bc, ?Bv; cbn [rset_w r_w]; ring.
Qed.
Lemma dotk_vdiv_r k x v c : dotk k x (vdiv v c) = dotk k x v / c.
Proof.
  unfold dotk, vdiv. rewrite <- sumf_div. apply sumf_ext. intros j _.
  destruct (Nat.lt_ge_cases j (length v)) as [L|L].
  - rewrite (nth_indep (map (fun a => a / c) v) 0 (0 / c)) by (rewrite map_length; exact L). rewrite (map_nth (fun a => a / c) v 0 j). unfold Qcdiv. ring.
  - rewrite (nth_overflow v), (nth_overflow (map _ v)) by (rewrite ?map_length; exact L). unfold Qcdiv. ring.
Qed.
Lemma dotk_vneg_r k x v : dotk k x (vneg v) = - dotk k x v.
Proof.
  unfold dotk, vneg. rewrite <- sumf_opp. apply sumf_ext. intros j _.
  destruct (Nat.lt_ge_cases j (length v)) as [L|L].
  - rewrite (nth_indep (map (fun a => - a) v) 0 (- 0)) by (rewrite map_length; exact L). rewrite (map_nth (fun a => - a) v 0 j). ring.
  - rewrite (nth_overflow v), (nth_overflow (map _ v)) by (rewrite ?map_length; exact L). ring.
Qed.

Section Score.
  Context (o : roracle) (k : nat) (tl : Qc) (l : list runit) (h : runit -> Qc).
  Context (SM : rsmooth_logit o k tl l h) (HW : near0 (fun e => mean r_w (map (rreweight e h) l) <> 0)).
  Let g (e : Qc) : list Qc := rgamma_of o (map (rreweight e h) l).
  Let p (u : runit) (e : Qc) : Qc := rps_fit (ro_mu o) k (g e) u.
  Lemma rchoose_d : exists d : nat -> Qc, forall j, (j < k)%nat -> derivative_at_0 (fun e => nth j (g e) 0) (d j).
  Proof.
    destruct SM as [Hd _]. clear SM. fold g in Hd. cbn beta zeta in Hd. revert Hd. induction k as [|n IH]; intros Hd.
    - exists (fun _ => 0). intros j Hj. lia.
    - destruct IH as [d Hd']; [intros j Hj; apply Hd; lia|]. destruct (Hd n) as [dn Hn]; [lia|].
      exists (fun j => if (j =? n)%nat then dn else d j). intros j Hj. destruct (Nat.eqb_spec j n) as [->|N]; [exact Hn|apply Hd'; lia].
  Qed.
  Lemma rp_mu u : In u l -> near0 (fun e => ro_mu o (dotk k (r_x u) (g e)) = p u e).
  Proof.
    intros Hu. destruct SM as [_ [_ Hz]]. destruct (Hz u Hu) as [Dm [Lo [Hi _]]]. fold g in Dm, Lo, Hi. destruct rchoose_d as [d Hd].
    assert (DD := D_comp (ro_mu o) (fun e => dotk k (r_x u) (g e)) _ _ Dm (D_dotk k (r_x u) g d Hd)).
    assert (N1 := D_gt _ _ _ DD Lo). assert (N2 := D_lt _ _ _ DD Hi).
    eapply near0_impl; [|apply (near0_and _ _ N1 N2)]. cbn beta. intros e [H1 H2]. unfold p, rps_fit, clip.
    destruct (Qcltb_spec (ro_mu o (dotk k (r_x u) (g e))) eps6) as [L|_]; [exfalso; apply (Qclt_not_le _ _ H1), Qclt_le_weak, L|].
    destruct (Qcltb_spec (1 - eps6) (ro_mu o (dotk k (r_x u) (g e)))) as [L|_]; [exfalso; apply (Qclt_not_le _ _ H2), Qclt_le_weak, L|]. reflexivity.
  Qed.
  Lemma rp_deriv d u : (forall j, (j < k)%nat -> derivative_at_0 (fun e => nth j (g e) 0) (d j)) -> In u l ->
    derivative_at_0 (p u) (p u 0 * (1 - p u 0) * gxdot k r_x d u).
  Proof.
    intros Hd Hu. assert (P := rp_mu u Hu). assert (P0 := near0_at0 _ P). cbn beta in P0. apply (D_ext _ _ _ P).
    destruct SM as [_ [_ Hz]]. destruct (Hz u Hu) as [Dm _]. fold g in Dm.
    rewrite <- P0. exact (D_comp (ro_mu o) (fun e => dotk k (r_x u) (g e)) _ _ Dm (D_dotk k (r_x u) g d Hd)).
  Qed.
  Lemma rp_bounds u e : 0 < p u e /\ 0 < 1 - p u e.
  Proof. destruct (rps_bounds (ro_mu o) k (g e) u) as [A B]. fold (p u e) in A, B. assert (0 < eps6) by reflexivity. split; qclra. Qed.
  Lemma rp_tl u : In u l -> near0 (fun e => Qcltb (p u e) tl = Qcltb (p u 0) tl).
  Proof.
    intros Hu. destruct rchoose_d as [d Hd]. assert (DP := rp_deriv d u Hd Hu). assert (P0 := near0_at0 _ (rp_mu u Hu)). cbn beta in P0.
    destruct SM as [_ [_ Hz]]. destruct (Hz u Hu) as [_ [_ [_ NT]]]. change (ro_mu o (dotk k (r_x u) (g 0)) <> tl) in NT. rewrite P0 in NT.
    destruct (Qc_dec (p u 0) tl) as [[L|L]|E]; [| |contradiction].
    - eapply near0_impl; [|apply (D_lt _ _ _ DP L)]. cbn beta. intros e He. destruct (Qcltb_spec (p u e) tl), (Qcltb_spec (p u 0) tl); congruence || contradiction.
    - eapply near0_impl; [|apply (D_gt _ _ _ DP L)]. cbn beta. intros e He.
      destruct (Qcltb_spec (p u e) tl) as [L2|]; [exfalso; apply (Qclt_not_le _ _ He), Qclt_le_weak, L2|].
      destruct (Qcltb_spec (p u 0) tl) as [L2|]; [exfalso; apply (Qclt_not_le _ _ L), Qclt_le_weak, L2|]. reflexivity.
  Qed.
  (** odds times an indicator that does not move *)
  Lemma odds_deriv (q : runit -> bool) d u : (forall j, (j < k)%nat -> derivative_at_0 (fun e => nth j (g e) 0) (d j)) -> In u l ->
    derivative_at_0 (fun e => ind (q u && Qcltb (p u e) tl) * (p u e / (1 - p u e))) (ind (q u && Qcltb (p u 0) tl) * (p u 0 / (1 - p u 0)) * gxdot k r_x d u).
  Proof.
    intros Hd Hu. apply (D_ext (fun e => ind (q u && Qcltb (p u 0) tl) * (p u e / (1 - p u e)))).
    { eapply near0_impl; [|apply (rp_tl u Hu)]. cbn beta. intros e He. rewrite He. reflexivity. }
    assert (DP := rp_deriv d u Hd Hu). destruct (rp_bounds u 0) as [B1 B2]. assert (N := Qc_pos_neq0 _ B2).
    assert (DQ := D_div (p u) (fun e => 1 - p u e) _ _ DP (D_sub (fun _ => 1) (p u) 0 _ (D_const 1) DP) N).
    assert (DR := D_scale (ind (q u && Qcltb (p u 0) tl)) _ _ DQ). revert DR. apply D_eq. cbn beta. field. exact N.
  Qed.
  Lemma rscore_near : near0 (fun e => forall j, (j < k)%nat -> sumf (fun u => r_w u * (1 + e * h u) * ((r_D u - p u e) * nth j (r_x u) 0)) l = 0).
  Proof.
    destruct SM as [_ [SC _]]. fold g in SC. eapply near0_impl; [|apply (near0_and _ _ SC HW)]. cbn beta. intros e [Se Hm] j Hj. specialize (Se j Hj).
    unfold rnormalise in Se. rewrite !sumf_map in Se.
    assert (E : / mean r_w (map (rreweight e h) l) * sumf (fun u => r_w u * (1 + e * h u) * ((r_D u - p u e) * nth j (r_x u) 0)) l = 0).
    { refine (eq_trans _ Se). rewrite <- sumf_mul_l. apply sumf_ext. intros u _. unfold p, rps_fit, r_D, rx_at, g. cbn [rreweight rset_w r_d r_w r_x]. unfold Qcdiv. ring. }
    apply Qcmult_integral in E. destruct E as [E|E]; [|exact E]. exfalso. revert E. apply inv_neq0. exact Hm.
  Qed.
  (** the derivative of the logit coefficients, from the linearised score equations *)
  Lemma rgamma_deriv d H : (forall j, (j < k)%nat -> derivative_at_0 (fun e => nth j (g e) 0) (d j)) ->
    is_inverse k (rps_gram k (fun u => p u 0) l) H ->
    forall i, (i < k)%nat -> d i = sumf (fun j => mget H j i * sumf (fun u => h u * (r_w u * (r_D u - p u 0) * nth j (r_x u) 0)) l) (seq 0 k).
  Proof.
    intros Hd HI. apply (ggamma_derivative k l r_w h r_x r_D p d (fun u Hu => rp_deriv d u Hd Hu) rscore_near H). exact HI.
  Qed.
End Score.

(** regression coefficients of one cell *)
Section Ols.
  Context (o : roracle) (k : nat) (b t : bool) (l : list runit) (h : runit -> Qc) (NL : rnormalise l = l) (Hl : l <> nil).
  Context (WO : rwls_ok o k) (IO : rinv_ok o k).
  Context (HE : near0 (fun e => (exists v, ro_wls o (cell b t (rnormalise (map (rreweight e h) l))) = Some v) /\ mean r_w (map (rreweight e h) l) <> 0)).
  Lemma rbeta_derivative beta0 M : ro_wls o (cell b t l) = Some beta0 -> ro_inv o (rgram k b t l) = Some M ->
    forall i, (i < k)%nat -> derivative_at_0 (fun e => nth i (rbeta_of o b t (map (rreweight e h) l)) 0)
      (sumf (fun j => mget M j i / qn (length l) * sumf (fun u => h u * (w_ols b t u * (r_y u - rout k beta0 u) * nth j (r_x u) 0)) l) (seq 0 k)).
  Proof.
    intros E0 EM i Hi. assert (Hn : qn (length l) <> 0) by (apply qn_neq0; destruct l; [congruence|cbn; lia]).
    assert (B0 : rbeta_of o b t (map (rreweight 0 h) l) = beta0) by (unfold rbeta_of; rewrite rreweight0, NL, E0; reflexivity).
    eapply D_eq; [|apply (gbeta_derivative k l r_w h r_x (fun u => ind (in_cell b t u)) r_y (fun e => rbeta_of o b t (map (rreweight e h) l)) (fun i j => mget M j i / qn (length l))); [| |exact Hi]].
    - apply sumf_ext. intros j _. f_equal. unfold gs. rewrite B0. apply sumf_ext. intros u _. rewrite wols_cell. unfold rout. ring.
    - eapply near0_impl; [|exact HE]. cbn beta. intros e [[v Ev] Hm] j Hj. unfold rbeta_of. rewrite Ev.
      assert (N := normal_raw _ _ _ _ _ Hm (WO _ _ Ev) j Hj). unfold cell in N. rewrite sumf_filter, sumf_map in N. refine (eq_trans _ N). apply sumf_ext. intros u _. unfold rx_at, in_cell.
      cbn [rreweight rset_w r_w r_x r_y r_d r_post]. ring.
    - intros a m Ha Hm. destruct (IO _ _ EM m a Hm Ha) as [E _]. rewrite Nat.eqb_sym, <- E. unfold mat_mul. apply sumf_ext. intros j Hj. apply in_seq in Hj.
      unfold rgram. rewrite mget_mat_of by lia. unfold mean, gG. rewrite (sumf_ext (fun u => w_ols b t u * rx_at u m * rx_at u j) (fun u => r_w u * ind (in_cell b t u) * nth j (r_x u) 0 * nth m (r_x u) 0)) by (intros; rewrite wols_cell; unfold rx_at; ring). unfold Qcdiv. ring.
  Qed.
  Lemma ols_cross M beta0 (f : runit -> Qc) (d : nat -> Qc) :
    (forall i, (i < k)%nat -> d i = sumf (fun j => mget M j i / qn (length l) * sumf (fun u => h u * (w_ols b t u * (r_y u - rout k beta0 u) * nth j (r_x u) 0)) l) (seq 0 k)) ->
    sumf (fun u => h u * dotk k (alr_ols k b t beta0 M u) (rmean_col k f l)) l = sumf (fun u => f u * gxdot k r_x d u) l.
  Proof. intros Hd. symmetry. exact (gcross k l h r_x M (fun u => w_ols b t u * (r_y u - rout k beta0 u)) f d Hl Hd). Qed.
End Ols.

Section Avg.
  Context (k : nat) (l : list runit) (h : runit -> Qc) (Hl : l <> nil).
  Notation n := (qn (length l)).
  Lemma rn_neq0 : n <> 0. Proof. apply qn_neq0. destruct l; [congruence|cbn; lia]. Qed.
  Lemma logit_cross ps H (f : runit -> Qc) (d : nat -> Qc) :
    (forall i, (i < k)%nat -> d i = sumf (fun j => mget H j i * sumf (fun u => h u * (r_w u * (r_D u - ps u) * nth j (r_x u) 0)) l) (seq 0 k)) ->
    sumf (fun u => h u * dotk k (alr_logit k ps (mscale n H) u) (rmean_col k f l)) l = sumf (fun u => f u * gxdot k r_x d u) l.
  Proof.
    intros Hd. symmetry. apply (gcross k l h r_x (mscale n H) (fun u => r_w u * (r_D u - ps u)) f d Hl). intros i Hi. rewrite (Hd i Hi). apply sumf_ext. intros j _.
    rewrite mget_mscale. field. apply rn_neq0.
  Qed.
  Section Comp.
    Context (w c v : runit -> Qc) (Hw : forall u, w u = r_w u * c u) (HK : sumf (fun u => r_w u * c u) l <> 0).
    Notation K := (sumf (fun u => r_w u * c u) l).
    Lemma avg_lead : sumf (fun u => h u * lead w v l u) l / n = sumf (fun u => h u * (r_w u * c u * (v u - R c v l))) l / K.
    Proof.
      assert (Hn := rn_neq0). unfold lead, eta. rewrite (att_R w c v l Hw), (mean_c w c l Hw).
      rewrite (sumf_ext _ (fun u => h u * (r_w u * c u * (v u - R c v l)) * (n / K))) by (intros; rewrite Hw; field; auto). rewrite sumf_mul_r. field. auto.
    Qed.
    Lemma avg_ps_moment ps H d :
      (forall i, (i < k)%nat -> d i = sumf (fun j => mget H j i * sumf (fun u => h u * (r_w u * (r_D u - ps u) * nth j (r_x u) 0)) l) (seq 0 k)) ->
      sumf (fun u => h u * dotk k (alr_logit k ps (mscale n H) u) (ps_moment k w v l)) l / n
      = sumf (fun u => r_w u * (c u * gxdot k r_x d u) * (v u - R c v l)) l / K.
    Proof.
      intros Hd. assert (Hn := rn_neq0). unfold ps_moment. rewrite (sumf_ext _ (fun u => h u * dotk k (alr_logit k ps (mscale n H) u) (rmean_col k (fun u => w u * (v u - att_c w v l)) l) * / mean w l)).
      - rewrite sumf_mul_r, (logit_cross ps H _ d Hd), (mean_c w c l Hw), (att_R w c v l Hw).
        rewrite (sumf_ext (fun u => r_w u * _ * _) (fun u => w u * (v u - R c v l) * gxdot k r_x d u)) by (intros; rewrite Hw; ring). field. auto.
      - intros u _. rewrite dotk_vdiv_r. unfold Qcdiv. ring.
    Qed.
    Lemma avg_or_moment b t beta M s d :
      (forall i, (i < k)%nat -> d i = sumf (fun j => mget M j i / n * sumf (fun u => h u * (w_ols b t u * (r_y u - rout k beta u) * nth j (r_x u) 0)) l) (seq 0 k)) ->
      (forall u, c u * s u = c u) ->
      sumf (fun u => h u * dotk k (alr_ols k b t beta M u) (or_moment k w s l)) l / n = - (sumf (fun u => r_w u * c u * gxdot k r_x d u) l / K).
    Proof.
      intros Hd Hs. assert (Hn := rn_neq0). unfold or_moment. rewrite (sumf_ext _ (fun u => h u * dotk k (alr_ols k b t beta M u) (rmean_col k (fun u => w u * s u) l) * (- / mean w l))).
      - rewrite sumf_mul_r, (ols_cross k b t l h Hl M beta _ d Hd), (mean_c w c l Hw).
        rewrite (sumf_ext (fun u => w u * s u * gxdot k r_x d u) (fun u => r_w u * c u * gxdot k r_x d u)) by (intros u _; rewrite Hw; transitivity (r_w u * (c u * s u) * gxdot k r_x d u); [ring|rewrite Hs; reflexivity]). field. auto.
      - intros u _. rewrite dotk_vdiv_r, dotk_vneg_r. unfold Qcdiv. ring.
    Qed.
  End Comp.
  Lemma R_gxdot c d : sumf (fun u => r_w u * c u * gxdot k r_x d u) l / sumf (fun u => r_w u * c u) l = sumf (fun j => R c (fun u => rx_at u j) l * d j) (seq 0 k).
  Proof.
    unfold gxdot. rewrite (sumf_ext (fun u => r_w u * c u * _) (fun u => sumf (fun j => r_w u * c u * rx_at u j * d j) (seq 0 k))) by (intros u _; rewrite <- sumf_mul_l; apply sumf_ext; intros; unfold rx_at; ring).
    rewrite sumf_swap, <- sumf_div. apply sumf_ext. intros j _. rewrite sumf_mul_r. unfold R, Qcdiv. ring.
  Qed.
End Avg.
