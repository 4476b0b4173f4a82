(** Proofs for C27, continued: derivatives of the propensity-score based estimates. *)
From Verif Require Import Base ListLib ReduceModel ReduceProofs2 Calc DrdidModel DrdidSpec DrdidProofs DrdidProofs2 DrdidProofs3 DrdidProofs4 DrdidProofs5 DrdidProofs6 DrdidProofs7 DrdidProofs8.

Section Score.
  Context (o : oracle) (k : nat) (tl : Qc) (l : list punit) (h : punit -> Qc).
  Context (SM : smooth_logit o k tl l h) (Hl : l <> []).
  Context (HW : near0 (fun e => mean p_w (map (reweight e h) l) <> 0)).
  Let g (e : Qc) : list Qc := gamma_of o (map (reweight e h) l).
  Let p (u : punit) (e : Qc) : Qc := ps_fit (o_mu o) k (g e) u.
  Let z (u : punit) : Qc := dotk k (p_x u) (g 0).
  Definition s_ps (ps : punit -> Qc) (j : nat) : Qc := sumf (fun u => p_w u * h u * ((p_D u - ps u) * x_at u j)) l.
  Definition xdot (d : nat -> Qc) (u : punit) : Qc := sumf (fun j => x_at u j * d j) (seq 0 k).

  Lemma choose_d : exists d : nat -> Qc, forall j, (j < k)%nat -> derivative_at_0 (fun e => nth j (g e) 0) (d j).
  Proof.
    destruct SM as [Hd _]. clear SM. fold g in Hd. cbn beta zeta in Hd. revert Hd. induction k as [|n IH]; intros Hd.
    - exists (fun _ => 0). intros j Hj. lia.
    - destruct IH as [d Hd']; [intros j Hj; apply Hd; lia|]. destruct (Hd n) as [dn Hn]; [lia|].
      exists (fun j => if (j =? n)%nat then dn else d j). intros j Hj. destruct (Nat.eqb_spec j n) as [->|N]; [exact Hn|apply Hd'; lia].
  Qed.
  Lemma p_mu u : In u l -> near0 (fun e => o_mu o (dotk k (p_x u) (g e)) = p u e).
  Proof.
    intros Hu. destruct SM as [_ [_ Hz]]. destruct (Hz u Hu) as [Dm [Lo [Hi _]]]. fold g in Dm, Lo, Hi. destruct choose_d as [d Hd].
    assert (DD := D_comp (o_mu o) (fun e => dotk k (p_x u) (g e)) _ _ Dm (D_dotk k (p_x u) g d Hd)).
    assert (N1 := D_gt _ _ _ DD Lo). assert (N2 := D_lt _ _ _ DD Hi).
    eapply near0_impl; [|apply (near0_and _ _ N1 N2)]. cbn beta. intros e [H1 H2]. unfold p, ps_fit, clip.
    destruct (Qcltb_spec (o_mu o (dotk k (p_x u) (g e))) eps6) as [L|_]; [exfalso; apply (Qclt_not_le _ _ H1), Qclt_le_weak, L|].
    destruct (Qcltb_spec (1 - eps6) (o_mu o (dotk k (p_x u) (g e)))) as [L|_]; [exfalso; apply (Qclt_not_le _ _ H2), Qclt_le_weak, L|]. reflexivity.
  Qed.
  Lemma p_deriv d u : (forall j, (j < k)%nat -> derivative_at_0 (fun e => nth j (g e) 0) (d j)) -> In u l ->
    derivative_at_0 (p u) (p u 0 * (1 - p u 0) * xdot d u).
  Proof.
    intros Hd Hu. assert (P := p_mu u Hu). assert (P0 := near0_at0 _ P). cbn beta in P0. apply (D_ext _ _ _ P).
    destruct SM as [_ [_ Hz]]. destruct (Hz u Hu) as [Dm _]. fold g in Dm.
    rewrite <- P0. exact (D_comp (o_mu o) (fun e => dotk k (p_x u) (g e)) _ _ Dm (D_dotk k (p_x u) g d Hd)).
  Qed.
  Lemma p_bounds u e : 0 < p u e /\ 0 < 1 - p u e.
  Proof. destruct (ps_fit_bounds (o_mu o) k (g e) u) as [A B]. fold (p u e) in A, B. assert (0 < eps6) by reflexivity. split; qclra. Qed.
  Lemma p_tl u : In u l -> near0 (fun e => Qcltb (p u e) tl = Qcltb (p u 0) tl).
  Proof.
    intros Hu. destruct choose_d as [d Hd]. assert (DP := p_deriv d u Hd Hu). assert (P0 := near0_at0 _ (p_mu u Hu)). cbn beta in P0.
    destruct SM as [_ [_ Hz]]. destruct (Hz u Hu) as [_ [_ [_ NT]]]. change (o_mu o (dotk k (p_x u) (g 0)) <> tl) in NT. rewrite P0 in NT.
    destruct (Qc_dec (p u 0) tl) as [[L|L]|E]; [| |contradiction].
    - eapply near0_impl; [|apply (D_lt _ _ _ DP L)]. cbn beta. intros e He. destruct (Qcltb_spec (p u e) tl), (Qcltb_spec (p u 0) tl); congruence || contradiction.
    - eapply near0_impl; [|apply (D_gt _ _ _ DP L)]. cbn beta. intros e He.
      destruct (Qcltb_spec (p u e) tl) as [L2|]; [exfalso; apply (Qclt_not_le _ _ He), Qclt_le_weak, L2|].
      destruct (Qcltb_spec (p u 0) tl) as [L2|]; [exfalso; apply (Qclt_not_le _ _ L), Qclt_le_weak, L2|]. reflexivity.
  Qed.
  (** the comparison weight (trimming indicator times odds), before the sampling weight *)
  Definition cw (ps : punit -> Qc) (u : punit) : Qc := ind (negb (p_d u) && Qcltb (ps u) tl) * (ps u / (1 - ps u)).
  Lemma cw_deriv d u : (forall j, (j < k)%nat -> derivative_at_0 (fun e => nth j (g e) 0) (d j)) -> In u l ->
    derivative_at_0 (fun e => cw (fun u => p u e) u) (cw (fun u => p u 0) u * xdot d u).
  Proof.
    intros Hd Hu. apply (D_ext (fun e => ind (negb (p_d u) && Qcltb (p u 0) tl) * (p u e / (1 - p u e)))).
    { eapply near0_impl; [|apply (p_tl u Hu)]. cbn beta. intros e He. unfold cw. rewrite He. reflexivity. }
    assert (DP := p_deriv d u Hd Hu). destruct (p_bounds u 0) as [B1 B2]. assert (N := Qc_pos_neq0 _ B2).
    assert (DQ := D_div (p u) (fun e => 1 - p u e) _ _ DP (D_sub (fun _ => 1) (p u) 0 _ (D_const 1) DP) N).
    assert (DR := D_scale (ind (negb (p_d u) && Qcltb (p u 0) tl)) _ _ DQ). revert DR. apply D_eq. unfold cw. cbn beta. field. exact N.
  Qed.
  (** the linearised score equations *)
  Lemma gamma_derivative d H : (forall j, (j < k)%nat -> derivative_at_0 (fun e => nth j (g e) 0) (d j)) ->
    is_inverse k (ps_gram k (fun u => p u 0) l) H ->
    forall i, (i < k)%nat -> d i = sumf (fun j => mget H j i * s_ps (fun u => p u 0) j) (seq 0 k).
  Proof.
    intros Hd HI i Hi. destruct SM as [_ [SC _]]. fold g in SC.
    assert (EJ : forall j, (j < k)%nat -> sumf (fun u => p_w u * (p u 0 * (1 - p u 0)) * xdot d u * x_at u j) l = s_ps (fun u => p u 0) j).
    { intros j Hj. 
      assert (Z : near0 (fun e => sumf (fun u => p_w u * (1 + e * h u) * ((p_D u - p u e) * x_at u j)) l = 0)).
      { eapply near0_impl; [|apply (near0_and _ _ SC HW)]. cbn beta. intros e [Se Hm]. specialize (Se j Hj). unfold normalise in Se. rewrite !sumf_map in Se.
        assert (E : / mean p_w (map (reweight e h) l) * sumf (fun u => p_w u * (1 + e * h u) * ((p_D u - p u e) * x_at u j)) l = 0).
        { refine (eq_trans _ Se). rewrite <- sumf_mul_l. apply sumf_ext. intros u _. unfold p, ps_fit, p_D, x_at, g. cbn [reweight set_w p_d p_w p_x]. unfold Qcdiv. ring. }
        apply Qcmult_integral in E. destruct E as [E|E]; [|exact E]. exfalso. apply Hm. set (m := mean p_w _) in *. transitivity (m * m * / m); [field; exact Hm|rewrite E; ring]. }
      assert (D1 := D_wsum l h (fun u e => (p_D u - p u e) * x_at u j) (fun u => (0 - p u 0 * (1 - p u 0) * xdot d u) * x_at u j + (p_D u - p u 0) * 0)
        (fun u Hu => D_mul (fun e => p_D u - p u e) (fun _ => x_at u j) _ _ (D_sub (fun _ => p_D u) (p u) 0 _ (D_const _) (p_deriv d u Hd Hu)) (D_const _))).
      assert (D0 := D_ext _ _ _ (near0_impl _ _ (fun e E => eq_sym E) Z) (D_const 0)).
      assert (U := D_unique _ _ _ D1 D0). cbn beta in U. fold (s_ps (fun u => p u 0) j) in U.
      rewrite (sumf_ext (fun u => p_w u * ((0 - p u 0 * (1 - p u 0) * xdot d u) * x_at u j + (p_D u - p u 0) * 0)) (fun u => - (p_w u * (p u 0 * (1 - p u 0)) * xdot d u * x_at u j))) in U by (intros; ring).
      rewrite sumf_opp in U. symmetry. apply Qc_sub_0_eq. exact U. }
    transitivity (sumf (fun m => ind (i =? m)%nat * d m) (seq 0 k)); [symmetry; apply ind_eqb_sum; exact Hi|].
    transitivity (sumf (fun j => mget H j i * sumf (fun m => mget (ps_gram k (fun u => p u 0) l) m j * d m) (seq 0 k)) (seq 0 k)).
    - rewrite (sumf_ext (fun j => mget H j i * _) (fun j => sumf (fun m => mget (ps_gram k (fun u => p u 0) l) m j * mget H j i * d m) (seq 0 k))) by (intros j _; rewrite <- sumf_mul_l; apply sumf_ext; intros; ring).
      rewrite sumf_swap. apply sumf_ext. intros m Hm. apply in_seq in Hm. rewrite sumf_mul_r. f_equal. rewrite Nat.eqb_sym. symmetry. apply (HI m i); [lia|exact Hi].
    - apply sumf_ext. intros j Hj. apply in_seq in Hj. f_equal. rewrite <- EJ by lia.
      rewrite (sumf_ext (fun m => mget _ m j * d m) (fun m => sumf (fun u => p_w u * (p u 0 * (1 - p u 0)) * x_at u j * (x_at u m * d m)) l)).
      + rewrite sumf_swap. apply sumf_ext. intros u _. rewrite sumf_mul_l. unfold xdot. ring.
      + intros m Hm. apply in_seq in Hm. unfold ps_gram. rewrite mget_mat_of by lia. rewrite <- sumf_mul_r. apply sumf_ext. intros. ring.
  Qed.
  (** derivatives of the two weighted means of a moving variable *)
  Lemma treat_mean_deriv (v : punit -> Qc -> Qc) (dv : punit -> Qc) : (forall u, In u l -> derivative_at_0 (v u) (dv u)) ->
    sumf (fun u => p_w u * p_D u) l <> 0 ->
    let eta := sumf (fun u => p_w u * p_D u * v u 0) l / sumf (fun u => p_w u * p_D u) l in
    derivative_at_0 (fun e => sumf (fun u => p_w u * (1 + e * h u) * (p_D u * v u e)) l / sumf (fun u => p_w u * (1 + e * h u) * p_D u) l)
      ((sumf (fun u => h u * (p_w u * p_D u * (v u 0 - eta))) l + sumf (fun u => p_w u * p_D u * dv u) l) / sumf (fun u => p_w u * p_D u) l).
  Proof.
    intros Hv T eta.
    assert (T0 : sumf (fun u => p_w u * (1 + 0 * h u) * p_D u) l = sumf (fun u => p_w u * p_D u) l) by (apply sumf_ext; intros; ring).
    eapply D_eq; [|apply D_div].
    3:{ apply (D_wsum l h (fun u _ => p_D u) (fun _ => 0)). intros u _. apply D_const. }
    2:{ apply (D_wsum l h (fun u e => p_D u * v u e) (fun u => p_D u * dv u)). intros u Hu. apply D_scale, Hv, Hu. }
    2:{ cbn beta. rewrite T0. exact T. }
    cbn beta. rewrite T0. f_equal.
    rewrite (sumf_ext (fun u => p_w u * (1 + 0 * h u) * (p_D u * v u 0)) (fun u => p_w u * p_D u * v u 0)) by (intros; ring). fold eta.
    rewrite (sumf_ext (fun u => h u * (p_w u * p_D u * (v u 0 - eta))) (fun u => p_w u * h u * (p_D u * v u 0) - p_w u * h u * p_D u * eta)) by (intros; ring).
    rewrite (sumf_ext (fun u => p_w u * 0) (fun _ => 0)), sumf_0 by (intros; ring). rewrite sumf_sub, sumf_mul_r.
    rewrite (sumf_ext (fun u => p_w u * (p_D u * dv u)) (fun u => p_w u * p_D u * dv u)) by (intros; ring). ring.
  Qed.
  Lemma cont_mean_deriv d (v : punit -> Qc -> Qc) (dv : punit -> Qc) :
    (forall j, (j < k)%nat -> derivative_at_0 (fun e => nth j (g e) 0) (d j)) ->
    (forall u, In u l -> derivative_at_0 (v u) (dv u)) ->
    let c := cw (fun u => p u 0) in
    sumf (fun u => p_w u * c u) l <> 0 ->
    let eta := sumf (fun u => p_w u * c u * v u 0) l / sumf (fun u => p_w u * c u) l in
    derivative_at_0 (fun e => sumf (fun u => p_w u * (1 + e * h u) * (cw (fun u => p u e) u * v u e)) l / sumf (fun u => p_w u * (1 + e * h u) * cw (fun u => p u e) u) l)
      ((sumf (fun u => h u * (p_w u * c u * (v u 0 - eta))) l + sumf (fun u => p_w u * c u * (v u 0 - eta) * xdot d u) l
        + sumf (fun u => p_w u * c u * dv u) l) / sumf (fun u => p_w u * c u) l).
  Proof.
    intros Hd Hv c C eta.
    assert (T0 : sumf (fun u => p_w u * (1 + 0 * h u) * c u) l = sumf (fun u => p_w u * c u) l) by (apply sumf_ext; intros; ring).
    eapply D_eq; [|apply D_div].
    3:{ apply (D_wsum l h (fun u e => cw (fun u => p u e) u) (fun u => c u * xdot d u)). intros u Hu. apply cw_deriv; assumption. }
    2:{ apply (D_wsum l h (fun u e => cw (fun u => p u e) u * v u e) (fun u => c u * xdot d u * v u 0 + c u * dv u)). intros u Hu.
        apply (D_mul (fun e => cw (fun u => p u e) u) (v u)); [apply cw_deriv; assumption|apply Hv, Hu]. }
    2:{ cbn beta. fold c. rewrite T0. exact C. }
    cbn beta. fold c. rewrite T0. f_equal.
    rewrite (sumf_ext (fun u => p_w u * (1 + 0 * h u) * (c u * v u 0)) (fun u => p_w u * c u * v u 0)) by (intros; ring). fold eta.
    rewrite (sumf_ext (fun u => h u * (p_w u * c u * (v u 0 - eta))) (fun u => p_w u * h u * (c u * v u 0) - p_w u * h u * c u * eta)) by (intros; ring).
    rewrite (sumf_ext (fun u => p_w u * c u * (v u 0 - eta) * xdot d u) (fun u => p_w u * (c u * xdot d u * v u 0) - p_w u * (c u * xdot d u) * eta)) by (intros; ring).
    rewrite (sumf_ext (fun u => p_w u * (c u * xdot d u * v u 0 + c u * dv u)) (fun u => p_w u * (c u * xdot d u * v u 0) + p_w u * c u * dv u)) by (intros; ring).
    rewrite !sumf_sub, !sumf_mul_r, sumf_add. ring.
  Qed.
  Lemma cross2_ps (H : matrix) (v : list Qc) ps :
    sumf (fun u => h u * dotk k (alr_ps k ps H u) v) l = sumf (fun j => s_ps ps j * nth j (mv k H v) 0) (seq 0 k).
  Proof.
    rewrite (sumf_ext _ (fun u => sumf (fun j => p_w u * h u * ((p_D u - ps u) * x_at u j) * nth j (mv k H v) 0) (seq 0 k))).
    - rewrite sumf_swap. apply sumf_ext. intros j _. unfold s_ps. apply sumf_mul_r.
    - intros u Hu. unfold alr_ps. rewrite dotk_vm, dotk_scale_l. unfold dotk. rewrite <- !sumf_mul_l. apply sumf_ext. intros j _. unfold x_at. ring.
  Qed.
  Lemma w_cont_cw ps u : w_cont tl ps u = p_w u * cw ps u.
  Proof. unfold w_cont, cw, trim_ps, p_D. destruct (p_d u), (Qcltb (ps u) tl); cbn [negb andb orb ind]; unfold Qcdiv; ring. Qed.
  Lemma w_treat_D ps u : w_treat tl ps u = p_w u * p_D u.
  Proof. unfold w_treat, trim_ps, p_D. destruct (p_d u), (Qcltb (ps u) tl); cbn [negb andb orb ind]; ring. Qed.
  Lemma odds_mean_reweight e (v : punit -> Qc) : (forall w u, v (set_w w u) = v u) ->
    odds_mean tl (ps_fit (o_mu o) k (g e)) v (map (reweight e h) l)
    = sumf (fun u => p_w u * (1 + e * h u) * (cw (fun u => p u e) u * v u)) l / sumf (fun u => p_w u * (1 + e * h u) * cw (fun u => p u e) u) l.
  Proof.
    intros Hv. unfold odds_mean. cbn zeta. rewrite !sumf_filter, !sumf_map. unfold cw, p.
    f_equal; apply sumf_ext; intros u _; change (ps_fit (o_mu o) k (g e) (reweight e h u)) with (ps_fit (o_mu o) k (g e) u);
      cbn [reweight set_w p_d p_w]; [unfold reweight; rewrite Hv|]; ring.
  Qed.
End Score.
