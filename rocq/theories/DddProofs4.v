(** Proofs for C53 and C55: each comparison is the two-group estimator of drdid on the two subgroups; the influence function is a
    derivative. *)
From Verif Require Import Base ListLib ReduceModel ReduceProofs2 Calc DrdidModel DrdidSpec DrdidProofs DrdidProofs2 DrdidProofs3 DrdidProofs4 DrdidProofs5 DrdidProofs6 DrdidProofs7 DrdidProofs8 DrdidProofs9 DrdidProofs10 DddModel DddSpec DddProofs DddProofs2 DddProofs3.

Lemma inverse_scale k c (A B M1 M2 : matrix) : (forall i j, (i < k)%nat -> (j < k)%nat -> mget A i j = c * mget B i j) ->
  is_inverse k A M1 -> is_inverse k B M2 -> forall i j, (i < k)%nat -> (j < k)%nat -> mget M2 i j = c * mget M1 i j.
Proof.
  intros HA I1 I2 i j Hi Hj.
  transitivity (sumf (fun l => ind (i =? l)%nat * mget M2 l j) (seq 0 k)); [symmetry; apply (ind_eqb_sum k i (fun l => mget M2 l j) Hi)|].
  rewrite (sumf_ext _ (fun l => sumf (fun p => mget M1 i p * (c * (mget B p l * mget M2 l j))) (seq 0 k))).
  - rewrite sumf_swap. rewrite (sumf_ext _ (fun p => ind (j =? p)%nat * (c * mget M1 i p))).
    + apply (ind_eqb_sum k j (fun p => c * mget M1 i p) Hj).
    + intros p Hp. apply in_seq in Hp. rewrite !sumf_mul_l. destruct (I2 p j) as [E _]; [lia|exact Hj|]. unfold mat_mul in E. rewrite E, Nat.eqb_sym. ring.
  - intros l Hl. apply in_seq in Hl. destruct (I1 i l) as [_ E]; [exact Hi|lia|]. rewrite <- E. unfold mat_mul. rewrite <- sumf_mul_r. apply sumf_ext. intros p Hp. apply in_seq in Hp.
    rewrite HA by lia. ring.
Qed.
Lemma mv_scale_nth k c M1 M2 v i : (forall i j, (i < k)%nat -> (j < k)%nat -> mget M2 i j = c * mget M1 i j) -> (i < k)%nat ->
  nth i (mv k M2 v) 0 = c * nth i (mv k M1 v) 0.
Proof.
  intros H Hi. unfold mv. rewrite !nth_map_seq by lia. rewrite <- sumf_mul_l. apply sumf_ext. intros j Hj. apply in_seq in Hj. rewrite H by lia. ring.
Qed.
Lemma alr_scaled k c M1 M2 a x v : (forall i j, (i < k)%nat -> (j < k)%nat -> mget M2 i j = c * mget M1 i j) ->
  dotk k (vm k (vscale (c * a) x) M1) v = dotk k (vm k (vscale a x) M2) v.
Proof.
  intros H. rewrite !dotk_vm. apply dotk_ext. intros i Hi. rewrite !nth_vscale, (mv_scale_nth k c M1 M2 v i H Hi). ring.
Qed.

Section Bridge.
  Context (k : nat) (tl c : Qc) (N : list punit) (Hc : c <> 0).
  Notation sc := (scale_w c).
  Notation L := (map sc N).
  Lemma ols_scaled : forall i j, (i < k)%nat -> (j < k)%nat -> mget (ols_gram k L) i j = c * mget (ols_gram k N) i j.
  Proof. intros i j Hi Hj. unfold ols_gram. rewrite !mget_mat_of by assumption. rewrite mean_map, <- mean_mul_l. apply mean_ext. intros u _. unfold x_at, p_D, scale_w. cbn. ring. Qed.
  Lemma psg_scaled ps1 ps2 : (forall u, In u N -> ps1 (sc u) = ps2 u) -> forall i j, (i < k)%nat -> (j < k)%nat -> mget (ps_gram k ps1 L) i j = c * mget (ps_gram k ps2 N) i j.
  Proof. intros H i j Hi Hj. unfold ps_gram. rewrite !mget_mat_of by assumption. rewrite sumf_map, <- sumf_mul_l. apply sumf_ext. intros u Hu. rewrite H by exact Hu. unfold x_at, scale_w. cbn. ring. Qed.
  Lemma mean_scaled (f g : punit -> Qc) : (forall u, In u N -> f (sc u) = c * g u) -> mean f L = c * mean g N.
  Proof. intros H. rewrite mean_map, <- mean_mul_l. apply mean_ext. exact H. Qed.
  Lemma wmean_scaled (f g v w : punit -> Qc) : (forall u, In u N -> f (sc u) = c * g u) -> (forall u, In u N -> v (sc u) = w u) -> wmean f v L = wmean g w N.
  Proof.
    intros H1 H2. unfold wmean. rewrite (mean_scaled f g H1), (mean_scaled (fun u => f u * v u) (fun u => g u * w u)) by (intros u Hu; rewrite H1, H2 by exact Hu; ring).
    apply ratio_scale. exact Hc.
  Qed.
  Lemma mean_col_scaled (f g : punit -> Qc) : (forall u, In u N -> f (sc u) = c * g u) -> mean_col k f L = vscale c (mean_col k g N).
  Proof.
    intros H. unfold mean_col, vec_of, vscale. rewrite map_map. apply map_ext. intros j. rewrite (mean_scaled (fun u => f u * x_at u j) (fun u => g u * x_at u j)); [reflexivity|].
    intros u Hu. rewrite H by exact Hu. unfold x_at, scale_w. cbn. ring.
  Qed.
  Context (ps1 ps2 out : punit -> Qc) (Hps : forall u, In u N -> ps1 (sc u) = ps2 u) (Hout : forall u, out (sc u) = out u).
  Context (M1 M2 H1 H2 : matrix).
  Context (HM : forall i j, (i < k)%nat -> (j < k)%nat -> mget M2 i j = c * mget M1 i j).
  Context (HH : forall i j, (i < k)%nat -> (j < k)%nat -> mget H2 i j = c * mget H1 i j).
  Lemma br_alr_w u v : In u N -> dotk k (alr_wols k out M1 (sc u)) v = dotk k (alr_wols k out M2 u) v.
  Proof.
    intros Hu. unfold alr_wols. rewrite Hout. rewrite <- (alr_scaled k c M1 M2 _ _ v HM). f_equal. f_equal. f_equal. unfold p_D, scale_w. cbn. change (p_dy (set_w (c * p_w u) u)) with (p_dy u). ring.
  Qed.
  Lemma br_alr_p u v : In u N -> dotk k (alr_ps k ps1 H1 (sc u)) v = dotk k (alr_ps k ps2 H2 u) v.
  Proof.
    intros Hu. unfold alr_ps. rewrite Hps by exact Hu. rewrite <- (alr_scaled k c H1 H2 _ _ v HH). f_equal. f_equal. f_equal. unfold p_D, scale_w. cbn. ring.
  Qed.
  Lemma br_wt m u : In u N -> tw_treat m tl ps1 (sc u) = c * w_treat tl ps2 u.
  Proof. intros Hu. rewrite twt, w_treat_D. unfold p_D, scale_w. cbn. ring. Qed.
  Lemma br_wc m u : m <> Reg -> In u N -> tw_control m tl ps1 (sc u) = c * w_cont tl ps2 u.
  Proof. intros Hm Hu. rewrite twc, w_cont_cw. unfold cwm, cw. rewrite Hps by exact Hu. destruct m; [|congruence|]; unfold scale_w; cbn [set_w p_w p_d]; ring. Qed.

  Lemma br_dr_att : pair_att Dr tl ps1 out L = dr_att tl ps2 out N.
  Proof.
    assert (DR : Dr <> Reg) by discriminate. unfold pair_att, dr_att.
    rewrite (wmean_scaled _ _ _ (fun u => p_dy u - out u) (fun u => br_wt Dr u)) by (intros; rewrite Hout; reflexivity).
    rewrite (wmean_scaled _ _ _ (fun u => p_dy u - out u) (fun u => br_wc Dr u DR)) by (intros; rewrite Hout; reflexivity).
    reflexivity.
  Qed.
  Lemma br_dr_inf u : In u N -> mean (w_treat tl ps2) N <> 0 -> mean (w_cont tl ps2) N <> 0 ->
    pair_inf Dr k tl ps1 out M1 H1 L (sc u) = dr_inf k tl ps2 out M2 H2 N u.
  Proof.
    intros Hu NT NC. assert (DR : Dr <> Reg) by discriminate. unfold pair_inf, dr_inf. cbn zeta.
    rewrite (mean_scaled _ _ (fun u => br_wt Dr u)), (mean_scaled _ _ (fun u => br_wc Dr u DR)).
    rewrite (wmean_scaled _ _ _ (fun u => p_dy u - out u) (fun u => br_wt Dr u)) by (intros; rewrite Hout; reflexivity).
    rewrite (wmean_scaled _ _ _ (fun u => p_dy u - out u) (fun u => br_wc Dr u DR)) by (intros; rewrite Hout; reflexivity).
    set (et := wmean (w_treat tl ps2) (fun u => p_dy u - out u) N). set (ec := wmean (w_cont tl ps2) (fun u => p_dy u - out u) N).
    rewrite (mean_col_scaled _ _ (fun u => br_wt Dr u)), (mean_col_scaled _ _ (fun u => br_wc Dr u DR)).
    rewrite (mean_col_scaled (fun v => tw_control Dr tl ps1 v * (p_dy v - out v - ec)) (fun v => w_cont tl ps2 v * (p_dy v - out v) - w_cont tl ps2 v * ec)).
    2:{ intros v Hv. rewrite (br_wc Dr v DR Hv), Hout. change (p_dy (sc v)) with (p_dy v). ring. }
    rewrite !dotk_scale_r, !br_alr_w, br_alr_p by exact Hu. rewrite (br_wt Dr u Hu), (br_wc Dr u DR Hu), Hout. change (p_dy (sc u)) with (p_dy u).
    field. repeat split; assumption.
  Qed.
  Lemma br_ipw_att : (forall u, out u = 0) -> pair_att Ipw tl ps1 out L = ipw_att tl ps2 N.
  Proof.
    intros H0. assert (DR : Ipw <> Reg) by discriminate. unfold pair_att, ipw_att. rewrite !mean_div_r.
    rewrite (wmean_scaled _ _ _ p_dy (fun u => br_wt Ipw u)) by (intros; rewrite H0; change (p_dy (sc u)) with (p_dy u); ring).
    rewrite (wmean_scaled _ _ _ p_dy (fun u => br_wc Ipw u DR)) by (intros; rewrite H0; change (p_dy (sc u)) with (p_dy u); ring).
    reflexivity.
  Qed.
  Lemma br_ipw_inf u : (forall u, out u = 0) -> In u N -> mean (w_treat tl ps2) N <> 0 -> mean (w_cont tl ps2) N <> 0 ->
    pair_inf Ipw k tl ps1 out M1 H1 L (sc u) = ipw_inf k tl ps2 H2 N u.
  Proof.
    intros H0 Hu NT NC. assert (DR : Ipw <> Reg) by discriminate. unfold pair_inf, ipw_inf. cbn zeta. rewrite !mean_div_r.
    rewrite (mean_scaled _ _ (fun u => br_wt Ipw u)), (mean_scaled _ _ (fun u => br_wc Ipw u DR)).
    rewrite (wmean_scaled _ _ _ p_dy (fun u => br_wt Ipw u)) by (intros; rewrite H0; change (p_dy (sc u0)) with (p_dy u0); ring).
    rewrite (wmean_scaled _ _ _ p_dy (fun u => br_wc Ipw u DR)) by (intros; rewrite H0; change (p_dy (sc u0)) with (p_dy u0); ring).
    fold (wmean (w_treat tl ps2) p_dy N). fold (wmean (w_cont tl ps2) p_dy N).
    set (et := wmean (w_treat tl ps2) p_dy N). set (ec := wmean (w_cont tl ps2) p_dy N).
    rewrite (mean_col_scaled (fun v => tw_control Ipw tl ps1 v * (p_dy v - out v - ec)) (fun v => w_cont tl ps2 v * (p_dy v - ec))).
    2:{ intros v Hv. rewrite (br_wc Ipw v DR Hv), H0. change (p_dy (sc v)) with (p_dy v). ring. }
    replace (map (fun v => v / mean (w_cont tl ps2) N) (mean_col k (fun v => w_cont tl ps2 v * (p_dy v - ec)) N))
      with (vscale (/ mean (w_cont tl ps2) N) (mean_col k (fun v => w_cont tl ps2 v * (p_dy v - ec)) N)) by (unfold vscale; apply map_ext; intros; unfold Qcdiv; ring).
    rewrite !dotk_scale_r, br_alr_p by exact Hu. rewrite (br_wt Ipw u Hu), (br_wc Ipw u DR Hu), H0. change (p_dy (sc u)) with (p_dy u).
    field. repeat split; assumption.
  Qed.
End Bridge.
Section BridgeReg.
  Context (k : nat) (tl c : Qc) (N : list punit) (Hc : c <> 0).
  Notation sc := (scale_w c).
  Notation L := (map sc N).
  Context (beta : list Qc) (M1 M2 : matrix) (Hk : (1 <= k)%nat) (HI : has_intercept N).
  Context (NE : normal_equations k N beta) (INV : is_inverse k (ols_gram k N) M2).
  Context (HM : forall i j, (i < k)%nat -> (j < k)%nat -> mget M2 i j = c * mget M1 i j).
  Notation out := (outf k beta).
  Notation ps := (fun _ : punit => 1).
  Lemma reg_wt u : tw_treat Reg tl ps (sc u) = c * w_reg u.
  Proof. rewrite twt. unfold w_reg, p_D, scale_w. cbn. ring. Qed.
  Lemma reg_wc u : tw_control Reg tl ps (sc u) = c * (p_w u * (1 - p_D u)).
  Proof. rewrite twc. unfold cwm, p_D, scale_w. cbn. ring. Qed.
  Lemma reg_ec : wmean (tw_control Reg tl ps) (fun u => p_dy u - out u) L = 0.
  Proof.
    rewrite wmean_sums, sumf_map. rewrite (sumf_ext _ (fun u => c * (p_w u * (1 - p_D u) * (p_dy u - dotk k (p_x u) beta) * x_at u 0))).
    - rewrite sumf_mul_l, (NE 0%nat) by lia. unfold Qcdiv. ring.
    - intros u Hu. rewrite reg_wc. unfold x_at. rewrite (HI u Hu). change (p_dy (sc u)) with (p_dy u). change (p_x (sc u)) with (p_x u). ring.
  Qed.
  Lemma reg_et : wmean (tw_treat Reg tl ps) (fun u => p_dy u - out u) L = wmean w_reg (fun u => p_dy u - out u) N.
  Proof. apply (wmean_scaled c N Hc); [intros u _; apply reg_wt|reflexivity]. Qed.
  Lemma wmean_sub_reg : wmean w_reg (fun u => p_dy u - out u) N = reg_att out N.
  Proof. unfold reg_att, wmean. rewrite (mean_ext (fun u => w_reg u * (p_dy u - out u)) (fun u => w_reg u * p_dy u - w_reg u * out u)) by (intros; ring). rewrite mean_sub. unfold Qcdiv. ring. Qed.
  Lemma br_reg_att : pair_att Reg tl ps out L = reg_att out N.
  Proof. unfold pair_att. rewrite reg_ec, reg_et, wmean_sub_reg. ring. Qed.
  Lemma alr_control u : In u N -> dotk k (alr_wols k out M2 u) (mean_col k (fun v => p_w v * (1 - p_D v)) N) = p_w u * (1 - p_D u) * (p_dy u - out u).
  Proof.
    intros Hu. unfold alr_wols. rewrite dotk_vm, dotk_scale_l.
    assert (X : dotk k (p_x u) (mv k M2 (mean_col k (fun v => p_w v * (1 - p_D v)) N)) = nth 0 (p_x u) 0); [|rewrite X, (HI u Hu); ring].
    transitivity (sumf (fun i => ind (0 =? i)%nat * nth i (p_x u) 0) (seq 0 k)); [|apply (ind_eqb_sum k 0 (fun i => nth i (p_x u) 0)); lia].
    unfold dotk. apply sumf_ext. intros i Hi. apply in_seq in Hi. rewrite Qcmult_comm. f_equal. unfold mv. rewrite nth_map_seq by lia.
    destruct (INV i 0%nat) as [_ E]; [lia|lia|]. rewrite Nat.eqb_sym. rewrite <- E. unfold mat_mul. apply sumf_ext. intros j Hj. apply in_seq in Hj. f_equal.
    unfold mean_col, ols_gram. rewrite nth_vec_of, mget_mat_of by lia. apply mean_ext. intros v Hv. unfold x_at at 3. rewrite (HI v Hv). ring.
  Qed.
  Lemma br_reg_inf H u : In u N -> mean w_reg N <> 0 -> mean (tw_control Reg tl ps) L <> 0 -> pair_inf Reg k tl ps out M1 H L (sc u) = reg_inf k out M2 N u.
  Proof.
    intros Hu NT NC. unfold pair_inf, reg_inf. cbn zeta. rewrite reg_ec, reg_et.
    rewrite (mean_scaled c N (tw_treat Reg tl ps) w_reg) by (intros; apply reg_wt).
    rewrite (mean_scaled c N (tw_control Reg tl ps) (fun u => p_w u * (1 - p_D u))) in * by (intros; apply reg_wc).
    rewrite (mean_col_scaled k c N (tw_treat Reg tl ps) w_reg) by (intros; apply reg_wt).
    rewrite (mean_col_scaled k c N (tw_control Reg tl ps) (fun u => p_w u * (1 - p_D u))) by (intros; apply reg_wc).
    rewrite !dotk_scale_r, !(br_alr_w k c N out (fun _ => eq_refl) M1 M2 HM u) by exact Hu. rewrite alr_control by exact Hu.
    rewrite reg_wt, reg_wc, wmean_sub_reg. unfold reg_att. change (p_dy (sc u)) with (p_dy u). change (p_x (sc u)) with (p_x u).
    set (mc := mean (fun u => p_w u * (1 - p_D u)) N) in *. assert (mc <> 0) by (intros Z; apply NC; rewrite Z; ring).
    set (x1 := wmean w_reg p_dy N). set (x2 := wmean w_reg out N). set (x3 := dotk k (alr_wols k out M2 u) (mean_col k w_reg N)).
    field. repeat split; assumption.
  Qed.
End BridgeReg.

Lemma cap_fit mu k g u : eps6 <= mu (dotk k (p_x u) g) -> ps_cap mu k g u = ps_fit mu k g u.
Proof.
  intros H. unfold ps_cap, ps_raw, ps_fit, clip. destruct (Qcltb_spec (mu (dotk k (p_x u) g)) eps6) as [X|_]; [exfalso; apply (Qclt_not_le _ _ X H)|]. reflexivity.
Qed.
Lemma raw_fit mu k g u : eps6 <= mu (dotk k (p_x u) g) -> mu (dotk k (p_x u) g) <= 1 - eps6 -> ps_raw mu k g u = ps_fit mu k g u.
Proof.
  intros H H2. rewrite <- (cap_fit mu k g u H). unfold ps_cap. destruct (Qcltb_spec (1 - eps6) (ps_raw mu k g u)) as [X|_]; [exfalso; apply (Qclt_not_le _ _ X H2)|reflexivity].
Qed.
Lemma ctrl_scale c l : ctrl (map (scale_w c) l) = map (scale_w c) (ctrl l).
Proof. unfold ctrl. induction l as [|u l IH]; [reflexivity|]. cbn [map filter]. change (p_d (scale_w c u)) with (p_d u). destruct (p_d u); cbn [negb]; rewrite IH; reflexivity. Qed.

Lemma pair_bridge o k m L s a i a' i' : 0 < s -> inv_ok o k -> wls_ok o k -> fits_scale_free o -> scores_interior o k m L ->
  (m = Reg -> has_intercept L /\ (1 <= k)%nat) ->
  compute_did o k m trim995 (map (scale_w s) L) = Some (a, i) -> two_group o k m L = PEst a' i' -> a = a' /\ i = i'.
Proof.
  intros Hs IO WO FS SI RI E T. apply compute_did_inv in E. destruct E as [ps [out [M1 [V1 F]]]].
  assert (MW : any_neg L = false /\ mean p_w L <> 0).
  { destruct m; cbn in T; [apply dr_inv in T; destruct T as [N [_ [g [b [M [H [_ [_ [Hm _]]]]]]]]]; split; [exact N|eapply mean_wt_pos_weights; exact Hm]
    |apply reg_inv in T; destruct T as [N [_ [b [M [_ [Hm _]]]]]]; split; [exact N|apply mean_wreg_pos_weights; exact Hm]
    |apply ipw_inv in T; destruct T as [N [_ [g [H [_ [Hm _]]]]]]; split; [exact N|eapply mean_wt_pos_weights; exact Hm]]. }
  destruct MW as [NN Hm]. assert (PM := mean_pos_of L NN Hm).
  assert (PM' : 0 < mean p_w L). { destruct (Qc_le_or_lt (mean p_w L) 0) as [X|X]; [|exact X]. exfalso. apply Hm, Qcle_antisym; [exact X|]. apply mean_nonneg. apply any_neg_false. exact NN. }
  set (c := s * mean p_w L). assert (Hc : 0 < c) by (unfold c; setoid_replace 0 with (0 * mean p_w L) by ring; apply Qcmult_lt_compat_r; assumption).
  assert (ES : map (scale_w s) L = map (scale_w c) (normalise L)).
  { unfold normalise. rewrite map_map. apply map_ext. intros u. unfold scale_w, set_w. cbn. f_equal. unfold c. field. exact Hm. }
  rewrite ES in F. clear ES. assert (Hc0 := Qc_pos_neq0 _ Hc).
  destruct F as [Fp Fo Ft Fc Fa Fi].
  destruct (FS c (normalise L) Hc) as [FL _]. destruct (FS c (ctrl (normalise L)) Hc) as [_ FW]. rewrite <- ctrl_scale in FW.
  destruct m; cbn in T.
  - apply dr_inv in T. destruct T as [_ [_ [g [b [M2 [V2 [Eg [Eb [Ht [Hcc [EM [EH [-> ->]]]]]]]]]]]]]. cbn zeta in *.
    destruct Fp as [g' [Eg' [-> EV]]]. destruct Fo as [b' [Eb' [-> EM1]]]. assert (g' = g) by congruence. assert (b' = b) by congruence. subst g' b'.
    assert (IN : forall u, In u (normalise L) -> eps6 <= o_mu o (dotk k (p_x u) g) /\ o_mu o (dotk k (p_x u) g) <= 1 - eps6).
    { intros u Hu. apply in_normalise in Hu. destruct Hu as [v [Hv ->]]. exact (SI g v Eg Hv). }
    assert (HM := inverse_scale k c _ _ M1 M2 (ols_scaled k c (normalise L)) (IO _ _ EM1) (IO _ _ EM)).
    assert (HV := inverse_scale k c _ _ V1 V2 (psg_scaled k c (normalise L) (ps_raw (o_mu o) k g) (ps_fit (o_mu o) k g) (fun u Hu => raw_fit _ _ _ _ (proj1 (IN u Hu)) (proj2 (IN u Hu)))) (IO _ _ EV) (IO _ _ EH)).
    assert (HP : forall u, In u (normalise L) -> ps_cap (o_mu o) k g (scale_w c u) = ps_fit (o_mu o) k g u) by (intros u Hu; exact (cap_fit _ _ _ _ (proj1 (IN u Hu)))).
    assert (HO : forall u, outf k b (scale_w c u) = outf k b u) by reflexivity.
    split; [rewrite Fa; apply br_dr_att; assumption|].
    rewrite Fi, map_map, map_length. apply map_ext_in. intros u Hu. apply br_dr_inf; try assumption.
    intros x y Hx Hy. rewrite !mget_mscale, HV by assumption. ring.
  - apply reg_inv in T. destruct T as [_ [_ [b [M2 [Eb [Ht [EM [-> ->]]]]]]]]. subst ps. destruct Fo as [b' [Eb' [-> EM1]]]. assert (b' = b) by congruence. subst b'.
    destruct (RI eq_refl) as [HI Hk]. apply intercept_normalise in HI.
    assert (HM := inverse_scale k c _ _ M1 M2 (ols_scaled k c (normalise L)) (IO _ _ EM1) (IO _ _ EM)).
    assert (NE := normal_of_controls _ _ _ (WO _ _ Eb)).
    split; [rewrite Fa; apply br_reg_att; assumption|].
    rewrite Fi, map_map, map_length. apply map_ext_in. intros u Hu. apply br_reg_inf; try assumption. apply IO. exact EM.
  - apply ipw_inv in T. destruct T as [_ [_ [g [V2 [Eg [Ht [Hcc [EH [-> ->]]]]]]]]]. cbn zeta in *.
    destruct Fp as [g' [Eg' [-> EV]]]. subst out. assert (g' = g) by congruence. subst g'.
    assert (IN : forall u, In u (normalise L) -> eps6 <= o_mu o (dotk k (p_x u) g) /\ o_mu o (dotk k (p_x u) g) <= 1 - eps6).
    { intros u Hu. apply in_normalise in Hu. destruct Hu as [v [Hv ->]]. exact (SI g v Eg Hv). }
    assert (HV := inverse_scale k c _ _ V1 V2 (psg_scaled k c (normalise L) (ps_raw (o_mu o) k g) (ps_fit (o_mu o) k g) (fun u Hu => raw_fit _ _ _ _ (proj1 (IN u Hu)) (proj2 (IN u Hu)))) (IO _ _ EV) (IO _ _ EH)).
    assert (HP : forall u, In u (normalise L) -> ps_cap (o_mu o) k g (scale_w c u) = ps_fit (o_mu o) k g u) by (intros u Hu; exact (cap_fit _ _ _ _ (proj1 (IN u Hu)))).
    split; [rewrite Fa; apply br_ipw_att; try assumption; reflexivity|].
    rewrite Fi, map_map, map_length. apply map_ext_in. intros u Hu. apply br_ipw_inf; try assumption; try reflexivity.
    intros x y Hx Hy. rewrite !mget_mscale, HV by assumption. ring.
Qed.
