(** Proofs for C108: shifts of the outcome by group and period. *)
From Verif Require Import Base ListLib ReduceModel ReduceProofs2 Calc DrdidModel DrdidSpec DrdidProofs DrdidProofs2 DrdidProofs3 DrdidProofs4 DrdidProofs5 DrdidProofs6 DrdidProofs7 RcModel RcSpec RcCalc RcProofs RcProofs2 RcProofs3 RcProofs4 DddModel DddProofs DddProofs3 DddRcModel DddRcSpec DddRcProofs DddRcProofs2 DddRcProofs3 DddRcProofs4.

Definition kshift (c : Qc) (kp : bool -> bool -> Qc) (u : runit) : runit :=
  {| r_id := r_id u; r_d := r_d u; r_post := r_post u; r_y := c * r_y u + kp (r_d u) (r_post u); r_w := r_w u; r_x := r_x u |}.

Section Shift.
  Context (c : Qc) (kp : bool -> bool -> Qc).
  Notation f := (kshift c kp).
  Lemma ry_ks u : r_y (f u) = c * r_y u + kp (r_d u) (r_post u). Proof. reflexivity. Qed.
  Lemma view_ks l : map rlogit_view (map f l) = map rlogit_view l. Proof. rewrite map_map. reflexivity. Qed.
  Lemma cell_ks d t l : cell d t (map f l) = map f (cell d t l). Proof. unfold cell. rewrite filter_map. reflexivity. Qed.
  Lemma rgram_ks k d t l : rgram k d t (map f l) = rgram k d t l.
  Proof. unfold rgram, mat_of. apply map_ext. intros i. apply map_ext. intros j. rewrite mean_map. reflexivity. Qed.
  Lemma psgram_ks k mu g l : rps_gram k (qps_raw mu k g) (map f l) = rps_gram k (qps_raw mu k g) l.
  Proof. unfold rps_gram, mat_of. apply map_ext. intros i. apply map_ext. intros j. rewrite sumf_map. reflexivity. Qed.

  Section Means.
    Context (w v v' : runit -> Qc) (l : list runit) (s : Qc).
    Context (Hw : forall u, w (f u) = w u) (Hv : forall u, In u l -> w u * v' (f u) = w u * (c * v u + s)) (Hs : s = 0 \/ mean w l <> 0).
    Lemma mean_w_ks : mean w (map f l) = mean w l.
    Proof. rewrite mean_map. apply mean_ext. intros; apply Hw. Qed.
    Lemma eta_ks u : In u l -> eta w v' (map f l) (f u) = c * eta w v l u + s * (w u / mean w l).
    Proof. intros Hu. unfold eta. rewrite mean_w_ks, Hw, (Hv u Hu). unfold Qcdiv. ring. Qed.
    Lemma att_ks : att_c w v' (map f l) = c * att_c w v l + s.
    Proof.
      unfold att_c. rewrite mean_map. rewrite (mean_ext _ (fun u => c * eta w v l u + s * (w u / mean w l))) by apply eta_ks.
      rewrite mean_add, !mean_mul_l, mean_div_r. destruct Hs as [-> | N]; [ring|]. field. exact N.
    Qed.
    Lemma lead_ks u : In u l -> lead w v' (map f l) (f u) = c * lead w v l u.
    Proof. intros Hu. unfold lead. rewrite (eta_ks u Hu), att_ks, mean_w_ks, Hw. unfold Qcdiv. ring. Qed.
    Lemma ps_moment_ks k : ps_moment k w v' (map f l) = vscale c (ps_moment k w v l).
    Proof.
      unfold ps_moment, vdiv, vscale, rmean_col, vec_of. rewrite mean_w_ks, !map_map. apply map_ext. intros j. rewrite mean_map.
      rewrite (mean_ext _ (fun u => c * (w u * (v u - att_c w v l) * rx_at u j))).
      - rewrite mean_mul_l. unfold Qcdiv. ring.
      - intros u Hu. rewrite att_ks. change (rx_at (f u) j) with (rx_at u j). rewrite Hw.
        transitivity ((w u * v' (f u) - w u * (c * att_c w v l + s)) * rx_at u j); [ring|]. rewrite (Hv u Hu). ring.
    Qed.
  End Means.
  Lemma rmean_col_ks k (g : runit -> Qc) l : (forall u, g (f u) = g u) -> rmean_col k g (map f l) = rmean_col k g l.
  Proof. intros Hg. unfold rmean_col, vec_of. apply map_ext. intros j. rewrite mean_map. apply mean_ext. intros u _. rewrite Hg. reflexivity. Qed.
  Lemma or_moment_ks k w s l : (forall u, w (f u) = w u) -> (forall u, s (f u) = s u) -> or_moment k w s (map f l) = or_moment k w s l.
  Proof. intros Hw Hs. unfold or_moment. rewrite rmean_col_ks by (intros; rewrite Hw, Hs; reflexivity). rewrite mean_w_ks by exact Hw. reflexivity. Qed.
  Lemma alr_ols_ks k d t beta beta' M u v : rout k beta' u = c * rout k beta u + kp d t ->
    dotk k (alr_ols k d t beta' M (f u)) v = c * dotk k (alr_ols k d t beta M u) v.
  Proof.
    intros Ho. unfold alr_ols. rewrite !dotk_vm. change (r_x (f u)) with (r_x u). change (rout k beta' (f u)) with (rout k beta' u).
    change (w_ols d t (f u)) with (w_ols d t u). rewrite <- dotk_scale_l. f_equal. unfold vscale. rewrite map_map. apply map_ext. intros x.
    rewrite Ho, ry_ks. rewrite wols_cell. unfold in_cell. destruct (r_post u), t, (r_d u), d; cbn [Bool.eqb andb ind]; ring.
  Qed.
  Lemma fit_ks o k d t l beta beta' : rwls_ok o k -> (forall u, In u l -> 0 <= r_w u) -> rno_collinearity k (cell d t l) ->
    rhas_intercept l -> (1 <= k)%nat -> ro_wls o (cell d t l) = Some beta -> ro_wls o (cell d t (map f l)) = Some beta' ->
    forall u, In u l -> rout k beta' u = c * rout k beta u + kp d t.
  Proof.
    intros WO W NC I Hk E E' u Hu. apply WO in E. apply WO in E'. rewrite cell_ks in E'.
    set (b2 := vec_of k (fun j => nth j (vscale c beta) 0 + nth j (e0 (kp d t)) 0)).
    set (v := vec_of k (fun j => nth j beta' 0 - nth j b2 0)).
    assert (EV : forall u, In u l -> dotk k (r_x u) v = dotk k (r_x u) beta' - (c * dotk k (r_x u) beta + kp d t)).
    { intros x Hx. unfold v, b2. rewrite dotk_sub_r, dotk_add_r, dotk_scale_r. f_equal. f_equal. f_equal. apply dotk_e0; [apply I; exact Hx|exact Hk]. }
    assert (Z0 : forall j, (j < k)%nat -> nth j v 0 = 0).
    { apply (grank_zero k l r_w r_x (fun u => ind (in_cell d t u)) v (cell_nonneg d t l W) (cell_nc k d t l NC)). intros j Hj.
      assert (A1 := E j Hj). assert (A2 := E' j Hj). rewrite sumf_map in A2. unfold cell in A1, A2. rewrite sumf_filter in A1, A2.
      transitivity (sumf (fun u => c * (ind (in_cell d t u) * (r_w u * (r_y u - dotk k (r_x u) beta) * rx_at u j)) - ind (in_cell d t u) * (r_w (f u) * (r_y (f u) - dotk k (r_x (f u)) beta') * rx_at (f u) j)) l).
      - apply sumf_ext. intros x Hx. rewrite (EV x Hx), ry_ks. change (r_w (f x)) with (r_w x). change (r_x (f x)) with (r_x x). change (rx_at (f x) j) with (rx_at x j).
        unfold in_cell. unfold rx_at. destruct (r_post x), t, (r_d x), d; cbn [Bool.eqb andb ind]; ring.
      - rewrite sumf_sub, sumf_mul_l, A1, A2. ring. }
    assert (F : dotk k (r_x u) v = 0) by (unfold dotk; apply sumf_zero; intros j Hj; apply in_seq in Hj; rewrite Z0 by lia; ring).
    rewrite (EV u Hu) in F. apply Qc_sub_0_eq in F. exact F.
  Qed.

  Section Core.
    Context (p : q_ps) (Kp : forall u, qp_keep p (f u) = qp_keep p u) (Pp : forall u, qp_ps p (f u) = qp_ps p u).
    Lemma kt1 u : qw_t1 p (f u) = qw_t1 p u. Proof. unfold qw_t1. rewrite Kp. reflexivity. Qed.
    Lemma kt0 u : qw_t0 p (f u) = qw_t0 p u. Proof. unfold qw_t0. rewrite Kp. reflexivity. Qed.
    Lemma kc1 u : qw_c1 p (f u) = qw_c1 p u. Proof. unfold qw_c1. rewrite Kp, Pp. reflexivity. Qed.
    Lemma kc0 u : qw_c0 p (f u) = qw_c0 p u. Proof. unfold qw_c0. rewrite Kp, Pp. reflexivity. Qed.
    Lemma kd u : qw_d p (f u) = qw_d p u. Proof. unfold qw_d. rewrite Kp. reflexivity. Qed.
    (** residuals shift by s d t in cell (d, t); effects shift by h1, h0 *)
    Context (fo fo' : q_outs) (ln : list runit) (s : bool -> bool -> Qc) (h1 h0 : Qc).
    Context (RV : forall u, In u ln -> r_y (f u) - q_own fo' (f u) = c * (r_y u - q_own fo u) + s (r_d u) (r_post u)).
    Context (G1 : forall u, In u ln -> qo_t1 fo' (f u) - qo_c1 fo' (f u) = c * (qo_t1 fo u - qo_c1 fo u) + h1).
    Context (G0 : forall u, In u ln -> qo_t0 fo' (f u) - qo_c0 fo' (f u) = c * (qo_t0 fo u - qo_c0 fo u) + h0).
    Context (N0 : mean (qw_t0 p) ln <> 0) (N1 : mean (qw_t1 p) ln <> 0) (N2 : mean (qw_c0 p) ln <> 0) (N3 : mean (qw_c1 p) ln <> 0) (ND : mean (qw_d p) ln <> 0).
    Notation v := (fun u => r_y u - q_own fo u).
    Notation v' := (fun u => r_y u - q_own fo' u).
    Lemma V1 u : In u ln -> qw_t1 p u * v' (f u) = qw_t1 p u * (c * v u + s true true).
    Proof. intros Hu. cbn beta. rewrite (RV u Hu). unfold qw_t1, r_D, r_P. destruct (r_d u), (r_post u); cbn [ind]; ring. Qed.
    Lemma V0 u : In u ln -> qw_t0 p u * v' (f u) = qw_t0 p u * (c * v u + s true false).
    Proof. intros Hu. cbn beta. rewrite (RV u Hu). unfold qw_t0, r_D, r_P. destruct (r_d u), (r_post u); cbn [ind]; ring. Qed.
    Lemma U1 u : In u ln -> qw_c1 p u * v' (f u) = qw_c1 p u * (c * v u + s false true).
    Proof. intros Hu. cbn beta. rewrite (RV u Hu). unfold qw_c1, r_D, r_P. destruct (r_d u), (r_post u); cbn [ind]; unfold Qcdiv; ring. Qed.
    Lemma U0 u : In u ln -> qw_c0 p u * v' (f u) = qw_c0 p u * (c * v u + s false false).
    Proof. intros Hu. cbn beta. rewrite (RV u Hu). unfold qw_c0, r_D, r_P. destruct (r_d u), (r_post u); cbn [ind]; unfold Qcdiv; ring. Qed.
    Lemma gg1 (w : runit -> Qc) u : In u ln -> w u * ((fun u => qo_t1 fo' u - qo_c1 fo' u) (f u)) = w u * (c * (qo_t1 fo u - qo_c1 fo u) + h1).
    Proof. intros Hu. cbn beta. rewrite (G1 u Hu). reflexivity. Qed.
    Lemma gg0 (w : runit -> Qc) u : In u ln -> w u * ((fun u => qo_t0 fo' u - qo_c0 fo' u) (f u)) = w u * (c * (qo_t0 fo u - qo_c0 fo u) + h0).
    Proof. intros Hu. cbn beta. rewrite (G0 u Hu). reflexivity. Qed.
    Lemma dr_att_ks : q_dr_att p fo' (map f ln) = c * q_dr_att p fo ln + ((s true true - s true false) - (s false true - s false false)).
    Proof.
      unfold q_dr_att. cbn zeta.
      rewrite (att_ks (qw_t1 p) v v' ln _ kt1 V1 (or_intror N1)), (att_ks (qw_t0 p) v v' ln _ kt0 V0 (or_intror N0)).
      rewrite (att_ks (qw_c1 p) v v' ln _ kc1 U1 (or_intror N3)), (att_ks (qw_c0 p) v v' ln _ kc0 U0 (or_intror N2)).
      rewrite (att_ks (qw_d p) _ _ ln _ kd (gg1 _) (or_intror ND)), (att_ks (qw_t1 p) _ _ ln _ kt1 (gg1 _) (or_intror N1)).
      rewrite (att_ks (qw_d p) _ _ ln _ kd (gg0 _) (or_intror ND)), (att_ks (qw_t0 p) _ _ ln _ kt0 (gg0 _) (or_intror N0)). ring.
    Qed.
    Lemma dr_inf_ks k (oi oi' : runit -> Qc * Qc * Qc) u : In u ln -> oi' (f u) = (let '(x, y, z) := oi u in (c * x, c * y, c * z)) ->
      q_dr_inf p k fo' oi' (map f ln) (f u) = c * q_dr_inf p k fo oi ln u.
    Proof.
      intros Hu EO. unfold q_dr_inf. cbn zeta. rewrite EO. destruct (oi u) as [[x y] z].
      rewrite (lead_ks (qw_t1 p) v v' ln _ kt1 V1 (or_intror N1) u Hu), (lead_ks (qw_t0 p) v v' ln _ kt0 V0 (or_intror N0) u Hu).
      rewrite (lead_ks (qw_c1 p) v v' ln _ kc1 U1 (or_intror N3) u Hu), (lead_ks (qw_c0 p) v v' ln _ kc0 U0 (or_intror N2) u Hu).
      rewrite (lead_ks (qw_d p) _ _ ln _ kd (gg1 _) (or_intror ND) u Hu), (lead_ks (qw_t1 p) _ _ ln _ kt1 (gg1 _) (or_intror N1) u Hu).
      rewrite (lead_ks (qw_d p) _ _ ln _ kd (gg0 _) (or_intror ND) u Hu), (lead_ks (qw_t0 p) _ _ ln _ kt0 (gg0 _) (or_intror N0) u Hu).
      rewrite (ps_moment_ks (qw_c1 p) v v' ln _ kc1 U1 (or_intror N3) k), (ps_moment_ks (qw_c0 p) v v' ln _ kc0 U0 (or_intror N2) k).
      assert (AL : alr_logit k (qp_ps p) (qp_H p) (f u) = alr_logit k (qp_ps p) (qp_H p) u) by (unfold alr_logit; rewrite Pp; reflexivity). rewrite AL.
      rewrite !dotk_vsub_r, !dotk_scale_r. ring.
    Qed.
  End Core.

  Definition kdid : Qc := (kp true true - kp true false) - (kp false true - kp false false).
  Lemma did_shift o k m tl ln att inf att' inf' : rlogit_blind o -> (forall u, In u ln -> 0 <= r_w u) ->
    (m <> Ipw -> rwls_ok o k /\ (forall d t, rno_collinearity k (cell d t ln)) /\ rhas_intercept ln /\ (1 <= k)%nat) ->
    did_rc o k m tl ln = PEst att inf -> did_rc o k m tl (map f ln) = PEst att' inf' ->
    att' = c * att + kdid /\ inf' = map (fun v => c * v) inf.
  Proof.
    intros LB W HM E E'. apply did_rc_inv in E. apply did_rc_inv in E'. destruct E as [p [EP [N0 [N1 F]]]]. destruct E' as [p' [EP' [_ [_ F']]]].
    assert (K := ps_part_keep _ _ _ _ _ _ EP). assert (ND := qd_neq0 p K ln W N0).
    assert (PE : p' = p).
    { destruct m; unfold ps_part in EP, EP'.
      - destruct EP as [g [V [Eg [EV ->]]]]. destruct EP' as [g' [V' [Eg' [EV' ->]]]]. rewrite (LB _ ln (view_ks ln)), Eg in Eg'. injection Eg' as <-.
        rewrite psgram_ks, EV in EV'. injection EV' as <-. unfold logps. rewrite map_length. reflexivity.
      - congruence.
      - destruct EP as [g [V [Eg [EV ->]]]]. destruct EP' as [g' [V' [Eg' [EV' ->]]]]. rewrite (LB _ ln (view_ks ln)), Eg in Eg'. injection Eg' as <-.
        rewrite psgram_ks, EV in EV'. injection EV' as <-. unfold logps. rewrite map_length. reflexivity. }
    subst p'.
    assert (KP : (forall u, qp_keep p (f u) = qp_keep p u) /\ (forall u, qp_ps p (f u) = qp_ps p u)).
    { destruct m; unfold ps_part in EP; [destruct EP as [g [V [_ [_ ->]]]]|subst p|destruct EP as [g [V [_ [_ ->]]]]]; split; reflexivity. }
    destruct KP as [Kp Pp].
    assert (FI : m <> Ipw -> forall d t b b', q_fit o k d t ln = Some b -> q_fit o k d t (map f ln) = Some b' -> forall u, In u ln -> rout k b' u = c * rout k b u + kp d t).
    { intros Hm d t b b' X X'. destruct (HM Hm) as [WO [NC [I Hk]]]. apply q_fit_inv in X. apply q_fit_inv in X'.
      exact (fit_ks o k d t ln b b' WO W (NC d t) I Hk (proj1 X) (proj1 X')). }
    destruct m.
    - destruct F as [N2 [N3 [c0 [c1 [t0 [t1 [M0 [M1 [M2 [M3 [F0 [F1 [F2 [F3 [I0 [I1 [I2 [I3 [-> ->]]]]]]]]]]]]]]]]]]].
      destruct F' as [_ [_ [c0' [c1' [t0' [t1' [M0' [M1' [M2' [M3' [F0' [F1' [F2' [F3' [I0' [I1' [I2' [I3' [-> ->]]]]]]]]]]]]]]]]]]].
      rewrite rgram_ks in I0', I1', I2', I3'. rewrite I0 in I0'. rewrite I1 in I1'. rewrite I2 in I2'. rewrite I3 in I3'. injection I0' as <-. injection I1' as <-. injection I2' as <-. injection I3' as <-.
      assert (Hm : Dr <> Ipw) by discriminate.
      assert (A0 := FI Hm _ _ _ _ F0 F0'). assert (A1 := FI Hm _ _ _ _ F1 F1'). assert (A2 := FI Hm _ _ _ _ F2 F2'). assert (A3 := FI Hm _ _ _ _ F3 F3').
      set (s := fun d t : bool => kp d t - kp false t).
      assert (RV : forall u, In u ln -> r_y (f u) - q_own (drouts k c0' c1' t0' t1') (f u) = c * (r_y u - q_own (drouts k c0 c1 t0 t1) u) + s (r_d u) (r_post u)).
      { intros u Hu. rewrite ry_ks. unfold q_own, drouts. cbn [qo_c0 qo_c1]. change (r_P (f u)) with (r_P u). change (rout k c1' (f u)) with (rout k c1' u). change (rout k c0' (f u)) with (rout k c0' u).
        rewrite (A0 u Hu), (A1 u Hu). unfold s, r_P. destruct (r_d u), (r_post u); cbn [ind]; ring. }
      assert (G1 : forall u, In u ln -> qo_t1 (drouts k c0' c1' t0' t1') (f u) - qo_c1 (drouts k c0' c1' t0' t1') (f u) = c * (qo_t1 (drouts k c0 c1 t0 t1) u - qo_c1 (drouts k c0 c1 t0 t1) u) + (kp true true - kp false true)).
      { intros u Hu. cbn [drouts qo_t1 qo_c1]. change (rout k t1' (f u)) with (rout k t1' u). change (rout k c1' (f u)) with (rout k c1' u). rewrite (A1 u Hu), (A3 u Hu). ring. }
      assert (G0 : forall u, In u ln -> qo_t0 (drouts k c0' c1' t0' t1') (f u) - qo_c0 (drouts k c0' c1' t0' t1') (f u) = c * (qo_t0 (drouts k c0 c1 t0 t1) u - qo_c0 (drouts k c0 c1 t0 t1) u) + (kp true false - kp false false)).
      { intros u Hu. cbn [drouts qo_t0 qo_c0]. change (rout k t0' (f u)) with (rout k t0' u). change (rout k c0' (f u)) with (rout k c0' u). rewrite (A0 u Hu), (A2 u Hu). ring. }
      split.
      + rewrite (dr_att_ks p Kp Pp _ _ ln s _ _ RV G1 G0 N0 N1 N2 N3 ND). unfold kdid, s. ring.
      + apply inf_map. intros u Hu. apply (dr_inf_ks p Kp Pp _ _ ln s _ _ RV G1 G0 N0 N1 N2 N3 ND k); [exact Hu|].
        unfold q_or_inf. cbn zeta. cbn [dralr qa_c0 qa_c1 qa_t0 qa_t1].
        assert (B1 := kt1 p Kp). assert (B0 := kt0 p Kp). assert (D1 := kc1 p Kp Pp). assert (D0 := kc0 p Kp Pp). assert (BD := kd p Kp).
        rewrite !or_moment_ks by (first [assumption|reflexivity]). rewrite !mean_w_ks by assumption.
        rewrite !rmean_col_ks by (intros x; rewrite BD, ?B1, ?B0; reflexivity). rewrite !dotk_vsub_l.
        rewrite !(alr_ols_ks k false true c1 c1') by (apply A1; exact Hu). rewrite !(alr_ols_ks k false false c0 c0') by (apply A0; exact Hu).
        rewrite !(alr_ols_ks k true true t1 t1') by (apply A3; exact Hu). rewrite !(alr_ols_ks k true false t0 t0') by (apply A2; exact Hu).
        repeat (apply f_equal2); ring.
    - destruct F as [c0 [c1 [M0 [M1 [F0 [F1 [I0 [I1 [-> ->]]]]]]]]]. destruct F' as [c0' [c1' [M0' [M1' [F0' [F1' [I0' [I1' [-> ->]]]]]]]]].
      rewrite rgram_ks in I0', I1'. rewrite I0 in I0'. rewrite I1 in I1'. injection I0' as <-. injection I1' as <-.
      assert (Hm : Reg <> Ipw) by discriminate. assert (A0 := FI Hm _ _ _ _ F0 F0'). assert (A1 := FI Hm _ _ _ _ F1 F1').
      assert (B1 := kt1 p Kp). assert (B0 := kt0 p Kp). assert (BD := kd p Kp).
      assert (Y1 : forall u, In u ln -> qw_t1 p u * r_y (f u) = qw_t1 p u * (c * r_y u + kp true true)) by (intros u _; rewrite ry_ks; unfold qw_t1, r_D, r_P; destruct (r_d u), (r_post u); cbn [ind]; ring).
      assert (Y0 : forall u, In u ln -> qw_t0 p u * r_y (f u) = qw_t0 p u * (c * r_y u + kp true false)) by (intros u _; rewrite ry_ks; unfold qw_t0, r_D, r_P; destruct (r_d u), (r_post u); cbn [ind]; ring).
      assert (YD : forall u, In u ln -> qw_d p u * ((fun u => rout k c1' u - rout k c0' u) (f u)) = qw_d p u * (c * (rout k c1 u - rout k c0 u) + (kp false true - kp false false))).
      { intros u Hu. cbn beta. change (rout k c1' (f u)) with (rout k c1' u). change (rout k c0' (f u)) with (rout k c0' u). rewrite (A0 u Hu), (A1 u Hu). ring. }
      split.
      + unfold q_reg_att. fold (wmean (qw_d p) (fun u => rout k c1' u - rout k c0' u) (map f ln)). fold (wmean (qw_d p) (fun u => rout k c1 u - rout k c0 u) ln). rewrite <- !att_wmean.
        rewrite (att_ks (qw_t1 p) r_y r_y ln _ B1 Y1 (or_intror N1)), (att_ks (qw_t0 p) r_y r_y ln _ B0 Y0 (or_intror N0)), (att_ks (qw_d p) _ _ ln _ BD YD (or_intror ND)). unfold kdid. ring.
      + apply inf_map. intros u Hu. rewrite !q_reg_inf_lead.
        rewrite (lead_ks (qw_t1 p) r_y r_y ln _ B1 Y1 (or_intror N1) u Hu), (lead_ks (qw_t0 p) r_y r_y ln _ B0 Y0 (or_intror N0) u Hu), (lead_ks (qw_d p) _ _ ln _ BD YD (or_intror ND) u Hu).
        rewrite (alr_ols_ks k false true c1 c1') by (apply A1; exact Hu). rewrite (alr_ols_ks k false false c0 c0') by (apply A0; exact Hu).
        rewrite rmean_col_ks, mean_w_ks by assumption. unfold Qcdiv. ring.
    - destruct F as [N2 [N3 [-> ->]]]. destruct F' as [_ [_ [-> ->]]].
      assert (RV : forall u, In u ln -> r_y (f u) - q_own outs0 (f u) = c * (r_y u - q_own outs0 u) + kp (r_d u) (r_post u)).
      { intros u Hu. rewrite ry_ks. unfold q_own. cbn [outs0 qo_c0 qo_c1]. ring. }
      assert (G1 : forall u, In u ln -> qo_t1 outs0 (f u) - qo_c1 outs0 (f u) = c * (qo_t1 outs0 u - qo_c1 outs0 u) + 0) by (intros; cbn [outs0 qo_t1 qo_c1]; ring).
      assert (G0 : forall u, In u ln -> qo_t0 outs0 (f u) - qo_c0 outs0 (f u) = c * (qo_t0 outs0 u - qo_c0 outs0 u) + 0) by (intros; cbn [outs0 qo_t0 qo_c0]; ring).
      split.
      + apply (dr_att_ks p Kp Pp outs0 outs0 ln kp 0 0 RV G1 G0 N0 N1 N2 N3 ND).
      + apply inf_map. intros u Hu. apply (dr_inf_ks p Kp Pp outs0 outs0 ln kp 0 0 RV G1 G0 N0 N1 N2 N3 ND k); [exact Hu|]. repeat (apply f_equal2); ring.
  Qed.
End Shift.

Lemma cell_nc_scale k d t c l : 0 < c -> rno_collinearity k (cell d t l) -> rno_collinearity k (cell d t (map (rscale_w c) l)).
Proof.
  intros Hc NC v H. apply NC. intros u Hu Hw. rewrite cell_scale in H. apply (H _ (in_map (rscale_w c) _ _ Hu)). cbn.
  setoid_replace 0 with (0 * r_w u) by ring. apply Qcmult_lt_compat_r; assumption.
Qed.

Section Shock.
  Context (c g a b tau : Qc) (f : Z -> Qc).
  Notation F := (q_shocked c g a b tau f).
  Definition ksg (s : Z) (t : bool) : Qc := f s + (if t then g + (if (s =? 4)%Z || (s =? 3)%Z then a else 0) + (if (s =? 4)%Z || (s =? 2)%Z then b else 0) + (if (s =? 4)%Z then tau else 0) else 0).
  Definition kpair (s : Z) (d t : bool) : Qc := if d then ksg 4 t else ksg s t.
  Lemma qpair_shock s l : q_pair s (map F l) = map (kshift c (kpair s)) (q_pair s l).
  Proof.
    unfold q_pair. rewrite filter_map, !map_map. change (fun u => q_in_pair s (F u)) with (q_in_pair s). apply map_ext_in. intros u Hu. apply filter_In in Hu. destruct Hu as [_ Hu].
    unfold q_as_pair, kshift, q_shocked. cbn [q_id q_sg q_post q_y q_w q_x r_id r_d r_post r_y r_w r_x]. f_equal. unfold kpair, ksg. unfold q_in_pair in Hu.
    destruct (Z.eqb_spec (q_sg u) 4) as [E|N].
    - rewrite E. destruct (q_post u); cbn [Z.eqb Pos.eqb orb]; ring.
    - cbn [orb] in Hu. apply Z.eqb_eq in Hu. rewrite Hu in *. apply Z.eqb_neq in N. rewrite N. destruct (q_post u); cbn [orb]; ring.
  Qed.
  Lemma qmean_shock l : mean q_w (map F l) = mean q_w l.
  Proof. rewrite mean_map. apply mean_ext. reflexivity. Qed.
  Lemma dddrc_shock o k m tl l att a3 a2 a1 inf att' a3' a2' a1' inf' :
    rlogit_blind o -> (m <> Ipw -> rwls_ok o k /\ q_no_collinearity k l /\ q_intercept k l) ->
    ddd_rc o k m tl l = QEst att a3 a2 a1 inf -> ddd_rc o k m tl (map F l) = QEst att' a3' a2' a1' inf' ->
    att' = c * att + tau /\ inf' = map (fun v => c * v) inf.
  Proof.
    intros LB HM E E'. apply dddrc_inv in E. destruct E as [W [_ [i3 [i2 [i1 [E3 [E2 [E1 [-> ->]]]]]]]]].
    apply dddrc_inv in E'. destruct E' as [_ [_ [j3 [j2 [j1 [D3 [D2 [D1 [-> ->]]]]]]]]].
    assert (Hm := q_pair_mean _ _ _ _ _ _ _ _ E3). assert (P := q_mean_pos _ W Hm).
    assert (G : forall s x i x' i', In s [3; 2; 1]%Z -> did_rc o k m tl (q_pair s (q_normalise l)) = PEst x i ->
      did_rc o k m tl (q_pair s (q_normalise (map F l))) = PEst x' i' -> x' = c * x + kdid (kpair s) /\ i' = map (fun v => c * v) i).
    { intros s x i x' i' Hs E D. rewrite q_pair_normalise in E, D. rewrite qmean_shock, qpair_shock in D.
      assert (X : map (rscale_w (/ mean q_w l)) (map (kshift c (kpair s)) (q_pair s l)) = map (kshift c (kpair s)) (map (rscale_w (/ mean q_w l)) (q_pair s l))) by (rewrite !map_map; reflexivity).
      rewrite X in D. revert E D. apply did_shift.
      - exact LB.
      - apply rscaled_nonneg; [apply Qclt_le_weak, P|]. apply q_pair_nonneg, W.
      - intros N. destruct (HM N) as [WO [NC [Hk HI]]]. split; [exact WO|]. split; [intros d t; apply cell_nc_scale; [exact P|apply NC, Hs]|]. split; [|exact Hk].
        intros p Hp. apply in_map_iff in Hp. destruct Hp as [r [<- Hr]]. apply in_q_pair in Hr. destruct Hr as [u [Hu [_ ->]]]. apply HI, Hu. }
    destruct (G _ _ _ _ _ ltac:(left; reflexivity) E3 D3) as [-> ->]. destruct (G _ _ _ _ _ ltac:(right; left; reflexivity) E2 D2) as [-> ->].
    destruct (G _ _ _ _ _ ltac:(right; right; left; reflexivity) E1 D1) as [-> ->]. split.
    - unfold kdid, kpair, ksg. cbn [Z.eqb Pos.eqb orb]. ring.
    - cbn zeta. rewrite !q_share_norm, !q_mask_norm. assert (SH : forall s, q_share s (map F l) = q_share s l) by (intros s; unfold q_share; rewrite filter_map, !map_length; reflexivity).
      assert (MS : forall s, map (q_in_pair s) (map F l) = map (q_in_pair s) l) by (intros s; rewrite map_map; reflexivity).
      rewrite !SH, !MS, !scatter_scale. apply combine_scale.
  Qed.
End Shock.
