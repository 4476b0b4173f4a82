(** Proofs for C90: affine changes of the outcome. *)
From Verif Require Import Base ListLib ReduceModel ReduceProofs2 Calc DrdidModel DrdidSpec DrdidProofs DrdidProofs2 DrdidProofs3 DrdidProofs4 DrdidProofs5 DrdidProofs6 DrdidProofs7 RcModel RcSpec RcCalc RcProofs RcProofs2 RcProofs3.

Section Affine.
  Context (c a b : Qc).
  Notation f := (raffine_y c a b).
  Definition shift (t : bool) : Qc := if t then a else b.
  Lemma ry_affine u : r_y (f u) = c * r_y u + shift (r_post u). Proof. reflexivity. Qed.
  Lemma rnormalise_affine l : rnormalise (map f l) = map f (rnormalise l).
  Proof. unfold rnormalise. rewrite !map_map. apply map_ext. intros u. rewrite mean_map. reflexivity. Qed.
  Lemma rany_neg_affine l : rany_neg (map f l) = rany_neg l.
  Proof. unfold rany_neg. induction l as [|u l IH]; [reflexivity|]. cbn [map existsb]. rewrite IH. reflexivity. Qed.
  Lemma rview_affine l : map rlogit_view (map f l) = map rlogit_view l.
  Proof. rewrite map_map. reflexivity. Qed.
  Lemma cell_affine d t l : cell d t (map f l) = map f (cell d t l).
  Proof. unfold cell. rewrite filter_map. reflexivity. Qed.
  Lemma rgram_affine k d t l : rgram k d t (map f l) = rgram k d t l.
  Proof. unfold rgram, mat_of. apply map_ext. intros i. apply map_ext. intros j. rewrite mean_map. reflexivity. Qed.
  Lemma rps_gram_affine k mu g l : rps_gram k (rps_fit mu k g) (map f l) = rps_gram k (rps_fit mu k g) l.
  Proof. unfold rps_gram, mat_of. apply map_ext. intros i. apply map_ext. intros j. rewrite sumf_map. reflexivity. Qed.

  Section Means.
    Context (w v v' : runit -> Qc) (l : list runit) (s : Qc).
    Context (Hw : forall u, w (f u) = w u) (Hv : forall u, In u l -> w u * v' (f u) = w u * (c * v u + s)) (Hs : s = 0 \/ mean w l <> 0).
    Lemma mean_w_affine : mean w (map f l) = mean w l.
    Proof. rewrite mean_map. apply mean_ext. intros; apply Hw. Qed.
    Lemma eta_affine u : In u l -> eta w v' (map f l) (f u) = c * eta w v l u + s * (w u / mean w l).
    Proof. intros Hu. unfold eta. rewrite mean_w_affine, Hw, (Hv u Hu). unfold Qcdiv. ring. Qed.
    Lemma att_affine : att_c w v' (map f l) = c * att_c w v l + s.
    Proof.
      unfold att_c. rewrite mean_map. rewrite (mean_ext _ (fun u => c * eta w v l u + s * (w u / mean w l))) by apply eta_affine.
      rewrite mean_add, !mean_mul_l, mean_div_r. destruct Hs as [-> | N]; [ring|]. field. exact N.
    Qed.
    Lemma lead_affine u : In u l -> lead w v' (map f l) (f u) = c * lead w v l u.
    Proof. intros Hu. unfold lead. rewrite (eta_affine u Hu), att_affine, mean_w_affine, Hw. unfold Qcdiv. ring. Qed.
    Lemma ps_moment_affine k : ps_moment k w v' (map f l) = vscale c (ps_moment k w v l).
    Proof.
      unfold ps_moment, vdiv, vscale, rmean_col, vec_of. rewrite mean_w_affine, !map_map. apply map_ext. intros j. rewrite mean_map.
      rewrite (mean_ext _ (fun u => c * (w u * (v u - att_c w v l) * rx_at u j))).
      - rewrite mean_mul_l. unfold Qcdiv. ring.
      - intros u Hu. rewrite att_affine. change (rx_at (f u) j) with (rx_at u j). rewrite Hw.
        transitivity ((w u * v' (f u) - w u * (c * att_c w v l + s)) * rx_at u j); [ring|]. rewrite (Hv u Hu). ring.
    Qed.
  End Means.
  Lemma rmean_col_affine k (g : runit -> Qc) l : (forall u, g (f u) = g u) -> rmean_col k g (map f l) = rmean_col k g l.
  Proof. intros Hg. unfold rmean_col, vec_of. apply map_ext. intros j. rewrite mean_map. apply mean_ext. intros u _. rewrite Hg. reflexivity. Qed.
  Lemma or_moment_affine k w s l : (forall u, w (f u) = w u) -> (forall u, s (f u) = s u) -> or_moment k w s (map f l) = or_moment k w s l.
  Proof. intros Hw Hs. unfold or_moment. rewrite rmean_col_affine by (intros; rewrite Hw, Hs; reflexivity). rewrite mean_w_affine by exact Hw. reflexivity. Qed.
  Lemma alr_ols_affine k d t beta beta' M u v : rout k beta' u = c * rout k beta u + shift t ->
    dotk k (alr_ols k d t beta' M (f u)) v = c * dotk k (alr_ols k d t beta M u) v.
  Proof.
    intros Ho. unfold alr_ols. rewrite !dotk_vm. change (r_x (f u)) with (r_x u). change (rout k beta' (f u)) with (rout k beta' u).
    change (w_ols d t (f u)) with (w_ols d t u). rewrite <- dotk_scale_l. f_equal. unfold vscale. rewrite map_map. apply map_ext. intros x.
    rewrite Ho, ry_affine. rewrite wols_cell. unfold in_cell. destruct (r_post u), t, (Bool.eqb (r_d u) d); cbn [Bool.eqb andb ind shift]; ring.
  Qed.

  (** regression fits move with the outcome *)
  Lemma rfit_affine o k d t l beta beta' : rwls_ok o k -> (forall u, In u l -> 0 <= r_w u) -> rno_collinearity k (cell d t l) ->
    rhas_intercept l -> (1 <= k)%nat -> ro_wls o (cell d t l) = Some beta -> ro_wls o (cell d t (map f l)) = Some beta' ->
    forall u, In u l -> rout k beta' u = c * rout k beta u + shift t.
  Proof.
    intros WO W NC I Hk E E' u Hu. apply WO in E. apply WO in E'. rewrite cell_affine in E'.
    set (b2 := vec_of k (fun j => nth j (vscale c beta) 0 + nth j (e0 (shift t)) 0)).
    set (v := vec_of k (fun j => nth j beta' 0 - nth j b2 0)).
    assert (EV : forall u, In u l -> dotk k (r_x u) v = dotk k (r_x u) beta' - (c * dotk k (r_x u) beta + shift t)).
    { intros x Hx. unfold v, b2. rewrite dotk_sub_r, dotk_add_r, dotk_scale_r. f_equal. f_equal. f_equal. apply dotk_e0; [apply I; exact Hx|exact Hk]. }
    assert (Z0 : forall j, (j < k)%nat -> nth j v 0 = 0).
    { apply (grank_zero k l r_w r_x (fun u => ind (in_cell d t u)) v (cell_nonneg d t l W) (cell_nc k d t l NC)). intros j Hj.
      assert (A1 := E j Hj). assert (A2 := E' j Hj). rewrite sumf_map in A2. unfold cell in A1, A2. rewrite sumf_filter in A1, A2.
      transitivity (sumf (fun u => c * (ind (in_cell d t u) * (r_w u * (r_y u - dotk k (r_x u) beta) * rx_at u j)) - ind (in_cell d t u) * (r_w (f u) * (r_y (f u) - dotk k (r_x (f u)) beta') * rx_at (f u) j)) l).
      - apply sumf_ext. intros x Hx. rewrite (EV x Hx), ry_affine. change (r_w (f x)) with (r_w x). change (r_x (f x)) with (r_x x). change (rx_at (f x) j) with (rx_at x j).
        unfold in_cell. unfold rx_at. destruct (r_post x), t, (Bool.eqb (r_d x) d); cbn [Bool.eqb andb ind shift]; ring.
      - rewrite sumf_sub, sumf_mul_l, A1, A2. ring. }
    assert (F : dotk k (r_x u) v = 0) by (unfold dotk; apply sumf_zero; intros j Hj; apply in_seq in Hj; rewrite Z0 by lia; ring).
    rewrite (EV u Hu) in F. apply Qc_sub_0_eq in F. exact F.
  Qed.

  (** leading terms with the outcome itself: the shift of the period of the cell *)
  Lemma y_T0 tl ps l u : In u l -> w_treat_pre tl ps u * r_y (f u) = w_treat_pre tl ps u * (c * r_y u + b).
  Proof. intros _. rewrite ry_affine, wt0_c. unfold cT0, r_P, shift. destruct (r_post u); cbn [ind]; ring. Qed.
  Lemma y_T1 tl ps l u : In u l -> w_treat_post tl ps u * r_y (f u) = w_treat_post tl ps u * (c * r_y u + a).
  Proof. intros _. rewrite ry_affine, wt1_c. unfold cT1, r_P, shift. destruct (r_post u); cbn [ind]; ring. Qed.
  Lemma y_C0 tl ps l u : In u l -> w_cont_pre tl ps u * r_y (f u) = w_cont_pre tl ps u * (c * r_y u + b).
  Proof. intros _. rewrite ry_affine, wc0_c. unfold cC0, in_cell, shift. destruct (r_post u), (r_d u); cbn [Bool.eqb andb ind]; ring. Qed.
  Lemma y_C1 tl ps l u : In u l -> w_cont_post tl ps u * r_y (f u) = w_cont_post tl ps u * (c * r_y u + a).
  Proof. intros _. rewrite ry_affine, wc1_c. unfold cC1, in_cell, shift. destruct (r_post u), (r_d u); cbn [Bool.eqb andb ind]; ring. Qed.
End Affine.

Lemma inf_map (g g' : runit -> Qc) (f : runit -> runit) c l : (forall u, In u l -> g' (f u) = c * g u) -> map g' (map f l) = map (fun v => c * v) (map g l).
Proof. intros H. rewrite !map_map. apply map_ext_in. exact H. Qed.
Lemma dotk_vsub_r k x p q : dotk k x (vsub k p q) = dotk k x p - dotk k x q. Proof. apply dotk_sub_r. Qed.

Section Main.
  Context (o : roracle) (k : nat) (tl : Qc) (l : list runit) (c a b : Qc) (att : Qc) (inf : list Qc) (att' : Qc) (inf' : list Qc).
  Notation f := (raffine_y c a b).
  Lemma ripw_affine : rlogit_blind o -> std_ipw_did_rc o k tl l = PEst att inf -> std_ipw_did_rc o k tl (map f l) = PEst att' inf' ->
    att' = c * att /\ inf' = map (fun v => c * v) inf.
  Proof.
    intros LB E E'. apply ripw_inv in E. apply ripw_inv in E'. rewrite rnormalise_affine in E'. 
    destruct E as [_ [_ [g [H [Eg [EH [SZ [-> ->]]]]]]]]. destruct E' as [_ [_ [g' [H' [Eg' [EH' [_ [-> ->]]]]]]]]. cbn zeta in *.
    rewrite (LB _ (rnormalise l) (rview_affine c a b _)), Eg in Eg'. injection Eg' as <-. rewrite rps_gram_affine, EH in EH'. injection EH' as <-.
    apply some_zero_inv in SZ. destruct SZ as [N0 [N1 [N2 N3]]]. set (ps := rps_fit (ro_mu o) k g) in *. set (ln := rnormalise l) in *.
    split.
    - unfold ripw_att.
      rewrite (att_affine c a b (w_treat_post tl ps) r_y r_y ln a) by (auto; try apply y_T1; reflexivity).
      rewrite (att_affine c a b (w_treat_pre tl ps) r_y r_y ln b) by (auto; try apply y_T0; reflexivity).
      rewrite (att_affine c a b (w_cont_post tl ps) r_y r_y ln a) by (auto; try apply y_C1; reflexivity).
      rewrite (att_affine c a b (w_cont_pre tl ps) r_y r_y ln b) by (auto; try apply y_C0; reflexivity). ring.
    - rewrite map_length. apply inf_map. intros u Hu. unfold ripw_inf. cbn zeta.
      rewrite (lead_affine c a b (w_treat_post tl ps) r_y r_y ln a) by (auto; try apply y_T1; reflexivity).
      rewrite (lead_affine c a b (w_treat_pre tl ps) r_y r_y ln b) by (auto; try apply y_T0; reflexivity).
      rewrite (lead_affine c a b (w_cont_post tl ps) r_y r_y ln a) by (auto; try apply y_C1; reflexivity).
      rewrite (lead_affine c a b (w_cont_pre tl ps) r_y r_y ln b) by (auto; try apply y_C0; reflexivity).
      rewrite (ps_moment_affine c a b (w_cont_post tl ps) r_y r_y ln a) by (auto; try apply y_C1; reflexivity).
      rewrite (ps_moment_affine c a b (w_cont_pre tl ps) r_y r_y ln b) by (auto; try apply y_C0; reflexivity).
      change (alr_logit k ps (mscale (qn (length ln)) H) (f u)) with (alr_logit k ps (mscale (qn (length ln)) H) u).
      rewrite !dotk_vsub_r, !dotk_scale_r. ring.
  Qed.

  Lemma intercept_rnormalise : rhas_intercept l -> rhas_intercept (rnormalise l).
  Proof. intros H u Hu. apply in_rnormalise in Hu. destruct Hu as [v [Hv ->]]. apply (H v Hv). Qed.

  Lemma rreg_affine : rwls_ok o k -> rno_collinearity k (cell false false l) -> rno_collinearity k (cell false true l) -> rhas_intercept l -> (1 <= k)%nat ->
    reg_did_rc o k l = PEst att inf -> reg_did_rc o k (map f l) = PEst att' inf' -> att' = c * att /\ inf' = map (fun v => c * v) inf.
  Proof.
    intros WO NC0 NC1 I Hk E E'. apply rreg_inv in E. apply rreg_inv in E'. rewrite rnormalise_affine in E'.
    destruct E as [NN [b0 [b1 [M0 [M1 [E0 [E1 [I0 [I1 [N0 [N1 [-> ->]]]]]]]]]]]].
    destruct E' as [_ [b0' [b1' [M0' [M1' [E0' [E1' [I0' [I1' [_ [_ [-> ->]]]]]]]]]]]].
    rewrite rgram_affine in I0', I1'. rewrite I0 in I0'. rewrite I1 in I1'. injection I0' as <-. injection I1' as <-.
    assert (Hm := mean_weights_neq0 _ cT0 l wr0_c N0). assert (W0 := proj1 (rany_neg_false l) NN). assert (W := rnormalise_nonneg l W0 Hm).
    apply ols_rc_inv in E0. apply ols_rc_inv in E1. apply ols_rc_inv in E0'. apply ols_rc_inv in E1'.
    assert (IN := intercept_rnormalise I).
    assert (F0 := rfit_affine c a b o k false false _ b0 b0' WO W (nc_normal _ _ _ _ W0 Hm NC0) IN Hk (proj1 E0) (proj1 E0')).
    assert (F1 := rfit_affine c a b o k false true _ b1 b1' WO W (nc_normal _ _ _ _ W0 Hm NC1) IN Hk (proj1 E1) (proj1 E1')).
    assert (ND := wr_cont_neq0 _ W N0). set (ln := rnormalise l) in *. cbn [shift] in F0, F1.
    assert (Y0 : forall u, In u ln -> wr_treat_pre u * r_y (f u) = wr_treat_pre u * (c * r_y u + b)) by (intros u _; rewrite ry_affine; unfold wr_treat_pre, r_P, shift; destruct (r_post u); cbn [ind]; ring).
    assert (Y1 : forall u, In u ln -> wr_treat_post u * r_y (f u) = wr_treat_post u * (c * r_y u + a)) by (intros u _; rewrite ry_affine; unfold wr_treat_post, r_P, shift; destruct (r_post u); cbn [ind]; ring).
    assert (YD : forall u, In u ln -> wr_cont u * (rout k b1' (f u) - rout k b0' (f u)) = wr_cont u * (c * (rout k b1 u - rout k b0 u) + (a - b))).
    { intros u Hu. change (rout k b1' (f u)) with (rout k b1' u). change (rout k b0' (f u)) with (rout k b0' u). rewrite F0, F1 by exact Hu. ring. }
    split.
    - unfold rreg_att. rewrite <- !att_wmean.
      rewrite (att_affine c a b wr_treat_post r_y r_y ln a) by (auto; reflexivity).
      rewrite (att_affine c a b wr_treat_pre r_y r_y ln b) by (auto; reflexivity).
      rewrite (att_affine c a b wr_cont (fun u => rout k b1 u - rout k b0 u) (fun u => rout k b1' u - rout k b0' u) ln (a - b)) by (auto; reflexivity). ring.
    - apply inf_map. intros u Hu. rewrite !rreg_inf_lead.
      rewrite (lead_affine c a b wr_treat_post r_y r_y ln a) by (auto; reflexivity).
      rewrite (lead_affine c a b wr_treat_pre r_y r_y ln b) by (auto; reflexivity).
      rewrite (lead_affine c a b wr_cont (fun u => rout k b1 u - rout k b0 u) (fun u => rout k b1' u - rout k b0' u) ln (a - b)) by (auto; reflexivity).
      rewrite (alr_ols_affine c a b k false true b1 b1' M1 u) by (apply F1; exact Hu). rewrite (alr_ols_affine c a b k false false b0 b0' M0 u) by (apply F0; exact Hu).
      rewrite rmean_col_affine, mean_w_affine by reflexivity. unfold Qcdiv. ring.
  Qed.

  Lemma trad_affine_core ps b0 b0' b1 b1' M0 M1 H ln :
    (forall u, ps (f u) = ps u) ->
    (forall u, In u ln -> rout k b0' u = c * rout k b0 u + b) -> (forall u, In u ln -> rout k b1' u = c * rout k b1 u + a) ->
    trad_att k tl ps b0' b1' (map f ln) = c * trad_att k tl ps b0 b1 ln /\
    forall u, In u ln -> trad_inf k tl ps b0' b1' M0 M1 H (map f ln) (f u) = c * trad_inf k tl ps b0 b1 M0 M1 H ln u.
  Proof.
    intros Hp F0 F1.
    assert (RV : forall u, In u ln -> resid k b0' b1' (f u) = c * resid k b0 b1 u).
    { intros u Hu. unfold resid, out_own. rewrite ry_affine. change (r_P (f u)) with (r_P u). change (rout k b1' (f u)) with (rout k b1' u). change (rout k b0' (f u)) with (rout k b0' u).
      rewrite F0, F1 by exact Hu. unfold shift, r_P. destruct (r_post u); cbn [ind]; ring. }
    assert (V : forall w : runit -> Qc, forall u, In u ln -> w u * resid k b0' b1' (f u) = w u * (c * resid k b0 b1 u + 0)) by (intros w u Hu; rewrite RV by exact Hu; ring).
    assert (P1 : forall u, w_treat_post tl ps (f u) = w_treat_post tl ps u) by (intros u; unfold w_treat_post, rtrim; rewrite Hp; reflexivity).
    assert (P0 : forall u, w_treat_pre tl ps (f u) = w_treat_pre tl ps u) by (intros u; unfold w_treat_pre, rtrim; rewrite Hp; reflexivity).
    assert (Q1 : forall u, w_cont_post tl ps (f u) = w_cont_post tl ps u) by (intros u; unfold w_cont_post, rtrim; rewrite Hp; reflexivity).
    assert (Q0 : forall u, w_cont_pre tl ps (f u) = w_cont_pre tl ps u) by (intros u; unfold w_cont_pre, rtrim; rewrite Hp; reflexivity).
    split.
    - unfold trad_att. cbn zeta.
      rewrite (att_affine c a b (w_treat_post tl ps) _ _ ln 0 P1 (V _)) by auto. rewrite (att_affine c a b (w_treat_pre tl ps) _ _ ln 0 P0 (V _)) by auto.
      rewrite (att_affine c a b (w_cont_post tl ps) _ _ ln 0 Q1 (V _)) by auto. rewrite (att_affine c a b (w_cont_pre tl ps) _ _ ln 0 Q0 (V _)) by auto. ring.
    - intros u Hu. unfold trad_inf. cbn zeta.
      rewrite (lead_affine c a b (w_treat_post tl ps) _ _ ln 0 P1 (V _)) by auto. rewrite (lead_affine c a b (w_treat_pre tl ps) _ _ ln 0 P0 (V _)) by auto.
      rewrite (lead_affine c a b (w_cont_post tl ps) _ _ ln 0 Q1 (V _)) by auto. rewrite (lead_affine c a b (w_cont_pre tl ps) _ _ ln 0 Q0 (V _)) by auto.
      rewrite (ps_moment_affine c a b (w_cont_post tl ps) _ _ ln 0 Q1 (V _)) by auto. rewrite (ps_moment_affine c a b (w_cont_pre tl ps) _ _ ln 0 Q0 (V _)) by auto.
      rewrite !or_moment_affine by (first [exact P1|exact P0|exact Q1|exact Q0|reflexivity]).
      rewrite !(alr_ols_affine c a b k false true b1 b1' M1 u) by (apply F1; exact Hu). rewrite !(alr_ols_affine c a b k false false b0 b0' M0 u) by (apply F0; exact Hu).
      assert (AL : alr_logit k ps H (f u) = alr_logit k ps H u) by (unfold alr_logit; rewrite Hp; reflexivity). rewrite AL.
      rewrite !dotk_vsub_r, !dotk_scale_r. ring.
  Qed.
  Lemma trad_affine : rwls_ok o k -> rlogit_blind o -> rno_collinearity k (cell false false l) -> rno_collinearity k (cell false true l) -> rhas_intercept l -> (1 <= k)%nat ->
    drdid_trad_rc o k tl l = PEst att inf -> drdid_trad_rc o k tl (map f l) = PEst att' inf' -> att' = c * att /\ inf' = map (fun v => c * v) inf.
  Proof.
    intros WO LB NC0 NC1 I Hk E E'. apply trad_inv in E. apply trad_inv in E'. rewrite rnormalise_affine in E'.
    destruct E as [NN [_ [g [b0 [b1 [M0 [M1 [H [Eg [E0 [E1 [I0 [I1 [EH [SZ [-> ->]]]]]]]]]]]]]]]].
    destruct E' as [_ [_ [g' [b0' [b1' [M0' [M1' [H' [Eg' [E0' [E1' [I0' [I1' [EH' [_ [-> ->]]]]]]]]]]]]]]]]. cbn zeta in *.
    rewrite (LB _ (rnormalise l) (rview_affine c a b _)), Eg in Eg'. injection Eg' as <-. rewrite rps_gram_affine, EH in EH'. injection EH' as <-.
    rewrite rgram_affine in I0', I1'. rewrite I0 in I0'. rewrite I1 in I1'. injection I0' as <-. injection I1' as <-.
    apply some_zero_inv in SZ. assert (Hm := mean_weights_neq0 _ cT0 l (wt0_c _ _) (proj1 SZ)). assert (W0 := proj1 (rany_neg_false l) NN). assert (W := rnormalise_nonneg l W0 Hm).
    apply ols_rc_inv in E0. apply ols_rc_inv in E1. apply ols_rc_inv in E0'. apply ols_rc_inv in E1'.
    assert (IN := intercept_rnormalise I).
    assert (F0 := rfit_affine c a b o k false false _ b0 b0' WO W (nc_normal _ _ _ _ W0 Hm NC0) IN Hk (proj1 E0) (proj1 E0')).
    assert (F1 := rfit_affine c a b o k false true _ b1 b1' WO W (nc_normal _ _ _ _ W0 Hm NC1) IN Hk (proj1 E1) (proj1 E1')).
    destruct (trad_affine_core (rps_fit (ro_mu o) k g) b0 b0' b1 b1' M0 M1 (mscale (qn (length (rnormalise l))) H) (rnormalise l) (fun _ => eq_refl) F0 F1) as [A B].
    split; [exact A|]. rewrite map_length. apply inf_map. exact B.
  Qed.
  Lemma loc_affine : rwls_ok o k -> rlogit_blind o -> (forall d t, rno_collinearity k (cell d t l)) -> rhas_intercept l -> (1 <= k)%nat ->
    drdid_rc o k tl l = PEst att inf -> drdid_rc o k tl (map f l) = PEst att' inf' -> att' = c * att /\ inf' = map (fun v => c * v) inf.
  Proof.
    intros WO LB NC I Hk E E'. apply loc_inv in E. apply loc_inv in E'. rewrite rnormalise_affine in E'.
    destruct E as [NN [_ [g [c0 [c1 [t0 [t1 [MC0 [MC1 [MT0 [MT1 [H [Eg [E0 [E1 [E2 [E3 [I0 [I1 [I2 [I3 [EH [SZ [-> ->]]]]]]]]]]]]]]]]]]]]]]]].
    destruct E' as [_ [_ [g' [c0' [c1' [t0' [t1' [MC0' [MC1' [MT0' [MT1' [H' [Eg' [E0' [E1' [E2' [E3' [I0' [I1' [I2' [I3' [EH' [_ [-> ->]]]]]]]]]]]]]]]]]]]]]]]]. cbn zeta in *.
    rewrite (LB _ (rnormalise l) (rview_affine c a b _)), Eg in Eg'. injection Eg' as <-. rewrite rps_gram_affine, EH in EH'. injection EH' as <-.
    rewrite rgram_affine in I0', I1', I2', I3'. rewrite I0 in I0'. rewrite I1 in I1'. rewrite I2 in I2'. rewrite I3 in I3'. injection I0' as <-. injection I1' as <-. injection I2' as <-. injection I3' as <-.
    apply some_zero_inv in SZ. assert (Hm := mean_weights_neq0 _ cT0 l (wt0_c _ _) (proj1 SZ)). assert (W0 := proj1 (rany_neg_false l) NN). assert (W := rnormalise_nonneg l W0 Hm).
    apply ols_rc_inv in E0. apply ols_rc_inv in E1. apply ols_rc_inv in E2. apply ols_rc_inv in E3.
    apply ols_rc_inv in E0'. apply ols_rc_inv in E1'. apply ols_rc_inv in E2'. apply ols_rc_inv in E3'.
    assert (IN := intercept_rnormalise I).
    assert (F0 := rfit_affine c a b o k false false _ c0 c0' WO W (nc_normal _ _ _ _ W0 Hm (NC _ _)) IN Hk (proj1 E0) (proj1 E0')).
    assert (F1 := rfit_affine c a b o k false true _ c1 c1' WO W (nc_normal _ _ _ _ W0 Hm (NC _ _)) IN Hk (proj1 E1) (proj1 E1')).
    assert (F2 := rfit_affine c a b o k true false _ t0 t0' WO W (nc_normal _ _ _ _ W0 Hm (NC _ _)) IN Hk (proj1 E2) (proj1 E2')).
    assert (F3 := rfit_affine c a b o k true true _ t1 t1' WO W (nc_normal _ _ _ _ W0 Hm (NC _ _)) IN Hk (proj1 E3) (proj1 E3')). cbn [shift] in F0, F1, F2, F3.
    set (ps := rps_fit (ro_mu o) k g) in *. set (ln := rnormalise l) in *. rewrite map_length.
    destruct (trad_affine_core ps c0 c0' c1 c1' MC0 MC1 (mscale (qn (length ln)) H) ln (fun _ => eq_refl) F0 F1) as [A B].
    assert (G1 : forall w : runit -> Qc, forall u, In u ln -> w u * (rout k t1' (f u) - rout k c1' (f u)) = w u * (c * (rout k t1 u - rout k c1 u) + 0)).
    { intros w u Hu. change (rout k t1' (f u)) with (rout k t1' u). change (rout k c1' (f u)) with (rout k c1' u). rewrite F1, F3 by exact Hu. ring. }
    assert (G0 : forall w : runit -> Qc, forall u, In u ln -> w u * (rout k t0' (f u) - rout k c0' (f u)) = w u * (c * (rout k t0 u - rout k c0 u) + 0)).
    { intros w u Hu. change (rout k t0' (f u)) with (rout k t0' u). change (rout k c0' (f u)) with (rout k c0' u). rewrite F0, F2 by exact Hu. ring. }
    assert (PD : forall u, w_d tl ps (f u) = w_d tl ps u) by reflexivity. assert (P1 : forall u, w_treat_post tl ps (f u) = w_treat_post tl ps u) by reflexivity.
    assert (P0 : forall u, w_treat_pre tl ps (f u) = w_treat_pre tl ps u) by reflexivity.
    split.
    - unfold loc_att. cbn zeta. rewrite A.
      rewrite (att_affine c a b (w_d tl ps) _ _ ln 0 PD (G1 _)) by auto. rewrite (att_affine c a b (w_treat_post tl ps) _ _ ln 0 P1 (G1 _)) by auto.
      rewrite (att_affine c a b (w_d tl ps) _ _ ln 0 PD (G0 _)) by auto. rewrite (att_affine c a b (w_treat_pre tl ps) _ _ ln 0 P0 (G0 _)) by auto. ring.
    - apply inf_map. intros u Hu. unfold loc_inf. cbn zeta. rewrite (B u Hu).
      rewrite (lead_affine c a b (w_d tl ps) _ _ ln 0 PD (G1 _)) by auto. rewrite (lead_affine c a b (w_treat_post tl ps) _ _ ln 0 P1 (G1 _)) by auto.
      rewrite (lead_affine c a b (w_d tl ps) _ _ ln 0 PD (G0 _)) by auto. rewrite (lead_affine c a b (w_treat_pre tl ps) _ _ ln 0 P0 (G0 _)) by auto.
      rewrite !(mean_w_affine c a b _ ln) by reflexivity. rewrite !(rmean_col_affine c a b k _ ln) by reflexivity. rewrite !dotk_vsub_l.
      rewrite (alr_ols_affine c a b k true true t1 t1') by (apply F3; exact Hu). rewrite (alr_ols_affine c a b k false true c1 c1') by (apply F1; exact Hu).
      rewrite (alr_ols_affine c a b k true false t0 t0') by (apply F2; exact Hu). rewrite (alr_ols_affine c a b k false false c0 c0') by (apply F0; exact Hu). ring.
  Qed.
End Main.
