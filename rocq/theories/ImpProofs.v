(** Proofs for C113-C115: the improved doubly robust and the Horvitz-Thompson panel estimators. *)
From Verif Require Import Base ListLib ReduceModel ReduceProofs2 Calc DrdidModel DrdidSpec DrdidProofs DrdidProofs2 DrdidProofs3 DrdidProofs4 DrdidProofs5 DrdidProofs7 DrdidProofs8 DrdidProofs9 DrdidProofs10 ImpModel ImpSpec.

Lemma Qcmult_sub_r (a b c : Qc) : (a - b) * c = a * c - b * c.
Proof. ring. Qed.
Lemma imp_inv o k tl l0 att inf (l := normalise l0) : drdid_imp_panel o k tl l0 = PEst att inf ->
  any_neg l0 = false /\ exists gamma beta, o_logit o l = Some gamma /\
  let ps := ps_fit (o_mu o) k gamma in
  o_wls o (map (tilt ps) (ctrl l)) = Some beta /\ mean_d l <> 0 /\
  att = imp_att tl ps (outf k beta) l /\ inf = map (imp_inf tl ps (outf k beta) l) l.
Proof.
  unfold drdid_imp_panel. fold l. destruct (any_neg l0); [discriminate|]. cbn zeta. destruct (o_logit o l) as [g|]; [|discriminate].
  intros E. split; [reflexivity|]. exists g.
  destruct (ctrl l) as [|c0 cl]; [discriminate|]. destruct (o_wls o (map (tilt (ps_fit (o_mu o) k g)) (c0 :: cl))) as [b|] eqn:EB; [|discriminate].
  destruct (Qceqb_spec (mean_d l) 0) as [|N]; [discriminate|]. injection E as <- <-. exists b. repeat split; auto.
Qed.
Lemma pht_inv o k tl l0 att inf (l := normalise l0) : ipw_did_panel o k tl l0 = PEst att inf ->
  any_neg l0 = false /\ two_groups l = true /\ exists gamma H, o_logit o l = Some gamma /\
  let ps := ps_fit (o_mu o) k gamma in
  mean_d l <> 0 /\ o_inv o (ps_gram k ps l) = Some H /\
  att = pht_att tl ps l /\ inf = map (pht_inf k tl ps (mscale (qn (length l)) H) l) l.
Proof.
  unfold ipw_did_panel. fold l. destruct (any_neg l0); [discriminate|]. destruct (two_groups l); [|discriminate]. cbn [negb].
  destruct (o_logit o l) as [g|]; [|discriminate]. destruct (Qceqb_spec (mean_d l) 0) as [|N]; [discriminate|].
  destruct (o_inv o (ps_gram k (ps_fit (o_mu o) k g) l)) as [H|] eqn:EH; [|discriminate].
  intros E. injection E as <- <-. split; [reflexivity|]. split; [reflexivity|]. exists g, H. cbn zeta. repeat split; auto.
Qed.

Lemma ratio_mean {A} (f g : A -> Qc) l : mean f l / mean g l = sumf f l / sumf g l.
Proof.
  unfold mean. destruct l as [|a l]; [unfold sumf; cbn; rewrite !Qcdiv_0_l; reflexivity|].
  destruct (Qceqb_spec (sumf g (a :: l)) 0) as [E|N].
  - rewrite E, Qcdiv_0_l, !Qcdiv_0_r. reflexivity.
  - field. split; [exact N|apply qn_neq0; cbn; lia].
Qed.
Lemma ratio_normalise (f g f0 g0 : punit -> Qc) l : mean p_w l <> 0 ->
  (forall u, In u l -> f (set_w (p_w u / mean p_w l) u) = / mean p_w l * f0 u) -> (forall u, In u l -> g (set_w (p_w u / mean p_w l) u) = / mean p_w l * g0 u) ->
  mean f (normalise l) / mean g (normalise l) = sumf f0 l / sumf g0 l.
Proof.
  intros Hm Hf Hg. rewrite ratio_mean. unfold normalise. rewrite !sumf_map. rewrite <- (ratio_scale (/ mean p_w l) (sumf f0 l)).
  - rewrite <- !sumf_mul_l. f_equal; apply sumf_ext; assumption.
  - intros E. apply Hm. transitivity (mean p_w l * mean p_w l * / mean p_w l); [field; exact Hm|rewrite E; ring].
Qed.
Lemma mean_d_weights l : mean_d (normalise l) <> 0 -> mean p_w l <> 0.
Proof.
  intros H. apply mean_wreg_pos_weights. intros E. apply H. rewrite <- E. unfold mean_d. apply mean_ext. intros u _. unfold w_reg. ring.
Qed.
Definition sgn (tl : Qc) (ps : punit -> Qc) (u : punit) : Qc := p_D u - cw tl ps u.
Lemma imp_term_sgn tl ps out u : 1 - ps u <> 0 -> imp_term tl ps out u = sgn tl ps u * (p_dy u - out u).
Proof.
  intros N. unfold imp_term, sgn, cw, trim_ps, p_D. destruct (p_d u), (Qcltb (ps u) tl); cbn [orb negb andb ind]; field; exact N.
Qed.
Lemma trim_sgn tl ps u : trim_ps tl ps u * sgn tl ps u = sgn tl ps u.
Proof. unfold sgn, cw, trim_ps, p_D. destruct (p_d u), (Qcltb (ps u) tl); cbn [orb negb andb ind]; ring. Qed.
Lemma trim_D tl ps u : trim_ps tl ps u * p_D u = p_D u.
Proof. unfold trim_ps, p_D. destruct (p_d u), (Qcltb (ps u) tl); cbn [orb negb andb ind]; ring. Qed.
Lemma imp_inf_sgn tl ps out l u : 1 - ps u <> 0 ->
  imp_inf tl ps out l u = p_w u * (sgn tl ps u * (p_dy u - out u) - p_D u * imp_att tl ps out l) / mean_d l.
Proof.
  intros N. unfold imp_inf. f_equal. rewrite imp_term_sgn by exact N.
  transitivity (p_w u * ((trim_ps tl ps u * sgn tl ps u) * (p_dy u - out u) - (trim_ps tl ps u * p_D u) * imp_att tl ps out l)); [ring|]. rewrite trim_sgn, trim_D. reflexivity.
Qed.
Lemma ps_neq mu k g u : 1 - ps_fit mu k g u <> 0.
Proof. destruct (ps_fit_bounds mu k g u) as [_ B]. apply Qc_pos_neq0. assert (0 < eps6) by reflexivity. qclra. Qed.
Lemma ps_pos mu k g u : 0 < ps_fit mu k g u / (1 - ps_fit mu k g u).
Proof. destruct (ps_fit_bounds mu k g u) as [A B]. assert (0 < eps6) by reflexivity. apply Qcdiv_pos; qclra. Qed.
Lemma sum_treated l : sumf p_w (filter p_d l) = sumf (fun u => p_w u * p_D u) l.
Proof. rewrite sumf_filter. apply sumf_ext. intros u _. unfold p_D. ring. Qed.

(** ** values *)
Lemma imp_att_value mu k g tl out l : mean p_w l <> 0 -> (forall w u, out (set_w w u) = out u) ->
  imp_att tl (ps_fit mu k g) out (normalise l)
  = sumf (fun u => p_w u * (sgn tl (ps_fit mu k g) u * (p_dy u - out u))) l / sumf (fun u => p_w u * p_D u) l.
Proof.
  intros Hm Ho. unfold imp_att, mean_d. apply ratio_normalise; [exact Hm| |].
  - intros u _. rewrite imp_term_sgn by apply ps_neq. rewrite Ho. change (sgn tl (ps_fit mu k g) (set_w (p_w u / mean p_w l) u)) with (sgn tl (ps_fit mu k g) u).
    change (p_dy (set_w (p_w u / mean p_w l) u)) with (p_dy u). cbn [set_w p_w]. unfold Qcdiv. ring.
  - intros u _. unfold p_D. cbn [set_w p_d p_w]. unfold Qcdiv. ring.
Qed.
Lemma group_true v l : group_mean true v l = sumf (fun u => p_w u * p_D u * v u) l / sumf (fun u => p_w u * p_D u) l.
Proof. unfold group_mean. rewrite !sumf_filter. f_equal; apply sumf_ext; intros u _; unfold p_D; destruct (p_d u); cbn; ring. Qed.
Lemma odds_total_cw tl ps v l : odds_total tl ps v l = sumf (fun u => p_w u * cw tl ps u * v u) l / sumf (fun u => p_w u * p_D u) l.
Proof. unfold odds_total. rewrite sum_treated. f_equal. rewrite sumf_filter. apply sumf_ext. intros u _. unfold cw. ring. Qed.
Lemma imp_value o k tl l att inf : drdid_imp_panel o k tl l = PEst att inf -> exists gamma beta,
  o_logit o (normalise l) = Some gamma /\ o_wls o (map (tilt (ps_fit (o_mu o) k gamma)) (ctrl (normalise l))) = Some beta /\
  let ps := ps_fit (o_mu o) k gamma in let r := fun u => p_dy u - dotk k (p_x u) beta in
  att = group_mean true r l - odds_total tl ps r l.
Proof.
  intros E. apply imp_inv in E. destruct E as [_ [g [b [Eg [Eb [Hd [-> _]]]]]]]. exists g, b. split; [exact Eg|]. split; [exact Eb|]. cbn zeta in *.
  rewrite imp_att_value by (try apply mean_d_weights; auto). rewrite group_true, odds_total_cw. unfold sgn. unfold Qcdiv. rewrite <- Qcmult_sub_r.
  f_equal. rewrite <- sumf_sub. apply sumf_ext. intros u _. ring.
Qed.
Lemma pht_att_value mu k g tl l : mean p_w l <> 0 ->
  pht_att tl (ps_fit mu k g) (normalise l) = group_mean true p_dy l - odds_total tl (ps_fit mu k g) p_dy l.
Proof.
  intros Hm. unfold pht_att, mean_d. rewrite group_true, odds_total_cw. unfold Qcminus; f_equal; [|apply (f_equal Qcopp)]; apply ratio_normalise; try exact Hm; intros u _.
  - rewrite w_treat_D. unfold p_D, p_dy. cbn [set_w p_d p_w p_y1 p_y0]. unfold Qcdiv. ring.
  - unfold p_D. cbn [set_w p_d p_w]. unfold Qcdiv. ring.
  - rewrite w_cont_cw. change (cw tl (ps_fit mu k g) (set_w (p_w u / mean p_w l) u)) with (cw tl (ps_fit mu k g) u). unfold p_dy. cbn [set_w p_d p_w p_y1 p_y0]. unfold Qcdiv. ring.
  - unfold p_D. cbn [set_w p_d p_w]. unfold Qcdiv. ring.
Qed.
Lemma pht_value o k tl l att inf : ipw_did_panel o k tl l = PEst att inf -> exists gamma, o_logit o (normalise l) = Some gamma /\
  att = group_mean true p_dy l - odds_total tl (ps_fit (o_mu o) k gamma) p_dy l.
Proof.
  intros E. apply pht_inv in E. destruct E as [_ [_ [g [H [Eg [Hd [_ [-> _]]]]]]]]. exists g. split; [exact Eg|]. cbn zeta in *.
  apply pht_att_value. apply mean_d_weights. exact Hd.
Qed.
(** the tilted regression *)
Lemma odds_normal_of o k ps l beta : wls_ok o k -> mean p_w l <> 0 -> (forall w u, ps (set_w w u) = ps u) ->
  o_wls o (map (tilt ps) (ctrl (normalise l))) = Some beta -> odds_normal k ps l beta.
Proof.
  intros WO Hm Hp E j Hj. apply WO in E. specialize (E j Hj). rewrite sumf_map, sumf_filter in E. unfold normalise in E. rewrite sumf_map in E.
  assert (Z : / mean p_w l * sumf (fun u => p_w u * (ps u / (1 - ps u)) * (p_dy u - dotk k (p_x u) beta) * x_at u j) (ctrl l) = 0).
  { refine (eq_trans _ E). rewrite sumf_filter, <- sumf_mul_l. apply sumf_ext. intros u _. unfold tilt. rewrite Hp. unfold p_D, p_dy, x_at. cbn [set_w p_d p_w p_x p_y1 p_y0].
    destruct (p_d u); cbn [negb ind]; unfold Qcdiv; ring. }
  apply Qcmult_integral in Z. destruct Z as [Z|Z]; [|exact Z]. exfalso. apply Hm. transitivity (mean p_w l * mean p_w l * / mean p_w l); [field; exact Hm|rewrite Z; ring].
Qed.
Lemma cw_untrimmed tl ps l u : untrimmed tl ps l -> In u l -> cw tl ps u = (1 - p_D u) * (ps u / (1 - ps u)).
Proof.
  intros H Hu. unfold cw, p_D. destruct (p_d u) eqn:D; cbn [negb andb ind]; [ring|].
  destruct (Qcltb_spec (ps u) tl) as [_|N]; [cbn; ring|]. exfalso. apply N. apply H; assumption.
Qed.
Lemma calibrated_sgn k tl ps l : calibrated k ps l -> untrimmed tl ps l -> forall j, (j < k)%nat -> sumf (fun u => p_w u * sgn tl ps u * x_at u j) l = 0.
Proof.
  intros C U j Hj. specialize (C j Hj). rewrite !sumf_filter in C.
  transitivity (sumf (fun u => ind (p_d u) * (p_w u * x_at u j)) l - sumf (fun u => ind (negb (p_d u)) * (p_w u * (ps u / (1 - ps u)) * x_at u j)) l); [|rewrite C; ring].
  rewrite <- sumf_sub. apply sumf_ext. intros u Hu. unfold sgn. rewrite (cw_untrimmed tl ps l u U Hu). unfold p_D. destruct (p_d u); cbn [negb ind]; ring.
Qed.
Lemma normal_cw k tl ps l beta : odds_normal k ps l beta -> untrimmed tl ps l -> forall j, (j < k)%nat ->
  sumf (fun u => p_w u * cw tl ps u * (p_dy u - dotk k (p_x u) beta) * x_at u j) l = 0.
Proof.
  intros N U j Hj. specialize (N j Hj). rewrite sumf_filter in N. refine (eq_trans _ N). apply sumf_ext. intros u Hu. rewrite (cw_untrimmed tl ps l u U Hu). unfold p_D. destruct (p_d u); cbn [negb ind]; ring.
Qed.
Lemma sum_x_dot k (f : punit -> Qc) b l : (forall j, (j < k)%nat -> sumf (fun u => f u * x_at u j) l = 0) -> sumf (fun u => f u * dotk k (p_x u) b) l = 0.
Proof.
  intros H. rewrite (sumf_ext _ (fun u => sumf (fun j => f u * x_at u j * nth j b 0) (seq 0 k))).
  - rewrite sumf_swap. apply sumf_zero. intros j Hj. apply in_seq in Hj. rewrite sumf_mul_r, H by lia. ring.
  - intros u _. unfold dotk. rewrite <- sumf_mul_l. apply sumf_ext. intros j _. unfold x_at. ring.
Qed.
Lemma intercept_total k (f : punit -> Qc) l : has_intercept l -> (1 <= k)%nat -> (forall j, (j < k)%nat -> sumf (fun u => f u * x_at u j) l = 0) -> sumf f l = 0.
Proof.
  intros HI Hk H. refine (eq_trans _ (H 0%nat ltac:(lia))). apply sumf_ext. intros u Hu. unfold x_at. rewrite (HI u Hu). ring.
Qed.
(** equals the regression estimate *)
Lemma imp_regression o k tl l att inf : wls_ok o k -> has_intercept l -> (1 <= k)%nat -> drdid_imp_panel o k tl l = PEst att inf ->
  exists gamma beta, o_logit o (normalise l) = Some gamma /\ let ps := ps_fit (o_mu o) k gamma in odds_normal k ps l beta /\
  (untrimmed tl ps l -> att = group_mean true (fun u => p_dy u - dotk k (p_x u) beta) l).
Proof.
  intros WO HI Hk E. assert (E' := E). apply imp_inv in E'. destruct E' as [_ [g0 [b0 [Eg0 [_ [Hd _]]]]]]. apply mean_d_weights in Hd.
  apply imp_value in E. destruct E as [g [b [Eg [Eb ->]]]]. exists g, b. split; [exact Eg|]. cbn zeta.
  assert (N := odds_normal_of o k (ps_fit (o_mu o) k g) l b WO Hd (fun _ _ => eq_refl) Eb). split; [exact N|]. intros U.
  assert (Z : odds_total tl (ps_fit (o_mu o) k g) (fun u => p_dy u - dotk k (p_x u) b) l = 0); [|rewrite Z; ring].
  rewrite odds_total_cw. rewrite (intercept_total k _ l HI Hk (normal_cw k tl _ l b N U)). apply Qcdiv_0_l.
Qed.
(** equals the weighting estimates *)
Lemma imp_weighting o k tl l att inf gamma : drdid_imp_panel o k tl l = PEst att inf -> o_logit o (normalise l) = Some gamma ->
  let ps := ps_fit (o_mu o) k gamma in calibrated k ps l -> untrimmed tl ps l ->
  att = group_mean true p_dy l - odds_total tl ps p_dy l.
Proof.
  intros E Eg ps C U. apply imp_value in E. destruct E as [g [b [Eg' [_ ->]]]]. rewrite Eg in Eg'. injection Eg' as <-. cbn zeta. fold ps.
  rewrite group_mean_sub. 
  assert (Z : group_mean true (fun u => dotk k (p_x u) b) l = odds_total tl ps (fun u => dotk k (p_x u) b) l).
  { rewrite group_true, odds_total_cw. f_equal. apply Qc_sub_0_eq. rewrite <- sumf_sub. rewrite <- (sum_x_dot k (fun u => p_w u * sgn tl ps u) b l (calibrated_sgn k tl ps l C U)).
    apply sumf_ext. intros u _. unfold sgn. ring. }
  assert (Y : odds_total tl ps (fun u => p_dy u - dotk k (p_x u) b) l = odds_total tl ps p_dy l - odds_total tl ps (fun u => dotk k (p_x u) b) l).
  { rewrite !odds_total_cw. unfold Qcdiv. rewrite <- Qcmult_sub_r. f_equal. rewrite <- sumf_sub. apply sumf_ext. intros; ring. }
  rewrite Y, Z. ring.
Qed.
Lemma odds_total_mean k tl ps v l : has_intercept l -> (1 <= k)%nat -> calibrated k ps l -> untrimmed tl ps l -> odds_total tl ps v l = odds_mean tl ps v l.
Proof.
  intros HI Hk C U. unfold odds_total, odds_mean. cbn zeta. f_equal. rewrite sum_treated, sumf_filter. apply Qc_sub_0_eq.
  rewrite <- sumf_sub. rewrite <- (intercept_total k _ l HI Hk (calibrated_sgn k tl ps l C U)). apply sumf_ext. intros u _. unfold sgn, cw. ring.
Qed.
