(** Proofs for C25 (no covariates, dr and reg) and C27 (the influence function is the derivative). *)
From Verif Require Import Base ListLib ReduceModel ReduceProofs2 DrdidModel DrdidSpec DrdidProofs DrdidProofs2 DrdidProofs3 DrdidProofs4.

Lemma sum_treat_neq0 tl ps l : mean (w_treat tl ps) (normalise l) <> 0 -> sumf p_w (filter (fun u => Bool.eqb (p_d u) true) l) <> 0.
Proof.
  intros H E. assert (Hm := mean_wt_pos_weights _ _ _ H). apply H, mean_0. unfold normalise. rewrite sumf_map.
  transitivity (/ mean p_w l * sumf p_w (filter (fun u => Bool.eqb (p_d u) true) l)); [|rewrite E; ring].
  rewrite sumf_filter, <- sumf_mul_l. apply sumf_ext. intros u _. unfold w_treat, trim_ps, p_D. cbn [set_w p_d p_w]. destruct (p_d u); cbn; unfold Qcdiv; ring.
Qed.
Lemma sum_cont_neq0 o k g tl l : mean (w_cont tl (ps_fit (o_mu o) k g)) (normalise l) <> 0 -> (forall u, In u l -> 0 <= p_w u) ->
  sumf p_w (filter (fun u => Bool.eqb (p_d u) false) l) <> 0.
Proof.
  intros H W E. apply H, mean_0, sumf_zero. intros u Hu. apply in_normalise in Hu. destruct Hu as [a [Ha ->]].
  unfold w_cont, p_D. cbn [set_w p_d p_w]. destruct (p_d a) eqn:D; [unfold Qcdiv; cbn; ring|].
  assert (Z : p_w a = 0).
  { apply (nonneg_sum_zero p_w (filter (fun u => Bool.eqb (p_d u) false) l)); [|exact E|].
    - intros b Hb. apply filter_In in Hb. apply W, Hb.
    - apply filter_In. split; [exact Ha|]. rewrite D. reflexivity. }
  rewrite Z, Qcdiv_0_l. unfold Qcdiv. ring.
Qed.
Lemma Qc_sub_0_eq (x y : Qc) : x - y = 0 -> x = y.
Proof. intros H. transitivity (x - y + y); [ring|rewrite H; ring]. Qed.
Section NoCov.
  Context (l : list punit) (HX : forall u, In u l -> p_x u = [1]).
  Lemma nocov_odds o tl g v : mean (w_treat tl (ps_fit (o_mu o) 1 g)) (normalise l) <> 0 ->
    mean (w_cont tl (ps_fit (o_mu o) 1 g)) (normalise l) <> 0 ->
    odds_mean tl (ps_fit (o_mu o) 1 g) v l = group_mean false v l.
  Proof.
    intros Ht Hc. set (ps := ps_fit (o_mu o) 1 g) in *.
    destruct (Qcltb (clip eps6 (1 - eps6) (o_mu o (nth 0 g 0))) tl) eqn:T.
    - assert (P : forall u, In u l -> ps u = clip eps6 (1 - eps6) (o_mu o (nth 0 g 0))) by (intros u Hu; unfold ps, ps_fit; rewrite (HX u Hu), dotk_one; reflexivity).
      destruct l as [|u0 l']; [exfalso; apply Ht; reflexivity|].
      assert (B := ps_fit_bounds (o_mu o) 1 g u0). fold ps in B. rewrite (P u0 (or_introl eq_refl)) in B. destruct B as [B1 B2].
      apply (odds_mean_flat tl ps _ v (u0 :: l') P B1 B2 T).
    - exfalso. apply Hc. apply mean_0, sumf_zero. intros u Hu. apply in_normalise in Hu. destruct Hu as [a [Ha ->]].
      unfold w_cont, trim_ps, p_D. replace (ps (set_w (p_w a / mean p_w l) a)) with (clip eps6 (1 - eps6) (o_mu o (nth 0 g 0))) by (unfold ps, ps_fit; cbn [set_w p_x]; rewrite (HX a Ha), dotk_one; reflexivity).
      rewrite T. cbn [set_w p_d]. destruct (p_d a); cbn [orb ind]; unfold Qcdiv; ring.
  Qed.
  Lemma nocov_dr o tl att inf : drdid_panel o 1 tl l = PEst att inf -> att = group_mean true p_dy l - group_mean false p_dy l.
  Proof.
    intros E0. assert (E := E0). apply dr_inv in E. destruct E as [N0 [_ [g0 [b0 [M [H [Eg0 [Eb0 [Ht [Hc _]]]]]]]]]]. cbn zeta in *.
    apply dr_value in E0. destruct E0 as [g [b [Eg [Eb ->]]]]. rewrite Eg in Eg0. injection Eg0 as <-. cbn zeta.
    rewrite nocov_odds by assumption. rewrite !group_mean_sub.
    rewrite (group_mean_const true (nth 0 b 0) (fun u => dotk 1 (p_x u) b)) by (first [intros u Hu; rewrite (HX u Hu); apply dotk_one|eapply sum_treat_neq0; exact Ht]).
    rewrite (group_mean_const false (nth 0 b 0) (fun u => dotk 1 (p_x u) b)) by (first [intros u Hu; rewrite (HX u Hu); apply dotk_one|eapply sum_cont_neq0; [exact Hc|apply any_neg_false; exact N0]]).
    ring.
  Qed.
  Lemma nocov_reg o att inf : wls_ok o 1 -> inv_ok o 1 -> reg_did_panel o 1 l = PEst att inf -> att = group_mean true p_dy l - group_mean false p_dy l.
  Proof.
    intros WO IO E0. assert (E := E0). apply reg_inv in E. destruct E as [N0 [_ [b0 [M [_ [Hm [EM _]]]]]]].
    assert (HT : sumf p_w (filter (fun u => Bool.eqb (p_d u) true) l) <> 0).
    { intros Z. apply Hm. apply mean_0, sumf_zero. intros u Hu. apply in_normalise in Hu. destruct Hu as [a [Ha ->]]. unfold w_reg, p_D. cbn [set_w p_d p_w].
      destruct (p_d a) eqn:D; [|cbn; ring]. replace (p_w a) with 0; [rewrite Qcdiv_0_l; ring|]. symmetry.
      apply (nonneg_sum_zero p_w (filter (fun u => Bool.eqb (p_d u) true) l)); [|exact Z|].
      - intros c Hc. apply filter_In in Hc. apply (proj1 (any_neg_false l) N0 c), Hc.
      - apply filter_In. split; [exact Ha|]. rewrite D. reflexivity. }
    apply mean_wreg_pos_weights in Hm.
    assert (G : sumf p_w (filter (fun u => Bool.eqb (p_d u) false) l) <> 0).
    { intros Z. apply IO in EM. destruct (EM 0%nat 0%nat) as [I1 _]; [lia|lia|]. revert I1. unfold mat_mul. cbn [seq]. rewrite sumf_cons, sumf_nil.
      unfold ols_gram. rewrite mget_mat_of by lia. replace (mean _ (normalise l)) with 0; [intros I1; discriminate (eq_trans (eq_sym (Qcplus_0_r _)) I1)|]. 
      symmetry. apply mean_0, sumf_zero. intros u Hu. apply in_normalise in Hu. destruct Hu as [a [Ha ->]]. unfold p_D. cbn [set_w p_d p_w].
      destruct (p_d a) eqn:D; [cbn; ring|]. replace (p_w a) with 0; [rewrite Qcdiv_0_l; ring|]. symmetry.
      apply (nonneg_sum_zero p_w (filter (fun u => Bool.eqb (p_d u) false) l)); [|exact Z|].
      - intros c Hc. apply filter_In in Hc. apply (proj1 (any_neg_false l) N0 c), Hc.
      - apply filter_In. split; [exact Ha|]. rewrite D. reflexivity. }
    apply reg_value in E0. destruct E0 as [b [Eb ->]]. rewrite group_mean_sub.
    cut (group_mean false p_dy l = nth 0 b 0); [intros CC; rewrite CC|].
    { rewrite (group_mean_const true (nth 0 b 0) (fun u => dotk 1 (p_x u) b)) by (first [intros u Hu; rewrite (HX u Hu); apply dotk_one|exact HT]). reflexivity. }
    apply WO, normal_of_controls in Eb. specialize (Eb 0%nat (Nat.lt_0_1)). unfold group_mean. apply Qcdiv_eq_iff; [exact G|].
    unfold normalise in Eb. rewrite sumf_map in Eb. 
    assert (R : / mean p_w l * (sumf (fun u => p_w u * p_dy u) (filter (fun u => Bool.eqb (p_d u) false) l) - nth 0 b 0 * sumf p_w (filter (fun u => Bool.eqb (p_d u) false) l)) = 0).
    { refine (eq_trans _ Eb). rewrite !sumf_filter, <- sumf_mul_l, <- sumf_sub, <- sumf_mul_l. apply sumf_ext. intros u Hu. unfold p_D, x_at, p_dy. cbn [set_w p_d p_w p_x p_y1 p_y0].
      rewrite (HX u Hu), dotk_one. destruct (p_d u); cbn [Bool.eqb ind nth]; unfold Qcdiv; ring. }
    apply Qcmult_integral in R. destruct R as [R|R].
    - exfalso. apply Hm. transitivity (mean p_w l * mean p_w l * / mean p_w l); [field; exact Hm|rewrite R; ring].
    - apply (Qc_sub_0_eq _ _ R).
  Qed.
End NoCov.
