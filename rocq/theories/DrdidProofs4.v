(** Proofs for C25 and C26: weight scale, order of the units, no covariates, double robustness. *)
From Verif Require Import Base ListLib ReduceModel ReduceProofs2 DrdidModel DrdidSpec DrdidProofs DrdidProofs2 DrdidProofs3.

(** ** Scale of the weights *)
Lemma normalise_scale c l : c <> 0 -> normalise (map (scale_w c) l) = normalise l.
Proof.
  intros Hc. unfold normalise. rewrite map_map. apply map_ext. intros u. rewrite mean_map.
  change (fun a => p_w (scale_w c a)) with (fun a => c * p_w a). rewrite mean_mul_l. unfold scale_w, set_w. cbn [p_id p_d p_y1 p_y0 p_w p_x].
  f_equal. destruct (Qceqb_spec (mean p_w l) 0) as [E|N].
  - rewrite E. replace (c * 0) with 0 by ring. rewrite !Qcdiv_0_r. reflexivity.
  - field. split; assumption.
Qed.
Lemma any_neg_scale c l : 0 < c -> any_neg (map (scale_w c) l) = any_neg l.
Proof.
  intros Hc. destruct (any_neg l) eqn:E.
  - destruct (any_neg (map (scale_w c) l)) eqn:E2; [reflexivity|]. rewrite <- E. symmetry. apply any_neg_false. intros u Hu.
    assert (H := proj1 (any_neg_false _) E2 (scale_w c u) (in_map _ _ _ Hu)). cbn in H.
    destruct (Qc_le_or_lt 0 (p_w u)) as [L|L]; [exact L|]. exfalso. assert (c * p_w u < 0); [|qclra].
    setoid_replace 0 with (c * 0) by ring. rewrite (Qcmult_comm c (p_w u)), (Qcmult_comm c 0). apply Qcmult_lt_compat_r; assumption.
  - apply any_neg_false. intros u Hu. apply in_map_iff in Hu. destruct Hu as [v [<- Hv]]. cbn.
    apply Qcmult_nonneg; [apply Qclt_le_weak; exact Hc|apply (proj1 (any_neg_false l) E v Hv)].
Qed.
Lemma dr_scale o k tl l c : 0 < c -> drdid_panel o k tl (map (scale_w c) l) = drdid_panel o k tl l.
Proof. intros Hc. unfold drdid_panel. rewrite any_neg_scale, normalise_scale by (auto using Qc_pos_neq0). reflexivity. Qed.
Lemma reg_scale o k l c : 0 < c -> reg_did_panel o k (map (scale_w c) l) = reg_did_panel o k l.
Proof. intros Hc. unfold reg_did_panel. rewrite any_neg_scale, normalise_scale by (auto using Qc_pos_neq0). reflexivity. Qed.
Lemma ipw_scale o k tl l c : 0 < c -> std_ipw_did_panel o k tl (map (scale_w c) l) = std_ipw_did_panel o k tl l.
Proof. intros Hc. unfold std_ipw_did_panel. rewrite any_neg_scale, normalise_scale by (auto using Qc_pos_neq0). reflexivity. Qed.

(** ** Order of the units *)
Lemma existsb_perm {A} (p : A -> bool) l l' : Permutation l l' -> existsb p l = existsb p l'.
Proof.
  intros P. destruct (existsb p l) eqn:E.
  - symmetry. apply existsb_exists in E. destruct E as [x [Hx E]]. apply existsb_exists. exists x. split; [eapply Permutation_in; eassumption|exact E].
  - symmetry. destruct (existsb p l') eqn:E'; [|reflexivity]. apply existsb_exists in E'. destruct E' as [x [Hx E']].
    rewrite <- E. symmetry. apply existsb_exists. exists x. split; [eapply Permutation_in; [symmetry; eassumption|exact Hx]|exact E'].
Qed.
Lemma normalise_perm l l' : Permutation l l' -> Permutation (normalise l) (normalise l').
Proof. intros P. unfold normalise. rewrite (mean_perm p_w _ _ P). apply Permutation_map. exact P. Qed.
Lemma wmean_perm {A} (w v : A -> Qc) l l' : Permutation l l' -> wmean w v l = wmean w v l'.
Proof. intros P. unfold wmean. rewrite !(mean_perm _ _ _ P). reflexivity. Qed.
Lemma mean_col_perm k f l l' : Permutation l l' -> mean_col k f l = mean_col k f l'.
Proof. intros P. unfold mean_col, vec_of. apply map_ext. intros j. apply mean_perm. exact P. Qed.
Lemma ols_gram_perm k l l' : Permutation l l' -> ols_gram k l = ols_gram k l'.
Proof. intros P. unfold ols_gram, mat_of. apply map_ext. intros i. apply map_ext. intros j. apply mean_perm. exact P. Qed.
Lemma ps_gram_perm k ps l l' : Permutation l l' -> ps_gram k ps l = ps_gram k ps l'.
Proof. intros P. unfold ps_gram, mat_of. apply map_ext. intros i. apply map_ext. intros j. apply sumf_perm. exact P. Qed.
Lemma dr_inf_perm k tl ps out M H l l' u : Permutation l l' -> dr_inf k tl ps out M H l u = dr_inf k tl ps out M H l' u.
Proof. intros P. unfold dr_inf. cbn zeta. rewrite !(wmean_perm _ _ _ _ P), !(mean_perm _ _ _ P), !(mean_col_perm _ _ _ _ P). reflexivity. Qed.
Lemma reg_inf_perm k out M l l' u : Permutation l l' -> reg_inf k out M l u = reg_inf k out M l' u.
Proof. intros P. unfold reg_inf. cbn zeta. rewrite !(wmean_perm _ _ _ _ P), !(mean_perm _ _ _ P), !(mean_col_perm _ _ _ _ P). reflexivity. Qed.
Lemma ipw_inf_perm k tl ps H l l' u : Permutation l l' -> ipw_inf k tl ps H l u = ipw_inf k tl ps H l' u.
Proof. intros P. unfold ipw_inf. cbn zeta. rewrite !(mean_perm _ _ _ P), !(mean_col_perm _ _ _ _ P). reflexivity. Qed.
Lemma combine_map_self {A B} (g : A -> B) l : combine l (map g l) = map (fun a => (a, g a)) l.
Proof. induction l as [|a l IH]; [reflexivity|]. cbn. rewrite IH. reflexivity. Qed.
Lemma combine_inf_perm (g g' : punit -> Qc) l l' : Permutation l l' -> (forall u, g u = g' u) ->
  Permutation (combine l (map g (normalise l))) (combine l' (map g' (normalise l'))).
Proof.
  intros P G. unfold normalise. rewrite !map_map, !combine_map_self, (mean_perm p_w _ _ P).
  rewrite (map_ext (fun a => (a, g (set_w (p_w a / mean p_w l') a))) (fun a => (a, g' (set_w (p_w a / mean p_w l') a)))) by (intros; rewrite G; reflexivity).
  apply Permutation_map. exact P.
Qed.
Lemma two_groups_perm l l' : Permutation l l' -> two_groups l = two_groups l'.
Proof. intros P. unfold two_groups. rewrite !(existsb_perm _ _ _ P). reflexivity. Qed.
Lemma any_neg_perm l l' : Permutation l l' -> any_neg l = any_neg l'.
Proof. intros P. unfold any_neg. apply existsb_perm. exact P. Qed.

Lemma dr_perm o k tl l l' : fits_symmetric o -> Permutation l l' ->
  same_up_to_order l l' (drdid_panel o k tl l) (drdid_panel o k tl l').
Proof.
  intros S P. assert (PN := normalise_perm _ _ P). unfold drdid_panel. rewrite (any_neg_perm _ _ P). destruct (any_neg l'); [exact I|].
  cbn zeta. rewrite (two_groups_perm _ _ PN). destruct (two_groups (normalise l')); [|exact I]. cbn [negb].
  rewrite (proj1 (S _ _ PN)), (proj2 (S _ _ (filter_perm (fun u => negb (p_d u)) _ _ PN))).
  destruct (o_logit o _) as [g|]; [|exact I]. destruct (o_wls o _) as [b|]; [|exact I].
  rewrite !(mean_perm _ _ _ PN). destruct (Qceqb _ 0); [exact I|]. destruct (Qceqb _ 0); [exact I|].
  rewrite (ols_gram_perm _ _ _ PN), (ps_gram_perm _ _ _ _ PN).
  destruct (o_inv o (ols_gram k _)) as [M|]; [|exact I]. destruct (o_inv o _) as [H|]; [|exact I].
  cbn. split.
  - unfold dr_att. rewrite !(wmean_perm _ _ _ _ PN). reflexivity.
  - apply combine_inf_perm; [exact P|]. intros u. rewrite (Permutation_length PN). apply dr_inf_perm. exact PN.
Qed.
Lemma reg_perm o k l l' : fits_symmetric o -> Permutation l l' ->
  same_up_to_order l l' (reg_did_panel o k l) (reg_did_panel o k l').
Proof.
  intros S P. assert (PN := normalise_perm _ _ P). unfold reg_did_panel. rewrite (any_neg_perm _ _ P). destruct (any_neg l'); [exact I|].
  cbn zeta. assert (PF := filter_perm (fun u => negb (p_d u)) _ _ PN).
  rewrite (proj2 (S _ _ PF)), (Permutation_length PF).
  replace (match filter (fun u => negb (p_d u)) (normalise l) with [] => Some None
           | _ => if (length (filter (fun u => negb (p_d u)) (normalise l')) <? k)%nat then None else option_map Some (o_wls o (filter (fun u => negb (p_d u)) (normalise l'))) end)
    with (match filter (fun u => negb (p_d u)) (normalise l') with [] => Some None
           | _ => if (length (filter (fun u => negb (p_d u)) (normalise l')) <? k)%nat then None else option_map Some (o_wls o (filter (fun u => negb (p_d u)) (normalise l'))) end).
  2:{ destruct (filter (fun u => negb (p_d u)) (normalise l)) as [|u c] eqn:E1, (filter (fun u => negb (p_d u)) (normalise l')) as [|u' c'] eqn:E2; auto.
      - apply Permutation_length in PF. discriminate.
      - apply Permutation_length in PF. discriminate. }
  destruct (match filter (fun u => negb (p_d u)) (normalise l') with [] => Some None | _ => _ end) as [ft|]; [|exact I].
  rewrite !(mean_perm _ _ _ PN). destruct (Qceqb _ 0); [exact I|]. destruct ft as [b|]; [|exact I].
  rewrite (ols_gram_perm _ _ _ PN). destruct (o_inv o (ols_gram k _)) as [M|]; [|exact I].
  cbn. split.
  - unfold reg_att. rewrite !(wmean_perm _ _ _ _ PN). reflexivity.
  - apply combine_inf_perm; [exact P|]. intros u. apply reg_inf_perm. exact PN.
Qed.
Lemma ipw_att_perm tl ps l l' : Permutation l l' -> ipw_att tl ps l = ipw_att tl ps l'.
Proof. intros P. unfold ipw_att. rewrite !(mean_perm _ _ _ P). reflexivity. Qed.
Lemma ipw_perm o k tl l l' : fits_symmetric o -> Permutation l l' ->
  same_up_to_order l l' (std_ipw_did_panel o k tl l) (std_ipw_did_panel o k tl l').
Proof.
  intros S P. assert (PN := normalise_perm _ _ P). unfold std_ipw_did_panel. rewrite (any_neg_perm _ _ P). destruct (any_neg l'); [exact I|].
  cbn zeta. rewrite (two_groups_perm _ _ PN). destruct (two_groups (normalise l')); [|exact I]. cbn [negb].
  rewrite (proj1 (S _ _ PN)). destruct (o_logit o _) as [g|]; [|exact I].
  rewrite !(mean_perm _ _ _ PN). destruct (Qceqb _ 0); [exact I|]. destruct (Qceqb _ 0); [exact I|].
  rewrite (ps_gram_perm _ _ _ _ PN). destruct (o_inv o _) as [H|]; [|exact I].
  cbn. split; [apply ipw_att_perm; exact PN|].
  apply combine_inf_perm; [exact P|]. intros u. rewrite (Permutation_length PN). apply ipw_inf_perm. exact PN.
Qed.

(** ** Weighted group means *)
Lemma wmean_sums {A} (w v : A -> Qc) l : wmean w v l = sumf (fun u => w u * v u) l / sumf w l.
Proof.
  unfold wmean, mean. destruct l as [|a l]; [unfold sumf; cbn; rewrite !Qcdiv_0_l; reflexivity|].
  destruct (Qceqb_spec (sumf w (a :: l)) 0) as [E|N].
  - rewrite E, Qcdiv_0_l, !Qcdiv_0_r. reflexivity.
  - field. split; [exact N|apply qn_neq0; cbn; lia].
Qed.
Lemma ratio_scale c a b : c <> 0 -> (c * a) / (c * b) = a / b.
Proof.
  intros Hc. destruct (Qceqb_spec b 0) as [->|N]; [replace (c * 0) with 0 by ring; rewrite !Qcdiv_0_r; reflexivity|]. field. split; assumption.
Qed.
Lemma wmean_normalise (w v w0 v0 : punit -> Qc) l : mean p_w l <> 0 ->
  (forall u, In u l -> w (set_w (p_w u / mean p_w l) u) = / mean p_w l * w0 u) -> (forall u, In u l -> v (set_w (p_w u / mean p_w l) u) = v0 u) ->
  wmean w v (normalise l) = sumf (fun u => w0 u * v0 u) l / sumf w0 l.
Proof.
  intros Hm Hw Hv. rewrite wmean_sums. unfold normalise. rewrite !sumf_map. rewrite <- (ratio_scale (/ mean p_w l) (sumf (fun u => w0 u * v0 u) l)).
  - rewrite <- !sumf_mul_l. f_equal; apply sumf_ext; intros u Hu; [rewrite Hw, Hv by exact Hu; ring|apply Hw; exact Hu].
  - intros E. apply Hm. transitivity (mean p_w l * mean p_w l * / mean p_w l); [field; exact Hm|rewrite E; ring].
Qed.
Lemma wmean_treat tl ps v l : mean p_w l <> 0 -> (forall w u, v (set_w w u) = v u) ->
  wmean (w_treat tl ps) v (normalise l) = group_mean true v l.
Proof.
  intros Hm Hv. rewrite (wmean_normalise _ _ (fun u => p_w u * p_D u) v) by (auto; intros u _; unfold w_treat, trim_ps, p_D, set_w; cbn; destruct (p_d u); cbn; unfold Qcdiv; ring).
  unfold group_mean. rewrite !sumf_filter. f_equal; apply sumf_ext; intros u _; unfold p_D; destruct (p_d u); cbn; ring.
Qed.
Lemma wmean_reg v l : mean p_w l <> 0 -> (forall w u, v (set_w w u) = v u) ->
  wmean w_reg v (normalise l) = group_mean true v l.
Proof.
  intros Hm Hv. rewrite (wmean_normalise _ _ (fun u => p_w u * p_D u) v) by (auto; intros u _; unfold w_reg, p_D, set_w; cbn; unfold Qcdiv; ring).
  unfold group_mean. rewrite !sumf_filter. f_equal; apply sumf_ext; intros u _; unfold p_D; destruct (p_d u); cbn; ring.
Qed.
Lemma wmean_cont tl ps v l : mean p_w l <> 0 -> (forall w u, v (set_w w u) = v u) -> (forall w u, ps (set_w w u) = ps u) ->
  wmean (w_cont tl ps) v (normalise l) = odds_mean tl ps v l.
Proof.
  intros Hm Hv Hp. rewrite (wmean_normalise _ _ (fun u => ind (negb (p_d u) && Qcltb (ps u) tl) * (p_w u * (ps u / (1 - ps u)))) v).
  - unfold odds_mean. cbn zeta. rewrite !sumf_filter. f_equal; apply sumf_ext; intros u _; ring.
  - exact Hm.
  - intros u _. unfold w_cont, trim_ps, p_D. rewrite Hp. cbn [set_w p_d p_w]. destruct (p_d u), (Qcltb (ps u) tl); cbn [orb negb andb ind]; unfold Qcdiv; ring.
  - intros u _. apply Hv.
Qed.
Lemma group_mean_sub b v v' l : group_mean b (fun u => v u - v' u) l = group_mean b v l - group_mean b v' l.
Proof.
  unfold group_mean. rewrite (sumf_ext (fun u => p_w u * (v u - v' u)) (fun u => p_w u * v u - p_w u * v' u)) by (intros; ring).
  rewrite sumf_sub. unfold Qcdiv. ring.
Qed.
Lemma odds_mean_sub tl ps v v' l : odds_mean tl ps (fun u => v u - v' u) l = odds_mean tl ps v l - odds_mean tl ps v' l.
Proof.
  unfold odds_mean. cbn zeta. rewrite (sumf_ext (fun u => _ * (v u - v' u)) (fun u => p_w u * (ps u / (1 - ps u)) * v u - p_w u * (ps u / (1 - ps u)) * v' u)) by (intros; ring).
  rewrite sumf_sub. unfold Qcdiv. ring.
Qed.
Lemma group_mean_dot b k beta l : group_mean b (fun u => dotk k (p_x u) beta) l = dotk k (vec_of k (fun j => group_mean b (fun u => x_at u j) l)) beta.
Proof.
  unfold group_mean, dotk. rewrite (sumf_ext (fun u => p_w u * _) (fun u => sumf (fun j => p_w u * x_at u j * nth j beta 0) (seq 0 k))).
  - rewrite sumf_swap, <- sumf_div. apply sumf_ext. intros j Hj. apply in_seq in Hj. rewrite nth_vec_of by lia. rewrite sumf_mul_r. unfold Qcdiv. ring.
  - intros u _. rewrite <- sumf_mul_l. apply sumf_ext. intros j _. unfold x_at. ring.
Qed.
Lemma odds_mean_dot tl ps k beta l : odds_mean tl ps (fun u => dotk k (p_x u) beta) l = dotk k (vec_of k (fun j => odds_mean tl ps (fun u => x_at u j) l)) beta.
Proof.
  unfold odds_mean, dotk. cbn zeta. set (C := filter _ l).
  rewrite (sumf_ext (fun u => p_w u * (ps u / (1 - ps u)) * sumf _ _) (fun u => sumf (fun j => p_w u * (ps u / (1 - ps u)) * x_at u j * nth j beta 0) (seq 0 k))).
  - rewrite sumf_swap, <- sumf_div. apply sumf_ext. intros j Hj. apply in_seq in Hj. rewrite nth_vec_of by lia. rewrite sumf_mul_r. unfold Qcdiv. ring.
  - intros u _. rewrite <- sumf_mul_l. apply sumf_ext. intros j _. unfold x_at. ring.
Qed.

Lemma ps_fit_bounds mu k g u : eps6 <= ps_fit mu k g u /\ ps_fit mu k g u <= 1 - eps6.
Proof.
  unfold ps_fit, clip. destruct (Qcltb_spec (mu (dotk k (p_x u) g)) eps6) as [L|L]; [split; [apply Qcle_refl|discriminate]|].
  destruct (Qcltb_spec (1 - eps6) (mu (dotk k (p_x u) g))) as [L2|L2]; [split; [discriminate|apply Qcle_refl]|].
  split; apply Qcnot_lt_le; assumption.
Qed.

(** the three estimates as differences of weighted means *)
Lemma dr_value o k tl l att inf : drdid_panel o k tl l = PEst att inf -> exists gamma beta,
  o_logit o (normalise l) = Some gamma /\ o_wls o (ctrl (normalise l)) = Some beta /\
  let ps := ps_fit (o_mu o) k gamma in let r := fun u => p_dy u - dotk k (p_x u) beta in
  att = group_mean true r l - odds_mean tl ps r l.
Proof.
  intros E. apply dr_inv in E. destruct E as [_ [_ [g [b [M [H [Eg [Eb [Ht [Hc [_ [_ [-> _]]]]]]]]]]]]].
  exists g, b. split; [exact Eg|]. split; [exact Eb|]. cbn zeta in *. unfold dr_att.
  assert (Hm := mean_wt_pos_weights _ _ _ Ht). rewrite wmean_treat, wmean_cont by (auto; reflexivity). reflexivity.
Qed.
Lemma reg_value o k l att inf : reg_did_panel o k l = PEst att inf -> exists beta,
  o_wls o (ctrl (normalise l)) = Some beta /\ att = group_mean true (fun u => p_dy u - dotk k (p_x u) beta) l.
Proof.
  intros E. apply reg_inv in E. destruct E as [_ [_ [b [M [Eb [Hm [_ [-> _]]]]]]]].
  exists b. split; [exact Eb|]. unfold reg_att. apply mean_wreg_pos_weights in Hm. rewrite !wmean_reg by (auto; reflexivity). symmetry. apply group_mean_sub.
Qed.
Lemma ipw_value o k tl l att inf : std_ipw_did_panel o k tl l = PEst att inf -> exists gamma,
  o_logit o (normalise l) = Some gamma /\ att = group_mean true p_dy l - odds_mean tl (ps_fit (o_mu o) k gamma) p_dy l.
Proof.
  intros E. apply ipw_inv in E. destruct E as [_ [_ [g [H [Eg [Ht [Hc [_ [-> _]]]]]]]]]. cbn zeta in *.
  exists g. split; [exact Eg|]. assert (Hm := mean_wt_pos_weights _ _ _ Ht). unfold ipw_att. rewrite !mean_div_r.
  fold (wmean (w_treat tl (ps_fit (o_mu o) k g)) p_dy (normalise l)). fold (wmean (w_cont tl (ps_fit (o_mu o) k g)) p_dy (normalise l)).
  rewrite wmean_treat, wmean_cont by (auto; reflexivity). reflexivity.
Qed.
(** ** C26: DR = IPW minus covariate imbalance times the coefficients *)
Lemma dr_vs_ipw o k tl l att inf att2 inf2 : drdid_panel o k tl l = PEst att inf -> std_ipw_did_panel o k tl l = PEst att2 inf2 ->
  exists gamma beta, o_logit o (normalise l) = Some gamma /\ o_wls o (ctrl (normalise l)) = Some beta /\
  let ps := ps_fit (o_mu o) k gamma in
  att = att2 - sumf (fun j => (group_mean true (fun u => x_at u j) l - odds_mean tl ps (fun u => x_at u j) l) * nth j beta 0) (seq 0 k).
Proof.
  intros E E2. apply dr_value in E. apply ipw_value in E2. destruct E as [g [b [Eg [Eb ->]]]]. destruct E2 as [g2 [Eg2 ->]].
  rewrite Eg in Eg2. injection Eg2 as <-. exists g, b. split; [exact Eg|]. split; [exact Eb|]. cbn zeta.
  rewrite group_mean_sub, odds_mean_sub, group_mean_dot, odds_mean_dot. unfold dotk.
  rewrite (sumf_ext (fun j => (_ - _) * nth j b 0) (fun j => nth j (vec_of k (fun j => group_mean true (fun u => x_at u j) l)) 0 * nth j b 0
     - nth j (vec_of k (fun j => odds_mean tl (ps_fit (o_mu o) k g) (fun u => x_at u j) l)) 0 * nth j b 0)).
  - rewrite sumf_sub. ring.
  - intros j Hj. apply in_seq in Hj. rewrite !nth_vec_of by lia. ring.
Qed.
Lemma dr_exact_balance o k tl l att inf att2 inf2 gamma : drdid_panel o k tl l = PEst att inf -> std_ipw_did_panel o k tl l = PEst att2 inf2 ->
  o_logit o (normalise l) = Some gamma ->
  (forall j, (j < k)%nat -> group_mean true (fun u => x_at u j) l = odds_mean tl (ps_fit (o_mu o) k gamma) (fun u => x_at u j) l) ->
  att = att2.
Proof.
  intros E E2 Eg B. destruct (dr_vs_ipw _ _ _ _ _ _ _ _ E E2) as [g [b [Eg2 [_ ->]]]]. rewrite Eg in Eg2. injection Eg2 as <-. cbn zeta.
  rewrite sumf_zero; [ring|]. intros j Hj. apply in_seq in Hj. rewrite B by lia. ring.
Qed.
(** exact outcome model *)
Lemma exact_fit o k l beta bstar : wls_ok o k -> (forall u, In u l -> 0 <= p_w u) -> mean p_w l <> 0 -> no_collinearity k l ->
  (forall u, In u l -> p_d u = false -> 0 < p_w u -> p_dy u = dotk k (p_x u) bstar) ->
  o_wls o (ctrl (normalise l)) = Some beta -> forall x, dotk k x beta = dotk k x bstar.
Proof.
  intros WO W Hm NC X E x. apply WO, normal_of_controls in E.
  set (v := vec_of k (fun j => nth j bstar 0 - nth j beta 0)).
  assert (Z : forall j, (j < k)%nat -> nth j v 0 = 0).
  { apply (rank_zero k (normalise l) v (normalise_nonneg l W Hm) (nc_normalise k l W Hm NC)). intros j Hj. rewrite <- (E j Hj).
    apply sumf_ext. intros u Hu. unfold v. rewrite dotk_sub_r. apply in_normalise in Hu. destruct Hu as [a [Ha ->]]. unfold p_D. cbn [set_w p_d p_w p_x].
    change (p_dy (set_w (p_w a / mean p_w l) a)) with (p_dy a). change (x_at (set_w (p_w a / mean p_w l) a) j) with (x_at a j).
    destruct (p_d a) eqn:D; cbn [ind]; [ring|].
    destruct (Qceqb_spec (p_w a) 0) as [Ew|Nw]; [rewrite Ew, Qcdiv_0_l; ring|].
    rewrite (X a Ha D); [reflexivity|]. assert (Wa := W a Ha). destruct (Qc_le_or_lt (p_w a) 0) as [L|L]; [|exact L]. exfalso. apply Nw, Qcle_antisym; assumption. }
  assert (F : dotk k x v = 0) by (unfold dotk; apply sumf_zero; intros j Hj; apply in_seq in Hj; rewrite Z by lia; ring).
  unfold v in F. rewrite dotk_sub_r in F. symmetry. rewrite <- (Qcplus_0_l (dotk k x beta)), <- F. ring.
Qed.
Lemma odds_mean_zero tl ps v l : (forall u, In u l -> 0 <= p_w u) -> (forall u, In u l -> p_d u = false -> 0 < p_w u -> v u = 0) -> odds_mean tl ps v l = 0.
Proof.
  intros W H. unfold odds_mean. cbn zeta. rewrite sumf_zero; [apply Qcdiv_0_l|]. intros u Hu. apply filter_In in Hu. destruct Hu as [Hu Hc].
  apply andb_true_iff in Hc. destruct Hc as [Hd _]. apply negb_true_iff in Hd.
  destruct (Qceqb_spec (p_w u) 0) as [Ew|Nw]; [rewrite Ew; ring|]. rewrite (H u Hu Hd); [ring|].
  assert (Wa := W u Hu). destruct (Qc_le_or_lt (p_w u) 0) as [L|L]; [|exact L]. exfalso. apply Nw, Qcle_antisym; assumption.
Qed.
Lemma dr_exact_fit o k tl l att inf bstar : wls_ok o k -> no_collinearity k l ->
  (forall u, In u l -> p_d u = false -> 0 < p_w u -> p_dy u = dotk k (p_x u) bstar) ->
  drdid_panel o k tl l = PEst att inf -> att = group_mean true (fun u => p_dy u - dotk k (p_x u) bstar) l.
Proof.
  intros WO NC X E0. assert (E := E0). apply dr_inv in E. destruct E as [N0 [_ [g0 [b0 [M [H [_ [_ [Ht _]]]]]]]]]. cbn zeta in Ht.
  apply mean_wt_pos_weights in Ht. assert (W := proj1 (any_neg_false l) N0).
  apply dr_value in E0. destruct E0 as [g [b [_ [Eb ->]]]]. cbn zeta.
  assert (F := exact_fit o k l b bstar WO W Ht NC X Eb).
  rewrite odds_mean_zero; [|exact W|].
  - rewrite (Qcplus_comm _ (- 0)) || idtac. transitivity (group_mean true (fun u => p_dy u - dotk k (p_x u) b) l); [ring|].
    unfold group_mean. f_equal. apply sumf_ext. intros u _. rewrite F. reflexivity.
  - intros u Hu Hd Hw. rewrite F, (X u Hu Hd Hw). ring.
Qed.
Lemma reg_exact_fit o k l att inf bstar : wls_ok o k -> no_collinearity k l ->
  (forall u, In u l -> p_d u = false -> 0 < p_w u -> p_dy u = dotk k (p_x u) bstar) ->
  reg_did_panel o k l = PEst att inf -> att = group_mean true (fun u => p_dy u - dotk k (p_x u) bstar) l.
Proof.
  intros WO NC X E0. assert (E := E0). apply reg_inv in E. destruct E as [N0 [_ [b0 [M [_ [Ht _]]]]]].
  apply mean_wreg_pos_weights in Ht. assert (W := proj1 (any_neg_false l) N0).
  apply reg_value in E0. destruct E0 as [b [Eb ->]]. assert (F := exact_fit o k l b bstar WO W Ht NC X Eb).
  unfold group_mean. f_equal. apply sumf_ext. intros u _. rewrite F. reflexivity.
Qed.

(** ** C25: no covariates *)
Lemma dotk_one b : dotk 1 [1] b = nth 0 b 0.
Proof. unfold dotk. cbn [seq]. rewrite sumf_cons, sumf_nil. cbn [nth]. ring. Qed.
Lemma group_mean_const b c v l : (forall u, In u l -> v u = c) -> sumf p_w (filter (fun u => Bool.eqb (p_d u) b) l) <> 0 -> group_mean b v l = c.
Proof.
  intros H N. unfold group_mean. rewrite (sumf_ext (fun u => p_w u * v u) (fun u => c * p_w u)).
  - rewrite sumf_mul_l. field. exact N.
  - intros u Hu. apply filter_In in Hu. rewrite (H u (proj1 Hu)). ring.
Qed.
Lemma odds_mean_flat tl ps p v l : (forall u, In u l -> ps u = p) -> eps6 <= p -> p <= 1 - eps6 -> Qcltb p tl = true -> odds_mean tl ps v l = group_mean false v l.
Proof.
  intros H L U T. unfold odds_mean, group_mean. cbn zeta.
  rewrite (filter_ext_in' (fun u => negb (p_d u) && Qcltb (ps u) tl) (fun u => Bool.eqb (p_d u) false)) by (intros u Hu; rewrite (H u Hu), T; destruct (p_d u); reflexivity).
  rewrite <- (ratio_scale (p / (1 - p)) (sumf (fun u => p_w u * v u) _)).
  - rewrite <- !sumf_mul_l. f_equal; apply sumf_ext; intros u Hu; apply filter_In in Hu; rewrite (H u (proj1 Hu)); ring.
  - assert (0 < eps6) by reflexivity. apply Qc_pos_neq0, Qcdiv_pos; qclra.
Qed.
Section NoCov.
  Context (l : list punit) (HX : forall u, In u l -> p_x u = [1]).
  Lemma nocov_ipw o tl att inf : std_ipw_did_panel o 1 tl l = PEst att inf -> att = group_mean true p_dy l - group_mean false p_dy l.
  Proof.
    intros E0. assert (E := E0). apply ipw_inv in E. destruct E as [_ [_ [g0 [H [Eg0 [Ht [Hc _]]]]]]]. cbn zeta in *.
    apply ipw_value in E0. destruct E0 as [g [Eg ->]]. rewrite Eg in Eg0. injection Eg0 as <-.
    set (ps := ps_fit (o_mu o) 1 g) in *. f_equal. f_equal.
    destruct (Qcltb (clip eps6 (1 - eps6) (o_mu o (nth 0 g 0))) tl) eqn:T.
    - assert (P : forall u, In u l -> ps u = clip eps6 (1 - eps6) (o_mu o (nth 0 g 0))) by (intros u Hu; unfold ps, ps_fit; rewrite (HX u Hu), dotk_one; reflexivity).
      destruct l as [|u0 l']; [exfalso; apply Ht; reflexivity|].
      assert (B := ps_fit_bounds (o_mu o) 1 g u0). fold ps in B. rewrite (P u0 (or_introl eq_refl)) in B. destruct B as [B1 B2].
      apply (odds_mean_flat tl ps _ p_dy (u0 :: l') P B1 B2 T).
    - exfalso. apply Hc. apply mean_0, sumf_zero. intros u Hu. apply in_normalise in Hu. destruct Hu as [a [Ha ->]].
      unfold w_cont, trim_ps, p_D. replace (ps (set_w (p_w a / mean p_w l) a)) with (clip eps6 (1 - eps6) (o_mu o (nth 0 g 0))) by (unfold ps, ps_fit; cbn [set_w p_x]; rewrite (HX a Ha), dotk_one; reflexivity).
      rewrite T. cbn [set_w p_d]. destruct (p_d a); cbn [orb ind]; unfold Qcdiv; ring.
  Qed.
End NoCov.
