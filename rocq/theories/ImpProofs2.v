(** Proofs for C113-C115, continued: exact fits, invariances, centring. *)
From Verif Require Import Base ListLib ReduceModel ReduceProofs2 Calc DrdidModel DrdidSpec DrdidProofs DrdidProofs2 DrdidProofs3 DrdidProofs4 DrdidProofs5 DrdidProofs7 DrdidProofs8 DrdidProofs9 DrdidProofs10 ImpModel ImpSpec ImpProofs.

Lemma mul_pos (a b : Qc) : 0 < a -> 0 < b -> 0 < a * b.
Proof. intros A B. rewrite <- (Qcmult_0_l b). apply Qcmult_lt_compat_r; assumption. Qed.
Lemma mean_d_pos l : any_neg l = false -> mean_d (normalise l) <> 0 -> 0 < mean p_w l /\ (forall u, In u l -> 0 <= p_w u).
Proof.
  intros N H. apply mean_d_weights in H. assert (W := proj1 (any_neg_false l) N). split; [|exact W].
  destruct (Qc_le_or_lt (mean p_w l) 0) as [L|L]; [|exact L]. exfalso. apply H. apply Qcle_antisym; [exact L|apply mean_nonneg; exact W].
Qed.
(** all units with tilted weights *)
Lemma tilt_ctrl ps l : (forall w u, ps (set_w w u) = ps u) -> map (tilt ps) (ctrl l) = ctrl (map (tilt ps) l).
Proof. intros H. rewrite filter_map. reflexivity. Qed.
Lemma tilt_nonneg mu k g l : (forall u, In u l -> 0 <= p_w u) -> forall u, In u (map (tilt (ps_fit mu k g)) l) -> 0 <= p_w u.
Proof.
  intros W u Hu. apply in_map_iff in Hu. destruct Hu as [v [<- Hv]]. cbn [tilt set_w p_w]. apply Qcmult_nonneg; [apply W; exact Hv|apply Qclt_le_weak, ps_pos].
Qed.
Lemma tilt_nc mu k g l : no_collinearity k l -> no_collinearity k (map (tilt (ps_fit mu k g)) l).
Proof.
  intros NC v Hv. apply NC. intros u Hu Hd Hw. apply (Hv (tilt (ps_fit mu k g) u)); [apply in_map; exact Hu|exact Hd|].
  cbn [tilt set_w p_w]. apply mul_pos; [exact Hw|apply ps_pos].
Qed.
Lemma tilt_intercept ps l : has_intercept l -> has_intercept (map (tilt ps) l).
Proof. intros H u Hu. apply in_map_iff in Hu. destruct Hu as [v [<- Hv]]. apply (H v Hv). Qed.
Lemma tilt_affine c a b mu k g u : tilt (ps_fit mu k g) (affine_y c a b u) = affine_y c a b (tilt (ps_fit mu k g) u).
Proof. reflexivity. Qed.
Lemma imp_out_affine c a b o k mu g l beta beta' : wls_ok o k -> (forall u, In u l -> 0 <= p_w u) -> no_collinearity k l ->
  (a = b \/ has_intercept l /\ (1 <= k)%nat) ->
  o_wls o (map (tilt (ps_fit mu k g)) (ctrl l)) = Some beta -> o_wls o (map (tilt (ps_fit mu k g)) (ctrl (map (affine_y c a b) l))) = Some beta' ->
  forall u, In u l -> dotk k (p_x u) beta' = c * dotk k (p_x u) beta + (a - b).
Proof.
  intros WO W NC I E E' u Hu. rewrite tilt_ctrl in E, E' by reflexivity.
  rewrite map_map in E'. rewrite (map_ext _ _ (tilt_affine c a b mu k g)), <- map_map in E'.
  apply (out_affine c a b o k (map (tilt (ps_fit mu k g)) l) beta beta' WO (tilt_nonneg mu k g l W) (tilt_nc mu k g l NC)) with (u := tilt (ps_fit mu k g) u).
  - destruct I as [I|[I J]]; [left; exact I|right; split; [apply tilt_intercept; exact I|exact J]].
  - exact E.
  - exact E'.
  - apply in_map. exact Hu.
Qed.
Lemma imp_term_affine c a b tl mu k g out out' u : out' (affine_y c a b u) = c * out u + (a - b) ->
  imp_term tl (ps_fit mu k g) out' (affine_y c a b u) = c * imp_term tl (ps_fit mu k g) out u.
Proof.
  intros H. unfold imp_term. rewrite H, dy_affine. unfold trim_ps, p_D. cbn [affine_y p_d]. change (ps_fit mu k g (affine_y c a b u)) with (ps_fit mu k g u). ring.
Qed.
Lemma mean_d_affine c a b l : mean_d (map (affine_y c a b) l) = mean_d l.
Proof. unfold mean_d. rewrite mean_map. reflexivity. Qed.
Lemma imp_att_affine c a b tl mu k g out out' l : (forall u, In u l -> out' (affine_y c a b u) = c * out u + (a - b)) ->
  imp_att tl (ps_fit mu k g) out' (map (affine_y c a b) l) = c * imp_att tl (ps_fit mu k g) out l.
Proof.
  intros H. unfold imp_att. rewrite mean_d_affine, mean_map.
  rewrite (mean_ext _ (fun u => c * (p_w u * imp_term tl (ps_fit mu k g) out u))).
  - rewrite mean_mul_l. unfold Qcdiv. ring.
  - intros u Hu. rewrite imp_term_affine with (out := out) by (apply H; exact Hu). cbn [affine_y p_w]. ring.
Qed.
Lemma imp_affine o k tl l c a b att inf att' inf' : wls_ok o k -> logit_blind o -> no_collinearity k l ->
  (a = b \/ has_intercept l /\ (1 <= k)%nat) ->
  drdid_imp_panel o k tl l = PEst att inf -> drdid_imp_panel o k tl (map (affine_y c a b) l) = PEst att' inf' ->
  att' = c * att /\ inf' = map (fun v => c * v) inf.
Proof.
  intros WO LB NC I E E'. apply imp_inv in E. apply imp_inv in E'. rewrite normalise_affine in E'. rewrite any_neg_affine in E'.
  destruct E as [N0 [g [be [Eg [Eb [Hd [-> ->]]]]]]]. destruct E' as [_ [g' [be' [Eg' [Eb' [Hd' [-> ->]]]]]]]. cbn zeta in *.
  rewrite (LB _ (normalise l) (view_affine c a b _)), Eg in Eg'. injection Eg' as <-.
  destruct (mean_d_pos l N0 Hd) as [Pm W]. assert (Hm := Qc_pos_neq0 _ Pm).
  assert (O := imp_out_affine c a b o k (o_mu o) g (normalise l) be be' WO (normalise_nonneg l W Hm) (nc_normalise k l W Hm NC)
    ltac:(destruct I as [I|[I J]]; [left; exact I|right; split; [apply intercept_normalise; exact I|exact J]]) Eb Eb').
  assert (O' : forall u, In u (normalise l) -> outf k be' (affine_y c a b u) = c * outf k be u + (a - b)) by exact O.
  split; [apply imp_att_affine; exact O'|].
  rewrite !map_map. apply map_ext_in. intros u Hu. unfold imp_inf.
  rewrite (imp_att_affine c a b tl (o_mu o) k g (outf k be) (outf k be') (normalise l) O'), mean_d_affine.
  rewrite (imp_term_affine c a b tl (o_mu o) k g (outf k be) (outf k be')) by (apply O'; exact Hu).
  unfold trim_ps, p_D. cbn [affine_y p_w p_d]. change (ps_fit (o_mu o) k g (affine_y c a b u)) with (ps_fit (o_mu o) k g u). unfold Qcdiv. ring.
Qed.
Lemma imp_scale o k tl l c : 0 < c -> drdid_imp_panel o k tl (map (scale_w c) l) = drdid_imp_panel o k tl l.
Proof. intros H. unfold drdid_imp_panel. rewrite normalise_scale, any_neg_scale by (try apply Qc_pos_neq0; exact H). reflexivity. Qed.
Lemma pht_scale o k tl l c : 0 < c -> ipw_did_panel o k tl (map (scale_w c) l) = ipw_did_panel o k tl l.
Proof. intros H. unfold ipw_did_panel. rewrite normalise_scale, any_neg_scale by (try apply Qc_pos_neq0; exact H). reflexivity. Qed.
Lemma imp_perm o k tl l l' : fits_symmetric o -> Permutation l l' ->
  same_up_to_order l l' (drdid_imp_panel o k tl l) (drdid_imp_panel o k tl l').
Proof.
  intros FS P. assert (PN := normalise_perm _ _ P). unfold drdid_imp_panel. rewrite (any_neg_perm _ _ P). destruct (any_neg l'); [exact I|].
  cbn zeta. rewrite (proj1 (FS _ _ PN)). destruct (o_logit o (normalise l')) as [g|]; [|exact I].
  assert (PC := filter_perm (fun u => negb (p_d u)) _ _ PN).
  assert (EW := proj2 (FS _ _ (Permutation_map (tilt (ps_fit (o_mu o) k g)) PC))).
  destruct (ctrl (normalise l)) as [|c1 t1] eqn:E1, (ctrl (normalise l')) as [|c2 t2] eqn:E2.
  - exact I.
  - apply Permutation_nil in PC. discriminate.
  - symmetry in PC. apply Permutation_nil in PC. discriminate.
  - rewrite EW. destruct (o_wls o (map (tilt (ps_fit (o_mu o) k g)) (c2 :: t2))) as [b|]; [|exact I]. unfold mean_d. rewrite (mean_perm _ _ _ PN). destruct (Qceqb _ 0); [exact I|].
    assert (EA : forall out, imp_att tl (ps_fit (o_mu o) k g) out (normalise l) = imp_att tl (ps_fit (o_mu o) k g) out (normalise l')).
    { intros out. unfold imp_att, mean_d. rewrite !(mean_perm _ _ _ PN). reflexivity. }
    cbn [same_up_to_order]. split; [apply EA|]. apply combine_inf_perm; [exact P|]. intros u. unfold imp_inf. rewrite EA. unfold mean_d. rewrite (mean_perm _ _ _ PN). reflexivity.
Qed.
Lemma pht_att_perm tl ps l l' : Permutation l l' -> pht_att tl ps l = pht_att tl ps l'.
Proof. intros P. unfold pht_att, mean_d. rewrite !(mean_perm _ _ _ P). reflexivity. Qed.
Lemma pht_perm o k tl l l' : fits_symmetric o -> Permutation l l' ->
  same_up_to_order l l' (ipw_did_panel o k tl l) (ipw_did_panel o k tl l').
Proof.
  intros FS P. assert (PN := normalise_perm _ _ P). unfold ipw_did_panel. rewrite (any_neg_perm _ _ P). destruct (any_neg l'); [exact I|].
  cbn zeta. rewrite (two_groups_perm _ _ PN). destruct (two_groups (normalise l')); [|exact I]. cbn [negb].
  rewrite (proj1 (FS _ _ PN)). destruct (o_logit o (normalise l')) as [g|]; [|exact I].
  assert (ED : mean_d (normalise l) = mean_d (normalise l')) by (unfold mean_d; apply mean_perm; exact PN). rewrite ED. destruct (Qceqb _ 0); [exact I|].
  rewrite (ps_gram_perm _ _ _ _ PN). destruct (o_inv o _) as [H|]; [|exact I].
  cbn [same_up_to_order]. split; [apply pht_att_perm; exact PN|]. apply combine_inf_perm; [exact P|]. intros u.
  unfold pht_inf. cbn zeta. rewrite ED, (pht_att_perm tl _ _ _ PN), (mean_col_perm k _ _ _ PN), (Permutation_length PN). reflexivity.
Qed.
(** exact outcome model *)
Lemma imp_exact_fit o k tl l att inf bstar : wls_ok o k -> no_collinearity k l ->
  (forall u, In u l -> p_d u = false -> 0 < p_w u -> p_dy u = dotk k (p_x u) bstar) ->
  drdid_imp_panel o k tl l = PEst att inf -> att = group_mean true (fun u => p_dy u - dotk k (p_x u) bstar) l.
Proof.
  intros WO NC X E. assert (E' := E). apply imp_inv in E'. destruct E' as [N0 [g0 [b0 [Eg0 [Eb0 [Hd _]]]]]]. cbn zeta in *.
  destruct (mean_d_pos l N0 Hd) as [Pm W]. assert (Hm := Qc_pos_neq0 _ Pm).
  apply imp_value in E. destruct E as [g [b [Eg [Eb ->]]]]. rewrite Eg in Eg0. injection Eg0 as <-. cbn zeta. set (ps := ps_fit (o_mu o) k g) in *.
  assert (ON := odds_normal_of o k ps l b WO Hm (fun _ _ => eq_refl) Eb).
  set (v := vec_of k (fun j => nth j bstar 0 - nth j b 0)).
  assert (PW : forall u, In u l -> p_w u <> 0 -> 0 < p_w u).
  { intros u Hu N. assert (Wa := W u Hu). destruct (Qc_le_or_lt (p_w u) 0) as [L|L]; [|exact L]. exfalso. apply N, Qcle_antisym; assumption. }
  assert (VZ : forall j, (j < k)%nat -> nth j v 0 = 0).
  { apply (rank_zero k (map (tilt ps) l) v (tilt_nonneg _ _ _ l W) (tilt_nc _ _ _ l NC)). intros j Hj. rewrite <- (ON j Hj).
    rewrite sumf_map, sumf_filter. apply sumf_ext. intros u Hu. unfold v. rewrite dotk_sub_r. unfold tilt, p_D, x_at. cbn [set_w p_d p_w p_x].
    destruct (p_d u) eqn:D; cbn [ind negb]; [ring|].
    destruct (Qceqb_spec (p_w u) 0) as [Ew|Nw]; [rewrite Ew; ring|]. rewrite (X u Hu D (PW u Hu Nw)). ring. }
  assert (F : forall x, dotk k x b = dotk k x bstar).
  { intros x. assert (F : dotk k x v = 0) by (unfold dotk; apply sumf_zero; intros j Hj; apply in_seq in Hj; rewrite VZ by lia; ring).
    unfold v in F. rewrite dotk_sub_r in F. symmetry. apply Qc_sub_0_eq. exact F. }
  assert (OZ : odds_total tl ps (fun u => p_dy u - dotk k (p_x u) b) l = 0).
  { rewrite odds_total_cw, sumf_zero; [apply Qcdiv_0_l|]. intros u Hu. unfold cw. destruct (p_d u) eqn:D; cbn [negb andb ind]; [ring|].
    destruct (Qceqb_spec (p_w u) 0) as [Ew|Nw]; [rewrite Ew; ring|]. rewrite F, (X u Hu D (PW u Hu Nw)). ring. }
  rewrite OZ. transitivity (group_mean true (fun u => p_dy u - dotk k (p_x u) b) l); [ring|].
  unfold group_mean. f_equal. apply sumf_ext. intros u _. rewrite F. reflexivity.
Qed.
(** centring *)
Lemma imp_centred o k tl l att inf : drdid_imp_panel o k tl l = PEst att inf -> length inf = length l /\ qsum inf = 0.
Proof.
  intros E. apply imp_inv in E. destruct E as [_ [g [b [_ [_ [Hd [_ ->]]]]]]]. cbn zeta in *.
  rewrite map_length, normalise_length. split; [reflexivity|]. rewrite qsum_map. set (ps := ps_fit (o_mu o) k g) in *. set (L := normalise l) in *.
  rewrite (sumf_ext _ (fun u => (p_w u * imp_term tl ps (outf k b) u - p_D u * p_w u * imp_att tl ps (outf k b) L) * / mean_d L)).
  - rewrite sumf_mul_r, sumf_sub, sumf_mul_r. unfold imp_att, mean_d, mean. destruct L as [|u0 L']; [exfalso; apply Hd; reflexivity|].
    assert (Hn : qn (length (u0 :: L')) <> 0) by (apply qn_neq0; cbn; lia).
    assert (HT : sumf (fun u => p_D u * p_w u) (u0 :: L') <> 0) by (intros Z0; apply Hd; unfold mean_d, mean; rewrite Z0; apply Qcdiv_0_l).
    field. split; assumption.
  - intros u _. rewrite imp_inf_sgn by apply ps_neq. rewrite imp_term_sgn by apply ps_neq. unfold Qcdiv. ring.
Qed.
Lemma pht_centred o k tl l att inf : ipw_did_panel o k tl l = PEst att inf ->
  (forall gamma, o_logit o (normalise l) = Some gamma -> score_equations k (ps_fit (o_mu o) k gamma) (normalise l)) ->
  length inf = length l /\ qsum inf = 0.
Proof.
  intros E SC. apply pht_inv in E. destruct E as [_ [_ [g [H [Eg [Hd [_ [_ ->]]]]]]]]. cbn zeta in *. specialize (SC g Eg).
  rewrite map_length, normalise_length. split; [reflexivity|]. rewrite qsum_map. set (ps := ps_fit (o_mu o) k g) in *. set (L := normalise l) in *.
  set (M := mscale _ H). set (mc := mean_col k (fun v => w_cont tl ps v * p_dy v) L).
  assert (Hl : L <> []) by (intros Z0; apply Hd; unfold mean_d; rewrite Z0; reflexivity).
  assert (Hn : qn (length L) <> 0) by (apply qn_neq0; destruct L; [congruence|cbn; lia]).
  assert (HT : sumf (fun u => p_D u * p_w u) L <> 0) by (intros Z0; apply Hd; unfold mean_d, mean; rewrite Z0; apply Qcdiv_0_l).
  rewrite (sumf_ext _ (fun u => (w_treat tl ps u * p_dy u - w_cont tl ps u * p_dy u - dotk k (alr_ps k ps M u) mc - p_D u * p_w u * pht_att tl ps L) * / mean_d L))
    by (intros u _; unfold pht_inf; cbn zeta; fold mc; unfold Qcdiv; ring).
  rewrite sumf_mul_r, !sumf_sub, sumf_mul_r.
  assert (AZ : sumf (fun u => dotk k (alr_ps k ps M u) mc) L = 0).
  { unfold alr_ps. apply (sum_alr_zero k (fun u => p_w u * (p_D u - ps u))). exact SC. }
  rewrite AZ. unfold pht_att, mean_d, mean. field. split; assumption.
Qed.
(** no covariates *)
Lemma nocov_imp o tl l att inf : wls_ok o 1 -> (forall u, In u l -> p_x u = [1]) -> drdid_imp_panel o 1 tl l = PEst att inf ->
  (forall gamma, o_logit o (normalise l) = Some gamma -> untrimmed tl (ps_fit (o_mu o) 1 gamma) l) ->
  sumf p_w (filter (fun u => negb (p_d u)) l) <> 0 ->
  att = group_mean true p_dy l - group_mean false p_dy l.
Proof.
  intros WO HX E U HC.
  assert (HI : has_intercept l) by (intros u Hu; rewrite (HX u Hu); reflexivity).
  assert (HT : sumf p_w (filter (fun u => Bool.eqb (p_d u) true) l) <> 0).
  { apply imp_inv in E. destruct E as [_ [g [b [_ [_ [Hd _]]]]]]. assert (Hm := mean_d_weights l Hd). intros Z0. apply Hd. unfold mean_d. apply mean_0. unfold normalise. rewrite sumf_map.
    rewrite (sumf_ext _ (fun u => / mean p_w l * (p_w u * p_D u))) by (intros u _; unfold p_D; cbn [set_w p_d p_w]; unfold Qcdiv; ring).
    rewrite sumf_mul_l, <- sum_treated. rewrite (filter_ext_in' p_d (fun u => Bool.eqb (p_d u) true)) by (intros u _; destruct (p_d u); reflexivity). rewrite Z0. ring. }
  destruct (imp_regression o 1 tl l att inf WO HI ltac:(lia) E) as [g [b [Eg [ON A]]]]. cbn zeta in *. rewrite (A (U g Eg)). clear A.
  rewrite group_mean_sub. enough (GG : group_mean true (fun u => dotk 1 (p_x u) b) l = group_mean false p_dy l) by (rewrite GG; reflexivity).
  rewrite (group_mean_const true (nth 0 b 0)) by (first [exact HT|intros u Hu; rewrite (HX u Hu); apply dotk_one]).
  specialize (ON 0%nat ltac:(lia)).
  destruct (ctrl l) as [|u0 t0] eqn:EC; [exfalso; apply HC; reflexivity|].
  assert (H0 : In u0 l) by (apply (filter_In (fun u => negb (p_d u)) u0 l); rewrite EC; left; reflexivity).
  assert (FL : forall u, In u l -> ps_fit (o_mu o) 1 g u = ps_fit (o_mu o) 1 g u0) by (intros u Hu; unfold ps_fit; rewrite (HX u Hu), (HX u0 H0); reflexivity).
  set (q := ps_fit (o_mu o) 1 g u0 / (1 - ps_fit (o_mu o) 1 g u0)).
  assert (Q : 0 < q) by apply ps_pos.
  assert (IC : forall u, In u (u0 :: t0) -> In u l) by (intros u Hu; rewrite <- EC in Hu; apply filter_In in Hu; apply Hu).
  assert (EQ : q * (sumf (fun u => p_w u * p_dy u) (u0 :: t0) - sumf p_w (u0 :: t0) * nth 0 b 0) = 0).
  { refine (eq_trans _ ON). rewrite <- sumf_mul_r, <- sumf_sub, <- sumf_mul_l. apply sumf_ext. intros u Hu. rewrite (FL u (IC u Hu)). fold q. unfold x_at. rewrite (HX u (IC u Hu)), dotk_one. cbn [nth]. ring. }
  apply Qcmult_integral in EQ. destruct EQ as [EQ|EQ]; [exfalso; revert EQ; apply Qc_pos_neq0; exact Q|]. apply Qc_sub_0_eq in EQ.
  unfold group_mean. rewrite (filter_ext_in' (fun u => Bool.eqb (p_d u) false) (fun u => negb (p_d u))) by (intros u _; destruct (p_d u); reflexivity).
  rewrite EC, EQ. field. exact HC.
Qed.
