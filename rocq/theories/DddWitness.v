(** Concrete cases meeting the hypotheses of C53-C56. No property content. *)
From Coq Require Import Qcabs.
From Verif Require Import Base ListLib ReduceModel Calc DrdidModel DrdidSpec DrdidProofs DrdidProofs2 DrdidProofs3 DrdidProofs4 DrdidProofs5 DrdidProofs7 DrdidProofs8 DrdidWitness DrdidWitness2 Witness DddModel DddSpec DddProofs DddProofs2 DddProofs3 DddProofs4 DddProofs5.

(** ** two regressors, unequal weights *)
Definition mkt (i s y1 y0 w x : Z) : tunit := {| t_id := i; t_sg := s; t_y1 := qz y1; t_y0 := qz y0; t_w := qz w; t_x := [1; qz x] |}.
Definition t_units : list tunit :=
  [mkt 1 4 9 1 1 0; mkt 2 4 8 2 2 1; mkt 3 3 4 1 1 0; mkt 4 3 6 1 1 1; mkt 5 2 5 2 1 1; mkt 6 2 3 1 3 0; mkt 7 1 2 1 1 0; mkt 8 1 4 3 1 1; mkt 9 1 5 1 2 0; mkt 10 4 7 2 1 0].
Definition is_test (r : ddd_result) : bool := match r with TEst _ _ _ _ _ => true | _ => false end.
Lemma wit_scale_free : fits_scale_free wit_oracle.
Proof.
  intros c l Hc. assert (C0 := Qc_pos_neq0 _ Hc).
  assert (G : forall f i j, (forall u, f (scale_w c u) = c * f u) -> g2 f (map (scale_w c) l) i j = c * g2 f l i j).
  { intros f i j H. unfold g2. rewrite sumf_map, <- sumf_mul_l. apply sumf_ext. intros u _. rewrite H. unfold x_at, scale_w. cbn. ring. }
  assert (V : forall f j, (forall u, f (scale_w c u) = c * f u) -> v2 f (map (scale_w c) l) j = c * v2 f l j).
  { intros f j H. unfold v2. rewrite sumf_map, <- sumf_mul_l. apply sumf_ext. intros u _. rewrite H. unfold x_at, scale_w. cbn. ring. }
  assert (X : forall a b d p q, solve2 (c * a) (c * b) (c * d) (c * p) (c * q) = solve2 a b d p q).
  { intros a b d p q. unfold solve2. cbn zeta. assert (D : c * a * (c * d) - c * b * (c * b) = c * c * (a * d - b * b)) by ring. rewrite D.
    destruct (Qceqb_spec (a * d - b * b) 0) as [Z|N].
    - rewrite Z. destruct (Qceqb_spec (c * c * 0) 0) as [_|N]; [reflexivity|]. exfalso. apply N. ring.
    - destruct (Qceqb_spec (c * c * (a * d - b * b)) 0) as [Z|_].
      + exfalso. apply N. setoid_replace (a * d - b * b) with (c * c * (a * d - b * b) / (c * c)) by (field; exact C0). rewrite Z. unfold Qcdiv. ring.
      + f_equal. f_equal; [|f_equal]; field; split; assumption. }
  cbn [wit_oracle o_logit o_wls]. split.
  - rewrite !G, !V by (intros; unfold p_D, scale_w; cbn; ring). apply X.
  - rewrite !G by (intros; unfold p_D, scale_w; cbn; ring). rewrite !(V (fun u => p_w u * (1 - p_D u) * p_dy u)) by (intros; unfold p_D, p_dy, scale_w; cbn; ring). apply X.
Qed.
Lemma t_wit_intercept : t_intercept 2 t_units.
Proof. split; [lia|]. intros u H. cbn in H. repeat (destruct H as [<-|H]; [reflexivity|]). destruct H. Qed.
Lemma t_wit_nc : ddd_no_collinearity 2 t_units.
Proof.
  assert (G : forall L p q, In p L -> p_d p = false -> 0 < p_w p -> p_x p = [1; 0] -> In q L -> p_d q = false -> 0 < p_w q -> p_x q = [1; 1] -> no_collinearity 2 L).
  { intros L p q Hp Dp Wp Xp Hq Dq Wq Xq v H j Hj. assert (H1 := H p Hp Dp). assert (H2 := H q Hq Dq). specialize (H1 Wp). specialize (H2 Wq). rewrite Xp in H1. rewrite Xq in H2.
    unfold dotk in H1, H2. cbn [seq] in H1, H2. rewrite !sumf_cons, sumf_nil in H1, H2. cbn [nth] in H1, H2.
    assert (A : nth 0 v 0 = 0). { refine (eq_trans _ H1). ring. }
    destruct j as [|[|j]]; [exact A| |lia]. rewrite A in H2. refine (eq_trans _ H2). ring. }
  intros c Hc. destruct Hc as [<-|[<-|[<-|[]]]].
  - apply (G _ (as_pair (mkt 3 3 4 1 1 0)) (as_pair (mkt 4 3 6 1 1 1))); cbn; try tauto; try discriminate; reflexivity.
  - apply (G _ (as_pair (mkt 6 2 3 1 3 0)) (as_pair (mkt 5 2 5 2 1 1))); cbn; try tauto; try discriminate; reflexivity.
  - apply (G _ (as_pair (mkt 7 1 2 1 1 0)) (as_pair (mkt 8 1 4 3 1 1))); cbn; try tauto; try discriminate; reflexivity.
Qed.
Definition interior_b (o : oracle) (k : nat) (l : list punit) : bool :=
  match o_logit o (normalise l) with
  | Some g => forallb (fun u => Qcleb eps6 (o_mu o (dotk k (p_x u) g)) && Qcleb (o_mu o (dotk k (p_x u) g)) (1 - eps6)) l
  | None => true end.
Lemma interior_b_ok o k m l : interior_b o k l = true -> scores_interior o k m l.
Proof.
  intros H. assert (X : forall gamma u, o_logit o (normalise l) = Some gamma -> In u l -> eps6 <= o_mu o (dotk k (p_x u) gamma) /\ o_mu o (dotk k (p_x u) gamma) <= 1 - eps6).
  { intros g u E Hu. unfold interior_b in H. rewrite E in H. rewrite forallb_forall in H. specialize (H u Hu). apply andb_true_iff in H. destruct H as [A B].
    destruct (Qcleb_spec eps6 (o_mu o (dotk k (p_x u) g))); [|discriminate]. destruct (Qcleb_spec (o_mu o (dotk k (p_x u) g)) (1 - eps6)); [|discriminate]. auto. }
  destruct m; [exact X|exact I|exact X].
Qed.
Lemma t_wit_interior m : forall c, In c [3; 2; 1]%Z -> scores_interior wit_oracle 2 m (pair_units c t_units).
Proof. intros c [<-|[<-|[<-|[]]]]; apply interior_b_ok; vm_compute; reflexivity. Qed.
Lemma t_wit_two_group m : forallb (fun c => is_est (two_group wit_oracle 2 m (pair_units c t_units))) [3; 2; 1]%Z && is_test (ddd_panel wit_oracle 2 m t_units) = true.
Proof. destruct m; vm_compute; reflexivity. Qed.
Definition t_lvl (u : tunit) : Qc := qz (t_id u).
Lemma t_wit_shock m : is_test (ddd_panel wit_oracle 2 m (map (shocked (qz 3) (qz 5) (qz 2) (qz 7) (qz 4) t_lvl) t_units)) = true.
Proof. destruct m; vm_compute; reflexivity. Qed.
Lemma t_wit_scores : ddd_scores wit_oracle 2 t_units.
Proof.
  intros c g Hc E j Hj.
  assert (C : match o_logit wit_oracle (pair_units c (t_normalise t_units)) with Some g => forallb (fun j =>
    Qceqb (sumf (fun u => p_w u * (p_D u - ps_cap (o_mu wit_oracle) 2 g u) * x_at u j) (pair_units c (t_normalise t_units))) 0) [0; 1]%nat | None => false end = true)
    by (destruct Hc as [<-|[<-|[<-|[]]]]; vm_compute; reflexivity).
  rewrite E in C. rewrite forallb_forall in C. assert (In j [0; 1]%nat) by (cbn; lia). specialize (C j H). destruct (Qceqb_spec (sumf (fun u => p_w u * (p_D u - ps_cap (o_mu wit_oracle) 2 g u) * x_at u j) (pair_units c (t_normalise t_units))) 0) as [Z|]; [exact Z|discriminate].
Qed.

(** ** intercept only, any perturbation *)
Definition flat (L : list punit) : Prop := (forall u, In u L -> p_x u = (1 :: nil)%list) /\ (forall u, In u L -> 0 < p_w u) /\
  (exists u, In u L /\ p_d u = true) /\ (exists u, In u L /\ p_d u = false).
Definition tshare (L : list punit) : Qc := sumf (fun u => p_w u * p_D u) L / sumf p_w L.
Lemma flat_sum L : flat L -> 0 < sumf p_w L.
Proof. intros [_ [W [[u [Hu _]] _]]]. apply sumf_pos; [intros v Hv; apply Qclt_le_weak, W, Hv|]. exists u. auto. Qed.
Lemma flat_x L u : flat L -> In u L -> x_at u 0 = 1.
Proof. intros [X _] Hu. unfold x_at. rewrite (X u Hu). reflexivity. Qed.
Lemma flat_logit L : flat L -> exists g, o_logit wit_oracle3 L = Some (g :: nil)%list /\ half + quarter * g = tshare L.
Proof.
  intros F. assert (P := flat_sum L F). assert (N := Qc_pos_neq0 _ P). cbn [wit_oracle3 o_logit].
  assert (G : g2 p_w L 0 0 = sumf p_w L) by (unfold g2; apply sumf_ext; intros u Hu; rewrite (flat_x L u F Hu); ring).
  assert (V : v2 (fun u => p_w u * (p_D u - half)) L 0 = sumf (fun u => p_w u * p_D u) L - half * sumf p_w L).
  { unfold v2. rewrite <- sumf_mul_l, <- sumf_sub. apply sumf_ext. intros u Hu. rewrite (flat_x L u F Hu). ring. }
  rewrite G, V. destruct (Qceqb_spec (sumf p_w L) 0) as [Z|_]; [contradiction|]. eexists. split; [reflexivity|].
  unfold tshare. rewrite half_eq, quarter_eq. unfold two. field. repeat split; try exact N; discriminate.
Qed.
Lemma flat_raw L g u : flat L -> half + quarter * g = tshare L -> In u L -> ps_raw (o_mu wit_oracle3) 1 (g :: nil)%list u = tshare L.
Proof. intros F E Hu. unfold ps_raw. cbn [wit_oracle3 o_mu]. rewrite dot1, (flat_x L u F Hu), <- E. ring. Qed.
Lemma tshare_bounds L : flat L -> 0 < tshare L /\ tshare L < 1.
Proof.
  intros F. assert (P := flat_sum L F). destruct F as [X [W [[u [Hu Du]] [v [Hv Dv]]]]]. unfold tshare.
  assert (A : 0 < sumf (fun u => p_w u * p_D u) L).
  { apply sumf_pos; [intros a Ha; apply Qcmult_nonneg; [apply Qclt_le_weak, W, Ha|apply D_le]|]. exists u. split; [exact Hu|]. unfold p_D. rewrite Du. cbn. setoid_replace (p_w u * 1) with (p_w u) by ring. apply W, Hu. }
  assert (B : 0 < sumf (fun u => p_w u * (1 - p_D u)) L).
  { apply sumf_pos; [intros a Ha; apply Qcmult_nonneg; [apply Qclt_le_weak, W, Ha|apply one_minus_D]|]. exists v. split; [exact Hv|]. unfold p_D. rewrite Dv. cbn. setoid_replace (p_w v * (1 - 0)) with (p_w v) by ring. apply W, Hv. }
  assert (C : sumf p_w L = sumf (fun u => p_w u * p_D u) L + sumf (fun u => p_w u * (1 - p_D u)) L) by (rewrite <- sumf_add; apply sumf_ext; intros; ring).
  split; [apply Qcdiv_pos; assumption|]. rewrite C in *. set (a := sumf (fun u => p_w u * p_D u) L) in *. set (b := sumf (fun u => p_w u * (1 - p_D u)) L) in *.
  assert (D : 1 - a / (a + b) = b / (a + b)) by (field; apply Qc_pos_neq0; exact P). assert (Q : 0 < b / (a + b)) by (apply Qcdiv_pos; assumption). rewrite <- D in Q. qclra.
Qed.
Lemma flat_scale c L : 0 < c -> flat L -> flat (map (scale_w c) L).
Proof.
  intros Hc [X [W [[u [Hu Du]] [v [Hv Dv]]]]]. split; [|split; [|split]].
  - intros a Ha. apply in_map_iff in Ha. destruct Ha as [b [<- Hb]]. exact (X b Hb).
  - intros a Ha. apply in_map_iff in Ha. destruct Ha as [b [<- Hb]]. cbn. apply Qcmult_pos; [exact Hc|apply W, Hb].
  - exists (scale_w c u). split; [apply in_map, Hu|exact Du].
  - exists (scale_w c v). split; [apply in_map, Hv|exact Dv].
Qed.
Lemma tshare_scale c L : c <> 0 -> tshare (map (scale_w c) L) = tshare L.
Proof.
  intros Hc. unfold tshare. rewrite !sumf_map. rewrite (sumf_ext (fun u => p_w (scale_w c u) * p_D (scale_w c u)) (fun u => c * (p_w u * p_D u))) by (intros; unfold p_D, scale_w; cbn; ring).
  rewrite (sumf_ext (fun u => p_w (scale_w c u)) (fun u => c * p_w u)) by reflexivity. rewrite !sumf_mul_l. apply ratio_scale. exact Hc.
Qed.
Lemma flat_ols L : flat L -> o_inv wit_oracle3 (ols_gram 1 L) <> None /\ o_wls wit_oracle3 (ctrl L) <> None.
Proof.
  intros F. destruct F as [X [W [[u [Hu Du]] [v [Hv Dv]]]]].
  assert (G : good L). { intros a Ha. split; [apply W, Ha|]. exists 1. split; [apply X, Ha|reflexivity]. }
  split; [exact (ols_inv_some L G u v Hu Hv Dv)|exact (wls_some L G v Hv Dv)].
Qed.
Definition mid (s : Qc) : Prop := eps6 < s /\ s < trim995.
Lemma mid_facts s : mid s -> 0 < s /\ 0 < 1 - s /\ s <= 1 - eps6 /\ eps6 <= s /\ Qcltb s trim995 = true.
Proof.
  intros [A B]. assert (0 < eps6) by reflexivity. assert (trim995 < 1 - eps6) by reflexivity. repeat split; try qclra. destruct (Qcltb_spec s trim995); [reflexivity|contradiction].
Qed.
Section Mid.
  Context (L : list punit) (F : flat L) (MD : mid (tshare L)) (ps : punit -> Qc) (HP : forall u, In u L -> ps u = tshare L).
  Lemma mid_wt m tl : tl = trim995 -> mean (tw_treat m tl ps) L <> 0.
  Proof.
    intros ->. destruct F as [_ [W [[u [Hu Du]] _]]]. apply (mean_pos_one _ L u); [|exact Hu|].
    - intros a Ha. rewrite twt. apply Qcmult_nonneg; [apply Qclt_le_weak, W, Ha|apply D_le].
    - rewrite twt. unfold p_D. rewrite Du. apply Qcmult_pos; [apply W, Hu|reflexivity].
  Qed.
  Lemma mid_wc m : mean (tw_control m trim995 ps) L <> 0.
  Proof.
    destruct F as [_ [W [_ [v [Hv Dv]]]]]. destruct (mid_facts _ MD) as [S0 [S1 [_ [_ ST]]]].
    apply (mean_pos_one _ L v); [|exact Hv|].
    - intros a Ha. rewrite twc. apply Qcmult_nonneg; [apply Qclt_le_weak, W, Ha|]. unfold cwm, DrdidProofs9.cw. rewrite (HP a Ha).
      assert (0 <= 1 - p_D a) by apply one_minus_D. destruct m; [|exact H|]; (apply Qcmult_nonneg; [destruct (_ && _); discriminate|apply Qcdiv_nonneg; [apply Qclt_le_weak, S0|exact S1]]).
    - rewrite twc. apply Qcmult_pos; [apply W, Hv|]. unfold cwm, DrdidProofs9.cw, p_D. rewrite (HP v Hv), Dv, ST. cbn [negb andb ind].
      destruct m; [|reflexivity|]; (apply Qcmult_pos; [reflexivity|apply Qcdiv_pos; assumption]).
  Qed.
  Lemma mid_gram : o_inv wit_oracle3 (ps_gram 1 ps L) <> None.
  Proof.
    apply inv_some. unfold ps_gram. rewrite mget_mat_of by lia. destruct (mid_facts _ MD) as [S0 [S1 _]].
    assert (P := flat_sum L F). rewrite (sumf_ext _ (fun u => tshare L * (1 - tshare L) * p_w u)) by (intros u Hu; rewrite HP, (flat_x L u F) by exact Hu; ring).
    rewrite sumf_mul_l. apply Qc_pos_neq0. exact (Qcmult_pos _ _ (Qcmult_pos _ _ S0 S1) P).
  Qed.
End Mid.
Lemma mid_cap L g u : flat L -> mid (tshare L) -> half + quarter * g = tshare L -> In u L -> ps_cap (o_mu wit_oracle3) 1 (g :: nil)%list u = tshare L.
Proof.
  intros F MD E Hu. unfold ps_cap. rewrite (flat_raw L g u F E Hu). destruct (mid_facts _ MD) as [_ [_ [B _]]].
  destruct (Qcltb_spec (1 - eps6) (tshare L)) as [X|_]; [exfalso; apply (Qclt_not_le _ _ X B)|reflexivity].
Qed.
Lemma mid_fit L g u : flat L -> mid (tshare L) -> half + quarter * g = tshare L -> In u L -> ps_fit (o_mu wit_oracle3) 1 (g :: nil)%list u = tshare L.
Proof.
  intros F MD E Hu. rewrite <- (mid_cap L g u F MD E Hu). symmetry. apply cap_fit. pose proof (flat_raw L g u F E Hu) as R. unfold ps_raw in R. rewrite R. apply (mid_facts _ MD).
Qed.
Lemma flat_did m L : flat L -> mid (tshare L) -> exists a i, compute_did wit_oracle3 1 m trim995 L = Some (a, i).
Proof.
  intros F MD. destruct (flat_logit L F) as [g [EL EG]]. destruct (flat_ols L F) as [I1 I2].
  assert (HR : forall u, In u L -> ps_raw (o_mu wit_oracle3) 1 (g :: nil)%list u = tshare L) by (intros u Hu; exact (flat_raw L g u F EG Hu)).
  assert (HC : forall u, In u L -> ps_cap (o_mu wit_oracle3) 1 (g :: nil)%list u = tshare L) by (intros u Hu; exact (mid_cap L g u F MD EG Hu)).
  assert (I3 := mid_gram L F MD _ HR). unfold compute_did, pscore_fit, outcome_fit, outcome_inv. rewrite EL.
  fold (ctrl L). destruct (o_inv wit_oracle3 (ols_gram 1 L)) as [M|]; [|congruence]. destruct (o_wls wit_oracle3 (ctrl L)) as [b|]; [|congruence].
  destruct (o_inv wit_oracle3 (ps_gram 1 _ L)) as [V|]; [|congruence].
  destruct m.
  - destruct (Qceqb_spec (mean (tw_treat Dr trim995 (ps_cap (o_mu wit_oracle3) 1 (g :: nil)%list)) L) 0) as [Z|_]; [exfalso; apply (mid_wt L F _ Dr trim995 eq_refl Z)|].
    destruct (Qceqb_spec (mean (tw_control Dr trim995 (ps_cap (o_mu wit_oracle3) 1 (g :: nil)%list)) L) 0) as [Z|_]; [exfalso; apply (mid_wc L F MD _ HC Dr Z)|]. eauto.
  - destruct (Qceqb_spec (mean (tw_treat Reg trim995 (fun _ => 1)) L) 0) as [Z|_]; [exfalso; apply (mid_wt L F _ Reg trim995 eq_refl Z)|].
    destruct (Qceqb_spec (mean (tw_control Reg trim995 (fun _ => 1)) L) 0) as [Z|_]; [|eauto].
    exfalso. apply (mid_wc L F MD (fun _ => tshare L) (fun _ _ => eq_refl) Reg). rewrite <- Z. apply mean_ext. intros u _. rewrite !twc. reflexivity.
  - destruct (Qceqb_spec (mean (tw_treat Ipw trim995 (ps_cap (o_mu wit_oracle3) 1 (g :: nil)%list)) L) 0) as [Z|_]; [exfalso; apply (mid_wt L F _ Ipw trim995 eq_refl Z)|].
    destruct (Qceqb_spec (mean (tw_control Ipw trim995 (ps_cap (o_mu wit_oracle3) 1 (g :: nil)%list)) L) 0) as [Z|_]; [exfalso; apply (mid_wc L F MD _ HC Ipw Z)|]. eauto.
Qed.
Lemma flat_normalise L : flat L -> exists c, 0 < c /\ normalise L = map (scale_w c) L.
Proof.
  intros F. assert (P := flat_sum L F). exists (/ mean p_w L). split.
  - apply Qcinv_pos. unfold mean. apply Qcdiv_pos; [exact P|]. apply qn_pos. destruct F as [_ [_ [[u [Hu _]] _]]]. destruct L; [destruct Hu|cbn; lia].
  - unfold normalise. apply map_ext. intros u. unfold scale_w, set_w. f_equal. unfold Qcdiv. ring.
Qed.
Lemma flat_two_group m L : flat L -> mid (tshare L) -> has_est (two_group wit_oracle3 1 m L).
Proof.
  intros F0 MD0. destruct (flat_normalise L F0) as [c [Hc EN]]. assert (F : flat (normalise L)) by (rewrite EN; apply flat_scale; assumption).
  assert (MD : mid (tshare (normalise L))) by (rewrite EN, tshare_scale; [exact MD0|apply Qc_pos_neq0, Hc]).
  destruct (flat_logit _ F) as [g [EL EG]]. destruct (flat_ols _ F) as [I1 I2].
  assert (HC : forall u, In u (normalise L) -> ps_fit (o_mu wit_oracle3) 1 (g :: nil)%list u = tshare (normalise L)) by (intros u Hu; exact (mid_fit _ g u F MD EG Hu)).
  assert (I3 := mid_gram _ F MD _ HC).
  assert (N : any_neg L = false) by (apply any_neg_false; intros u Hu; apply Qclt_le_weak, F0, Hu).
  assert (TG : two_groups (normalise L) = true).
  { destruct F as [_ [_ [[u [Hu Du]] [v [Hv Dv]]]]]. unfold two_groups. apply andb_true_iff. split; apply existsb_exists; [exists u|exists v]; rewrite ?Du, ?Dv; auto. }
  assert (WT : mean (w_treat trim995 (ps_fit (o_mu wit_oracle3) 1 (g :: nil)%list)) (normalise L) <> 0).
  { intros Z. apply (mid_wt _ F (ps_fit (o_mu wit_oracle3) 1 (g :: nil)%list) Dr trim995 eq_refl). rewrite <- Z. apply mean_ext. intros u _. rewrite twt, DrdidProofs9.w_treat_D. reflexivity. }
  assert (WC : mean (w_cont trim995 (ps_fit (o_mu wit_oracle3) 1 (g :: nil)%list)) (normalise L) <> 0).
  { intros Z. apply (mid_wc _ F MD _ HC Dr). rewrite <- Z. apply mean_ext. intros u _. rewrite twc, DrdidProofs9.w_cont_cw. reflexivity. }
  assert (WR : mean w_reg (normalise L) <> 0).
  { intros Z. apply (mid_wt _ F (ps_fit (o_mu wit_oracle3) 1 (g :: nil)%list) Dr trim995 eq_refl). rewrite <- Z. apply mean_ext. intros u _. rewrite twt. reflexivity. }
  assert (CN : ctrl (normalise L) <> []). { destruct F as [_ [_ [_ [v [Hv Dv]]]]]. intros Z. assert (In v (ctrl (normalise L))) by (apply filter_In; rewrite Dv; auto). rewrite Z in H. destruct H. }
  unfold has_est. destruct m; cbn [two_group]; unfold drdid_panel, std_ipw_did_panel, reg_did_panel; rewrite N; cbn zeta; rewrite ?TG, ?EL; cbn [negb].
  - destruct (o_wls wit_oracle3 (ctrl (normalise L))) as [b|] eqn:EB; [|congruence].
    destruct (Qceqb_spec (mean (w_treat trim995 (ps_fit (o_mu wit_oracle3) 1 (g :: nil)%list)) (normalise L)) 0); [contradiction|]. destruct (Qceqb_spec (mean (w_cont trim995 (ps_fit (o_mu wit_oracle3) 1 (g :: nil)%list)) (normalise L)) 0); [contradiction|].
    destruct (o_inv wit_oracle3 (ols_gram 1 (normalise L))) as [M|] eqn:E1; [|congruence]. destruct (o_inv wit_oracle3 (ps_gram 1 _ (normalise L))) as [H|] eqn:E2; [|congruence]. eauto.
  - destruct (o_wls wit_oracle3 (ctrl (normalise L))) as [b|] eqn:EB; [|congruence]. destruct (Qceqb_spec (mean w_reg (normalise L)) 0); [contradiction|].
    destruct (o_inv wit_oracle3 (ols_gram 1 (normalise L))) as [M|] eqn:E1; [|congruence].
    destruct (ctrl (normalise L)) as [|u0 cl]; [congruence|]. cbn [length Nat.ltb Nat.leb option_map]. eauto.
  - destruct (Qceqb_spec (mean (w_treat trim995 (ps_fit (o_mu wit_oracle3) 1 (g :: nil)%list)) (normalise L)) 0); [contradiction|]. destruct (Qceqb_spec (mean (w_cont trim995 (ps_fit (o_mu wit_oracle3) 1 (g :: nil)%list)) (normalise L)) 0); [contradiction|].
    destruct (o_inv wit_oracle3 (ps_gram 1 _ (normalise L))) as [H|] eqn:E2; [|congruence]. eauto.
Qed.
(** perturbing the weights of a flat sample *)
Lemma flat_reweight L h : flat L -> near0 (fun e => flat (map (reweight e h) L)).
Proof.
  intros F. assert (N : near0 (fun e => forall u, In u L -> 0 < p_w u * (1 + e * h u))).
  { apply near0_forall. intros u Hu. assert (W : 0 < p_w u) by (apply F, Hu).
    assert (D : derivative_at_0 (fun e => p_w u * (1 + e * h u)) (p_w u * (0 + (1 * h u + 0 * 0)))).
    { apply D_scale. apply D_add; [apply D_const|]. apply (D_mul (fun e => e) (fun _ => h u)); [apply D_id|apply D_const]. }
    apply (D_gt _ _ _ D). setoid_replace (p_w u * (1 + 0 * h u)) with (p_w u) by ring. exact W. }
  eapply near0_impl; [|exact N]. cbn beta. intros e He. destruct F as [X [W [[u [Hu Du]] [v [Hv Dv]]]]]. split; [|split; [|split]].
  - intros a Ha. apply in_map_iff in Ha. destruct Ha as [b [<- Hb]]. exact (X b Hb).
  - intros a Ha. apply in_map_iff in Ha. destruct Ha as [b [<- Hb]]. exact (He b Hb).
  - exists (reweight e h u). split; [apply in_map, Hu|exact Du].
  - exists (reweight e h v). split; [apply in_map, Hv|exact Dv].
Qed.
Lemma reweight_0 h L : map (reweight 0 h) L = L.
Proof. rewrite <- (map_id L) at 2. apply map_ext. intros u. unfold reweight, set_w. destruct u; cbn. f_equal. ring. Qed.
Lemma D_tshare L h : flat L -> exists d, derivative_at_0 (fun e => tshare (map (reweight e h) L)) d.
Proof.
  intros F. assert (DS : forall (f : punit -> Qc), exists d, derivative_at_0 (fun e => sumf (fun u => p_w u * (1 + e * h u) * f u) L) d).
  { intros f. exists (sumf (fun u => f u * (p_w u * h u)) L). apply (D_sum L (fun u e => p_w u * (1 + e * h u) * f u)). intros u _.
    assert (D : derivative_at_0 (fun e => f u * (p_w u * (1 + e * h u))) (f u * (p_w u * (0 + (1 * h u + 0 * 0))))).
    { apply D_scale, D_scale. apply D_add; [apply D_const|]. apply (D_mul (fun e => e) (fun _ => h u)); [apply D_id|apply D_const]. }
    refine (D_eq _ _ _ _ (D_ext _ _ _ _ D)); [ring|]. apply near0_all. intros e. ring. }
  destruct (DS p_D) as [d1 D1]. destruct (DS (fun _ => 1)) as [d2 D2].
  eexists. refine (D_ext _ _ _ _ (D_div _ _ _ _ D1 D2 _)).
  - apply near0_all. intros e. unfold tshare. rewrite !sumf_map. f_equal. apply sumf_ext. intros u _. cbn. ring.
  - cbn beta. rewrite (sumf_ext _ p_w) by (intros; ring). apply Qc_pos_neq0, flat_sum, F.
Qed.
Lemma mid_reweight L h : flat L -> mid (tshare L) -> near0 (fun e => mid (tshare (map (reweight e h) L))).
Proof.
  intros F [A B]. destruct (D_tshare L h F) as [d D]. assert (N1 := D_gt _ _ eps6 D). assert (N2 := D_lt _ _ trim995 D). cbn beta in N1, N2. rewrite reweight_0 in N1, N2.
  exact (near0_and _ _ (N1 A) (N2 B)).
Qed.
Lemma flat_smooth L h : flat L -> tshare L = half -> smooth_logit wit_oracle3 1 trim995 L h.
Proof.
  intros F HS. assert (MD : mid (tshare L)) by (rewrite HS; split; reflexivity).
  assert (G : forall L', flat L' -> exists g, gamma_of wit_oracle3 L' = (g :: nil)%list /\ half + quarter * g = tshare L').
  { intros L' F'. destruct (flat_normalise L' F') as [c [Hc EN]]. destruct (flat_logit (normalise L') ltac:(rewrite EN; apply flat_scale; assumption)) as [g [E1 E2]].
    exists g. unfold gamma_of. rewrite E1. split; [reflexivity|]. rewrite E2, EN. apply tshare_scale, Qc_pos_neq0, Hc. }
  assert (GV : forall L' g, half + quarter * g = tshare L' -> g = (tshare L' - half) * (two * two)).
  { intros L' g E. rewrite <- E, quarter_eq. unfold two. field. repeat split; discriminate. }
  destruct (D_tshare L h F) as [d D]. split; [|split].
  - intros j Hj. assert (j = 0)%nat by lia. subst j. exists ((d - 0) * (two * two) + (tshare (map (reweight 0 h) L) - half) * 0).
    refine (D_ext (fun e => (tshare (map (reweight e h) L) - half) * (two * two)) _ _ _ (D_mul (fun e => tshare (map (reweight e h) L) - half) (fun _ => two * two) _ _ (D_sub _ _ _ _ D (D_const half)) (D_const _))).
    eapply near0_impl; [|exact (flat_reweight L h F)]. cbn beta. intros e Fe. destruct (G _ Fe) as [g [E1 E2]]. rewrite E1. cbn [nth]. symmetry. apply GV. exact E2.
  - eapply near0_impl; [|exact (near0_and _ _ (flat_reweight L h F) (mid_reweight L h F MD))]. cbn beta. intros e [Fe Me] j Hj. assert (j = 0)%nat by lia. subst j.
    destruct (G _ Fe) as [g [E1 E2]]. rewrite E1. set (L' := map (reweight e h) L) in *. destruct (flat_normalise L' Fe) as [c [Hc EN]].
    assert (FN : flat (normalise L')) by (rewrite EN; apply flat_scale; assumption).
    assert (TN : tshare (normalise L') = tshare L') by (rewrite EN; apply tshare_scale, Qc_pos_neq0, Hc).
    rewrite (sumf_ext _ (fun u => p_w u * p_D u - tshare (normalise L') * p_w u)).
    + rewrite sumf_sub, sumf_mul_l. unfold tshare. assert (P := Qc_pos_neq0 _ (flat_sum _ FN)). field. exact P.
    + intros u Hu. rewrite (flat_x _ u FN Hu), (mid_fit (normalise L') g u FN); [ring|rewrite TN; exact Me|rewrite TN; exact E2|exact Hu].
  - intros u Hu. cbn zeta. rewrite reweight_0. destruct (G L F) as [g [E1 E2]]. rewrite E1, dot1, (flat_x L u F Hu). rewrite HS in E2.
    assert (G0 : g = 0). { rewrite (GV L g) by (rewrite HS; exact E2). rewrite HS. ring. } subst g. cbn [o_mu wit_oracle3].
    assert (V : half + quarter * (1 * 0) = half) by ring. rewrite V. split; [|split; [reflexivity|split; [reflexivity|discriminate]]].
    refine (D_eq _ _ _ _ (D_ext (fun t => half + quarter * t) _ _ _ (D_add (fun _ => half) (fun t => quarter * t) 0 (quarter * 1) (D_const half) (D_scale quarter (fun e => e) 1 D_id)))).
    + apply Qc_is_canon. reflexivity.
    + apply near0_all. intros t. ring.
Qed.
Lemma scale_free3 : fits_scale_free wit_oracle3.
Proof.
  intros c l Hc. assert (C0 := Qc_pos_neq0 _ Hc).
  assert (G : forall f i j, (forall u, f (scale_w c u) = c * f u) -> g2 f (map (scale_w c) l) i j = c * g2 f l i j).
  { intros f i j H. unfold g2. rewrite sumf_map, <- sumf_mul_l. apply sumf_ext. intros u _. rewrite H. unfold x_at, scale_w. cbn. ring. }
  assert (V : forall f j, (forall u, f (scale_w c u) = c * f u) -> v2 f (map (scale_w c) l) j = c * v2 f l j).
  { intros f j H. unfold v2. rewrite sumf_map, <- sumf_mul_l. apply sumf_ext. intros u _. rewrite H. unfold x_at, scale_w. cbn. ring. }
  assert (Z : forall x, Qceqb (c * x) 0 = Qceqb x 0).
  { intros x. destruct (Qceqb_spec x 0) as [->|N]; [destruct (Qceqb_spec (c * 0) 0) as [_|N]; [reflexivity|exfalso; apply N; ring]|].
    destruct (Qceqb_spec (c * x) 0) as [E|_]; [|reflexivity]. exfalso. apply N. setoid_replace x with (c * x / c) by (field; exact C0). rewrite E. unfold Qcdiv. ring. }
  cbn [wit_oracle3 wit_oracle1 o_logit o_wls]. cbn zeta. rewrite !G, !V by (intros; unfold p_D, p_dy, scale_w; cbn; ring). rewrite !Z. split.
  - destruct (Qceqb_spec (g2 p_w l 0 0) 0) as [|N]; [reflexivity|]. f_equal. f_equal. rewrite quarter_eq. unfold two. field. repeat split; try assumption; discriminate.
  - destruct (Qceqb_spec (g2 (fun u => p_w u * (1 - p_D u)) l 0 0) 0) as [|N]; [reflexivity|]. f_equal. f_equal. field. split; assumption.
Qed.

(** two units per subgroup, intercept only *)
Definition mkf (i s y1 y0 : Z) : tunit := {| t_id := i; t_sg := s; t_y1 := qz y1; t_y0 := qz y0; t_w := 1; t_x := (1 :: nil)%list |}.
Definition t_flat : list tunit := [mkf 1 4 9 1; mkf 2 4 6 2; mkf 3 3 4 1; mkf 4 3 6 1; mkf 5 2 5 2; mkf 6 2 3 1; mkf 7 1 2 1; mkf 8 1 6 4].
Lemma flat_pairs c : In c [3; 2; 1]%Z -> flat (pair_units c t_flat) /\ tshare (pair_units c t_flat) = half.
Proof.
  intros Hc. destruct Hc as [<-|[<-|[<-|[]]]]; (split; [|apply Qc_is_canon; vm_compute; reflexivity]); (split; [|split; [|split]]);
    try (intros u Hu; cbn in Hu; repeat (destruct Hu as [<-|Hu]; [reflexivity|]); destruct Hu);
    try (exists (as_pair (mkf 1 4 9 1)); split; [cbn; tauto|reflexivity]).
  - exists (as_pair (mkf 3 3 4 1)). split; [cbn; tauto|reflexivity].
  - exists (as_pair (mkf 5 2 5 2)). split; [cbn; tauto|reflexivity].
  - exists (as_pair (mkf 7 1 2 1)). split; [cbn; tauto|reflexivity].
Qed.
Lemma t_flat_smooth m h : m <> Reg -> forall c, In c [3; 2; 1]%Z -> smooth_logit wit_oracle3 1 trim995 (pair_units c t_flat) (fun p => h (un_pair c p)).
Proof. intros _ c Hc. destruct (flat_pairs c Hc). apply flat_smooth; assumption. Qed.
Lemma t_flat_est m h : near0 (fun e => ddd_has_est (ddd_panel wit_oracle3 1 m (map (t_reweight e h) t_flat)) /\
    forall c, In c [3; 2; 1]%Z -> has_est (two_group wit_oracle3 1 m (pair_units c (map (t_reweight e h) t_flat)))).
Proof.
  assert (N : near0 (fun e => forall c, In c [3; 2; 1]%Z -> flat (pair_units c (map (t_reweight e h) t_flat)) /\ mid (tshare (pair_units c (map (t_reweight e h) t_flat))))).
  { apply (near0_forall [3; 2; 1]%Z). intros c Hc. destruct (flat_pairs c Hc) as [F S]. assert (MD : mid (tshare (pair_units c t_flat))) by (rewrite S; split; reflexivity).
    eapply near0_impl; [|exact (near0_and _ _ (flat_reweight _ (fun p => h (un_pair c p)) F) (mid_reweight _ (fun p => h (un_pair c p)) F MD))]. cbn beta. intros e. rewrite pair_reweight. auto. }
  eapply near0_impl; [|exact N]. cbn beta. intros e He. split.
  2:{ intros c Hc. destruct (He c Hc). apply flat_two_group; assumption. }
  set (l := map (t_reweight e h) t_flat) in *.
  assert (W : forall u, In u l -> 0 < t_w u).
  { intros u Hu. assert (X : exists c, In c [3; 2; 1]%Z /\ in_pair c u = true).
    { unfold l in Hu. apply in_map_iff in Hu. destruct Hu as [v [<- Hv]]. cbn in Hv.
      destruct Hv as [<-|[<-|[<-|[<-|[<-|[<-|[<-|[<-|[]]]]]]]]]; [exists 3%Z|exists 3%Z|exists 3%Z|exists 3%Z|exists 2%Z|exists 2%Z|exists 1%Z|exists 1%Z]; (split; [cbn; tauto|reflexivity]). }
    destruct X as [c [Hc Hp]]. destruct (He c Hc) as [[_ [PW _]] _]. apply (PW (as_pair u)). apply in_pair_units. exists u. auto. }
  assert (PM : 0 < / mean t_w l). { apply Qcinv_pos, mean_pos; [discriminate|exact W]. }
  assert (CD : forall c, In c [3; 2; 1]%Z -> exists a i, compute_did wit_oracle3 1 m trim995 (pair_units c (t_normalise l)) = Some (a, i)).
  { intros c Hc. destruct (He c Hc) as [F MD]. rewrite pair_normalise. apply flat_did; [apply flat_scale; assumption|]. rewrite tshare_scale by (apply Qc_pos_neq0; exact PM). exact MD. }
  destruct (CD 3%Z ltac:(cbn; auto)) as [a3 [i3 E3]]. destruct (CD 2%Z ltac:(cbn; auto)) as [a2 [i2 E2]]. destruct (CD 1%Z ltac:(cbn; auto)) as [a1 [i1 E1]].
  assert (TN : t_neg l = false).
  { unfold t_neg. apply not_true_is_false. intros X. apply existsb_exists in X. destruct X as [u [Hu Hx]]. specialize (W u Hu). destruct (Qcltb_spec (t_w u) 0) as [Y|]; [|discriminate]. apply (Qclt_not_le _ _ Y), Qclt_le_weak, W. }
  unfold ddd_has_est, ddd_panel. rewrite TN. replace (forallb sg_ok l) with true by reflexivity. replace (existsb (fun u => (t_sg u =? 4)%Z) l) with true by reflexivity. cbn [negb].
  unfold compute_all. rewrite E3, E2, E1. cbn zeta. do 5 eexists. reflexivity.
Qed.
