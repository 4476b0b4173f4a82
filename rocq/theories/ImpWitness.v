(** Concrete cases for C113-C116. No property content. *)
From Coq Require Import Qcabs.
From Verif Require Import Base ListLib ReduceModel Calc DrdidModel DrdidSpec DrdidProofs DrdidProofs2 DrdidProofs3 DrdidProofs4 DrdidProofs5 DrdidProofs7 DrdidProofs8 DrdidProofs9 DrdidWitness DrdidWitness2 Witness ImpModel ImpSpec ImpProofs ImpProofs2.

(** five units, binary regressor, unequal weights; treated shares 1/3 and 1/2 *)
Definition wit_imp : list punit := [mku 1 false 3 1 2 0; mku 2 false 5 1 1 1; mku 3 true 9 2 1 0; mku 4 true 8 1 2 1; mku 5 false 2 2 1 1].
Definition chk_cal (o : oracle) (k : nat) (l : list punit) : bool :=
  match o_logit o (normalise l) with
  | Some g => let ps := ps_fit (o_mu o) k g in forallb (fun j => Qceqb (sumf (fun u => p_w u * x_at u j) (filter p_d l)) (sumf (fun u => p_w u * (ps u / (1 - ps u)) * x_at u j) (filter (fun u => negb (p_d u)) l))) (seq 0 k)
              && forallb (fun u => p_d u || Qcltb (ps u) (Q2Qc (995 # 1000))) l
  | None => false end.
Lemma chk_cal_ok o k l : chk_cal o k l = true -> exists g, o_logit o (normalise l) = Some g /\ calibrated k (ps_fit (o_mu o) k g) l /\ untrimmed (Q2Qc (995 # 1000)) (ps_fit (o_mu o) k g) l.
Proof.
  unfold chk_cal. destruct (o_logit o (normalise l)) as [g|]; [|discriminate]. cbn zeta. intros H. apply andb_true_iff in H. destruct H as [H1 H2]. exists g. split; [reflexivity|]. split.
  - intros j Hj. rewrite forallb_forall in H1. specialize (H1 j ltac:(apply in_seq; lia)). destruct (Qceqb_spec (sumf (fun u => p_w u * x_at u j) (filter p_d l)) (sumf (fun u => p_w u * (ps_fit (o_mu o) k g u / (1 - ps_fit (o_mu o) k g u)) * x_at u j) (filter (fun u => negb (p_d u)) l))); [assumption|discriminate].
  - intros u Hu D. rewrite forallb_forall in H2. specialize (H2 u Hu). rewrite D in H2. cbn [orb] in H2. destruct (Qcltb_spec (ps_fit (o_mu o) k g u) (Q2Qc (995 # 1000))); [assumption|discriminate].
Qed.
Lemma wit_imp_nc : no_collinearity 2 wit_imp.
Proof.
  intros v H j Hj.
  assert (H1 := H (mku 1 false 3 1 2 0) ltac:(cbn; tauto) eq_refl eq_refl). assert (H2 := H (mku 2 false 5 1 1 1) ltac:(cbn; tauto) eq_refl eq_refl).
  unfold dotk in H1, H2. cbn [seq] in H1, H2. rewrite !sumf_cons, sumf_nil in H1, H2. cbn [mku p_x nth] in H1, H2.
  assert (A : nth 0 v 0 = 0). { refine (eq_trans _ H1). rewrite qz_0. ring. }
  destruct j as [|[|j]]; [exact A| |lia]. rewrite A, qz_1 in H2. refine (eq_trans _ H2). ring.
Qed.
Lemma wit_imp_intercept : has_intercept wit_imp.
Proof. intros u H. cbn in H. repeat (destruct H as [<-|H]; [reflexivity|]). destruct H. Qed.
Lemma tilt_good gm l : good l -> good (map (tilt (ps_fit (o_mu wit_oracle3) 1 gm)) l).
Proof.
  intros G u Hu. apply in_map_iff in Hu. destruct Hu as [v [<- Hv]]. destruct (G v Hv) as [A B]. cbn [tilt set_w p_w p_x]. split; [|exact B]. apply mul_pos; [exact A|apply ImpProofs.ps_pos].
Qed.
Lemma good_est_imp l uT uC : good l -> In uT l -> p_d uT = true -> In uC l -> p_d uC = false ->
  has_est (drdid_imp_panel wit_oracle3 1 1 l) /\ has_est (ipw_did_panel wit_oracle3 1 1 l).
Proof.
  intros G HT DT HC DC. destruct (good_est l uT uC G HT DT HC DC) as [_ [[a [i E]] _]]. apply ipw_inv in E.
  destruct E as [N0 [TG [g [H [Eg [Hw [_ [EH _]]]]]]]]. cbn zeta in *.
  assert (Hd : mean_d (normalise l) <> 0).
  { intros Z0. apply Hw. rewrite <- Z0. unfold mean_d. apply mean_ext. intros u _. rewrite w_treat_D. ring. }
  assert (Hl : l <> []) by (intros ->; destruct HT). assert (GN := good_normalise l Hl G).
  set (c := fun u => set_w (p_w u / mean p_w l) u). assert (IC := in_map c l uC HC). change (map c l) with (normalise l) in IC.
  split.
  - unfold has_est, drdid_imp_panel. rewrite N0. cbn zeta. rewrite Eg.
    assert (WS := wls_some (map (tilt (ps_fit (o_mu wit_oracle3) 1 g)) (normalise l)) (tilt_good g _ GN) (tilt (ps_fit (o_mu wit_oracle3) 1 g) (c uC)) (in_map _ _ _ IC) DC).
    rewrite <- tilt_ctrl in WS by reflexivity.
    destruct (ctrl (normalise l)) as [|u0 cl] eqn:EC.
    + exfalso. assert (X : In (c uC) (ctrl (normalise l))) by (apply filter_In; split; [exact IC|cbn; rewrite DC; reflexivity]). rewrite EC in X. destruct X.
    + destruct (o_wls wit_oracle3 (map (tilt (ps_fit (o_mu wit_oracle3) 1 g)) (u0 :: cl))) as [b|]; [|congruence].
      destruct (Qceqb_spec (mean_d (normalise l)) 0); [contradiction|]. eauto.
  - unfold has_est, ipw_did_panel. rewrite N0. cbn zeta. rewrite TG, Eg. cbn [negb]. destruct (Qceqb_spec (mean_d (normalise l)) 0); [contradiction|]. rewrite EH. eauto.
Qed.
(** four units with a constant regressor; the weight of unit 1 is perturbed *)
Definition wit_tilt : list punit := [mk1 1 false 3 1; mk1 2 true 7 1; mk1 3 false 4 1; mk1 4 true 9 1].
Lemma wit_tilt_good e : Qcabs e <= half -> good (map (reweight e wit_h) wit_tilt) /\ good (map (reweight e wit_h) wit_smooth).
Proof.
  intros He. apply Qcabs_Qcle_condition in He. destruct He as [He1 He2].
  split; intros u Hu; apply in_map_iff in Hu; destruct Hu as [v [<- Hv]]; cbn in Hv;
    repeat (destruct Hv as [<-|Hv]; [split; [unfold reweight, wit_h; cbn [set_w p_w mk1 p_id Z.eqb Pos.eqb]; unfold half in *; clear He2; qclra|eexists; split; [reflexivity|reflexivity]]|]); destruct Hv.
Qed.
Lemma wit_tilt_est : near0 (fun e => has_est (drdid_imp_panel wit_oracle3 1 1 (map (reweight e wit_h) wit_tilt)) /\ has_est (ipw_did_panel wit_oracle3 1 1 (map (reweight e wit_h) wit_smooth))).
Proof.
  exists half. split; [reflexivity|]. intros e He. destruct (wit_tilt_good e He) as [G1 G2]. split.
  - apply (good_est_imp _ (reweight e wit_h (mk1 2 true 7 1)) (reweight e wit_h (mk1 1 false 3 1)) G1); cbn; tauto.
  - apply (good_est_imp _ (reweight e wit_h (mk1 2 true 7 1)) (reweight e wit_h (mk1 1 false 3 1)) G2); cbn; tauto.
Qed.
Definition tgamma (e : Qc) : Qc := (0 - two * e) / (two * two + e).
Lemma four_pos e : - half <= e -> two * two + e <> 0.
Proof. intros H. apply Qc_pos_neq0. unfold two, half in *. qclra. Qed.
Lemma tmean_neq e : - half <= e -> mean p_w (map (reweight e wit_h) wit_tilt) <> 0.
Proof.
  intros He1. apply Qc_pos_neq0, mean_pos; [discriminate|]. intros u Hu. apply in_map_iff in Hu. destruct Hu as [v [<- Hv]].
  cbn in Hv. repeat (destruct Hv as [<-|Hv]; [unfold reweight, wit_h; cbn [set_w p_w mk1 p_id Z.eqb Pos.eqb]; unfold half in *; qclra|]). destruct Hv.
Qed.
Lemma tgamma_eq e : Qcabs e <= half -> gamma_of wit_oracle3 (map (reweight e wit_h) wit_tilt) = tgamma e :: nil.
Proof.
  intros He. apply Qcabs_Qcle_condition in He. destruct He as [He1 He2]. assert (P := four_pos e He1). clear He2.
  assert (M := tmean_neq e He1).
  unfold gamma_of, wit_oracle3, o_logit, normalise. set (m := mean p_w _) in *. clearbody m.
  unfold wit_tilt, reweight, wit_h, v2, g2. cbn [map set_w p_w mk1 p_id Z.eqb Pos.eqb]. rewrite !sumf_cons. change (sumf _ []) with 0.
  unfold x_at, p_D. cbn [set_w p_w mk1 p_id p_d p_x nth ind]. rewrite qz1_eq, half_eq, quarter_eq.
  match goal with |- context[Qceqb ?a 0] => assert (E : a = (two * two + e) / m) by (unfold two; field; exact M); rewrite !E end.
  destruct (Qceqb_spec ((two * two + e) / m) 0) as [Z0|_].
  { exfalso. apply P. setoid_replace (two * two + e) with ((two * two + e) / m * m) by (field; exact M). rewrite Z0. ring. }
  f_equal. unfold tgamma. unfold two in *. field. repeat split; try exact M; try exact P; discriminate.
Qed.
Lemma tgamma0 : tgamma 0 = 0. Proof. apply Qc_is_canon. reflexivity. Qed.
Lemma D_tgamma : exists d, derivative_at_0 tgamma d.
Proof.
  eexists. unfold tgamma. apply (D_div (fun e => 0 - two * e) (fun e => two * two + e)).
  - apply D_sub; [apply D_const|]. apply D_scale, D_id.
  - apply D_add; [apply D_const|apply D_id].
  - discriminate.
Qed.
Lemma wit_smooth_tilt : smooth_tilt wit_oracle3 1 1 wit_tilt wit_h.
Proof.
  assert (NG : near0 (fun e => gamma_of wit_oracle3 (map (reweight e wit_h) wit_tilt) = tgamma e :: nil)).
  { exists half. split; [reflexivity|]. exact tgamma_eq. }
  unfold smooth_tilt. cbn zeta. split; [|split].
  - intros j Hj. assert (j = 0)%nat by lia. subst j. destruct D_tgamma as [d Hd]. exists d. refine (D_ext _ _ _ _ Hd).
    revert NG. apply near0_impl. intros e ->. reflexivity.
  - destruct D_tgamma as [d Hd].
    assert (B : near0 (fun e => forall u, In u wit_tilt -> eps6 <= half + quarter * (x_at u 0 * tgamma e) /\ half + quarter * (x_at u 0 * tgamma e) <= 1 - eps6)).
    { apply near0_forall. intros u Hu. 
      assert (D1 : derivative_at_0 (fun e => half + quarter * (x_at u 0 * tgamma e)) (0 + quarter * (x_at u 0 * d))) by (apply D_add; [apply D_const|apply D_scale, D_scale, Hd]).
      assert (V : half + quarter * (x_at u 0 * tgamma 0) = half) by (rewrite tgamma0; ring).
      assert (L1 := D_gt _ _ eps6 D1). assert (L2 := D_lt _ _ (1 - eps6) D1). cbn beta in L1, L2. rewrite V in L1, L2. 
      refine (near0_impl _ _ _ (near0_and _ _ (L1 eq_refl) (L2 eq_refl))). cbn beta. intros e [A C]. split; apply Qclt_le_weak; assumption. }
    assert (SS : near0 (fun e => Qcabs e <= half)) by (apply near0_small; reflexivity).
    refine (near0_impl _ _ _ (near0_and _ _ SS (near0_and _ _ NG B))). cbn beta. intros e [He [-> HB]] j Hj. assert (j = 0)%nat by lia. subst j.
    apply Qcabs_Qcle_condition in He. destruct He as [He1 He2]. assert (P := four_pos e He1).
    assert (P2 : two + e <> 0) by (apply Qc_pos_neq0; unfold two, half in *; clear He2; qclra).
    assert (PS : forall u, In u wit_tilt -> ps_fit (o_mu wit_oracle3) 1 (tgamma e :: nil) (reweight e wit_h u) = half + quarter * tgamma e).
    { intros u Hu. assert (X1 : x_at u 0 = 1) by (cbn in Hu; repeat (destruct Hu as [<-|Hu]; [reflexivity|]); destruct Hu). destruct (HB u Hu) as [B1 B2].
      unfold ps_fit, reweight. cbn [set_w p_x]. rewrite dot1. cbn [o_mu wit_oracle3]. unfold clip.
      destruct (Qcltb_spec (half + quarter * (x_at u 0 * tgamma e)) eps6) as [N|_]; [exfalso; revert N; apply Qcle_not_lt, B1|].
      destruct (Qcltb_spec (1 - eps6) (half + quarter * (x_at u 0 * tgamma e))) as [N|_]; [exfalso; revert N; apply Qcle_not_lt, B2|]. rewrite X1. ring. }
    assert (OD : (half + quarter * tgamma e) / (1 - (half + quarter * tgamma e)) = two / (two + e)).
    { assert (Q1 : half + quarter * tgamma e = two / (two * two + e)) by (unfold tgamma; rewrite half_eq, quarter_eq; unfold two in *; field; repeat split; first [exact P|discriminate|intros EE; discriminate EE]).
      rewrite Q1. assert (Q2 : 1 - two / (two * two + e) = (two + e) / (two * two + e)) by (unfold two in *; field; exact P). rewrite Q2. field. split; assumption. }
    rewrite !sumf_filter, !sumf_map.
    rewrite (sumf_ext (fun a => ind (negb (p_d (reweight e wit_h a))) * _) (fun u => ind (negb (p_d u)) * (p_w u * (1 + e * wit_h u) * ((half + quarter * tgamma e) / (1 - (half + quarter * tgamma e))) * x_at u 0))).
    2:{ intros u Hu. rewrite PS by exact Hu. reflexivity. }
    rewrite OD. unfold wit_tilt, wit_h. rewrite !sumf_cons. change (sumf _ []) with 0. unfold reweight, x_at. cbn [set_w p_w mk1 p_id p_d p_x nth ind Z.eqb Pos.eqb negb]. rewrite qz1_eq.
    unfold two in *. field. exact P2.
  - intros u Hu. rewrite (near0_at0 _ NG), tgamma0, dot1. cbn [o_mu wit_oracle3]. 
    assert (Z0 : x_at u 0 * 0 = 0) by ring. rewrite Z0. assert (V : half + quarter * 0 = half) by ring. rewrite V. split; [|split; [reflexivity|split; [reflexivity|reflexivity]]].
    refine (D_eq _ _ _ _ (D_ext (fun t => half + quarter * t) _ _ _ (D_add (fun _ => half) (fun t => quarter * t) 0 (quarter * 1) (D_const half) (D_scale quarter (fun e => e) 1 D_id)))).
    + apply Qc_is_canon. reflexivity.
    + apply near0_all. intros t. ring.
Qed.
(** a function that is exponential-like at 0 and 1 *)
Definition wit_ex (z : Qc) : Qc := if Qcltb (1 + z) ((1 + 1 + 1) * z) then (1 + 1 + 1) * z else 1 + z.
Lemma wit_ex_0 : exp_like_at wit_ex 0.
Proof.
  split; [reflexivity|]. split.
  - apply (D_ext (fun t => 1 + t)).
    + exists (Q2Qc (1 # 4)). split; [reflexivity|]. intros e He. apply Qcabs_Qcle_condition in He. destruct He as [_ He]. unfold wit_ex.
      destruct (Qcltb_spec (1 + (0 + e)) ((1 + 1 + 1) * (0 + e))) as [L|_]; [exfalso|ring]. revert L. apply Qcle_not_lt. qclra.
    + apply (D_eq _ (0 + 1)); [reflexivity|]. apply D_add; [apply D_const|apply D_id].
  - intros y. unfold wit_ex. cbn. destruct (Qcltb_spec (1 + y) ((1 + 1 + 1) * y)) as [L|L].
    + apply Qclt_le_weak in L. eapply Qcle_trans; [|exact L]. apply Qc_eq_le_. replace (Q2Qc (1 + 0)) with (Q2Qc 1) by reflexivity. cbn. ring.
    + apply Qc_eq_le_. cbn. ring.
Qed.
Lemma wit_ex_1 : exp_like_at wit_ex 1.
Proof.
  assert (E1 : wit_ex 1 = (1 + 1 + 1)) by (apply Qc_is_canon; reflexivity).
  split; [reflexivity|]. rewrite E1. split.
  - apply (D_ext (fun t => (1 + 1 + 1) + (1 + 1 + 1) * t)).
    + exists (Q2Qc (1 # 4)). split; [reflexivity|]. intros e He. apply Qcabs_Qcle_condition in He. destruct He as [He _]. unfold wit_ex.
      destruct (Qcltb_spec (1 + (1 + e)) ((1 + 1 + 1) * (1 + e))) as [_|L]; [ring|exfalso]. apply L. qclra.
    + apply (D_eq _ (0 + (1 + 1 + 1) * 1)); [ring|]. apply D_add; [apply D_const|apply D_scale, D_id].
  - intros y. unfold wit_ex. destruct (Qcltb_spec (1 + y) ((1 + 1 + 1) * y)) as [L|L].
    + apply Qc_eq_le_. ring.
    + apply Qcnot_lt_le in L. eapply Qcle_trans; [|exact L]. apply Qc_eq_le_. ring.
Qed.
(** odds 1 at x = 0 and 3 at x = 1 with coefficients (0, 1) *)
Definition wit_ipt : list punit := [mku 1 false 3 1 1 0; mku 2 false 5 1 1 1; mku 3 true 9 2 1 0; mku 4 true 8 1 3 1].
Definition wit_ipt1 : list punit := [mku 1 false 3 1 1 0; mku 2 false 5 1 1 1; mku 3 true 9 2 1 0; mku 4 true 8 1 1 1; mku 5 true 7 1 1 1; mku 6 true 7 2 1 1].
