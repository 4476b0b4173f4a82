(** A concrete smooth case for the derivative theorems of C27. No property content. *)
From Coq Require Import Qcabs.
From Verif Require Import Base ListLib ReduceModel Calc DrdidModel DrdidSpec DrdidProofs DrdidProofs2 DrdidProofs3 DrdidProofs4 DrdidProofs5 DrdidProofs7 DrdidProofs8 DrdidWitness Witness.

(** one regressor; link 1/2 + z/4, whose derivative at index 0 is the logistic one *)
Definition half : Qc := Q2Qc (1 # 2).
Definition quarter : Qc := Q2Qc (1 # 4).
Definition wit_oracle3 : oracle :=
  {| o_logit := fun l => if Qceqb (g2 p_w l 0 0) 0 then None else Some (v2 (fun u => p_w u * (p_D u - half)) l 0 / (quarter * g2 p_w l 0 0) :: nil);
     o_mu := fun z => half + quarter * z;
     o_wls := o_wls wit_oracle1; o_inv := o_inv wit_oracle1 |}.
Lemma wit3_wls_ok : wls_ok wit_oracle3 1. Proof. exact wit1_wls_ok. Qed.
Lemma wit3_inv_ok : inv_ok wit_oracle3 1. Proof. exact wit1_inv_ok. Qed.

Definition good (l : list punit) : Prop := forall u, In u l -> 0 < p_w u /\ exists x, p_x u = (x :: nil) /\ 0 < x.
Lemma mean_pos {A} (f : A -> Qc) l : l <> [] -> (forall a, In a l -> 0 < f a) -> 0 < mean f l.
Proof.
  intros Hl H. unfold mean. apply Qcdiv_pos; [|apply qn_pos; destruct l; [congruence|cbn; lia]].
  apply sumf_pos; [intros; apply Qclt_le_weak, H; assumption|]. destruct l as [|a l]; [congruence|]. exists a. split; [left; reflexivity|apply H; left; reflexivity].
Qed.
Lemma Qcmult_pos (a b : Qc) : 0 < a -> 0 < b -> 0 < a * b.
Proof. intros Ha Hb. setoid_replace 0 with (0 * b) by ring. apply Qcmult_lt_compat_r; assumption. Qed.
Lemma mean_pos_one (f : punit -> Qc) l u : (forall a, In a l -> 0 <= f a) -> In u l -> 0 < f u -> mean f l <> 0.
Proof.
  intros H Hu Hp. apply Qc_pos_neq0. unfold mean. apply Qcdiv_pos; [apply sumf_pos; [exact H|exists u; auto]|apply qn_pos; destruct l; [destruct Hu|cbn; lia]].
Qed.
Section Good.
  Context (l : list punit) (G : good l) (uT uC : punit) (HT : In uT l) (DT : p_d uT = true) (HC : In uC l) (DC : p_d uC = false).
  Lemma ne : l <> []. Proof. intros ->. destruct HT. Qed.
  Lemma no_neg : any_neg l = false.
  Proof. apply any_neg_false. intros u Hu. apply Qclt_le_weak, G, Hu. Qed.
  Lemma groups : two_groups l = true.
  Proof. unfold two_groups. apply andb_true_iff. split; apply existsb_exists; [exists uT|exists uC]; rewrite ?DT, ?DC; auto. Qed.
  Lemma x_pos u : In u l -> 0 < x_at u 0.
  Proof. intros Hu. destruct (G u Hu) as [_ [x [E P]]]. unfold x_at. rewrite E. exact P. Qed.
  Lemma D_le u : 0 <= p_D u. Proof. unfold p_D. destruct (p_d u); discriminate. Qed.
  Lemma logit_some : g2 p_w l 0 0 <> 0.
  Proof. apply Qc_pos_neq0, sumf_pos; [intros u Hu; apply Qclt_le_weak|exists uT; split; [exact HT|]]; repeat apply Qcmult_pos; try apply x_pos; try apply G; assumption. Qed.
  Lemma ols_pos : 0 < sumf (fun u => p_w u * (1 - p_D u) * x_at u 0 * x_at u 0) l.
  Proof.
    apply sumf_pos.
    - intros u Hu. repeat apply Qcmult_nonneg; try (apply Qclt_le_weak; first [apply x_pos|apply G]; assumption). apply one_minus_D.
    - exists uC. split; [exact HC|]. unfold p_D. rewrite DC. cbn [ind]. repeat apply Qcmult_pos; try apply x_pos; try apply G; try assumption. reflexivity.
  Qed.
  Lemma wls_some : o_wls wit_oracle3 (ctrl l) <> None.
  Proof.
    cbn. destruct (Qceqb_spec (g2 (fun u => p_w u * (1 - p_D u)) (ctrl l) 0 0) 0) as [E|]; [|discriminate]. exfalso.
    apply (Qc_pos_neq0 _ ols_pos). rewrite <- E. unfold g2. rewrite sumf_filter. apply sumf_ext. intros u _. unfold p_D. destruct (p_d u); cbn; ring.
  Qed.
  Lemma inv_some M : mget M 0 0 <> 0 -> o_inv wit_oracle3 M <> None.
  Proof. intros H. cbn. destruct (Qceqb_spec (mget M 0 0) 0); [contradiction|discriminate]. Qed.
  Lemma ols_inv_some : o_inv wit_oracle3 (ols_gram 1 l) <> None.
  Proof.
    apply inv_some. unfold ols_gram. rewrite mget_mat_of by lia. unfold mean. apply Qc_pos_neq0, Qcdiv_pos; [|apply qn_pos; destruct l; [destruct HT|cbn; lia]].
    rewrite (sumf_ext _ (fun u => p_w u * (1 - p_D u) * x_at u 0 * x_at u 0)) by (intros; ring). exact ols_pos.
  Qed.
  Lemma ps_pos gm u : 0 < ps_fit (o_mu wit_oracle3) 1 gm u /\ 0 < 1 - ps_fit (o_mu wit_oracle3) 1 gm u /\ Qcltb (ps_fit (o_mu wit_oracle3) 1 gm u) 1 = true.
  Proof.
    destruct (ps_fit_bounds (o_mu wit_oracle3) 1 gm u) as [A B]. set (q := ps_fit _ _ _ _) in *. assert (0 < eps6) by reflexivity.
    split; [qclra|]. split; [qclra|]. destruct (Qcltb_spec q 1) as [|N]; [reflexivity|]. exfalso. apply N. qclra.
  Qed.
  Lemma ps_inv_some gm : o_inv wit_oracle3 (ps_gram 1 (ps_fit (o_mu wit_oracle3) 1 gm) l) <> None.
  Proof.
    apply inv_some. unfold ps_gram. rewrite mget_mat_of by lia.
    assert (P : forall u, In u l -> 0 < x_at u 0 * (ps_fit (o_mu wit_oracle3) 1 gm u * (1 - ps_fit (o_mu wit_oracle3) 1 gm u) * p_w u * x_at u 0)).
    { intros u Hu. destruct (ps_pos gm u) as [P1 [P2 _]]. repeat apply Qcmult_pos; try apply x_pos; try apply G; assumption. }
    apply Qc_pos_neq0, sumf_pos; [intros u Hu; apply Qclt_le_weak, P, Hu|]. exists uT. split; [exact HT|apply P, HT].
  Qed.
  Lemma wt_pos gm : mean (w_treat 1 (ps_fit (o_mu wit_oracle3) 1 gm)) l <> 0.
  Proof.
    apply (mean_pos_one _ l uT); [|exact HT|].
    - intros u Hu. unfold w_treat, trim_ps. rewrite (proj2 (proj2 (ps_pos gm u))), orb_true_r. cbn [ind]. repeat apply Qcmult_nonneg; [discriminate|apply Qclt_le_weak, G, Hu|apply D_le].
    - unfold w_treat, trim_ps, p_D. rewrite DT. cbn [orb ind]. repeat apply Qcmult_pos; [reflexivity|apply G, HT|reflexivity].
  Qed.
  Lemma wc_pos gm : mean (w_cont 1 (ps_fit (o_mu wit_oracle3) 1 gm)) l <> 0.
  Proof.
    apply (mean_pos_one _ l uC); [|exact HC|].
    - intros u Hu. destruct (ps_pos gm u) as [P1 [P2 P3]]. unfold w_cont, trim_ps. rewrite P3, orb_true_r. cbn [ind].
      apply Qcdiv_nonneg; [|exact P2]. repeat apply Qcmult_nonneg; [discriminate|apply Qclt_le_weak, G, Hu|apply Qclt_le_weak, P1|apply one_minus_D].
    - destruct (ps_pos gm uC) as [P1 [P2 P3]]. unfold w_cont, trim_ps, p_D. rewrite P3, DC. cbn [orb ind]. apply Qcdiv_pos; [|exact P2]. repeat apply Qcmult_pos; try reflexivity; try assumption. apply G, HC.
  Qed.
  Lemma wr_pos : mean w_reg l <> 0.
  Proof.
    apply (mean_pos_one _ l uT); [|exact HT|].
    - intros u Hu. unfold w_reg. apply Qcmult_nonneg; [apply Qclt_le_weak, G, Hu|apply D_le].
    - unfold w_reg, p_D. rewrite DT. apply Qcmult_pos; [apply G, HT|reflexivity].
  Qed.
End Good.
Lemma good_normalise l : l <> [] -> good l -> good (normalise l).
Proof.
  intros Hl G u Hu. apply in_normalise in Hu. destruct Hu as [v [Hv ->]]. cbn [set_w p_w p_x]. destruct (G v Hv) as [A B]. split; [|exact B].
  apply Qcdiv_pos; [exact A|]. apply mean_pos; [exact Hl|]. intros a Ha. apply G, Ha.
Qed.
Lemma good_est l uT uC : good l -> In uT l -> p_d uT = true -> In uC l -> p_d uC = false ->
  has_est (drdid_panel wit_oracle3 1 1 l) /\ has_est (std_ipw_did_panel wit_oracle3 1 1 l) /\ has_est (reg_did_panel wit_oracle3 1 l).
Proof.
  intros G HT DT HC DC. assert (Hl : l <> []) by (intros ->; destruct HT). assert (GN := good_normalise l Hl G).
  set (c := fun u => set_w (p_w u / mean p_w l) u). assert (IT := in_map c l uT HT). assert (IC := in_map c l uC HC). change (map c l) with (normalise l) in IT, IC.
  assert (N := no_neg l G). assert (TG := groups (normalise l) (c uT) (c uC) IT DT IC DC).
  assert (LS : exists g, o_logit wit_oracle3 (normalise l) = Some g).
  { cbn. destruct (Qceqb_spec (g2 p_w (normalise l) 0 0) 0) as [E|]; [exfalso; apply (logit_some (normalise l) GN (c uT) IT E)|eauto]. }
  destruct LS as [gm LS]. assert (WS := wls_some (normalise l) GN (c uC) IC DC).
  assert (I1 := ols_inv_some (normalise l) GN (c uT) (c uC) IT IC DC). assert (I2 := ps_inv_some (normalise l) GN (c uT) IT gm).
  assert (W1 := wt_pos (normalise l) GN (c uT) IT DT gm). assert (W2 := wc_pos (normalise l) GN (c uC) IC DC gm). assert (W3 := wr_pos (normalise l) GN (c uT) IT DT).
  unfold has_est, drdid_panel, std_ipw_did_panel, reg_did_panel. rewrite N. cbn zeta. rewrite TG, LS. cbn [negb].
  destruct (o_wls wit_oracle3 (ctrl (normalise l))) as [b|] eqn:EB; [|congruence].
  destruct (Qceqb_spec (mean (w_treat 1 (ps_fit (o_mu wit_oracle3) 1 gm)) (normalise l)) 0); [contradiction|].
  destruct (Qceqb_spec (mean (w_cont 1 (ps_fit (o_mu wit_oracle3) 1 gm)) (normalise l)) 0); [contradiction|].
  destruct (Qceqb_spec (mean w_reg (normalise l)) 0); [contradiction|].
  destruct (o_inv wit_oracle3 (ols_gram 1 (normalise l))) as [M|] eqn:E1; [|congruence]. destruct (o_inv wit_oracle3 (ps_gram 1 _ (normalise l))) as [H|] eqn:E2; [|congruence].
  split; [eauto|]. split; [eauto|]. 
  destruct (ctrl (normalise l)) as [|u0 cl] eqn:EC.
  - exfalso. assert (In (c uC) (ctrl (normalise l))) by (apply filter_In; split; [exact IC|cbn; rewrite DC; reflexivity]). rewrite EC in H0. destruct H0.
  - cbn [length Nat.ltb Nat.leb option_map]. eauto.
Qed.

(** four units: treated and comparison share the regressor values 1, 2; perturb the weight of unit 1 *)
Definition mk1 (i : Z) (d : bool) (y1 x : Z) : punit := {| p_id := i; p_d := d; p_y1 := qz y1; p_y0 := 0; p_w := 1; p_x := qz x :: nil |}.
Definition wit_smooth : list punit := [mk1 1 false 3 1; mk1 2 true 7 1; mk1 3 false 4 2; mk1 4 true 9 2].
Definition wit_h (u : punit) : Qc := if (p_id u =? 1)%Z then 1 else 0.
Lemma wit_smooth_est : near0 (fun e => has_est (drdid_panel wit_oracle3 1 1 (map (reweight e wit_h) wit_smooth)) /\
  has_est (std_ipw_did_panel wit_oracle3 1 1 (map (reweight e wit_h) wit_smooth)) /\ has_est (reg_did_panel wit_oracle3 1 (map (reweight e wit_h) wit_smooth))).
Proof.
  exists half. split; [reflexivity|]. intros e He. apply (good_est _ (reweight e wit_h (mk1 2 true 7 1)) (reweight e wit_h (mk1 1 false 3 1))).
  - intros u Hu. apply in_map_iff in Hu. destruct Hu as [v [<- Hv]]. apply Qcabs_Qcle_condition in He. destruct He as [He1 He2]. 
    cbn in Hv. repeat (destruct Hv as [<-|Hv]; [split; [unfold reweight, wit_h; cbn [set_w p_w mk1 p_id Z.eqb Pos.eqb]; unfold half in *; clear He2; qclra|eexists; split; [reflexivity|reflexivity]]|]). destruct Hv.
  - cbn. tauto.
  - reflexivity.
  - cbn. tauto.
  - reflexivity.
Qed.
Definition two : Qc := 1 + 1.
Definition ten : Qc := two * two * two + two.
Definition wit_gamma (e : Qc) : Qc := (0 - two * e) / (ten + e).
Lemma half_eq : half = 1 / two. Proof. apply Qc_is_canon. reflexivity. Qed.
Lemma quarter_eq : quarter = 1 / (two * two). Proof. apply Qc_is_canon. reflexivity. Qed.
Lemma qz2_eq : qz 2 = two. Proof. apply Qc_is_canon. reflexivity. Qed.
Lemma qz1_eq : qz 1 = 1. Proof. apply Qc_is_canon. reflexivity. Qed.
Lemma ten_pos e : - half <= e -> ten + e <> 0.
Proof. intros H. apply Qc_pos_neq0. unfold ten, two, half in *. qclra. Qed.
Lemma wit_mean_neq e : - half <= e -> mean p_w (map (reweight e wit_h) wit_smooth) <> 0.
Proof.
  intros He1. apply Qc_pos_neq0, mean_pos; [discriminate|]. intros u Hu. apply in_map_iff in Hu. destruct Hu as [v [<- Hv]].
  cbn in Hv. repeat (destruct Hv as [<-|Hv]; [unfold reweight, wit_h; cbn [set_w p_w mk1 p_id Z.eqb Pos.eqb]; unfold half in *; qclra|]). destruct Hv.
Qed.
Lemma wit_gamma_eq e : Qcabs e <= half -> gamma_of wit_oracle3 (map (reweight e wit_h) wit_smooth) = wit_gamma e :: nil.
Proof.
  intros He. apply Qcabs_Qcle_condition in He. destruct He as [He1 He2]. assert (P := ten_pos e He1). clear He2.
  assert (M := wit_mean_neq e He1).
  unfold gamma_of, wit_oracle3, o_logit, normalise. set (m := mean p_w _) in *. clearbody m.
  unfold wit_smooth, reweight, wit_h, v2, g2. cbn [map set_w p_w mk1 p_id Z.eqb Pos.eqb]. rewrite !sumf_cons. change (sumf _ []) with 0.
  unfold x_at, p_D. cbn [set_w p_w mk1 p_id p_d p_x nth ind]. rewrite qz1_eq, qz2_eq, half_eq, quarter_eq.
  match goal with |- context[Qceqb ?a 0] => assert (E : a = (ten + e) / m) by (unfold ten, two; field; exact M); rewrite !E end.
  destruct (Qceqb_spec ((ten + e) / m) 0) as [Z|_].
  { exfalso. apply P. setoid_replace (ten + e) with ((ten + e) / m * m) by (field; exact M). rewrite Z. ring. }
  f_equal. unfold wit_gamma. unfold ten, two in *. field. repeat split; try exact M; try exact P; discriminate.
Qed.
Lemma wit_gamma0 : wit_gamma 0 = 0. Proof. apply Qc_is_canon. reflexivity. Qed.
Lemma D_wit_gamma : exists d, derivative_at_0 wit_gamma d.
Proof.
  eexists. unfold wit_gamma. apply (D_div (fun e => 0 - two * e) (fun e => ten + e)).
  - apply D_sub; [apply D_const|]. apply D_scale, D_id.
  - apply D_add; [apply D_const|apply D_id].
  - discriminate.
Qed.
Lemma dot1 u g : dotk 1 (p_x u) (g :: nil) = x_at u 0 * g.
Proof. unfold dotk, x_at. cbn. ring. Qed.
Lemma wit_smooth_logit : smooth_logit wit_oracle3 1 1 wit_smooth wit_h.
Proof.
  assert (NG : near0 (fun e => gamma_of wit_oracle3 (map (reweight e wit_h) wit_smooth) = wit_gamma e :: nil)).
  { exists half. split; [reflexivity|]. exact wit_gamma_eq. }
  unfold smooth_logit. cbn zeta. split; [|split].
  - intros j Hj. assert (j = 0)%nat by lia. subst j. destruct D_wit_gamma as [d Hd]. exists d. refine (D_ext _ _ _ _ Hd).
    revert NG. apply near0_impl. intros e ->. reflexivity.
  - destruct D_wit_gamma as [d Hd].
    assert (B : near0 (fun e => forall u, In u wit_smooth -> eps6 <= half + quarter * (x_at u 0 * wit_gamma e) /\ half + quarter * (x_at u 0 * wit_gamma e) <= 1 - eps6)).
    { apply near0_forall. intros u Hu. 
      assert (D1 : derivative_at_0 (fun e => half + quarter * (x_at u 0 * wit_gamma e)) (0 + quarter * (x_at u 0 * d))) by (apply D_add; [apply D_const|apply D_scale, D_scale, Hd]).
      assert (V : half + quarter * (x_at u 0 * wit_gamma 0) = half) by (rewrite wit_gamma0; ring).
      assert (L1 := D_gt _ _ eps6 D1). assert (L2 := D_lt _ _ (1 - eps6) D1). cbn beta in L1, L2. rewrite V in L1, L2. 
      refine (near0_impl _ _ _ (near0_and _ _ (L1 eq_refl) (L2 eq_refl))). cbn beta. intros e [A C]. split; apply Qclt_le_weak; assumption. }
    assert (S : near0 (fun e => Qcabs e <= half)) by (apply near0_small; reflexivity).
    refine (near0_impl _ _ _ (near0_and _ _ S (near0_and _ _ NG B))). cbn beta. intros e [He [-> HB]] j Hj. assert (j = 0)%nat by lia. subst j.
    assert (M := wit_mean_neq e (proj1 (proj1 (Qcabs_Qcle_condition _ _) He))).
    unfold normalise. set (m := mean p_w _) in *. clearbody m. rewrite map_map.
    rewrite sumf_map. rewrite (sumf_ext _ (fun u => p_w u * (1 + e * wit_h u) / m * (p_D u - (half + quarter * (x_at u 0 * wit_gamma e))) * x_at u 0)).
    + apply Qcabs_Qcle_condition in He. destruct He as [He1 _]. assert (P := ten_pos e He1).
      unfold wit_smooth, wit_h, wit_gamma. rewrite !sumf_cons. change (sumf _ []) with 0. unfold x_at, p_D. cbn [set_w p_w mk1 p_id p_d p_x nth ind Z.eqb Pos.eqb]. rewrite qz1_eq, qz2_eq, half_eq, quarter_eq.
      unfold ten, two in *. field. repeat split; try exact M; try exact P; discriminate.
    + intros u Hu. destruct (HB u Hu) as [B1 B2]. unfold reweight. cbn [set_w p_w]. unfold x_at at 1, p_D at 1. cbn [set_w p_x p_d].
      unfold ps_fit. cbn [set_w p_x]. rewrite dot1. cbn [o_mu wit_oracle3]. unfold clip. 
      destruct (Qcltb_spec (half + quarter * (x_at u 0 * wit_gamma e)) eps6) as [N|_]; [exfalso; revert N; apply Qcle_not_lt, B1|].
      destruct (Qcltb_spec (1 - eps6) (half + quarter * (x_at u 0 * wit_gamma e))) as [N|_]; [exfalso; revert N; apply Qcle_not_lt, B2|]. reflexivity.
  - intros u Hu. rewrite (near0_at0 _ NG), wit_gamma0, dot1. cbn [o_mu wit_oracle3]. 
    assert (Z : x_at u 0 * 0 = 0) by ring. rewrite Z. assert (V : half + quarter * 0 = half) by ring. rewrite V. split; [|split; [reflexivity|split; [reflexivity|discriminate]]].
    refine (D_eq _ _ _ _ (D_ext (fun t => half + quarter * t) _ _ _ (D_add (fun _ => half) (fun t => quarter * t) 0 (quarter * 1) (D_const half) (D_scale quarter (fun e => e) 1 D_id)))).
    + apply Qc_is_canon. reflexivity.
    + apply near0_all. intros t. ring.
Qed.
