(** A concrete smooth case for the derivative theorems of C93. No property content. *)
From Coq Require Import Qcabs.
From Verif Require Import Base ListLib ReduceModel Calc DrdidModel DrdidSpec DrdidProofs DrdidProofs2 DrdidProofs3 DrdidProofs4 DrdidProofs5 DrdidProofs7 DrdidProofs8 DrdidWitness DrdidWitness2 Witness RcModel RcSpec RcCalc RcProofs RcProofs2 RcProofs3 RcProofs5 RcWitness.

Definition mk3 (i : Z) (d t : bool) (y w x : Z) : runit := {| r_id := i; r_d := d; r_post := t; r_y := qz y; r_w := qz w; r_x := qz x :: nil |}.
(** seven rows in all four cells, unequal weights, regressor balanced overall but not before treatment; the weight of row 1 moves *)
Definition rwit_smooth : list runit :=
  [mk3 1 false false 3 2 1; mk3 2 false false 4 1 2; mk3 3 true false 7 1 2; mk3 4 false true 5 1 1; mk3 5 false true 8 1 2; mk3 6 true true 9 1 1; mk3 7 true true 6 1 4].
Definition rwit_h (u : runit) : Qc := if (r_id u =? 1)%Z then 1 else 0.
Lemma rwit_good e : Qcabs e <= half -> rgood (map (rreweight e rwit_h) rwit_smooth).
Proof.
  intros He u Hu. apply in_map_iff in Hu. destruct Hu as [v [<- Hv]]. apply Qcabs_Qcle_condition in He. destruct He as [He1 He2].
  cbn in Hv. repeat (destruct Hv as [<-|Hv]; [split; [unfold rreweight, rwit_h; cbn [rset_w r_w mk3 r_id Z.eqb Pos.eqb]; apply Qcmult_pos; [reflexivity|unfold half in *; clear He2; qclra]|eexists; split; [reflexivity|reflexivity]]|]). destruct Hv.
Qed.
Lemma rwit_cells e : has_cells (map (rreweight e rwit_h) rwit_smooth).
Proof.
  apply has_cells_map; [intros u; split; reflexivity|]. intros b t.
  destruct b, t; [exists (mk3 6 true true 9 1 1)|exists (mk3 3 true false 7 1 2)|exists (mk3 4 false true 5 1 1)|exists (mk3 1 false false 3 2 1)]; (split; [cbn; tauto|split; reflexivity]).
Qed.
Lemma rwit_smooth_est : near0 (fun e => has_est (reg_did_rc rwit3 1 (map (rreweight e rwit_h) rwit_smooth)) /\ has_est (std_ipw_did_rc rwit3 1 1 (map (rreweight e rwit_h) rwit_smooth)) /\
  has_est (ipw_did_rc rwit3 1 1 (map (rreweight e rwit_h) rwit_smooth)) /\ has_est (drdid_trad_rc rwit3 1 1 (map (rreweight e rwit_h) rwit_smooth)) /\ has_est (drdid_rc rwit3 1 1 (map (rreweight e rwit_h) rwit_smooth))).
Proof. exists half. split; [reflexivity|]. intros e He. apply rgood_est; [apply rwit_good, He|apply rwit_cells]. Qed.
Definition sixteen : Qc := two * two * two * two.
Definition three : Qc := two + 1.
Definition seven : Qc := two * two + three.
Definition rwit_gamma (e : Qc) : Qc := (0 - two * e) / (sixteen + e).
Definition rwit_beta (e : Qc) : Qc := (seven + three * e) / (three + e).
Lemma qz3_eq : qz 3 = three. Proof. apply Qc_is_canon. reflexivity. Qed.
Lemma qz4_eq : qz 4 = two * two. Proof. apply Qc_is_canon. reflexivity. Qed.
Lemma sixteen_pos e : - half <= e -> sixteen + e <> 0.
Proof. intros H. apply Qc_pos_neq0. unfold sixteen, two, half in *. qclra. Qed.
Lemma three_pos e : - half <= e -> three + e <> 0.
Proof. intros H. apply Qc_pos_neq0. unfold three, two, half in *. qclra. Qed.
Lemma rwit_mean_neq e : Qcabs e <= half -> mean r_w (map (rreweight e rwit_h) rwit_smooth) <> 0.
Proof. intros He. apply Qc_pos_neq0, mean_pos; [discriminate|]. intros u Hu. apply (rwit_good e He u Hu). Qed.
Lemma rwit_gamma_eq e : Qcabs e <= half -> rgamma_of rwit3 (map (rreweight e rwit_h) rwit_smooth) = rwit_gamma e :: nil.
Proof.
  intros He. assert (M := rwit_mean_neq e He). apply Qcabs_Qcle_condition in He. destruct He as [He1 He2]. assert (P := sixteen_pos e He1). clear He2.
  unfold rgamma_of, rwit3, ro_logit, rnormalise. set (m := mean r_w _) in *. clearbody m.
  unfold rwit_smooth, rreweight, rwit_h, u2, h2. cbn [map rset_w r_w mk3 r_id Z.eqb Pos.eqb]. rewrite !sumf_cons. change (sumf _ []) with 0.
  unfold rx_at, r_D. cbn [rset_w r_w mk3 r_id r_d r_x nth ind]. rewrite !qz1_eq, !qz2_eq, !qz4_eq, half_eq, quarter_eq.
  match goal with |- context[Qceqb ?a 0] => assert (E : a = two * (sixteen + e) / m) by (unfold sixteen, two; field; exact M); rewrite !E end.
  destruct (Qceqb_spec (two * (sixteen + e) / m) 0) as [Z|_].
  { exfalso. apply P. setoid_replace (sixteen + e) with (two * (sixteen + e) / m * m / two) by (unfold two; field; split; first [exact M|discriminate]). rewrite Z. unfold Qcdiv. ring. }
  f_equal. unfold rwit_gamma. unfold sixteen, two in *. field. repeat split; try exact M; try exact P; discriminate.
Qed.
Lemma rwit_beta_eq e : Qcabs e <= half -> rbeta_of rwit3 false false (map (rreweight e rwit_h) rwit_smooth) = rwit_beta e :: nil.
Proof.
  intros He. assert (M := rwit_mean_neq e He). apply Qcabs_Qcle_condition in He. destruct He as [He1 He2]. assert (P := three_pos e He1). clear He2.
  unfold rbeta_of, rwit3, ro_wls, rwit1, rnormalise. set (m := mean r_w _) in *. clearbody m.
  unfold rwit_smooth, rreweight, rwit_h, u2, h2, cell. cbn [map filter in_cell rset_w r_d r_post mk3 Bool.eqb andb r_w r_id Z.eqb Pos.eqb]. rewrite !sumf_cons. change (sumf _ []) with 0.
  unfold rx_at. cbn [rset_w r_w r_y mk3 r_x nth]. rewrite !qz1_eq, !qz2_eq, !qz4_eq, !qz3_eq.
  match goal with |- context[Qceqb ?a 0] => assert (E : a = two * (three + e) / m) by (unfold three, two; field; exact M); rewrite !E end.
  destruct (Qceqb_spec (two * (three + e) / m) 0) as [Z|_].
  { exfalso. apply P. setoid_replace (three + e) with (two * (three + e) / m * m / two) by (unfold two; field; split; first [exact M|discriminate]). rewrite Z. unfold Qcdiv. ring. }
  f_equal. unfold rwit_beta. unfold seven, three, two in *. field. repeat split; try exact M; try exact P; discriminate.
Qed.
Lemma rwit_gamma0 : rwit_gamma 0 = 0. Proof. apply Qc_is_canon. reflexivity. Qed.
Lemma D_rwit_gamma : exists d, derivative_at_0 rwit_gamma d.
Proof.
  eexists. unfold rwit_gamma. apply (D_div (fun e => 0 - two * e) (fun e => sixteen + e)).
  - apply D_sub; [apply D_const|]. apply D_scale, D_id.
  - apply D_add; [apply D_const|apply D_id].
  - discriminate.
Qed.
Lemma D_rwit_beta : derivative_at_0 (fun e => nth 0 (rbeta_of rwit3 false false (map (rreweight e rwit_h) rwit_smooth)) 0) (two / (three * three)).
Proof.
  apply (D_ext rwit_beta). { exists half. split; [reflexivity|]. intros e He. rewrite rwit_beta_eq by exact He. reflexivity. }
  unfold rwit_beta. eapply D_eq; [|apply (D_div (fun e => seven + three * e) (fun e => three + e) (0 + three * 1) (0 + 1))].
  - unfold seven, three, two. by_qc.
  - apply D_add; [apply D_const|apply D_scale, D_id].
  - apply D_add; [apply D_const|apply D_id].
  - discriminate.
Qed.
Lemma rdot1 u g : dotk 1 (r_x u) (g :: nil) = rx_at u 0 * g.
Proof. unfold dotk, rx_at. cbn. ring. Qed.
Lemma rwit_smooth_logit : rsmooth_logit rwit3 1 1 rwit_smooth rwit_h.
Proof.
  assert (NG : near0 (fun e => rgamma_of rwit3 (map (rreweight e rwit_h) rwit_smooth) = rwit_gamma e :: nil)).
  { exists half. split; [reflexivity|]. exact rwit_gamma_eq. }
  unfold rsmooth_logit. cbn zeta. split; [|split].
  - intros j Hj. assert (j = 0)%nat by lia. subst j. destruct D_rwit_gamma as [d Hd]. exists d. refine (D_ext _ _ _ _ Hd).
    revert NG. apply near0_impl. intros e ->. reflexivity.
  - destruct D_rwit_gamma as [d Hd].
    assert (B : near0 (fun e => forall u, In u rwit_smooth -> eps6 <= half + quarter * (rx_at u 0 * rwit_gamma e) /\ half + quarter * (rx_at u 0 * rwit_gamma e) <= 1 - eps6)).
    { apply near0_forall. intros u Hu.
      assert (D1 : derivative_at_0 (fun e => half + quarter * (rx_at u 0 * rwit_gamma e)) (0 + quarter * (rx_at u 0 * d))) by (apply D_add; [apply D_const|apply D_scale, D_scale, Hd]).
      assert (V : half + quarter * (rx_at u 0 * rwit_gamma 0) = half) by (rewrite rwit_gamma0; ring).
      assert (L1 := D_gt _ _ eps6 D1). assert (L2 := D_lt _ _ (1 - eps6) D1). cbn beta in L1, L2. rewrite V in L1, L2.
      refine (near0_impl _ _ _ (near0_and _ _ (L1 eq_refl) (L2 eq_refl))). cbn beta. intros e [A C]. split; apply Qclt_le_weak; assumption. }
    assert (S : near0 (fun e => Qcabs e <= half)) by (apply near0_small; reflexivity).
    refine (near0_impl _ _ _ (near0_and _ _ S (near0_and _ _ NG B))). cbn beta. intros e [He [-> HB]] j Hj. assert (j = 0)%nat by lia. subst j.
    assert (M := rwit_mean_neq e He).
    unfold rnormalise. set (m := mean r_w _) in *. clearbody m. rewrite map_map.
    rewrite sumf_map. rewrite (sumf_ext _ (fun u => r_w u * (1 + e * rwit_h u) / m * (r_D u - (half + quarter * (rx_at u 0 * rwit_gamma e))) * rx_at u 0)).
    + apply Qcabs_Qcle_condition in He. destruct He as [He1 _]. assert (P := sixteen_pos e He1).
      unfold rwit_smooth, rwit_h, rwit_gamma. rewrite !sumf_cons. change (sumf _ []) with 0. unfold rx_at, r_D. cbn [rset_w r_w mk3 r_id r_d r_x nth ind Z.eqb Pos.eqb]. rewrite !qz1_eq, !qz2_eq, !qz4_eq, half_eq, quarter_eq.
      unfold sixteen, two in *. field. repeat split; try exact M; try exact P; discriminate.
    + intros u Hu. destruct (HB u Hu) as [B1 B2]. unfold rreweight. cbn [rset_w r_w]. unfold rx_at at 1, r_D at 1. cbn [rset_w r_x r_d].
      unfold rps_fit. cbn [rset_w r_x]. rewrite rdot1. cbn [ro_mu rwit3]. unfold clip.
      destruct (Qcltb_spec (half + quarter * (rx_at u 0 * rwit_gamma e)) eps6) as [N|_]; [exfalso; revert N; apply Qcle_not_lt, B1|].
      destruct (Qcltb_spec (1 - eps6) (half + quarter * (rx_at u 0 * rwit_gamma e))) as [N|_]; [exfalso; revert N; apply Qcle_not_lt, B2|]. reflexivity.
  - intros u Hu. rewrite (near0_at0 _ NG), rwit_gamma0, rdot1. cbn [ro_mu rwit3].
    assert (Z : rx_at u 0 * 0 = 0) by ring. rewrite Z. assert (V : half + quarter * 0 = half) by ring. rewrite V. split; [|split; [reflexivity|split; [reflexivity|discriminate]]].
    refine (D_eq _ _ _ _ (D_ext (fun t => half + quarter * t) _ _ _ (D_add (fun _ => half) (fun t => quarter * t) 0 (quarter * 1) (D_const half) (D_scale quarter (fun e => e) 1 D_id)))).
    + apply Qc_is_canon. reflexivity.
    + apply near0_all. intros t. ring.
Qed.
