(** A smooth intercept-only case for the balanced theorems of C93 and C109. No property content. *)
From Coq Require Import Qcabs.
From Verif Require Import Base ListLib ReduceModel Calc DrdidModel DrdidSpec DrdidProofs DrdidProofs2 DrdidProofs3 DrdidProofs4 DrdidProofs5 DrdidProofs7 DrdidProofs8 DrdidWitness DrdidWitness2 Witness RcModel RcSpec RcCalc RcProofs RcProofs2 RcProofs3 RcProofs5 RcWitness RcWitness2 DddModel DddProofs3 DddRcModel DddRcSpec DddRcProofs DddRcProofs2 DddRcProofs3 DddRcProofs4 DddRcWitness DddRcWitness2.

(** five rows, intercept only, unequal weights; the weight of row 1 moves *)
Definition rwit_bal : list runit := [mk3 1 false false 3 1 1; mk3 2 false false 4 1 1; mk3 3 true false 7 2 1; mk3 4 false true 5 1 1; mk3 6 true true 9 1 1].
Definition six : Qc := two * two + two.
Lemma bal_good e : Qcabs e <= half -> rgood (map (rreweight e rwit_h) rwit_bal).
Proof.
  intros He u Hu. apply in_map_iff in Hu. destruct Hu as [v [<- Hv]]. apply Qcabs_Qcle_condition in He. destruct He as [He1 He2].
  cbn in Hv. repeat (destruct Hv as [<-|Hv]; [split; [unfold rreweight, rwit_h; cbn [rset_w r_w mk3 r_id Z.eqb Pos.eqb]; apply Qcmult_pos; [reflexivity|unfold half in *; clear He2; qclra]|eexists; split; [reflexivity|reflexivity]]|]). destruct Hv.
Qed.
Lemma bal_cells e : has_cells (map (rreweight e rwit_h) rwit_bal).
Proof.
  apply has_cells_map; [intros u; split; reflexivity|]. intros b t.
  destruct b, t; [exists (mk3 6 true true 9 1 1)|exists (mk3 3 true false 7 2 1)|exists (mk3 4 false true 5 1 1)|exists (mk3 1 false false 3 1 1)]; (split; [cbn; tauto|split; reflexivity]).
Qed.
Lemma rwit_bal_est : near0 (fun e => has_est (reg_did_rc rwit3 1 (map (rreweight e rwit_h) rwit_bal)) /\ has_est (std_ipw_did_rc rwit3 1 1 (map (rreweight e rwit_h) rwit_bal)) /\
  has_est (ipw_did_rc rwit3 1 1 (map (rreweight e rwit_h) rwit_bal)) /\ has_est (drdid_trad_rc rwit3 1 1 (map (rreweight e rwit_h) rwit_bal)) /\ has_est (drdid_rc rwit3 1 1 (map (rreweight e rwit_h) rwit_bal))).
Proof. exists half. split; [reflexivity|]. intros e He. apply rgood_est; [apply bal_good, He|apply bal_cells]. Qed.
Definition bal_gamma (e : Qc) : Qc := (0 - two * e) / (six + e).
Lemma six_pos e : - half <= e -> six + e <> 0.
Proof. intros H. apply Qc_pos_neq0. unfold six, two, half in *. qclra. Qed.
Lemma bal_mean_neq e : Qcabs e <= half -> mean r_w (map (rreweight e rwit_h) rwit_bal) <> 0.
Proof. intros He. apply Qc_pos_neq0, mean_pos; [discriminate|]. intros u Hu. apply (bal_good e He u Hu). Qed.
Lemma bal_gamma_eq e : Qcabs e <= half -> rgamma_of rwit3 (map (rreweight e rwit_h) rwit_bal) = bal_gamma e :: nil.
Proof.
  intros He. assert (M := bal_mean_neq e He). apply Qcabs_Qcle_condition in He. destruct He as [He1 He2]. assert (P := six_pos e He1). clear He2.
  unfold rgamma_of, rwit3, ro_logit, rnormalise. set (m := mean r_w _) in *. clearbody m.
  unfold rwit_bal, rreweight, rwit_h, u2, h2. cbn [map rset_w r_w mk3 r_id Z.eqb Pos.eqb]. rewrite !sumf_cons. change (sumf _ []) with 0.
  unfold rx_at, r_D. cbn [rset_w r_w mk3 r_id r_d r_x nth ind]. rewrite !qz1_eq, !qz2_eq, half_eq, quarter_eq.
  match goal with |- context[Qceqb ?a 0] => assert (E : a = (six + e) / m) by (unfold six, two; field; exact M); rewrite !E end.
  destruct (Qceqb_spec ((six + e) / m) 0) as [Z|_].
  { exfalso. apply P. setoid_replace (six + e) with ((six + e) / m * m) by (field; exact M). rewrite Z. unfold Qcdiv. ring. }
  f_equal. unfold bal_gamma. unfold six, two in *. field. repeat split; try exact M; try exact P; discriminate.
Qed.
Lemma bal_gamma0 : bal_gamma 0 = 0. Proof. apply Qc_is_canon. reflexivity. Qed.
Lemma D_bal_gamma : exists d, derivative_at_0 bal_gamma d.
Proof.
  eexists. unfold bal_gamma. apply (D_div (fun e => 0 - two * e) (fun e => six + e)).
  - apply D_sub; [apply D_const|]. apply D_scale, D_id.
  - apply D_add; [apply D_const|apply D_id].
  - discriminate.
Qed.
Lemma rwit_bal_logit : rsmooth_logit rwit3 1 1 rwit_bal rwit_h.
Proof.
  assert (NG : near0 (fun e => rgamma_of rwit3 (map (rreweight e rwit_h) rwit_bal) = bal_gamma e :: nil)).
  { exists half. split; [reflexivity|]. exact bal_gamma_eq. }
  unfold rsmooth_logit. cbn zeta. split; [|split].
  - intros j Hj. assert (j = 0)%nat by lia. subst j. destruct D_bal_gamma as [d Hd]. exists d. refine (D_ext _ _ _ _ Hd).
    revert NG. apply near0_impl. intros e ->. reflexivity.
  - destruct D_bal_gamma as [d Hd].
    assert (B : near0 (fun e => forall u, In u rwit_bal -> eps6 <= half + quarter * (rx_at u 0 * bal_gamma e) /\ half + quarter * (rx_at u 0 * bal_gamma e) <= 1 - eps6)).
    { apply near0_forall. intros u Hu.
      assert (D1 : derivative_at_0 (fun e => half + quarter * (rx_at u 0 * bal_gamma e)) (0 + quarter * (rx_at u 0 * d))) by (apply D_add; [apply D_const|apply D_scale, D_scale, Hd]).
      assert (V : half + quarter * (rx_at u 0 * bal_gamma 0) = half) by (rewrite bal_gamma0; ring).
      assert (L1 := D_gt _ _ eps6 D1). assert (L2 := D_lt _ _ (1 - eps6) D1). cbn beta in L1, L2. rewrite V in L1, L2.
      refine (near0_impl _ _ _ (near0_and _ _ (L1 eq_refl) (L2 eq_refl))). cbn beta. intros e [A C]. split; apply Qclt_le_weak; assumption. }
    assert (S : near0 (fun e => Qcabs e <= half)) by (apply near0_small; reflexivity).
    refine (near0_impl _ _ _ (near0_and _ _ S (near0_and _ _ NG B))). cbn beta. intros e [He [-> HB]] j Hj. assert (j = 0)%nat by lia. subst j.
    assert (M := bal_mean_neq e He).
    unfold rnormalise. set (m := mean r_w _) in *. clearbody m. rewrite map_map.
    rewrite sumf_map. rewrite (sumf_ext _ (fun u => r_w u * (1 + e * rwit_h u) / m * (r_D u - (half + quarter * (rx_at u 0 * bal_gamma e))) * rx_at u 0)).
    + apply Qcabs_Qcle_condition in He. destruct He as [He1 _]. assert (P := six_pos e He1).
      unfold rwit_bal, rwit_h, bal_gamma. rewrite !sumf_cons. change (sumf _ []) with 0. unfold rx_at, r_D. cbn [rset_w r_w mk3 r_id r_d r_x nth ind Z.eqb Pos.eqb]. rewrite !qz1_eq, !qz2_eq, half_eq, quarter_eq.
      unfold six, two in *. field. repeat split; try exact M; try exact P; discriminate.
    + intros u Hu. destruct (HB u Hu) as [B1 B2]. unfold rreweight. cbn [rset_w r_w]. unfold rx_at at 1, r_D at 1. cbn [rset_w r_x r_d].
      unfold rps_fit. cbn [rset_w r_x]. rewrite rdot1. cbn [ro_mu rwit3]. unfold clip.
      destruct (Qcltb_spec (half + quarter * (rx_at u 0 * bal_gamma e)) eps6) as [N|_]; [exfalso; revert N; apply Qcle_not_lt, B1|].
      destruct (Qcltb_spec (1 - eps6) (half + quarter * (rx_at u 0 * bal_gamma e))) as [N|_]; [exfalso; revert N; apply Qcle_not_lt, B2|]. reflexivity.
  - intros u Hu. rewrite (near0_at0 _ NG), bal_gamma0, rdot1. cbn [ro_mu rwit3].
    assert (Z : rx_at u 0 * 0 = 0) by ring. rewrite Z. assert (V : half + quarter * 0 = half) by ring. rewrite V. split; [|split; [reflexivity|split; [reflexivity|discriminate]]].
    refine (D_eq _ _ _ _ (D_ext (fun t => half + quarter * t) _ _ _ (D_add (fun _ => half) (fun t => quarter * t) 0 (quarter * 1) (D_const half) (D_scale quarter (fun e => e) 1 D_id)))).
    + apply Qc_is_canon. reflexivity.
    + apply near0_all. intros t. ring.
Qed.
Definition q_bal : list qrow := q_copies (fun _ _ => 0) rwit_bal.
Lemma q_bal_pair c : In c [3; 2; 1]%Z -> q_pair c q_bal = rwit_bal.
Proof.
  intros Hc. assert (X : forall l, q_pair c (q_copies (fun _ _ => 0) l) = l).
  { induction l as [|u l IH]; [reflexivity|]. unfold q_copies in *. cbn [flat_map]. unfold q_pair in *. rewrite filter_app, map_app, IH. clear IH.
    destruct u as [i d t y w x]. cbn [r_d]. destruct d.
    - cbn. reflexivity.
    - assert (Y : y + 0 = y) by ring. destruct Hc as [<-|[<-|[<-|[]]]]; cbn; rewrite Y; reflexivity. }
  apply X.
Qed.
Lemma q_bal_logit c : In c [3; 2; 1]%Z -> rsmooth_logit rwit3 1 1 (q_pair c q_bal) (fun p => q_h (q_un_pair c p)).
Proof. intros Hc. rewrite (q_bal_pair c Hc). exact rwit_bal_logit. Qed.
Lemma q_bal_est m : near0 (fun e => dddrc_has_est (ddd_rc rwit3 1 m 1 (map (q_reweight e q_h) q_bal))).
Proof.
  assert (N : near0 (fun e => rscores_interior rwit3 1 m (map (rreweight e rwit_h) rwit_bal))) by (apply (rinterior_near rwit3 1 m 1); intros _; exact rwit_bal_logit).
  assert (S : near0 (fun e => Qcabs e <= half)) by (apply near0_small; reflexivity).
  eapply near0_impl; [|exact (near0_and _ _ N S)]. cbn beta. intros e [SI He].
  set (l := map (q_reweight e q_h) q_bal).
  assert (PE : forall c, In c [3; 2; 1]%Z -> q_pair c l = map (rreweight e rwit_h) rwit_bal) by (intros c Hc; unfold l; rewrite q_pair_reweight, (q_bal_pair c Hc); reflexivity).
  assert (W : forall u, In u l -> 0 < q_w u).
  { intros u Hu. unfold l in Hu. apply in_map_iff in Hu. destruct Hu as [v [<- Hv]]. apply Qcabs_Qcle_condition in He. destruct He as [He1 _].
    cbn in Hv. repeat (destruct Hv as [<-|Hv]; [unfold q_reweight, q_h; cbn [q_set_w q_w mkq mk3 q_id r_id r_w Z.eqb Pos.eqb]; apply Qcmult_pos; [reflexivity|unfold half in *; qclra]|]). destruct Hv. }
  assert (Hm : 0 < / mean q_w l) by (apply Qcinv_pos, mean_pos; [discriminate|exact W]).
  assert (D : forall c, In c [3; 2; 1]%Z -> exists a i, did_rc rwit3 1 m 1 (q_pair c (q_normalise l)) = PEst a i).
  { intros c Hc. rewrite q_pair_normalise, (PE c Hc). apply good_did; [exact Hm|apply bal_good, He|apply bal_cells|exact SI]. }
  destruct (D 3%Z ltac:(cbn; auto)) as [a3 [i3 D3]]. destruct (D 2%Z ltac:(cbn; auto)) as [a2 [i2 D2]]. destruct (D 1%Z ltac:(cbn; auto)) as [a1 [i1 D1]].
  unfold dddrc_has_est, ddd_rc.
  assert (Q : q_neg l = false).
  { unfold q_neg. destruct (existsb _ l) eqn:E; [|reflexivity]. apply existsb_exists in E. destruct E as [u [Hu H]]. destruct (Qcltb_spec (q_w u) 0) as [X|X]; [|discriminate H].
    exfalso. apply (Qclt_not_le _ _ X), Qclt_le_weak, W, Hu. }
  rewrite Q. assert (B1 : forallb q_sg_ok l = true) by reflexivity. assert (B2 : existsb (fun u => q_sg u =? 4)%Z l = true) by reflexivity.
  assert (B3 : existsb q_post l = true) by reflexivity. assert (B4 : existsb (fun u => negb (q_post u)) l = true) by reflexivity. rewrite B1, B2, B3, B4. cbn [negb].
  unfold all_did_rc. rewrite D3, D2, D1. eexists _, _, _, _, _. reflexivity.
Qed.
