(** The intercept-only case of DddRcWitness3 for the derivative theorems of C122. No property content. *)
From Coq Require Import Qcabs.
From Verif Require Import Base ListLib ReduceModel Calc DrdidModel DrdidSpec DrdidProofs DrdidProofs2 DrdidProofs3 DrdidProofs4 DrdidProofs5 DrdidProofs7 DrdidProofs8 DrdidWitness DrdidWitness2 Witness RcModel RcSpec RcCalc RcProofs RcProofs2 RcProofs3 RcProofs5 RcWitness RcWitness2 DddRcWitness3
  ImpRcModel ImpRcSpec ImpRcProofs.

Lemma wfit_some gm l b t : rgood l -> has_cells l -> exists v, wols_rc rwit3 1 (rps_fit (ro_mu rwit3) 1 gm) b t l = FCoef v.
Proof.
  intros G C. unfold wols_rc. assert (P := cell_h2 l G C b t). assert (GC : rgood (cell b t l)) by (intros u Hu; apply filter_In in Hu; apply G, Hu).
  destruct (cell b t l) as [|u c]; [discriminate P|]. cbn [length Nat.ltb Nat.leb].
  assert (Q : 0 < h2 r_w (if b then u :: c else map (rtilt (rps_fit (ro_mu rwit3) 1 gm)) (u :: c)) 0 0).
  { destruct b; [exact P|]. unfold h2. rewrite sumf_map.
    assert (K : forall a, In a (u :: c) -> 0 < r_w (rtilt (rps_fit (ro_mu rwit3) 1 gm) a) * rx_at (rtilt (rps_fit (ro_mu rwit3) 1 gm) a) 0 * rx_at (rtilt (rps_fit (ro_mu rwit3) 1 gm) a) 0).
    { intros a Ha. assert (X : rx_at (rtilt (rps_fit (ro_mu rwit3) 1 gm) a) 0 = rx_at a 0) by reflexivity. rewrite X. assert (PX := rgood_x _ GC a Ha). assert (PW : 0 < r_w a) by apply (GC a Ha).
      apply Qcmult_pos; [apply Qcmult_pos; [|exact PX]|exact PX]. cbn [rtilt rset_w r_w]. apply Qcmult_pos; [exact PW|apply rps_odds_pos]. }
    apply sumf_pos.
    - intros a Ha. apply Qclt_le_weak, K, Ha.
    - exists u. split; [left; reflexivity|]. apply K. left. reflexivity. }
  cbn [ro_wls rwit3 rwit1]. destruct (Qceqb_spec (h2 r_w (if b then u :: c else map (rtilt (rps_fit (ro_mu rwit3) 1 gm)) (u :: c)) 0 0) 0) as [E|]; [exfalso; exact (Qc_pos_neq0 _ Q E)|eauto].
Qed.
Lemma imp_est l : rgood l -> has_cells l -> has_est (drdid_imp_rc rwit3 1 1 l) /\ has_est (drdid_imp_local_rc rwit3 1 1 l).
Proof.
  intros G C. assert (Hl := rgood_ne l G C). assert (GN := rgood_normalise l Hl G).
  assert (CN : has_cells (rnormalise l)) by (apply (has_cells_map (fun u => rset_w (r_w u / mean r_w l) u)); [intros; split; reflexivity|exact C]).
  assert (N := rgood_neg l G). set (ln := rnormalise l) in *.
  assert (LS : exists g, ro_logit rwit3 ln = Some g).
  { cbn. destruct (Qceqb_spec (h2 r_w ln 0 0) 0) as [E|]; [exfalso; exact (all_h2 ln GN CN E)|eauto]. }
  destruct LS as [gm LS].
  destruct (wfit_some gm ln false false GN CN) as [c0 F0]. destruct (wfit_some gm ln false true GN CN) as [c1 F1]. destruct (wfit_some gm ln true false GN CN) as [t0 F2]. destruct (wfit_some gm ln true true GN CN) as [t1 F3].
  destruct (rgood_nonzero ln GN CN gm) as [SZ [Z0 Z1]]. assert (IZ : ilr_zero 1 (rps_fit (ro_mu rwit3) 1 gm) ln = false).
  { apply some_zero_inv in SZ. destruct SZ as [_ [_ [S2 S3]]]. unfold ilr_zero. repeat (match goal with |- context [Qceqb ?a 0] => destruct (Qceqb_spec a 0); [contradiction|] end). reflexivity. }
  unfold has_est, drdid_imp_rc, drdid_imp_local_rc. rewrite N. fold ln. cbn zeta. rewrite LS, F0, F1, F2, F3, SZ, IZ. split; eauto.
Qed.
Lemma bal_imp_est : near0 (fun e => has_est (drdid_imp_rc rwit3 1 1 (map (rreweight e rwit_h) rwit_bal)) /\ has_est (drdid_imp_local_rc rwit3 1 1 (map (rreweight e rwit_h) rwit_bal))).
Proof. exists half. split; [reflexivity|]. intros e He. apply imp_est; [apply bal_good, He|apply bal_cells]. Qed.
Lemma bal_score : rsmooth_score rwit3 1 1 rwit_bal rwit_h.
Proof. destruct rwit_bal_logit as [A [_ B]]. split; assumption. Qed.
Lemma bal_intercept : rhas_intercept rwit_bal.
Proof. intros u H. cbn in H. repeat (destruct H as [<-|H]; [apply Qc_is_canon; reflexivity|]). destruct H. Qed.
Lemma ones_fit c : (forall u, In u c -> nth 0 (r_x u) 0 = 1) -> sumf r_w c <> 0 -> ro_wls rwit3 c = Some (sumf (fun u => r_w u * r_y u) c / sumf r_w c :: nil).
Proof.
  intros X S. cbn [ro_wls rwit3 rwit1]. assert (H : h2 r_w c 0 0 = sumf r_w c) by (unfold h2; apply sumf_ext; intros u Hu; unfold rx_at; rewrite (X u Hu); ring).
  assert (U : u2 (fun u => r_w u * r_y u) c 0 = sumf (fun u => r_w u * r_y u) c) by (unfold u2; apply sumf_ext; intros u Hu; unfold rx_at; rewrite (X u Hu); ring).
  rewrite H, U. destruct (Qceqb_spec (sumf r_w c) 0); [contradiction|reflexivity].
Qed.
(** the comparison mean before treatment *)
Definition bal_beta (e : Qc) : Qc := (seven + three * e) / (two + e).
Lemma two_pos e : - half <= e -> two + e <> 0.
Proof. intros H. apply Qc_pos_neq0. unfold two, half in *. qclra. Qed.
Lemma bal_ones b t e m (f : runit -> runit) : (forall u, r_x (f u) = r_x u) -> forall u, In u (map f (cell b t (map (fun u => rset_w (r_w u / m) u) (map (rreweight e rwit_h) rwit_bal)))) -> nth 0 (r_x u) 0 = 1.
Proof.
  intros F u H. apply in_map_iff in H. destruct H as [a [<- H]]. rewrite F. apply filter_In in H. destruct H as [H _]. apply in_map_iff in H. destruct H as [w [<- H]]. apply in_map_iff in H. destruct H as [v [<- H]].
  cbn [rset_w rreweight r_x]. apply bal_intercept, H.
Qed.
Lemma bal_odds_eq t e : Qcabs e <= half -> rbeta_odds rwit3 1 t (map (rreweight e rwit_h) rwit_bal) = (if t then qz 5 else bal_beta e) :: nil.
Proof.
  intros He. assert (M := bal_mean_neq e He). apply Qcabs_Qcle_condition in He. destruct He as [He1 He2]. assert (P := two_pos e He1). clear He2.
  unfold rbeta_odds. cbn zeta. unfold rnormalise. set (gm := rgamma_of rwit3 _). set (m := mean r_w _) in *. clearbody m gm.
  set (ps := rps_fit (ro_mu rwit3) 1 gm). set (L := cell false t _).
  assert (O := rps_odds_pos (ro_mu rwit3) 1 gm (mk3 1 false false 3 1 1)). fold ps in O. set (w := ps (mk3 1 false false 3 1 1) / (1 - ps (mk3 1 false false 3 1 1))) in *. apply Qc_pos_neq0 in O.
  assert (W : sumf r_w (map (fun u => rset_w (r_w u * (ps u / (1 - ps u))) u) L) = (if t then 1 else two + e) * w / m /\
              sumf (fun u => r_w u * r_y u) (map (fun u => rset_w (r_w u * (ps u / (1 - ps u))) u) L) = (if t then qz 5 else seven + three * e) * w / m).
  { rewrite !sumf_map. cbn [rset_w r_w r_y]. rewrite (sumf_ext _ (fun u => r_w u * w)), (sumf_ext (fun u => r_w u * _ * r_y u) (fun u => r_w u * w * r_y u)).
    - unfold L, cell, rwit_bal, rreweight, rwit_h. destruct t; cbn [map filter in_cell rset_w r_d r_post mk3 Bool.eqb andb r_w r_id Z.eqb Pos.eqb]; rewrite !sumf_cons; change (sumf _ []) with 0; cbn [rset_w r_w r_y mk3];
        rewrite ?qz1_eq, ?qz3_eq, ?qz4_eq; unfold seven, three, two; split; field; exact M.
    - intros u Hu. f_equal. f_equal. apply filter_In in Hu. destruct Hu as [Hu _]. apply in_map_iff in Hu. destruct Hu as [a [<- Hu]]. apply in_map_iff in Hu. destruct Hu as [v [<- Hu]].
      assert (X : r_x v = qz 1 :: nil) by (cbn in Hu; repeat (destruct Hu as [<-|Hu]; [reflexivity|]); destruct Hu). unfold w, ps, rps_fit. cbn [rset_w rreweight r_x mk3]. rewrite X. reflexivity.
    - intros u Hu. f_equal. apply filter_In in Hu. destruct Hu as [Hu _]. apply in_map_iff in Hu. destruct Hu as [a [<- Hu]]. apply in_map_iff in Hu. destruct Hu as [v [<- Hu]].
      assert (X : r_x v = qz 1 :: nil) by (cbn in Hu; repeat (destruct Hu as [<-|Hu]; [reflexivity|]); destruct Hu). unfold w, ps, rps_fit. cbn [rset_w rreweight r_x mk3]. rewrite X. reflexivity. }
  destruct W as [W1 W2].
  rewrite ones_fit; [rewrite W1, W2|apply (bal_ones false t e m (fun u => rset_w (r_w u * (ps u / (1 - ps u))) u)); intros; reflexivity|].
  - f_equal. destruct t; [|unfold bal_beta]; field; repeat split; try exact M; try exact P; try exact O; discriminate.
  - rewrite W1. intros Z. assert (Z2 : (if t then 1 else two + e) * w = 0) by (transitivity ((if t then 1 else two + e) * w / m * m); [field; exact M|rewrite Z; ring]).
    apply Qcmult_integral in Z2. destruct Z2 as [Z2|Z2]; [destruct t; [discriminate Z2|exact (P Z2)]|exact (O Z2)].
Qed.
Lemma bal_treated_eq t e : Qcabs e <= half -> rbeta_of rwit3 true t (map (rreweight e rwit_h) rwit_bal) = (if t then qz 9 else qz 7) :: nil.
Proof.
  intros He. assert (M := bal_mean_neq e He). unfold rbeta_of, rnormalise. set (m := mean r_w _) in *. clearbody m. clear He. set (L := cell true t _).
  assert (W : sumf r_w L = (if t then 1 else two) / m /\ sumf (fun u => r_w u * r_y u) L = (if t then qz 9 else two * qz 7) / m).
  { unfold L, cell, rwit_bal, rreweight, rwit_h. destruct t; cbn [map filter in_cell rset_w r_d r_post mk3 Bool.eqb andb r_w r_id Z.eqb Pos.eqb]; rewrite !sumf_cons; change (sumf _ []) with 0; cbn [rset_w r_w r_y mk3];
        rewrite ?qz1_eq, ?qz2_eq; unfold two; split; field; exact M. }
  destruct W as [W1 W2].
  rewrite ones_fit; [rewrite W1, W2| |].
  - f_equal. destruct t; unfold two; field; repeat split; try exact M; discriminate.
  - assert (B := bal_ones true t e m (fun u => u) (fun u => eq_refl)). rewrite map_id in B. exact B.
  - rewrite W1. intros Z. assert (Z2 : (if t then 1 else two) = 0) by (transitivity ((if t then 1 else two) / m * m); [field; exact M|rewrite Z; ring]). destruct t; discriminate Z2.
Qed.
Lemma D_bal_odds : (forall j, (j < 1)%nat -> derivative_at_0 (fun e => nth j (rbeta_odds rwit3 1 false (map (rreweight e rwit_h) rwit_bal)) 0) ((fun _ => - quarter) j)) /\
  (forall j, (j < 1)%nat -> derivative_at_0 (fun e => nth j (rbeta_odds rwit3 1 true (map (rreweight e rwit_h) rwit_bal)) 0) ((fun _ => 0) j)).
Proof.
  split; intros j Hj; assert (j = 0)%nat by lia; subst j.
  - apply (D_ext bal_beta). { exists half. split; [reflexivity|]. intros e He. rewrite (bal_odds_eq false) by exact He. reflexivity. }
    unfold bal_beta. eapply D_eq; [|apply (D_div (fun e => seven + three * e) (fun e => two + e) (0 + three * 1) (0 + 1))].
    + apply Qc_is_canon. reflexivity.
    + apply D_add; [apply D_const|apply D_scale, D_id].
    + apply D_add; [apply D_const|apply D_id].
    + discriminate.
  - apply (D_ext (fun _ => qz 5)); [|apply D_const]. exists half. split; [reflexivity|]. intros e He. rewrite (bal_odds_eq true) by exact He. reflexivity.
Qed.
Lemma D_bal_treated t : forall j, (j < 1)%nat -> derivative_at_0 (fun e => nth j (rbeta_of rwit3 true t (map (rreweight e rwit_h) rwit_bal)) 0) ((fun _ => 0) j).
Proof.
  intros j Hj. assert (j = 0)%nat by lia. subst j. apply (D_ext (fun _ => if t then qz 9 else qz 7)); [|apply D_const]. exists half. split; [reflexivity|]. intros e He. rewrite bal_treated_eq by exact He. reflexivity.
Qed.
