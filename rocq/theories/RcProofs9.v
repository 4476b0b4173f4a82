(** Proofs for C93: removing the weight normalisation. *)
From Verif Require Import Base ListLib ReduceModel ReduceProofs2 Calc DrdidModel DrdidSpec DrdidProofs DrdidProofs2 DrdidProofs3 DrdidProofs4 DrdidProofs5 DrdidProofs6 DrdidProofs7 DrdidProofs8 RcModel RcSpec RcCalc RcProofs RcProofs2 RcProofs3 RcProofs4 RcProofs5 RcProofs6 RcProofs7 RcProofs8.

Definition rh_norm (l : list runit) (h : runit -> Qc) (v : runit) : Qc := h (rset_w (mean r_w l * r_w v) v).
Lemma rh_norm_eq l h u : mean r_w l <> 0 -> rh_norm l h (rset_w (r_w u / mean r_w l) u) = h u.
Proof. intros Hm. unfold rh_norm. f_equal. destruct u as [i d t y w x]. unfold rset_w. cbn [r_id r_d r_post r_y r_w r_x]. f_equal. field. exact Hm. Qed.
Lemma rreweight_norm l h e : mean r_w l <> 0 ->
  map (rreweight e (rh_norm l h)) (rnormalise l) = map (rscale_w (/ mean r_w l)) (map (rreweight e h) l).
Proof.
  intros Hm. unfold rnormalise. rewrite !map_map. apply map_ext. intros u. unfold rreweight at 1. rewrite rh_norm_eq by exact Hm.
  unfold rscale_w, rreweight, rset_w. cbn [r_id r_d r_post r_y r_w r_x]. f_equal. unfold Qcdiv. ring.
Qed.
Lemma rnormalise_as_scale l : rnormalise l = map (rscale_w (/ mean r_w l)) l.
Proof. unfold rnormalise. apply map_ext. intros u. unfold rscale_w, Qcdiv. rewrite Qcmult_comm. reflexivity. Qed.
Lemma rnormalise_idem l : mean r_w l <> 0 -> rnormalise (rnormalise l) = rnormalise l.
Proof. intros Hm. rewrite (rnormalise_as_scale l) at 1. apply rnormalise_scale. apply inv_neq0. exact Hm. Qed.
Lemma ravg_norm l h inf : mean r_w l <> 0 -> ravg_with (rh_norm l h) (rnormalise l) inf = ravg_with h l inf.
Proof.
  intros Hm. unfold ravg_with. rewrite rnormalise_length. f_equal. unfold rnormalise.
  assert (G : forall l' inf, (forall u, In u l' -> rh_norm l h (rset_w (r_w u / mean r_w l) u) = h u) ->
    sumf (fun p => rh_norm l h (fst p) * snd p) (combine (map (fun u => rset_w (r_w u / mean r_w l) u) l') inf) = sumf (fun p => h (fst p) * snd p) (combine l' inf)).
  { induction l' as [|a l' IH]; intros inf' H; [reflexivity|]. destruct inf' as [|x inf']; [reflexivity|]. cbn [map combine]. rewrite !sumf_cons. cbn [fst snd].
    rewrite H by (left; reflexivity). f_equal. apply IH. intros u Hu. apply H. right. exact Hu. }
  apply G. intros u _. apply rh_norm_eq. exact Hm.
Qed.
Lemma rmean_pos_of l : rany_neg l = false -> mean r_w l <> 0 -> 0 < / mean r_w l.
Proof.
  intros N Hm. apply Qcinv_pos. destruct (Qc_le_or_lt (mean r_w l) 0) as [L|L]; [|exact L]. exfalso. apply Hm, Qcle_antisym; [exact L|].
  apply mean_nonneg. apply rany_neg_false. exact N.
Qed.
Lemma rfit_norm l h e : mean r_w l <> 0 -> rnormalise (map (rreweight e (rh_norm l h)) (rnormalise l)) = rnormalise (map (rreweight e h) l).
Proof. intros Hm. rewrite rreweight_norm by exact Hm. apply rnormalise_scale. apply inv_neq0. exact Hm. Qed.
Lemma rsmooth_normalise o k tl l h : mean r_w l <> 0 -> rsmooth_logit o k tl l h -> rsmooth_logit o k tl (rnormalise l) (rh_norm l h).
Proof.
  intros Hm [H1 [H2 H3]].
  assert (N : forall e, rnormalise (map (rreweight e (rh_norm l h)) (rnormalise l)) = rnormalise (map (rreweight e h) l)) by (intros e; apply rfit_norm; exact Hm).
  assert (G : forall e, rgamma_of o (map (rreweight e (rh_norm l h)) (rnormalise l)) = rgamma_of o (map (rreweight e h) l)) by (intros e; unfold rgamma_of; rewrite N; reflexivity).
  split; [|split]; cbn zeta in *.
  - intros j Hj. destruct (H1 j Hj) as [d Hd]. exists d. apply (D_ext (fun e => nth j (rgamma_of o (map (rreweight e h) l)) 0)); [apply near0_all; intros e; rewrite G; reflexivity|exact Hd].
  - eapply near0_impl; [|exact H2]. cbn beta. intros e He. rewrite N, G. exact He.
  - intros u Hu. unfold rnormalise in Hu. apply in_map_iff in Hu. destruct Hu as [v [<- Hv]]. rewrite G. apply (H3 v Hv).
Qed.
Lemma rgamma_norm o l : mean r_w l <> 0 -> rgamma_of o (rnormalise l) = rgamma_of o l.
Proof. intros Hm. unfold rgamma_of. rewrite rnormalise_idem by exact Hm. reflexivity. Qed.
Lemma imbalance_norm tl mu k g l j : mean r_w l <> 0 -> pre_imbalance tl (rps_fit mu k g) (rnormalise l) j = pre_imbalance tl (rps_fit mu k g) l j.
Proof. intros Hm. unfold pre_imbalance. rewrite <- !R_T0, <- !R_C0. rewrite !R_normalise by (try exact Hm; intros w u; reflexivity). reflexivity. Qed.

Lemma rreg_derivative o k l h att inf : rwls_ok o k -> rinv_ok o k -> reg_did_rc o k l = PEst att inf -> near0 (fun e => has_est (reg_did_rc o k (map (rreweight e h) l))) ->
  derivative_at_0 (fun e => att_of (reg_did_rc o k (map (rreweight e h) l))) (ravg_with h l inf).
Proof.
  intros WO IO E HE. assert (E' := E). apply rreg_inv in E'. destruct E' as [N0 [b0 [b1 [M0 [M1 [_ [_ [_ [_ [Z0 _]]]]]]]]]]. assert (Hm := mean_weights_neq0 _ cT0 l wr0_c Z0).
  assert (P := rmean_pos_of l N0 Hm).
  assert (R : forall e, reg_did_rc o k (map (rreweight e (rh_norm l h)) (rnormalise l)) = reg_did_rc o k (map (rreweight e h) l)).
  { intros e. rewrite rreweight_norm by exact Hm. apply (rc_scale o k 0). exact P. }
  rewrite <- (ravg_norm l h inf Hm).
  apply (D_ext (fun e => att_of (reg_did_rc o k (map (rreweight e (rh_norm l h)) (rnormalise l))))); [apply near0_all; intros e; rewrite R; reflexivity|].
  apply (rreg_derivative_n o k (rnormalise l) (rh_norm l h) IO (rnormalise_idem l Hm) att inf WO).
  - rewrite rnormalise_as_scale. rewrite (proj1 (rc_scale o k 0 l _ P)). exact E.
  - eapply near0_impl; [|exact HE]. cbn beta. intros e. rewrite R. auto.
Qed.
Lemma ripw_derivative o k tl l h att inf : rinv_ok o k -> rsmooth_logit o k tl l h -> std_ipw_did_rc o k tl l = PEst att inf ->
  near0 (fun e => has_est (std_ipw_did_rc o k tl (map (rreweight e h) l))) ->
  derivative_at_0 (fun e => att_of (std_ipw_did_rc o k tl (map (rreweight e h) l))) (ravg_with h l inf).
Proof.
  intros IO SM E HE. assert (E' := E). apply ripw_inv in E'. destruct E' as [N0 [_ [g [H [_ [_ [SZ _]]]]]]]. apply some_zero_inv in SZ.
  assert (Hm := mean_weights_neq0 _ cT0 l (wt0_c _ _) (proj1 SZ)). assert (P := rmean_pos_of l N0 Hm).
  assert (R : forall e, std_ipw_did_rc o k tl (map (rreweight e (rh_norm l h)) (rnormalise l)) = std_ipw_did_rc o k tl (map (rreweight e h) l)).
  { intros e. rewrite rreweight_norm by exact Hm. apply (rc_scale o k tl). exact P. }
  rewrite <- (ravg_norm l h inf Hm).
  apply (D_ext (fun e => att_of (std_ipw_did_rc o k tl (map (rreweight e (rh_norm l h)) (rnormalise l))))); [apply near0_all; intros e; rewrite R; reflexivity|].
  apply (ripw_derivative_n o k tl (rnormalise l) (rh_norm l h) IO (rnormalise_idem l Hm) (rsmooth_normalise _ _ _ _ _ Hm SM) att inf).
  - rewrite rnormalise_as_scale. rewrite (proj1 (proj2 (rc_scale o k tl l _ P))). exact E.
  - eapply near0_impl; [|exact HE]. cbn beta. intros e. rewrite R. auto.
Qed.
Lemma ht_derivative o k tl l h att inf : rinv_ok o k -> rsmooth_logit o k tl l h -> ipw_did_rc o k tl l = PEst att inf ->
  near0 (fun e => has_est (ipw_did_rc o k tl (map (rreweight e h) l))) ->
  derivative_at_0 (fun e => att_of (ipw_did_rc o k tl (map (rreweight e h) l))) (ravg_with h l inf + att * mean (fun u => h u * (r_w u / mean r_w l - 1)) l).
Proof.
  intros IO SM E HE. assert (E' := E). apply ht_inv in E'. destruct E' as [N0 [_ [g [H [_ [_ [Np _]]]]]]].
  assert (Hm : mean r_w l <> 0) by (intros E0; apply Np; apply mean_0, sumf_zero; intros u Hu; rewrite (rnormalise_zero l E0 u Hu); ring). assert (P := rmean_pos_of l N0 Hm).
  assert (R : forall e, ipw_did_rc o k tl (map (rreweight e (rh_norm l h)) (rnormalise l)) = ipw_did_rc o k tl (map (rreweight e h) l)).
  { intros e. rewrite rreweight_norm by exact Hm. apply (rc_scale o k tl). exact P. }
  rewrite <- (ravg_norm l h inf Hm).
  apply (D_ext (fun e => att_of (ipw_did_rc o k tl (map (rreweight e (rh_norm l h)) (rnormalise l))))); [apply near0_all; intros e; rewrite R; reflexivity|].
  assert (M : mean (fun u => h u * (r_w u / mean r_w l - 1)) l = mean (fun u => rh_norm l h u * (r_w u - 1)) (rnormalise l)).
  { unfold rnormalise. unfold mean at 1 3. rewrite map_length, sumf_map. f_equal. apply sumf_ext. intros u _. rewrite rh_norm_eq by exact Hm. reflexivity. }
  rewrite M. apply (ht_derivative_n o k tl (rnormalise l) (rh_norm l h) IO (rnormalise_idem l Hm) (rsmooth_normalise _ _ _ _ _ Hm SM) att inf).
  - rewrite rnormalise_as_scale. rewrite (proj1 (proj2 (proj2 (rc_scale o k tl l _ P)))). exact E.
  - eapply near0_impl; [|exact HE]. cbn beta. intros e. rewrite R. auto.
Qed.
Lemma trad_derivative o k tl l h att inf : rwls_ok o k -> rinv_ok o k -> rsmooth_logit o k tl l h -> drdid_trad_rc o k tl l = PEst att inf ->
  near0 (fun e => has_est (drdid_trad_rc o k tl (map (rreweight e h) l))) ->
  exists d0, (forall j, (j < k)%nat -> derivative_at_0 (fun e => nth j (rbeta_of o false false (map (rreweight e h) l)) 0) (d0 j)) /\
  derivative_at_0 (fun e => att_of (drdid_trad_rc o k tl (map (rreweight e h) l)))
    (ravg_with h l inf + Q2Qc 2 * sumf (fun j => pre_imbalance tl (rps_fit (ro_mu o) k (rgamma_of o l)) l j * d0 j) (seq 0 k)).
Proof.
  intros WO IO SM E HE. assert (E' := E). apply trad_inv in E'. destruct E' as [N0 [_ [g [b0 [b1 [M0 [M1 [H [_ [_ [_ [_ [_ [_ [SZ _]]]]]]]]]]]]]]]. apply some_zero_inv in SZ.
  assert (Hm := mean_weights_neq0 _ cT0 l (wt0_c _ _) (proj1 SZ)). assert (P := rmean_pos_of l N0 Hm).
  assert (R : forall e, drdid_trad_rc o k tl (map (rreweight e (rh_norm l h)) (rnormalise l)) = drdid_trad_rc o k tl (map (rreweight e h) l)).
  { intros e. rewrite rreweight_norm by exact Hm. apply (rc_scale o k tl). exact P. }
  destruct (trad_derivative_n o k tl (rnormalise l) (rh_norm l h) IO (rnormalise_idem l Hm) (rsmooth_normalise _ _ _ _ _ Hm SM) WO att inf) as [d0 [A B]].
  - rewrite rnormalise_as_scale. rewrite (proj1 (proj2 (proj2 (proj2 (rc_scale o k tl l _ P))))). exact E.
  - eapply near0_impl; [|exact HE]. cbn beta. intros e. rewrite R. auto.
  - exists d0. split.
    + intros j Hj. eapply D_ext; [|exact (A j Hj)]. apply near0_all. intros e. unfold rbeta_of. rewrite rfit_norm by exact Hm. reflexivity.
    + rewrite ravg_norm, rgamma_norm in B by exact Hm. rewrite (sumf_ext _ (fun j => pre_imbalance tl (rps_fit (ro_mu o) k (rgamma_of o l)) l j * d0 j)) in B by (intros j _; rewrite imbalance_norm by exact Hm; reflexivity).
      eapply D_ext; [|exact B]. apply near0_all. intros e. rewrite R. reflexivity.
Qed.
Lemma loc_derivative o k tl l h att inf : rwls_ok o k -> rinv_ok o k -> rsmooth_logit o k tl l h -> drdid_rc o k tl l = PEst att inf ->
  near0 (fun e => has_est (drdid_rc o k tl (map (rreweight e h) l))) ->
  exists d0, (forall j, (j < k)%nat -> derivative_at_0 (fun e => nth j (rbeta_of o false false (map (rreweight e h) l)) 0) (d0 j)) /\
  derivative_at_0 (fun e => att_of (drdid_rc o k tl (map (rreweight e h) l)))
    (ravg_with h l inf + Q2Qc 2 * sumf (fun j => pre_imbalance tl (rps_fit (ro_mu o) k (rgamma_of o l)) l j * d0 j) (seq 0 k)).
Proof.
  intros WO IO SM E HE. assert (E' := E). apply loc_inv in E'. destruct E' as [N0 [_ [g [c0 [c1 [t0 [t1 [M0 [M1 [M2 [M3 [H [_ [_ [_ [_ [_ [_ [_ [_ [_ [_ [SZ _]]]]]]]]]]]]]]]]]]]]]]]. apply some_zero_inv in SZ.
  assert (Hm := mean_weights_neq0 _ cT0 l (wt0_c _ _) (proj1 SZ)). assert (P := rmean_pos_of l N0 Hm).
  assert (R : forall e, drdid_rc o k tl (map (rreweight e (rh_norm l h)) (rnormalise l)) = drdid_rc o k tl (map (rreweight e h) l)).
  { intros e. rewrite rreweight_norm by exact Hm. apply (rc_scale o k tl). exact P. }
  destruct (loc_derivative_n o k tl (rnormalise l) (rh_norm l h) IO (rnormalise_idem l Hm) (rsmooth_normalise _ _ _ _ _ Hm SM) WO att inf) as [d0 [A B]].
  - rewrite rnormalise_as_scale. rewrite (proj2 (proj2 (proj2 (proj2 (rc_scale o k tl l _ P))))). exact E.
  - eapply near0_impl; [|exact HE]. cbn beta. intros e. rewrite R. auto.
  - exists d0. split.
    + intros j Hj. eapply D_ext; [|exact (A j Hj)]. apply near0_all. intros e. unfold rbeta_of. rewrite rfit_norm by exact Hm. reflexivity.
    + rewrite ravg_norm, rgamma_norm in B by exact Hm. rewrite (sumf_ext _ (fun j => pre_imbalance tl (rps_fit (ro_mu o) k (rgamma_of o l)) l j * d0 j)) in B by (intros j _; rewrite imbalance_norm by exact Hm; reflexivity).
      eapply D_ext; [|exact B]. apply near0_all. intros e. rewrite R. reflexivity.
Qed.
