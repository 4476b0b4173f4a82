(** A smooth case for the derivative theorems of C109. No property content. *)
From Coq Require Import Qcabs.
From Verif Require Import Base ListLib ReduceModel Calc DrdidModel DrdidSpec DrdidProofs DrdidProofs2 DrdidProofs3 DrdidProofs4 DrdidProofs5 DrdidProofs7 DrdidProofs8 DrdidWitness DrdidWitness2 Witness RcModel RcSpec RcCalc RcProofs RcProofs2 RcProofs3 RcProofs5 RcWitness RcWitness2 DddModel DddProofs3 DddRcModel DddRcSpec DddRcProofs DddRcProofs2 DddRcProofs3 DddRcProofs4 DddRcWitness.

(** ** comparisons with an estimate *)
Lemma good_did m s l : 0 < s -> rgood l -> has_cells l -> rscores_interior rwit3 1 m l -> has_est (did_rc rwit3 1 m 1 (map (rscale_w s) l)).
Proof.
  intros Hs G C SI.
  assert (G' : rgood (map (rscale_w s) l)).
  { intros u Hu. apply in_map_iff in Hu. destruct Hu as [v [<- Hv]]. destruct (G v Hv) as [A B]. cbn [rscale_w rset_w r_w r_x]. split; [apply Qcmult_pos; assumption|exact B]. }
  assert (C' : has_cells (map (rscale_w s) l)) by (apply has_cells_map; [intros; split; reflexivity|exact C]).
  set (L := map (rscale_w s) l) in *.
  assert (LS : exists g, ro_logit rwit3 L = Some g).
  { cbn. destruct (Qceqb_spec (h2 r_w L 0 0) 0) as [E|]; [exfalso; exact (all_h2 L G' C' E)|eauto]. }
  destruct LS as [g LS].
  assert (FT : forall d t, exists v, q_fit rwit3 1 d t L = Some v) by (intros d t; destruct (fit_some L G' C' d t) as [v F]; exists v; apply q_fit_ols, F).
  assert (GR := gram_some L G' C'). destruct (rgood_nonzero L G' C' g) as [SZ [Z0 Z1]]. apply some_zero_inv in SZ. destruct SZ as [S0 [S1 [S2 S3]]].
  assert (IN : m <> Reg -> forall u, In u L -> eps6 <= ro_mu rwit3 (dotk 1 (r_x u) g) /\ ro_mu rwit3 (dotk 1 (r_x u) g) <= 1 - eps6).
  { intros NR u Hu. unfold L in Hu. apply in_map_iff in Hu. destruct Hu as [v [<- Hv]].
    assert (EG : ro_logit rwit3 (rnormalise l) = Some g).
    { rewrite <- LS. unfold L. rewrite (proj1 (proj1 (rwit3_scale_free s Hs) l)).
      assert (P : 0 < / mean r_w l) by (apply Qcinv_pos, mean_pos; [exact (rgood_ne l G C)|intros; apply G; assumption]).
      rewrite <- (proj1 (proj1 (rwit3_scale_free _ P) l)). f_equal. unfold rnormalise. apply map_ext. intros u. unfold rscale_w, Qcdiv. rewrite Qcmult_comm. reflexivity. }
    destruct m; [exact (SI g v EG Hv)|congruence|exact (SI g v EG Hv)]. }
  set (ps := rps_fit (ro_mu rwit3) 1 g) in *.
  assert (LG : m <> Reg -> exists V, ro_inv rwit3 (rps_gram 1 (qps_raw (ro_mu rwit3) 1 g) L) = Some V).
  { intros NR. destruct (psgram_some L G' C' g) as [V EV]. exists V. rewrite <- EV. f_equal. unfold rps_gram, mat_of. apply map_ext. intros i. apply map_ext. intros j. apply sumf_ext. intros u Hu.
    rewrite (rraw_fit _ _ _ _ (proj1 (IN NR u Hu)) (proj2 (IN NR u Hu))). reflexivity. }
  assert (PM : forall p, (forall u, In u L -> qp_keep p u = rtrim 1 ps u) -> (forall u, In u L -> qp_ps p u = ps u) ->
    mean (qw_t0 p) L <> 0 /\ mean (qw_t1 p) L <> 0 /\ mean (qw_c0 p) L <> 0 /\ mean (qw_c1 p) L <> 0).
  { intros p K P. rewrite (mean_ext (qw_t0 p) (w_treat_pre 1 ps)), (mean_ext (qw_t1 p) (w_treat_post 1 ps)), (mean_ext (qw_c0 p) (w_cont_pre 1 ps)), (mean_ext (qw_c1 p) (w_cont_post 1 ps)); [auto| | | |];
      intros u Hu; [unfold qw_c1, w_cont_post|unfold qw_c0, w_cont_pre|unfold qw_t1, w_treat_post|unfold qw_t0, w_treat_pre]; rewrite (K u Hu), ?(P u Hu); reflexivity. }
  assert (NZ : m <> Reg -> forall V, let p := logps rwit3 1 1 L g V in mean (qw_t0 p) L <> 0 /\ mean (qw_t1 p) L <> 0 /\ mean (qw_c0 p) L <> 0 /\ mean (qw_c1 p) L <> 0).
  { intros NR V p. apply PM; intros u Hu; unfold p; cbn [logps qp_keep qp_ps].
    - unfold q_keep, rtrim. rewrite (rraw_fit _ _ _ _ (proj1 (IN NR u Hu)) (proj2 (IN NR u Hu))). reflexivity.
    - apply rcap_fit, (proj1 (IN NR u Hu)). }
  destruct (FT false false) as [c0 F0]. destruct (FT false true) as [c1 F1]. destruct (FT true false) as [t0 F2]. destruct (FT true true) as [t1 F3].
  destruct (GR false false) as [M0 I0]. destruct (GR false true) as [M1 I1]. destruct (GR true false) as [M2 I2]. destruct (GR true true) as [M3 I3].
  unfold has_est. destruct m.
  - destruct (LG ltac:(discriminate)) as [V EV]. destruct (NZ ltac:(discriminate) V) as [A0 [A1 [A2 A3]]]. eexists _, _. apply did_rc_inv. exists (logps rwit3 1 1 L g V).
    split; [exists g, V; auto|]. split; [exact A0|]. split; [exact A1|]. split; [exact A2|]. split; [exact A3|]. exists c0, c1, t0, t1, M0, M1, M2, M3. repeat split; assumption.
  - eexists _, _. apply did_rc_inv. exists regps. split; [reflexivity|].
    split; [rewrite (mean_ext _ wr_treat_pre) by (intros u _; unfold qw_t0, wr_treat_pre; cbn [regps qp_keep]; ring); exact Z0|].
    split; [rewrite (mean_ext _ wr_treat_post) by (intros u _; unfold qw_t1, wr_treat_post; cbn [regps qp_keep]; ring); exact Z1|].
    exists c0, c1, M0, M1. repeat split; assumption.
  - destruct (LG ltac:(discriminate)) as [V EV]. destruct (NZ ltac:(discriminate) V) as [A0 [A1 [A2 A3]]]. eexists _, _. apply did_rc_inv. exists (logps rwit3 1 1 L g V).
    split; [exists g, V; auto|]. split; [exact A0|]. split; [exact A1|]. split; [exact A2|]. split; [exact A3|]. split; reflexivity.
Qed.

(** ** the sample: the seven rows of [rwit_smooth], comparison rows in subgroups 3, 2 and 1 *)
Definition q_smooth : list qrow := q_copies (fun _ _ => 0) rwit_smooth.
Definition q_h (u : qrow) : Qc := if (q_id u =? 1)%Z then 1 else 0.
Lemma q_smooth_pair c : In c [3; 2; 1]%Z -> q_pair c q_smooth = rwit_smooth.
Proof.
  intros Hc. assert (X : forall l, q_pair c (q_copies (fun _ _ => 0) l) = l).
  { induction l as [|u l IH]; [reflexivity|]. unfold q_copies in *. cbn [flat_map]. unfold q_pair in *. rewrite filter_app, map_app, IH. clear IH.
    destruct u as [i d t y w x]. cbn [r_d]. destruct d.
    - cbn. reflexivity.
    - assert (Y : y + 0 = y) by ring. destruct Hc as [<-|[<-|[<-|[]]]]; cbn; rewrite Y; reflexivity. }
  apply X.
Qed.
Lemma q_h_eq c (p : runit) : q_h (q_un_pair c p) = rwit_h p. Proof. reflexivity. Qed.
Lemma q_smooth_logit c : In c [3; 2; 1]%Z -> rsmooth_logit rwit3 1 1 (q_pair c q_smooth) (fun p => q_h (q_un_pair c p)).
Proof. intros Hc. rewrite (q_smooth_pair c Hc). exact rwit_smooth_logit. Qed.
Lemma q_smooth_est m : near0 (fun e => dddrc_has_est (ddd_rc rwit3 1 m 1 (map (q_reweight e q_h) q_smooth))).
Proof.
  assert (N : near0 (fun e => rscores_interior rwit3 1 m (map (rreweight e rwit_h) rwit_smooth))) by (apply (rinterior_near rwit3 1 m 1); intros _; exact rwit_smooth_logit).
  assert (S : near0 (fun e => Qcabs e <= half)) by (apply near0_small; reflexivity).
  eapply near0_impl; [|exact (near0_and _ _ N S)]. cbn beta. intros e [SI He].
  set (l := map (q_reweight e q_h) q_smooth).
  assert (PE : forall c, In c [3; 2; 1]%Z -> q_pair c l = map (rreweight e rwit_h) rwit_smooth) by (intros c Hc; unfold l; rewrite q_pair_reweight, (q_smooth_pair c Hc); reflexivity).
  assert (W : forall u, In u l -> 0 < q_w u).
  { intros u Hu. unfold l in Hu. apply in_map_iff in Hu. destruct Hu as [v [<- Hv]]. apply Qcabs_Qcle_condition in He. destruct He as [He1 _].
    cbn in Hv. repeat (destruct Hv as [<-|Hv]; [unfold q_reweight, q_h; cbn [q_set_w q_w mkq mk3 q_id r_id r_w Z.eqb Pos.eqb]; apply Qcmult_pos; [reflexivity|unfold half in *; qclra]|]). destruct Hv. }
  assert (Hm : 0 < / mean q_w l) by (apply Qcinv_pos, mean_pos; [discriminate|exact W]).
  assert (D : forall c, In c [3; 2; 1]%Z -> exists a i, did_rc rwit3 1 m 1 (q_pair c (q_normalise l)) = PEst a i).
  { intros c Hc. rewrite q_pair_normalise, (PE c Hc). apply good_did; [exact Hm|apply rwit_good, He|apply rwit_cells|exact SI]. }
  destruct (D 3%Z ltac:(cbn; auto)) as [a3 [i3 D3]]. destruct (D 2%Z ltac:(cbn; auto)) as [a2 [i2 D2]]. destruct (D 1%Z ltac:(cbn; auto)) as [a1 [i1 D1]].
  unfold dddrc_has_est, ddd_rc.
  assert (Q : q_neg l = false).
  { unfold q_neg. destruct (existsb _ l) eqn:E; [|reflexivity]. apply existsb_exists in E. destruct E as [u [Hu H]]. destruct (Qcltb_spec (q_w u) 0) as [X|X]; [|discriminate H].
    exfalso. apply (Qclt_not_le _ _ X), Qclt_le_weak, W, Hu. }
  rewrite Q. assert (B1 : forallb q_sg_ok l = true) by reflexivity. assert (B2 : existsb (fun u => q_sg u =? 4)%Z l = true) by reflexivity.
  assert (B3 : existsb q_post l = true) by reflexivity. assert (B4 : existsb (fun u => negb (q_post u)) l = true) by reflexivity. rewrite B1, B2, B3, B4. cbn [negb].
  unfold all_did_rc. rewrite D3, D2, D1. eexists _, _, _, _, _. reflexivity.
Qed.
