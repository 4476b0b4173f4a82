(** Proofs for C121-C122: no covariates, centring, scale, order and affine changes of the outcome. *)
From Verif Require Import Base ListLib ReduceModel ReduceProofs2 Calc DrdidModel DrdidSpec DrdidProofs DrdidProofs2 DrdidProofs3 DrdidProofs4 DrdidProofs5 DrdidProofs6 DrdidProofs7 RcModel RcSpec DrdidWitness2 RcCalc RcProofs RcProofs2 RcProofs3 RcProofs4 ImpRcModel ImpRcSpec ImpRcProofs.

(** ** no covariates *)
Section NoCov.
  Context (l : list runit) (HX : forall u, In u l -> r_x u = 1 :: nil).
  Lemma nocov_irc o tl att inf : drdid_imp_rc o 1 tl l = PEst att inf -> att = four_cells l.
  Proof.
    intros E. apply irc_inv in E. destruct E as [_ [g [c0 [c1 [Eg [_ [_ [SZ [-> _]]]]]]]]]. cbn zeta in *.
    destruct (dens l _ _ _ _ eq_refl SZ) as [Hm [N0 [N1 [N2 N3]]]].
    change (irc_att 1 tl (rps_fit (ro_mu o) 1 g) c0 c1 (rnormalise l)) with (trad_att 1 tl (rps_fit (ro_mu o) 1 g) c0 c1 (rnormalise l)). rewrite trad_att_value by exact Hm.
    destruct (const_ps l HX (ro_mu o) g) as [q Hq]. unfold four_cells.
    destruct (odds_const l tl _ true (fun u => r_y u - rout 1 c1 u) q Hq N3) as [-> Q1]. destruct (odds_const l tl _ false (fun u => r_y u - rout 1 c0 u) q Hq N2) as [-> Q0].
    assert (P0 := T0_den l N0). assert (P1 := T1_den l N1).
    rewrite (cell_mean_shift l true true (fun u => r_y u - rout 1 c1 u) (nth 0 c1 0)) by (try assumption; intros u Hu; rewrite (out1 l HX c1 u Hu); reflexivity).
    rewrite (cell_mean_shift l false true (fun u => r_y u - rout 1 c1 u) (nth 0 c1 0)) by (try assumption; intros u Hu; rewrite (out1 l HX c1 u Hu); reflexivity).
    rewrite (cell_mean_shift l true false (fun u => r_y u - rout 1 c0 u) (nth 0 c0 0)) by (try assumption; intros u Hu; rewrite (out1 l HX c0 u Hu); reflexivity).
    rewrite (cell_mean_shift l false false (fun u => r_y u - rout 1 c0 u) (nth 0 c0 0)) by (try assumption; intros u Hu; rewrite (out1 l HX c0 u Hu); reflexivity). ring.
  Qed.
  Lemma nocov_ilr o tl att inf : drdid_imp_local_rc o 1 tl l = PEst att inf -> att = four_cells l.
  Proof.
    intros E. apply ilr_inv in E. destruct E as [NN [g [d0 [d1 [e0 [e1 [Eg [_ [_ [_ [_ [SZ [-> _]]]]]]]]]]]]]. cbn zeta in *.
    apply ilr_zero_inv in SZ. destruct SZ as [M0 [M1 [M2 M3]]]. assert (Hm := mean_weights_neq0 _ cT0 l wr0_c M0).
    assert (N0 : sumf (fun u => r_w u * cT0 u) l <> 0) by (apply sum_c_raw; [exact Hm|intros w u; reflexivity|exact (mean_neq_sum _ _ _ wr0_c M0)]).
    assert (N1 : sumf (fun u => r_w u * cT1 u) l <> 0) by (apply sum_c_raw; [exact Hm|intros w u; reflexivity|exact (mean_neq_sum _ _ _ wr1_c M1)]).
    assert (N2 : sumf (fun u => r_w u * cC0 tl (rps_fit (ro_mu o) 1 g) u) l <> 0) by (apply sum_c_raw; [exact Hm|intros w u; reflexivity|exact (mean_neq_sum _ _ _ (wc0_c _ _) M2)]).
    assert (N3 : sumf (fun u => r_w u * cC1 tl (rps_fit (ro_mu o) 1 g) u) l <> 0) by (apply sum_c_raw; [exact Hm|intros w u; reflexivity|exact (mean_neq_sum _ _ _ (wc1_c _ _) M3)]).
    rewrite ilr_loc. unfold loc_att. rewrite trad_att_value by exact Hm. ratt. rewrite !R_normalise by (try exact Hm; intros w u; reflexivity). rewrite !R_T0, !R_T1, !R_D.
    destruct (const_ps l HX (ro_mu o) g) as [q Hq]. unfold four_cells.
    destruct (odds_const l tl _ true (fun u => r_y u - rout 1 d1 u) q Hq N3) as [-> Q1]. destruct (odds_const l tl _ false (fun u => r_y u - rout 1 d0 u) q Hq N2) as [-> Q0].
    assert (P0 := T0_den l N0). assert (P1 := T1_den l N1). assert (PD := D_den l (proj1 (rany_neg_false l) NN) N0).
    rewrite (cell_mean_shift l true true (fun u => r_y u - rout 1 d1 u) (nth 0 d1 0)) by (try assumption; intros u Hu; rewrite (out1 l HX d1 u Hu); reflexivity).
    rewrite (cell_mean_shift l true false (fun u => r_y u - rout 1 d0 u) (nth 0 d0 0)) by (try assumption; intros u Hu; rewrite (out1 l HX d0 u Hu); reflexivity).
    rewrite (cell_mean_shift l false true _ (nth 0 d1 0)) by (try assumption; intros u Hu; rewrite (out1 l HX d1 u Hu); reflexivity).
    rewrite (cell_mean_shift l false false _ (nth 0 d0 0)) by (try assumption; intros u Hu; rewrite (out1 l HX d0 u Hu); reflexivity).
    assert (K : forall c (s : Qc) v, (forall u, In u l -> v u = s) -> sumf (fun u => r_w u * c u) l <> 0 -> R c v l = s) by (intros c s v; apply R_const).
    assert (PD' : sumf (fun u => r_w u * r_D u) l <> 0) by (intros Z0; apply PD; rewrite sumf_filter, <- Z0; apply sumf_ext; intros u _; unfold r_D; ring).
    rewrite <- !R_T0, <- !R_T1, <- !R_D.
    assert (S1 : forall u, In u l -> rout 1 e1 u - rout 1 d1 u = nth 0 e1 0 - nth 0 d1 0) by (intros u Hu; rewrite !(out1 l HX) by exact Hu; reflexivity).
    assert (S0 : forall u, In u l -> rout 1 e0 u - rout 1 d0 u = nth 0 e0 0 - nth 0 d0 0) by (intros u Hu; rewrite !(out1 l HX) by exact Hu; reflexivity).
    rewrite (K r_D _ _ S1 PD'), (K r_D _ _ S0 PD'), (K cT1 _ _ S1 N1), (K cT0 _ _ S0 N0). ring.
  Qed.
End NoCov.

(** ** centred *)
Lemma irc_centred o k tl l att inf : drdid_imp_rc o k tl l = PEst att inf -> length inf = length l /\ qsum inf = 0.
Proof.
  intros E. apply irc_inv in E. destruct E as [_ [g [b0 [b1 [Eg [_ [_ [SZ [_ ->]]]]]]]]]. cbn zeta in *. rewrite map_length, rnormalise_length. split; [reflexivity|].
  rewrite qsum_map. apply mean_zero_sum. apply some_zero_inv in SZ. destruct SZ as [N0 [N1 [N2 N3]]]. unfold irc_inf. cbn zeta. rewrite !mean_sub, !lead_centred by assumption. ring.
Qed.
Lemma ilr_centred o k tl l att inf : drdid_imp_local_rc o k tl l = PEst att inf -> length inf = length l /\ qsum inf = 0.
Proof.
  intros E. apply ilr_inv in E. destruct E as [NN [g [c0 [c1 [t0 [t1 [Eg [_ [_ [_ [_ [SZ [_ ->]]]]]]]]]]]]]. cbn zeta in *. rewrite map_length, rnormalise_length. split; [reflexivity|].
  rewrite qsum_map. apply mean_zero_sum. apply ilr_zero_inv in SZ. destruct SZ as [N0 [N1 [N2 N3]]]. assert (Hm := mean_weights_neq0 _ cT0 l wr0_c N0).
  assert (ND := wr_cont_neq0 _ (rnormalise_nonneg l (proj1 (rany_neg_false l) NN) Hm) N0).
  unfold ilr_inf. cbn zeta. rewrite mean_add, !mean_sub, !lead_centred by assumption. ring.
Qed.

(** ** scale and order *)
Lemma imp_rc_scale o k tl l c : 0 < c -> drdid_imp_rc o k tl (map (rscale_w c) l) = drdid_imp_rc o k tl l /\ drdid_imp_local_rc o k tl (map (rscale_w c) l) = drdid_imp_local_rc o k tl l.
Proof. intros Hc. unfold drdid_imp_rc, drdid_imp_local_rc. rewrite rany_neg_scale, rnormalise_scale by (try exact Hc; apply Qc_pos_neq0; exact Hc). split; reflexivity. Qed.
Lemma wols_rc_perm o k ps b t l l' : rfits_symmetric o -> Permutation l l' -> wols_rc o k ps b t l = wols_rc o k ps b t l'.
Proof.
  intros S P. unfold wols_rc. assert (PC : Permutation (cell b t l) (cell b t l')) by (apply filter_perm; exact P).
  assert (PB : Permutation (if b then cell b t l else map (rtilt ps) (cell b t l)) (if b then cell b t l' else map (rtilt ps) (cell b t l'))) by (destruct b; [exact PC|apply Permutation_map; exact PC]).
  assert (E := proj2 (S _ _ PB)). assert (L := Permutation_length PC).
  destruct (cell b t l) as [|a c], (cell b t l') as [|a' c']; try discriminate; [reflexivity|]. rewrite L, E. reflexivity.
Qed.
Lemma ilr_zero_perm tl ps l l' : Permutation l l' -> ilr_zero tl ps l = ilr_zero tl ps l'.
Proof. intros P. unfold ilr_zero. rewrite !(mean_perm _ _ _ P). reflexivity. Qed.
Lemma irc_perm o k tl l l' : rfits_symmetric o -> Permutation l l' -> rsame_up_to_order l l' (drdid_imp_rc o k tl l) (drdid_imp_rc o k tl l').
Proof.
  intros S P. assert (PN := rnormalise_perm _ _ P). unfold drdid_imp_rc. rewrite (rany_neg_perm _ _ P). destruct (rany_neg l'); [exact I|]. cbn zeta.
  rewrite (proj1 (S _ _ PN)). destruct (ro_logit o _) as [g|]; [|exact I]. rewrite !(wols_rc_perm _ _ _ _ _ _ _ S PN). set (ps := rps_fit (ro_mu o) k g).
  destruct (wols_rc o k ps false false (rnormalise l')) as [| |b0], (wols_rc o k ps false true (rnormalise l')) as [| |b1]; try exact I. rewrite (some_zero_perm _ _ _ _ PN). destruct (some_zero _ _ _); [exact I|].
  cbn. split; [unfold irc_att; cbn zeta; perms PN; reflexivity|]. apply rcombine_perm; [exact P|]. intros u. unfold irc_inf. cbn zeta. perms PN. reflexivity.
Qed.
Lemma ilr_perm o k tl l l' : rfits_symmetric o -> Permutation l l' -> rsame_up_to_order l l' (drdid_imp_local_rc o k tl l) (drdid_imp_local_rc o k tl l').
Proof.
  intros S P. assert (PN := rnormalise_perm _ _ P). unfold drdid_imp_local_rc. rewrite (rany_neg_perm _ _ P). destruct (rany_neg l'); [exact I|]. cbn zeta.
  rewrite (proj1 (S _ _ PN)). destruct (ro_logit o _) as [g|]; [|exact I]. rewrite !(wols_rc_perm _ _ _ _ _ _ _ S PN). set (ps := rps_fit (ro_mu o) k g).
  destruct (wols_rc o k ps false false (rnormalise l')) as [| |b0], (wols_rc o k ps false true (rnormalise l')) as [| |b1], (wols_rc o k ps true false (rnormalise l')) as [| |t0], (wols_rc o k ps true true (rnormalise l')) as [| |t1]; try exact I.
  rewrite (ilr_zero_perm _ _ _ _ PN). destruct (ilr_zero _ _ _); [exact I|].
  cbn. split; [unfold ilr_att; cbn zeta; perms PN; reflexivity|]. apply rcombine_perm; [exact P|]. intros u. unfold ilr_inf. cbn zeta. perms PN. reflexivity.
Qed.

(** ** affine changes of the outcome *)
Section Aff.
  Context (o : roracle) (k : nat) (tl : Qc) (l : list runit) (c a b : Qc) (att : Qc) (inf : list Qc) (att' : Qc) (inf' : list Qc).
  Notation f := (raffine_y c a b).
  Lemma tilt_affine mu g ls : map (rtilt (rps_fit mu k g)) (map f ls) = map f (map (rtilt (rps_fit mu k g)) ls).
  Proof. rewrite !map_map. reflexivity. Qed.
  Lemma wfit_affine mu g (d t : bool) ln beta beta' : rwls_ok o k -> (forall u, In u ln -> 0 <= r_w u) -> rno_collinearity k (cell d t ln) -> rhas_intercept ln -> (1 <= k)%nat ->
    wols_rc o k (rps_fit mu k g) d t ln = FCoef beta -> wols_rc o k (rps_fit mu k g) d t (map f ln) = FCoef beta' ->
    forall u, In u ln -> rout k beta' u = c * rout k beta u + shift a b t.
  Proof.
    intros WO W NC IN Hk E E' u Hu. apply wols_rc_inv in E. apply wols_rc_inv in E'. destruct E as [E _], E' as [E' _]. destruct d.
    - exact (rfit_affine c a b o k true t ln beta beta' WO W NC IN Hk E E' u Hu).
    - rewrite <- cell_tilt in E, E'. rewrite tilt_affine in E'.
      change (rout k beta' u) with (rout k beta' (rtilt (rps_fit mu k g) u)). change (rout k beta u) with (rout k beta (rtilt (rps_fit mu k g) u)).
      apply (rfit_affine c a b o k false t (map (rtilt (rps_fit mu k g)) ln) beta beta' WO (tilt_nonneg _ _ _ _ W) (tilt_nc _ _ _ _ _ _ NC)); try assumption.
      + intros v Hv. apply in_map_iff in Hv. destruct Hv as [x [<- Hx]]. exact (IN x Hx).
      + apply in_map. exact Hu.
  Qed.
  Lemma irc_affine : rwls_ok o k -> rlogit_blind o -> rno_collinearity k (cell false false l) -> rno_collinearity k (cell false true l) -> rhas_intercept l -> (1 <= k)%nat ->
    drdid_imp_rc o k tl l = PEst att inf -> drdid_imp_rc o k tl (map f l) = PEst att' inf' -> att' = c * att /\ inf' = map (fun v => c * v) inf.
  Proof.
    intros WO LB NC0 NC1 I Hk E E'. apply irc_inv in E. apply irc_inv in E'. rewrite rnormalise_affine in E'.
    destruct E as [NN [g [b0 [b1 [Eg [E0 [E1 [SZ [-> ->]]]]]]]]]. destruct E' as [_ [g' [b0' [b1' [Eg' [E0' [E1' [_ [-> ->]]]]]]]]]. cbn zeta in *.
    rewrite (LB _ (rnormalise l) (rview_affine c a b _)), Eg in Eg'. injection Eg' as <-.
    apply some_zero_inv in SZ. assert (Hm := mean_weights_neq0 _ cT0 l (wt0_c _ _) (proj1 SZ)). assert (W0 := proj1 (rany_neg_false l) NN). assert (W := rnormalise_nonneg l W0 Hm).
    assert (IN := intercept_rnormalise l I).
    assert (F0 := wfit_affine _ _ _ _ _ _ _ WO W (nc_normal _ _ _ _ W0 Hm NC0) IN Hk E0 E0').
    assert (F1 := wfit_affine _ _ _ _ _ _ _ WO W (nc_normal _ _ _ _ W0 Hm NC1) IN Hk E1 E1'). cbn [shift] in F0, F1.
    set (ps := rps_fit (ro_mu o) k g) in *. set (ln := rnormalise l) in *.
    assert (RV : forall u, In u ln -> resid k b0' b1' (f u) = c * resid k b0 b1 u).
    { intros u Hu. unfold resid, out_own. rewrite ry_affine. change (r_P (f u)) with (r_P u). change (rout k b1' (f u)) with (rout k b1' u). change (rout k b0' (f u)) with (rout k b0' u).
      rewrite F0, F1 by exact Hu. unfold shift, r_P. destruct (r_post u); cbn [ind]; ring. }
    assert (V : forall w : runit -> Qc, forall u, In u ln -> w u * resid k b0' b1' (f u) = w u * (c * resid k b0 b1 u + 0)) by (intros w u Hu; rewrite RV by exact Hu; ring).
    assert (P1 : forall u, w_treat_post tl ps (f u) = w_treat_post tl ps u) by reflexivity. assert (P0 : forall u, w_treat_pre tl ps (f u) = w_treat_pre tl ps u) by reflexivity.
    assert (Q1 : forall u, w_cont_post tl ps (f u) = w_cont_post tl ps u) by reflexivity. assert (Q0 : forall u, w_cont_pre tl ps (f u) = w_cont_pre tl ps u) by reflexivity.
    split.
    - unfold irc_att. cbn zeta.
      rewrite (att_affine c a b (w_treat_post tl ps) _ _ ln 0 P1 (V _)) by auto. rewrite (att_affine c a b (w_treat_pre tl ps) _ _ ln 0 P0 (V _)) by auto.
      rewrite (att_affine c a b (w_cont_post tl ps) _ _ ln 0 Q1 (V _)) by auto. rewrite (att_affine c a b (w_cont_pre tl ps) _ _ ln 0 Q0 (V _)) by auto. ring.
    - apply inf_map. intros u Hu. unfold irc_inf. cbn zeta.
      rewrite (lead_affine c a b (w_treat_post tl ps) _ _ ln 0 P1 (V _)) by auto. rewrite (lead_affine c a b (w_treat_pre tl ps) _ _ ln 0 P0 (V _)) by auto.
      rewrite (lead_affine c a b (w_cont_post tl ps) _ _ ln 0 Q1 (V _)) by auto. rewrite (lead_affine c a b (w_cont_pre tl ps) _ _ ln 0 Q0 (V _)) by auto. ring.
  Qed.
  Lemma ilr_affine : rwls_ok o k -> rlogit_blind o -> (forall d t, rno_collinearity k (cell d t l)) -> rhas_intercept l -> (1 <= k)%nat ->
    drdid_imp_local_rc o k tl l = PEst att inf -> drdid_imp_local_rc o k tl (map f l) = PEst att' inf' -> att' = c * att /\ inf' = map (fun v => c * v) inf.
  Proof.
    intros WO LB NC I Hk E E'. apply ilr_inv in E. apply ilr_inv in E'. rewrite rnormalise_affine in E'.
    destruct E as [NN [g [b0 [b1 [t0 [t1 [Eg [E0 [E1 [E2 [E3 [SZ [-> ->]]]]]]]]]]]]]. destruct E' as [_ [g' [b0' [b1' [t0' [t1' [Eg' [E0' [E1' [E2' [E3' [_ [-> ->]]]]]]]]]]]]]. cbn zeta in *.
    rewrite (LB _ (rnormalise l) (rview_affine c a b _)), Eg in Eg'. injection Eg' as <-.
    apply ilr_zero_inv in SZ. assert (Hm := mean_weights_neq0 _ cT0 l wr0_c (proj1 SZ)). assert (W0 := proj1 (rany_neg_false l) NN). assert (W := rnormalise_nonneg l W0 Hm).
    assert (IN := intercept_rnormalise l I).
    assert (F0 := wfit_affine _ _ _ _ _ _ _ WO W (nc_normal _ _ _ _ W0 Hm (NC _ _)) IN Hk E0 E0').
    assert (F1 := wfit_affine _ _ _ _ _ _ _ WO W (nc_normal _ _ _ _ W0 Hm (NC _ _)) IN Hk E1 E1').
    assert (F2 := wfit_affine _ _ _ _ _ _ _ WO W (nc_normal _ _ _ _ W0 Hm (NC _ _)) IN Hk E2 E2').
    assert (F3 := wfit_affine _ _ _ _ _ _ _ WO W (nc_normal _ _ _ _ W0 Hm (NC _ _)) IN Hk E3 E3'). cbn [shift] in F0, F1, F2, F3.
    set (ps := rps_fit (ro_mu o) k g) in *. set (ln := rnormalise l) in *.
    assert (RV : forall u, In u ln -> resid k b0' b1' (f u) = c * resid k b0 b1 u).
    { intros u Hu. unfold resid, out_own. rewrite ry_affine. change (r_P (f u)) with (r_P u). change (rout k b1' (f u)) with (rout k b1' u). change (rout k b0' (f u)) with (rout k b0' u).
      rewrite F0, F1 by exact Hu. unfold shift, r_P. destruct (r_post u); cbn [ind]; ring. }
    assert (V : forall w : runit -> Qc, forall u, In u ln -> w u * resid k b0' b1' (f u) = w u * (c * resid k b0 b1 u + 0)) by (intros w u Hu; rewrite RV by exact Hu; ring).
    assert (G1 : forall w : runit -> Qc, forall u, In u ln -> w u * (rout k t1' (f u) - rout k b1' (f u)) = w u * (c * (rout k t1 u - rout k b1 u) + 0)).
    { intros w u Hu. change (rout k t1' (f u)) with (rout k t1' u). change (rout k b1' (f u)) with (rout k b1' u). rewrite F1, F3 by exact Hu. ring. }
    assert (G0 : forall w : runit -> Qc, forall u, In u ln -> w u * (rout k t0' (f u) - rout k b0' (f u)) = w u * (c * (rout k t0 u - rout k b0 u) + 0)).
    { intros w u Hu. change (rout k t0' (f u)) with (rout k t0' u). change (rout k b0' (f u)) with (rout k b0' u). rewrite F0, F2 by exact Hu. ring. }
    assert (P1 : forall u, wr_treat_post (f u) = wr_treat_post u) by reflexivity. assert (P0 : forall u, wr_treat_pre (f u) = wr_treat_pre u) by reflexivity. assert (PD : forall u, wr_cont (f u) = wr_cont u) by reflexivity.
    assert (Q1 : forall u, w_cont_post tl ps (f u) = w_cont_post tl ps u) by reflexivity. assert (Q0 : forall u, w_cont_pre tl ps (f u) = w_cont_pre tl ps u) by reflexivity.
    split.
    - unfold ilr_att. cbn zeta.
      rewrite (att_affine c a b wr_treat_post _ _ ln 0 P1 (V _)) by auto. rewrite (att_affine c a b wr_treat_pre _ _ ln 0 P0 (V _)) by auto.
      rewrite (att_affine c a b (w_cont_post tl ps) _ _ ln 0 Q1 (V _)) by auto. rewrite (att_affine c a b (w_cont_pre tl ps) _ _ ln 0 Q0 (V _)) by auto.
      rewrite (att_affine c a b wr_cont _ _ ln 0 PD (G1 _)) by auto. rewrite (att_affine c a b wr_treat_post _ _ ln 0 P1 (G1 _)) by auto.
      rewrite (att_affine c a b wr_cont _ _ ln 0 PD (G0 _)) by auto. rewrite (att_affine c a b wr_treat_pre _ _ ln 0 P0 (G0 _)) by auto. ring.
    - apply inf_map. intros u Hu. unfold ilr_inf. cbn zeta.
      rewrite (lead_affine c a b wr_treat_post _ _ ln 0 P1 (V _)) by auto. rewrite (lead_affine c a b wr_treat_pre _ _ ln 0 P0 (V _)) by auto.
      rewrite (lead_affine c a b (w_cont_post tl ps) _ _ ln 0 Q1 (V _)) by auto. rewrite (lead_affine c a b (w_cont_pre tl ps) _ _ ln 0 Q0 (V _)) by auto.
      rewrite (lead_affine c a b wr_cont _ _ ln 0 PD (G1 _)) by auto. rewrite (lead_affine c a b wr_treat_post _ _ ln 0 P1 (G1 _)) by auto.
      rewrite (lead_affine c a b wr_cont _ _ ln 0 PD (G0 _)) by auto. rewrite (lead_affine c a b wr_treat_pre _ _ ln 0 P0 (G0 _)) by auto. ring.
  Qed.
End Aff.
