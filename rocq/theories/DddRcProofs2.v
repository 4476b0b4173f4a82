(** Proofs for C107-C109, continued: the whole estimator; centring, no covariates, needed cells, scale and order. *)
From Verif Require Import Base ListLib ReduceModel ReduceProofs2 Calc DrdidModel DrdidSpec DrdidProofs DrdidProofs2 DrdidProofs3 DrdidProofs4 DrdidProofs5 DrdidProofs6 DrdidProofs7 RcModel RcSpec RcCalc RcProofs RcProofs2 RcProofs3 RcProofs4 DddModel DddProofs DddProofs3 DddRcModel DddRcSpec DddRcProofs.

Lemma dddrc_inv o k m tl l0 att a3 a2 a1 inf : ddd_rc o k m tl l0 = QEst att a3 a2 a1 inf ->
  (forall u, In u l0 -> 0 <= q_w u) /\ (forall u, In u l0 -> q_sg_ok u = true) /\
  exists i3 i2 i1, did_rc o k m tl (q_pair 3 (q_normalise l0)) = PEst a3 i3 /\
    did_rc o k m tl (q_pair 2 (q_normalise l0)) = PEst a2 i2 /\
    did_rc o k m tl (q_pair 1 (q_normalise l0)) = PEst a1 i1 /\
    att = a3 + a2 - a1 /\
    inf = (let l := q_normalise l0 in map (fun p => q_share 3 l * fst (fst p) + q_share 2 l * snd (fst p) - q_share 1 l * snd p)
       (combine (combine (scatter (map (q_in_pair 3) l) i3) (scatter (map (q_in_pair 2) l) i2)) (scatter (map (q_in_pair 1) l) i1))).
Proof.
  unfold ddd_rc. destruct (q_neg l0) eqn:EN; [discriminate|]. destruct (forallb q_sg_ok l0) eqn:ES; [|discriminate].
  destruct (existsb (fun u => q_sg u =? 4)%Z l0); [|discriminate]. destruct (existsb q_post l0); [|discriminate]. destruct (existsb (fun u => negb (q_post u)) l0); [|discriminate].
  cbn [negb]. unfold all_did_rc.
  destruct (did_rc o k m tl (q_pair 3 (q_normalise l0))) as [| | |x3 i3] eqn:E3; destruct (did_rc o k m tl (q_pair 2 (q_normalise l0))) as [| | |x2 i2] eqn:E2;
    destruct (did_rc o k m tl (q_pair 1 (q_normalise l0))) as [| | |x1 i1] eqn:E1; try discriminate.
  intros E. injection E as <- <- <- <- <-. split; [|split; [|exists i3, i2, i1; repeat split; auto]].
  - intros u Hu. destruct (Qc_le_or_lt 0 (q_w u)) as [L|L]; [exact L|]. exfalso. assert (X : q_neg l0 = true); [|congruence].
    apply existsb_exists. exists u. split; [exact Hu|]. destruct (Qcltb_spec (q_w u) 0); [reflexivity|contradiction].
  - apply forallb_forall. exact ES.
Qed.

(** ** the pair samples *)
Lemma q_pair_normalise c l : q_pair c (q_normalise l) = map (rscale_w (/ mean q_w l)) (q_pair c l).
Proof.
  unfold q_pair, q_normalise. rewrite filter_map, !map_map. apply map_ext. intros u. unfold q_as_pair, rscale_w, rset_w, q_set_w. cbn. f_equal. unfold Qcdiv. ring.
Qed.
Lemma in_q_pair c l p : In p (q_pair c l) <-> exists u, In u l /\ q_in_pair c u = true /\ p = q_as_pair u.
Proof.
  unfold q_pair. rewrite in_map_iff. split.
  - intros [u [<- Hu]]. apply filter_In in Hu. exists u. tauto.
  - intros [u [H1 [H2 ->]]]. exists u. split; [reflexivity|]. apply filter_In. tauto.
Qed.
Lemma did_len o k m tl l a i : did_rc o k m tl l = PEst a i -> (exists G, i = map G l) /\ l <> [].
Proof.
  intros E. apply did_rc_inv in E. destruct E as [p [EP [N0 [N1 F]]]]. split; [|intros ->; apply N0; reflexivity]. destruct m.
  - destruct F as [N2 [N3 [c0 [c1 [t0 [t1 [M0 [M1 [M2 [M3 [F0 [F1 [F2 [F3 [_ [_ [_ [_ [_ ->]]]]]]]]]]]]]]]]]]]. eexists. reflexivity.
  - destruct F as [c0 [c1 [M0 [M1 [F0 [F1 [_ [_ [_ ->]]]]]]]]]. eexists. reflexivity.
  - destruct F as [N2 [N3 [_ ->]]]. eexists. reflexivity.
Qed.
Lemma q_pair_mean o k m tl c l a i : did_rc o k m tl (q_pair c (q_normalise l)) = PEst a i -> mean q_w l <> 0.
Proof.
  intros E Z0. apply did_rc_inv in E. destruct E as [p [EP [N0 _]]]. apply N0. apply mean_0, sumf_zero.
  intros u Hu. rewrite q_pair_normalise in Hu. apply in_map_iff in Hu. destruct Hu as [v [<- _]]. rewrite (qt0_c p (ps_part_keep _ _ _ _ _ _ EP)). cbn [rscale_w rset_w r_w].
  rewrite Z0. rewrite Qcinv_0'. ring.
Qed.
Lemma q_mean_pos l : (forall u, In u l -> 0 <= q_w u) -> mean q_w l <> 0 -> 0 < / mean q_w l.
Proof.
  intros N Hm. apply Qcinv_pos. destruct (Qc_le_or_lt (mean q_w l) 0) as [L|L]; [|exact L]. exfalso. apply Hm, Qcle_antisym; [exact L|]. apply mean_nonneg, N.
Qed.
Lemma q_pair_nonneg c l : (forall u, In u l -> 0 <= q_w u) -> forall p, In p (q_pair c l) -> 0 <= r_w p.
Proof. intros W p Hp. apply in_q_pair in Hp. destruct Hp as [u [Hu [_ ->]]]. apply W, Hu. Qed.
Lemma rscaled_nonneg c l : 0 <= c -> (forall u, In u l -> 0 <= r_w u) -> forall u, In u (map (rscale_w c) l) -> 0 <= r_w u.
Proof. intros Hc W u Hu. apply in_map_iff in Hu. destruct Hu as [v [<- Hv]]. cbn. apply Qcmult_nonneg; [exact Hc|apply W, Hv]. Qed.
Lemma q_pair_norm_nonneg c l : (forall u, In u l -> 0 <= q_w u) -> mean q_w l <> 0 -> forall p, In p (q_pair c (q_normalise l)) -> 0 <= r_w p.
Proof. intros W Hm. rewrite q_pair_normalise. apply rscaled_nonneg; [apply Qclt_le_weak, q_mean_pos; assumption|apply q_pair_nonneg; exact W]. Qed.

(** ** influence function row by row *)
Definition qterm (c : Z) (G : runit -> Qc) (u : qrow) : Qc := if q_in_pair c u then G (q_as_pair u) else 0.
Lemma dddrc_inf_pointwise l G3 G2 G1 :
  map (fun p => q_share 3 l * fst (fst p) + q_share 2 l * snd (fst p) - q_share 1 l * snd p)
    (combine (combine (scatter (map (q_in_pair 3) l) (map G3 (q_pair 3 l))) (scatter (map (q_in_pair 2) l) (map G2 (q_pair 2 l)))) (scatter (map (q_in_pair 1) l) (map G1 (q_pair 1 l))))
  = map (fun u => q_share 3 l * qterm 3 G3 u + q_share 2 l * qterm 2 G2 u - q_share 1 l * qterm 1 G1 u) l.
Proof.
  unfold q_pair. rewrite !map_map, !scatter_map.
  exact (combine3_map (qterm 3 G3) (qterm 2 G2) (qterm 1 G1) l (fun x y z => q_share 3 l * x + q_share 2 l * y - q_share 1 l * z)).
Qed.
Lemma sum_qterm c G l : sumf (qterm c G) l = sumf G (q_pair c l).
Proof. unfold q_pair. rewrite sumf_map, sumf_filter. apply sumf_ext. intros u _. unfold qterm. destruct (q_in_pair c u); cbn [ind]; ring. Qed.
Lemma dddrc_centred o k m tl l att a3 a2 a1 inf : rwls_ok o k -> (m = Reg \/ q_scores o k l) -> ddd_rc o k m tl l = QEst att a3 a2 a1 inf ->
  length inf = length l /\ qsum inf = 0.
Proof.
  intros WO SC E. apply dddrc_inv in E. destruct E as [W [_ [i3 [i2 [i1 [E3 [E2 [E1 [_ ->]]]]]]]]]. cbn zeta.
  assert (Hm := q_pair_mean _ _ _ _ _ _ _ _ E3).
  assert (C : forall c a i, In c [3; 2; 1]%Z -> did_rc o k m tl (q_pair c (q_normalise l)) = PEst a i -> qsum i = 0).
  { intros c a i Hc D. apply did_rc_inv in D. destruct D as [p F]. assert (EP := proj1 F).
    apply (did_centred o k m tl (q_pair c (q_normalise l)) a i p WO (q_pair_norm_nonneg c l W Hm) F).
    destruct SC as [->|SC]; [left; reflexivity|]. destruct m; [|left; reflexivity|]; right; destruct EP as [g [V [Eg [_ ->]]]]; exact (SC c g Hc Eg). }
  assert (Z3 := C 3%Z _ _ ltac:(cbn; auto) E3). assert (Z2 := C 2%Z _ _ ltac:(cbn; auto) E2). assert (Z1 := C 1%Z _ _ ltac:(cbn; auto) E1).
  apply did_len in E3, E2, E1. destruct E3 as [[G3 ->] _]. destruct E2 as [[G2 ->] _]. destruct E1 as [[G1 ->] _].
  rewrite dddrc_inf_pointwise. split; [rewrite map_length; apply map_length|]. rewrite qsum_map in Z3, Z2, Z1. rewrite qsum_map.
  rewrite sumf_sub, sumf_add, !sumf_mul_l, !sum_qterm, Z3, Z2, Z1. ring.
Qed.

(** ** cell means of the pair *)
Lemma cell_mean_scale b t v c l : c <> 0 -> blind v -> cell_mean b t v (map (rscale_w c) l) = cell_mean b t v l.
Proof.
  intros Hc B. unfold cell_mean, cell. rewrite !sumf_filter, !sumf_map. symmetry. rewrite <- (ratio_scale c _ _ Hc), <- !sumf_mul_l.
  f_equal; apply sumf_ext; intros u _; unfold rscale_w; rewrite ?B; unfold in_cell; cbn [rset_w r_d r_post r_w]; ring.
Qed.
Lemma cell_sum_pair c t (v : runit -> Qc) l b : (c <> 4)%Z -> sumf v (cell b t (q_pair c l)) = sumf (fun u => v (q_as_pair u)) (sg_rows (if b then 4 else c) t l).
Proof.
  intros Hc. unfold cell, q_pair, sg_rows. rewrite !sumf_filter, sumf_map, sumf_filter. apply sumf_ext. intros u _. unfold in_cell, q_in_pair. cbn [q_as_pair r_d r_post].
  destruct b, (Z.eqb_spec (q_sg u) 4), (Z.eqb_spec (q_sg u) c), (q_post u), t; cbn; try ring; exfalso; congruence.
Qed.
Lemma cell_mean_pair c t l b : (c <> 4)%Z -> cell_mean b t r_y (q_pair c l) = sg_mean (if b then 4 else c) t l.
Proof. intros Hc. unfold cell_mean, sg_mean. rewrite (cell_sum_pair c t (fun u => r_w u * r_y u)), (cell_sum_pair c t r_w) by exact Hc. reflexivity. Qed.
Lemma four_cells_pair c l : (c <> 4)%Z -> four_cells (q_pair c l) = sg_change 4 l - sg_change c l.
Proof. intros Hc. unfold four_cells, sg_change. rewrite !(cell_mean_pair c _ l _ Hc). reflexivity. Qed.
Lemma four_cells_scale c l : c <> 0 -> four_cells (map (rscale_w c) l) = four_cells l.
Proof. intros Hc. unfold four_cells. rewrite !cell_mean_scale by (try exact Hc; exact blind_y). reflexivity. Qed.

(** ** no covariates *)
Lemma R_cell b t c v q l : (forall u, In u l -> c u = ind (in_cell b t u) * q) -> sumf (fun u => r_w u * c u) l <> 0 -> R c v l = cell_mean b t v l /\ sumf r_w (cell b t l) <> 0.
Proof.
  intros Hc N.
  assert (E : sumf (fun u => r_w u * c u) l = q * sumf r_w (cell b t l)).
  { unfold cell. rewrite sumf_filter, <- sumf_mul_l. apply sumf_ext. intros u Hu. rewrite (Hc u Hu). ring. }
  rewrite E in N. assert (Nq : q <> 0) by (intros Z0; apply N; rewrite Z0; ring). split; [|intros Z0; apply N; rewrite Z0; ring].
  unfold R, cell_mean. rewrite E. rewrite <- (ratio_scale q (sumf (fun u => r_w u * v u) (cell b t l)) (sumf r_w (cell b t l)) Nq). f_equal. unfold cell. rewrite sumf_filter, <- sumf_mul_l. apply sumf_ext. intros u Hu. rewrite (Hc u Hu). ring.
Qed.
Lemma mean_c_neq (w c : runit -> Qc) l : (forall u, w u = r_w u * c u) -> mean w l <> 0 -> sumf (fun u => r_w u * c u) l <> 0.
Proof. apply mean_neq_sum. Qed.
Lemma cell_mean_minus b t v s s' l : (forall u, In u l -> in_cell b t u = true -> s u = s') -> sumf r_w (cell b t l) <> 0 -> cell_mean b t (fun u => v u - s u) l = cell_mean b t v l - s'.
Proof.
  intros Hv N. unfold cell_mean. rewrite (sumf_ext (fun u => r_w u * _) (fun u => r_w u * v u - r_w u * s')).
  - rewrite sumf_sub, sumf_mul_r. field. exact N.
  - intros u Hu. apply filter_In in Hu. rewrite (Hv u) by tauto. ring.
Qed.
Lemma gram1_cell b t M l : (forall u, In u l -> r_x u = 1 :: nil) -> is_inverse 1 (rgram 1 b t l) M -> sumf r_w (cell b t l) <> 0.
Proof.
  intros HX I Z0. destruct (I 0%nat 0%nat ltac:(lia) ltac:(lia)) as [I1 _]. unfold mat_mul in I1. cbn [seq] in I1. rewrite sumf_cons in I1.
  assert (G0 : mget (rgram 1 b t l) 0 0 = 0); [|rewrite G0 in I1; replace (0 * mget M 0 0 + sumf _ []) with 0 in I1 by (unfold sumf; cbn [map qsum]; unfold qsum; cbn; ring); discriminate I1].
  unfold rgram. rewrite mget_mat_of by lia. apply mean_0. rewrite <- Z0. unfold cell. rewrite sumf_filter. apply sumf_ext. intros u Hu.
  rewrite wols_cell. unfold rx_at. rewrite (HX u Hu). cbn [nth]. ring.
Qed.
Lemma nocov_did o m tl l a i p : (forall u, In u l -> r_x u = 1 :: nil) -> (forall u, In u l -> 0 <= r_w u) -> (m = Reg -> rwls_ok o 1 /\ rinv_ok o 1) ->
  did_facts o 1 m tl l a i p -> a = four_cells l.
Proof.
  intros HX W RO [EP [N0 [N1 F]]]. assert (K := ps_part_keep _ _ _ _ _ _ EP). assert (ND := qd_neq0 p K l W N0).
  assert (T0 := mean_c_neq _ _ _ (qt0_c p K) N0). assert (T1 := mean_c_neq _ _ _ (qt1_c p K) N1). assert (TD := mean_c_neq _ _ _ (qd_c p K) ND).
  assert (P0 := T0_den l T0). assert (P1 := T1_den l T1).
  assert (O1 : forall b u, In u l -> rout 1 b u = nth 0 b 0) by (intros b u Hu; apply (out1 l HX); exact Hu).
  assert (G : forall f : q_outs, m <> Reg -> (exists c0 c1 t0 t1, forall u, In u l -> qo_c0 f u = c0 /\ qo_c1 f u = c1 /\ qo_t0 f u = t0 /\ qo_t1 f u = t1) ->
    mean (qw_c0 p) l <> 0 -> mean (qw_c1 p) l <> 0 -> q_dr_att p f l = four_cells l).
  { intros f NR [c0 [c1 [t0 [t1 Hf]]]] N2 N3. assert (C0 := mean_c_neq _ _ _ (qc0_c p) N2). assert (C1 := mean_c_neq _ _ _ (qc1_c p) N3).
    assert (CK : exists q, forall u, In u l -> r_d u = false -> qp_keep p u * (qp_ps p u / (1 - qp_ps p u)) = q).
    { destruct m; [|congruence|]; destruct EP as [g [V [_ [_ ->]]]]; cbn [logps qp_keep qp_ps];
        exists (let raw := ro_mu o (dotk 1 (1 :: nil) g) in let ps := if Qcltb (1 - eps6) raw then 1 - eps6 else raw in ind (Qcltb raw tl) * (ps / (1 - ps)));
        intros u Hu D; unfold q_keep, qps_cap, qps_raw; rewrite (HX u Hu), D; reflexivity. }
    destruct CK as [q Hq].
    assert (E0 : forall u, In u l -> qC0 p u = ind (in_cell false false u) * q).
    { intros u Hu. unfold qC0. destruct (in_cell false false u) eqn:I; cbn [ind]; [|ring]. rewrite Hq; [reflexivity|exact Hu|]. unfold in_cell in I. destruct (r_d u); [discriminate I|reflexivity]. }
    assert (E1 : forall u, In u l -> qC1 p u = ind (in_cell false true u) * q).
    { intros u Hu. unfold qC1. destruct (in_cell false true u) eqn:I; cbn [ind]; [|ring]. rewrite Hq; [reflexivity|exact Hu|]. unfold in_cell in I. destruct (r_d u); [discriminate I|reflexivity]. }
    unfold q_dr_att. cbn zeta. rewrite !(att_R _ _ _ _ (qt0_c p K)), !(att_R _ _ _ _ (qt1_c p K)), !(att_R _ _ _ _ (qd_c p K)), !(att_R _ _ _ _ (qc0_c p)), !(att_R _ _ _ _ (qc1_c p)).
    destruct (R_cell false false (qC0 p) (fun u => r_y u - q_own f u) q l E0 C0) as [-> D0]. destruct (R_cell false true (qC1 p) (fun u => r_y u - q_own f u) q l E1 C1) as [-> D1].
    rewrite !(R_const _ (t1 - c1) (fun u => qo_t1 f u - qo_c1 f u)), !(R_const _ (t0 - c0) (fun u => qo_t0 f u - qo_c0 f u)) by (try assumption; intros u Hu; destruct (Hf u Hu) as [A [B [C D]]]; congruence).
    rewrite R_T0, R_T1. unfold four_cells.
    assert (OP : forall u, In u l -> r_post u = true -> q_own f u = c1) by (intros u Hu Hp; destruct (Hf u Hu) as [A [B _]]; unfold q_own, r_P; rewrite Hp, A, B; cbn; ring).
    assert (ON : forall u, In u l -> r_post u = false -> q_own f u = c0) by (intros u Hu Hp; destruct (Hf u Hu) as [A [B _]]; unfold q_own, r_P; rewrite Hp, A, B; cbn; ring).
    rewrite !(cell_mean_minus _ true r_y (q_own f) c1) by (first [assumption|intros u Hu I; apply OP; [exact Hu|]; unfold in_cell in I; destruct (r_post u); [reflexivity|rewrite andb_false_r in I; discriminate I]]).
    rewrite !(cell_mean_minus _ false r_y (q_own f) c0) by (first [assumption|intros u Hu I; apply ON; [exact Hu|]; unfold in_cell in I; destruct (r_post u); [rewrite andb_false_r in I; discriminate I|reflexivity]]).
    ring. }
  destruct m.
  - destruct F as [N2 [N3 [c0 [c1 [t0 [t1 [M0 [M1 [M2 [M3 [F0 [F1 [F2 [F3 [_ [_ [_ [_ [-> _]]]]]]]]]]]]]]]]]]]. apply G; [discriminate| |exact N2|exact N3].
    exists (nth 0 c0 0), (nth 0 c1 0), (nth 0 t0 0), (nth 0 t1 0). intros u Hu. cbn [drouts qo_c0 qo_c1 qo_t0 qo_t1]. rewrite !O1 by exact Hu. auto.
  - destruct (RO eq_refl) as [WO IO]. destruct F as [c0 [c1 [M0 [M1 [F0 [F1 [I0 [I1 [-> _]]]]]]]]]. apply q_fit_inv in F0, F1. destruct F0 as [F0 _], F1 as [F1 _]. apply WO in F0, F1. apply IO in I0, I1.
    assert (D0 := gram1_cell _ _ _ _ HX I0). assert (D1 := gram1_cell _ _ _ _ HX I1).
    apply (nocov_fit l HX) in F0; [|exact D0]. apply (nocov_fit l HX) in F1; [|exact D1].
    unfold q_reg_att, four_cells. rewrite (att_R _ _ _ _ (qt0_c p K)), (att_R _ _ _ _ (qt1_c p K)), R_T0, R_T1. f_equal.
    rewrite (mean_ext _ (fun u => qw_d p u * (nth 0 c1 0 - nth 0 c0 0))) by (intros u Hu; rewrite !O1 by exact Hu; reflexivity). rewrite mean_mul_r, F0, F1. field. exact ND.
  - destruct F as [N2 [N3 [-> _]]]. apply G; [discriminate| |exact N2|exact N3]. exists 0, 0, 0, 0. intros u Hu. auto.
Qed.
Lemma dddrc_no_cov o m tl l att a3 a2 a1 inf : (forall u, In u l -> q_x u = 1 :: nil) -> (m = Reg -> rwls_ok o 1 /\ rinv_ok o 1) -> ddd_rc o 1 m tl l = QEst att a3 a2 a1 inf ->
  att = (sg_change 4 l - sg_change 3 l) - (sg_change 2 l - sg_change 1 l) /\
  a3 = sg_change 4 l - sg_change 3 l /\ a2 = sg_change 4 l - sg_change 2 l /\ a1 = sg_change 4 l - sg_change 1 l.
Proof.
  intros HX RO E. apply dddrc_inv in E. destruct E as [W [_ [i3 [i2 [i1 [E3 [E2 [E1 [-> _]]]]]]]]].
  assert (Hm := q_pair_mean _ _ _ _ _ _ _ _ E3).
  assert (G : forall c a i, (c <> 4)%Z -> did_rc o 1 m tl (q_pair c (q_normalise l)) = PEst a i -> a = sg_change 4 l - sg_change c l).
  { intros c a i Hc E. apply did_rc_inv in E. destruct E as [p E]. apply nocov_did in E.
    - rewrite E, q_pair_normalise, four_cells_scale, four_cells_pair; [reflexivity|exact Hc|apply inv_neq0, Hm].
    - intros u Hu. rewrite q_pair_normalise in Hu. apply in_map_iff in Hu. destruct Hu as [v [<- Hv]]. apply in_q_pair in Hv. destruct Hv as [x [Hx [_ ->]]]. cbn. apply HX, Hx.
    - apply q_pair_norm_nonneg; assumption.
    - exact RO. }
  apply G in E3; [|discriminate]. apply G in E2; [|discriminate]. apply G in E1; [|discriminate]. rewrite E3, E2, E1. repeat split; ring.
Qed.

(** ** every subgroup and period is needed *)
Lemma sum_nonneg_neq0_pos {A} (f : A -> Qc) l : (forall u, In u l -> 0 <= f u) -> sumf f l <> 0 -> 0 < sumf f l.
Proof. intros W H. destruct (Qc_le_or_lt (sumf f l) 0) as [L|L]; [|exact L]. exfalso. apply H, Qcle_antisym; [exact L|]. apply sumf_nonneg. exact W. Qed.
Lemma gram_cell_zero k b t l : (forall u, In u l -> 0 <= r_w u) -> sumf r_w (cell b t l) = 0 -> forall M, (1 <= k)%nat -> ~ is_inverse k (rgram k b t l) M.
Proof.
  intros W Z0 M Hk I. destruct (I 0%nat 0%nat ltac:(lia) ltac:(lia)) as [I1 _]. unfold mat_mul in I1. rewrite sumf_zero in I1; [discriminate I1|].
  intros j Hj. apply in_seq in Hj. unfold rgram. rewrite mget_mat_of by lia. rewrite (mean_0 (fun u => _)); [ring|]. apply sumf_zero. intros u Hu. rewrite wols_cell.
  destruct (in_cell b t u) eqn:C; cbn [ind]; [|ring].
  assert (X : r_w u = 0); [|rewrite X; ring]. apply (nonneg_sum_zero r_w (cell b t l)); [|exact Z0|apply filter_In; auto].
  intros v Hv. apply filter_In in Hv. apply W, Hv.
Qed.
Lemma C_den (p : q_ps) (t : bool) l : (forall u, In u l -> 0 <= r_w u) -> sumf (fun u => r_w u * (if t then qC1 p u else qC0 p u)) l <> 0 -> sumf r_w (cell false t l) <> 0.
Proof.
  intros W N Z0. apply N. apply sumf_zero. intros u Hu.
  destruct (in_cell false t u) eqn:C; [|destruct t; [unfold qC1|unfold qC0]; rewrite C; cbn [ind]; ring].
  assert (X : r_w u = 0); [|rewrite X; ring]. apply (nonneg_sum_zero r_w (cell false t l)); [|exact Z0|apply filter_In; auto].
  intros v Hv. apply filter_In in Hv. apply W, Hv.
Qed.
Lemma did_cells o k m tl l a i p : (forall u, In u l -> 0 <= r_w u) -> did_facts o k m tl l a i p -> (m = Reg -> rinv_ok o k /\ (1 <= k)%nat) ->
  forall b t, sumf r_w (cell b t l) <> 0.
Proof.
  intros W [EP [N0 [N1 F]]] RI. assert (K := ps_part_keep _ _ _ _ _ _ EP).
  assert (P0 := T0_den l (mean_c_neq _ _ _ (qt0_c p K) N0)). assert (P1 := T1_den l (mean_c_neq _ _ _ (qt1_c p K) N1)).
  intros [] t; [destruct t; assumption|].
  assert (X : mean (qw_c0 p) l <> 0 -> mean (qw_c1 p) l <> 0 -> sumf r_w (cell false t l) <> 0).
  { intros N2 N3. apply (C_den p); [exact W|]. destruct t; [exact (mean_c_neq _ _ _ (qc1_c p) N3)|exact (mean_c_neq _ _ _ (qc0_c p) N2)]. }
  destruct m.
  - destruct F as [N2 [N3 _]]. apply X; assumption.
  - destruct (RI eq_refl) as [IO Hk]. destruct F as [c0 [c1 [M0 [M1 [F0 [F1 [I0 [I1 _]]]]]]]]. apply IO in I0, I1. intros Z0. destruct t; eapply gram_cell_zero; eassumption.
  - destruct F as [N2 [N3 _]]. apply X; assumption.
Qed.
Lemma dddrc_all_cells o k m tl l att a3 a2 a1 inf : (m = Reg -> rinv_ok o k /\ (1 <= k)%nat) -> ddd_rc o k m tl l = QEst att a3 a2 a1 inf ->
  forall s t, In s [1; 2; 3; 4]%Z -> 0 < sg_weight s t l.
Proof.
  intros RI E. apply dddrc_inv in E. destruct E as [W [_ [i3 [i2 [i1 [E3 [E2 [E1 _]]]]]]]]. assert (Hm := q_pair_mean _ _ _ _ _ _ _ _ E3).
  assert (G : forall c a i b t, (c <> 4)%Z -> did_rc o k m tl (q_pair c (q_normalise l)) = PEst a i -> sg_weight (if b : bool then 4 else c)%Z t l <> 0).
  { intros c a i b t Hc E. apply did_rc_inv in E. destruct E as [p E].
    assert (X := did_cells o k m tl _ a i p (q_pair_norm_nonneg c l W Hm) E RI b t). intros Z0. apply X. rewrite (cell_sum_pair c t r_w) by exact Hc.
    unfold sg_weight in Z0. unfold sg_rows in *. rewrite sumf_filter in Z0 |- *. unfold q_normalise. rewrite sumf_map.
    transitivity (/ mean q_w l * sumf (fun x => ind ((q_sg x =? (if b then 4 else c))%Z && eqb (q_post x) t) * q_w x) l); [|rewrite Z0; ring].
    rewrite <- sumf_mul_l. apply sumf_ext. intros u _. cbn [q_set_w q_sg q_post q_as_pair r_w q_w]. unfold Qcdiv. ring. }
  intros s t Hs. apply sum_nonneg_neq0_pos; [intros u Hu; apply filter_In in Hu; apply W, Hu|].
  destruct Hs as [<-|[<-|[<-|[<-|[]]]]]; [exact (G 1%Z _ _ false t ltac:(discriminate) E1)|exact (G 2%Z _ _ false t ltac:(discriminate) E2)|exact (G 3%Z _ _ false t ltac:(discriminate) E3)|exact (G 3%Z _ _ true t ltac:(discriminate) E3)].
Qed.
Lemma cell_in_pair c d t l : (c <> 4)%Z -> cell d t (q_pair c l) <> [] -> exists u, In u l /\ q_sg u = (if d then 4 else c)%Z /\ q_post u = t.
Proof.
  intros Hc N. destruct (cell d t (q_pair c l)) as [|p r] eqn:E; [congruence|]. assert (Hp : In p (cell d t (q_pair c l))) by (rewrite E; left; reflexivity).
  apply filter_In in Hp. destruct Hp as [Hp C]. apply in_q_pair in Hp. destruct Hp as [u [Hu [I ->]]]. exists u. split; [exact Hu|]. unfold in_cell in C. cbn [q_as_pair r_d r_post] in C.
  apply andb_true_iff in C. destruct C as [C1 C2]. apply eqb_prop in C1, C2. split; [|exact C2]. unfold q_in_pair in I.
  destruct (Z.eqb_spec (q_sg u) 4) as [->|]; [subst d; reflexivity|]. subst d. cbn in I. apply Z.eqb_eq in I. exact I.
Qed.

(** ** weight scale *)
Lemma existsb_ext_all {A} (p q : A -> bool) l : (forall a, p a = q a) -> existsb p l = existsb q l.
Proof. intros H. induction l as [|a l IH]; cbn; [reflexivity|]. rewrite H, IH. reflexivity. Qed.
Lemma q_normalise_scale c l : c <> 0 -> q_normalise (map (q_scale_w c) l) = q_normalise l.
Proof.
  intros Hc. unfold q_normalise. rewrite map_map. apply map_ext. intros u. rewrite mean_map. change (fun a => q_w (q_scale_w c a)) with (fun a => c * q_w a).
  rewrite mean_mul_l. unfold q_scale_w, q_set_w. cbn. f_equal. destruct (Qceqb_spec (mean q_w l) 0) as [E|N].
  - rewrite E. replace (c * 0) with 0 by ring. rewrite !Qcdiv_0_r. reflexivity.
  - field. split; assumption.
Qed.
Lemma dddrc_scale o k m tl l c : 0 < c -> ddd_rc o k m tl (map (q_scale_w c) l) = ddd_rc o k m tl l.
Proof.
  intros Hc. unfold ddd_rc. rewrite q_normalise_scale by (apply Qc_pos_neq0, Hc).
  assert (X : q_neg (map (q_scale_w c) l) = q_neg l).
  { unfold q_neg. rewrite existsb_map'. apply existsb_ext_all. intros u. cbn [q_scale_w q_set_w q_w]. destruct (Qcltb_spec (c * q_w u) 0) as [A|A], (Qcltb_spec (q_w u) 0) as [B|B]; try reflexivity; exfalso.
    + apply Qcnot_lt_le in B. assert (X : 0 <= c * q_w u) by (apply Qcmult_nonneg; [apply Qclt_le_weak, Hc|exact B]). apply (Qclt_not_le _ _ A X).
    + apply A. setoid_replace 0 with (0 * c) by ring. rewrite Qcmult_comm. apply Qcmult_lt_compat_r; assumption. }
  rewrite X, forallb_map', !existsb_map'. reflexivity.
Qed.

(** ** order of the rows *)
Lemma q_pair_perm c l l' : Permutation l l' -> Permutation (q_pair c l) (q_pair c l').
Proof. intros P. unfold q_pair. apply Permutation_map, filter_perm. exact P. Qed.
Lemma q_normalise_perm l l' : Permutation l l' -> Permutation (q_normalise l) (q_normalise l').
Proof. intros P. unfold q_normalise. rewrite (mean_perm q_w _ _ P). apply Permutation_map. exact P. Qed.
Lemma q_pscore_perm o k m tl l l' : rfits_symmetric o -> Permutation l l' -> q_pscore o k m tl l = q_pscore o k m tl l'.
Proof.
  intros FS P. unfold q_pscore. destruct (FS _ _ P) as [-> _]. rewrite (Permutation_length P). destruct m; [|reflexivity|];
    (destruct (ro_logit o l'); [|reflexivity]; rewrite (rps_gram_perm _ _ _ _ P); reflexivity).
Qed.
Lemma q_fit_perm o k d t l l' : rfits_symmetric o -> Permutation l l' -> q_fit o k d t l = q_fit o k d t l'.
Proof.
  intros FS P. assert (PC : Permutation (cell d t l) (cell d t l')) by (apply filter_perm, P). unfold q_fit. cbn zeta. rewrite (Permutation_length PC). destruct (FS _ _ PC) as [_ ->]. reflexivity.
Qed.
Lemma q_reg_perm p k c0 c1 M0 M1 l l' u : Permutation l l' -> q_reg_inf p k c0 c1 M0 M1 l u = q_reg_inf p k c0 c1 M0 M1 l' u.
Proof. intros P. unfold q_reg_inf. cbn zeta. rewrite !(att_perm _ _ _ _ P), !(mean_perm _ _ _ P), !(rmean_col_perm _ _ _ _ P). reflexivity. Qed.
Lemma q_or_perm p k a l l' u : Permutation l l' -> q_or_inf p k a l u = q_or_inf p k a l' u.
Proof. intros P. unfold q_or_inf. cbn zeta. rewrite !(or_moment_perm _ _ _ _ _ P), !(mean_perm _ _ _ P), !(rmean_col_perm _ _ _ _ P). reflexivity. Qed.
Lemma q_dr_perm p k f oi oi' l l' u : Permutation l l' -> oi u = oi' u -> q_dr_inf p k f oi l u = q_dr_inf p k f oi' l' u.
Proof. intros P E. unfold q_dr_inf. cbn zeta. rewrite E, !(lead_perm _ _ _ _ _ P), !(ps_moment_perm _ _ _ _ _ P). reflexivity. Qed.
Lemma q_dr_att_perm p f l l' : Permutation l l' -> q_dr_att p f l = q_dr_att p f l'.
Proof. intros P. unfold q_dr_att. cbn zeta. rewrite !(att_perm _ _ _ _ P). reflexivity. Qed.
Lemma did_perm o k m tl l l' : rfits_symmetric o -> Permutation l l' ->
  match did_rc o k m tl l, did_rc o k m tl l' with
  | PEst a i, PEst a' i' => a = a' /\ exists G, i = map G l /\ i' = map G l'
  | PRaise, PRaise | PNaN, PNaN => True
  | _, _ => False
  end.
Proof.
  intros FS P. unfold did_rc. rewrite (q_pscore_perm o k m tl l l' FS P). destruct (q_pscore o k m tl l') as [p|]; [|exact I].
  rewrite !(mean_perm _ _ _ P), !(q_fit_perm o k _ _ l l' FS P), !(rgram_perm k _ _ l l' P).
  destruct (Qceqb (mean (qw_t0 p) l') 0); [exact I|]. destruct (Qceqb (mean (qw_t1 p) l') 0); [exact I|]. cbn [orb]. destruct m.
  - destruct (Qceqb (mean (qw_c0 p) l') 0); [exact I|]. destruct (Qceqb (mean (qw_c1 p) l') 0); [exact I|]. cbn [orb]. destruct (q_fit o k false false l'); [|exact I]. destruct (q_fit o k false true l'); [|exact I].
    destruct (q_fit o k true false l'); [|exact I]. destruct (q_fit o k true true l'); [|exact I].
    destruct (ro_inv o (rgram k false false l')); [|exact I]. destruct (ro_inv o (rgram k false true l')); [|exact I]. destruct (ro_inv o (rgram k true false l')); [|exact I]. destruct (ro_inv o (rgram k true true l')); [|exact I].
    cbn zeta. split; [apply q_dr_att_perm; exact P|]. eexists. split; [|reflexivity]. apply map_ext. intros u. apply q_dr_perm; [exact P|]. apply q_or_perm. exact P.
  - destruct (q_fit o k false false l'); [|exact I]. destruct (q_fit o k false true l'); [|exact I]. destruct (ro_inv o (rgram k false false l')); [|exact I]. destruct (ro_inv o (rgram k false true l')); [|exact I].
    split; [unfold q_reg_att; rewrite !(att_perm _ _ _ _ P), !(mean_perm _ _ _ P); reflexivity|]. eexists. split; [|reflexivity]. apply map_ext. intros u. apply q_reg_perm. exact P.
  - destruct (Qceqb (mean (qw_c0 p) l') 0); [exact I|]. destruct (Qceqb (mean (qw_c1 p) l') 0); [exact I|]. cbn [orb]. split; [apply q_dr_att_perm; exact P|]. eexists. split; [|reflexivity]. apply map_ext. intros u. apply q_dr_perm; [exact P|reflexivity].
Qed.
Lemma q_share_perm c l l' : Permutation l l' -> q_share c l = q_share c l'.
Proof. intros P. unfold q_share. rewrite (Permutation_length (filter_perm (q_in_pair c) _ _ P)), (Permutation_length P). reflexivity. Qed.
Lemma dddrc_perm o k m tl l l' : rfits_symmetric o -> Permutation l l' -> same_dddrc l l' (ddd_rc o k m tl l) (ddd_rc o k m tl l').
Proof.
  intros FS P. unfold ddd_rc, q_neg. rewrite (existsb_perm _ _ _ P), (forallb_perm _ _ _ P), (existsb_perm (fun u => q_sg u =? 4)%Z _ _ P), (existsb_perm q_post _ _ P), (existsb_perm (fun u => negb (q_post u)) _ _ P).
  destruct (existsb _ l'); [cbn; trivial|]. destruct (forallb q_sg_ok l'); [|cbn; trivial]. destruct (existsb _ l'); [|cbn; trivial].
  destruct (existsb _ l'); [|cbn; trivial]. destruct (existsb _ l'); [|cbn; trivial]. cbn [negb].
  assert (PN := q_normalise_perm _ _ P). unfold all_did_rc.
  assert (X3 := did_perm o k m tl _ _ FS (q_pair_perm 3 _ _ PN)). assert (X2 := did_perm o k m tl _ _ FS (q_pair_perm 2 _ _ PN)).
  assert (X1 := did_perm o k m tl _ _ FS (q_pair_perm 1 _ _ PN)).
  destruct (did_rc o k m tl (q_pair 3 (q_normalise l))) as [| | |a3 i3], (did_rc o k m tl (q_pair 3 (q_normalise l'))) as [| | |b3 j3]; try contradiction;
  destruct (did_rc o k m tl (q_pair 2 (q_normalise l))) as [| | |a2 i2], (did_rc o k m tl (q_pair 2 (q_normalise l'))) as [| | |b2 j2]; try contradiction;
  destruct (did_rc o k m tl (q_pair 1 (q_normalise l))) as [| | |a1 i1], (did_rc o k m tl (q_pair 1 (q_normalise l'))) as [| | |b1 j1]; try contradiction; try exact I.
  destruct X3 as [-> [G3 [-> ->]]]. destruct X2 as [-> [G2 [-> ->]]]. destruct X1 as [-> [G1 [-> ->]]]. cbn [same_dddrc].
  repeat (split; [reflexivity|]). rewrite !dddrc_inf_pointwise, !(q_share_perm _ _ _ PN).
  set (H := fun u => q_share 3 (q_normalise l') * qterm 3 G3 u + q_share 2 (q_normalise l') * qterm 2 G2 u - q_share 1 (q_normalise l') * qterm 1 G1 u).
  unfold q_normalise. rewrite !map_map, !combine_map_self, (mean_perm q_w _ _ P). apply Permutation_map. exact P.
Qed.
