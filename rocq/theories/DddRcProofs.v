(** Proofs for C107-C109: inversion, pairs, centring, no covariates, scale and order. *)
From Verif Require Import Base ListLib ReduceModel ReduceProofs2 Calc DrdidModel DrdidSpec DrdidProofs DrdidProofs2 DrdidProofs3 DrdidProofs4 DrdidProofs5 DrdidProofs6 DrdidProofs7 RcModel RcSpec RcCalc RcProofs RcProofs2 RcProofs3 RcProofs4 DddModel DddProofs DddProofs3 DddRcModel DddRcSpec.

(** ** one comparison *)
Definition drouts (k : nat) (c0 c1 t0 t1 : list Qc) : q_outs := {| qo_c0 := rout k c0; qo_c1 := rout k c1; qo_t0 := rout k t0; qo_t1 := rout k t1 |}.
Definition dralr (k : nat) (c0 c1 t0 t1 : list Qc) (MC0 MC1 MT0 MT1 : matrix) : q_alr :=
  {| qa_c0 := alr_ols k false false c0 MC0; qa_c1 := alr_ols k false true c1 MC1; qa_t0 := alr_ols k true false t0 MT0; qa_t1 := alr_ols k true true t1 MT1 |}.
Definition regps : q_ps := {| qp_keep := fun _ => 1; qp_ps := fun _ => 1; qp_H := [] |}.
Definition logps (o : roracle) (k : nat) (tl : Qc) (l : list runit) (gamma : list Qc) (V : matrix) : q_ps :=
  {| qp_keep := q_keep tl (qps_raw (ro_mu o) k gamma); qp_ps := qps_cap (ro_mu o) k gamma; qp_H := mscale (qn (length l)) V |}.
(** the propensity score part of a successful comparison *)
Definition ps_part (o : roracle) (k : nat) (m : emethod) (tl : Qc) (l : list runit) (p : q_ps) : Prop :=
  match m with
  | Reg => p = regps
  | _ => exists gamma V, ro_logit o l = Some gamma /\ ro_inv o (rps_gram k (qps_raw (ro_mu o) k gamma) l) = Some V /\ p = logps o k tl l gamma V
  end.
Lemma q_pscore_inv o k m tl l p : q_pscore o k m tl l = Some p <-> ps_part o k m tl l p.
Proof.
  unfold q_pscore, ps_part. destruct m.
  - split.
    + destruct (ro_logit o l) as [g|]; [|discriminate]. destruct (ro_inv o (rps_gram k (qps_raw (ro_mu o) k g) l)) as [V|] eqn:E; [|discriminate]. intros H. injection H as <-. exists g, V. auto.
    + intros [g [V [-> [E ->]]]]. rewrite E. reflexivity.
  - split; [intros H; injection H as <-; reflexivity|intros ->; reflexivity].
  - split.
    + destruct (ro_logit o l) as [g|]; [|discriminate]. destruct (ro_inv o (rps_gram k (qps_raw (ro_mu o) k g) l)) as [V|] eqn:E; [|discriminate]. intros H. injection H as <-. exists g, V. auto.
    + intros [g [V [-> [E ->]]]]. rewrite E. reflexivity.
Qed.
Definition reg_part (o : roracle) (k : nat) (l : list runit) (p : q_ps) (a : Qc) (i : list Qc) : Prop :=
  exists c0 c1 M0 M1, q_fit o k false false l = Some c0 /\ q_fit o k false true l = Some c1 /\
    ro_inv o (rgram k false false l) = Some M0 /\ ro_inv o (rgram k false true l) = Some M1 /\
    a = q_reg_att p k c0 c1 l /\ i = map (q_reg_inf p k c0 c1 M0 M1 l) l.
Definition dr_part (o : roracle) (k : nat) (l : list runit) (p : q_ps) (a : Qc) (i : list Qc) : Prop :=
  mean (qw_c0 p) l <> 0 /\ mean (qw_c1 p) l <> 0 /\
  exists c0 c1 t0 t1 MC0 MC1 MT0 MT1, q_fit o k false false l = Some c0 /\ q_fit o k false true l = Some c1 /\ q_fit o k true false l = Some t0 /\ q_fit o k true true l = Some t1 /\
    ro_inv o (rgram k false false l) = Some MC0 /\ ro_inv o (rgram k false true l) = Some MC1 /\ ro_inv o (rgram k true false l) = Some MT0 /\ ro_inv o (rgram k true true l) = Some MT1 /\
    a = q_dr_att p (drouts k c0 c1 t0 t1) l /\ i = map (q_dr_inf p k (drouts k c0 c1 t0 t1) (q_or_inf p k (dralr k c0 c1 t0 t1 MC0 MC1 MT0 MT1) l) l) l.
Definition ipw_part (k : nat) (l : list runit) (p : q_ps) (a : Qc) (i : list Qc) : Prop :=
  mean (qw_c0 p) l <> 0 /\ mean (qw_c1 p) l <> 0 /\ a = q_dr_att p outs0 l /\ i = map (q_dr_inf p k outs0 (fun _ => (0, 0, 0)) l) l.
Definition did_facts (o : roracle) (k : nat) (m : emethod) (tl : Qc) (l : list runit) (a : Qc) (i : list Qc) (p : q_ps) : Prop :=
  ps_part o k m tl l p /\ mean (qw_t0 p) l <> 0 /\ mean (qw_t1 p) l <> 0 /\
  match m with Reg => reg_part o k l p a i | Dr => dr_part o k l p a i | Ipw => ipw_part k l p a i end.
Lemma did_rc_inv o k m tl l a i : did_rc o k m tl l = PEst a i <-> exists p, did_facts o k m tl l a i p.
Proof.
  unfold did_rc, did_facts. split.
  - destruct (q_pscore o k m tl l) as [p|] eqn:EP; [|discriminate]. apply q_pscore_inv in EP.
    destruct (Qceqb_spec (mean (qw_t0 p) l) 0) as [|N0]; [discriminate|]. destruct (Qceqb_spec (mean (qw_t1 p) l) 0) as [|N1]; [discriminate|]. cbn [orb].
    intros E. exists p. split; [exact EP|]. split; [exact N0|]. split; [exact N1|]. destruct m.
    + destruct (Qceqb_spec (mean (qw_c0 p) l) 0) as [|N2]; [discriminate|]. destruct (Qceqb_spec (mean (qw_c1 p) l) 0) as [|N3]; [discriminate|]. cbn [orb] in E.
      destruct (q_fit o k false false l) as [c0|] eqn:F0; [|discriminate]. destruct (q_fit o k false true l) as [c1|] eqn:F1; [|discriminate].
      destruct (q_fit o k true false l) as [t0|] eqn:F2; [|discriminate]. destruct (q_fit o k true true l) as [t1|] eqn:F3; [|discriminate].
      destruct (ro_inv o (rgram k false false l)) as [M0|] eqn:I0; [|discriminate]. destruct (ro_inv o (rgram k false true l)) as [M1|] eqn:I1; [|discriminate].
      destruct (ro_inv o (rgram k true false l)) as [M2|] eqn:I2; [|discriminate]. destruct (ro_inv o (rgram k true true l)) as [M3|] eqn:I3; [|discriminate].
      injection E as <- <-. split; [exact N2|]. split; [exact N3|]. exists c0, c1, t0, t1, M0, M1, M2, M3. repeat split; auto.
    + destruct (q_fit o k false false l) as [c0|] eqn:F0; [|discriminate]. destruct (q_fit o k false true l) as [c1|] eqn:F1; [|discriminate].
      destruct (ro_inv o (rgram k false false l)) as [M0|] eqn:I0; [|discriminate]. destruct (ro_inv o (rgram k false true l)) as [M1|] eqn:I1; [|discriminate].
      injection E as <- <-. exists c0, c1, M0, M1. repeat split; auto.
    + destruct (Qceqb_spec (mean (qw_c0 p) l) 0) as [|N2]; [discriminate|]. destruct (Qceqb_spec (mean (qw_c1 p) l) 0) as [|N3]; [discriminate|]. cbn [orb] in E.
      injection E as <- <-. split; [exact N2|]. split; [exact N3|]. auto.
  - intros [p [EP [N0 [N1 F]]]]. apply q_pscore_inv in EP. rewrite EP.
    destruct (Qceqb_spec (mean (qw_t0 p) l) 0) as [|_]; [contradiction|]. destruct (Qceqb_spec (mean (qw_t1 p) l) 0) as [|_]; [contradiction|]. cbn [orb]. destruct m.
    + destruct F as [N2 [N3 [c0 [c1 [t0 [t1 [M0 [M1 [M2 [M3 [F0 [F1 [F2 [F3 [I0 [I1 [I2 [I3 [-> ->]]]]]]]]]]]]]]]]]]]. rewrite F0, F1, F2, F3, I0, I1, I2, I3.
      destruct (Qceqb_spec (mean (qw_c0 p) l) 0) as [|_]; [contradiction|]. destruct (Qceqb_spec (mean (qw_c1 p) l) 0) as [|_]; [contradiction|]. reflexivity.
    + destruct F as [c0 [c1 [M0 [M1 [F0 [F1 [I0 [I1 [-> ->]]]]]]]]]. rewrite F0, F1, I0, I1. reflexivity.
    + destruct F as [N2 [N3 [-> ->]]].
      destruct (Qceqb_spec (mean (qw_c0 p) l) 0) as [|_]; [contradiction|]. destruct (Qceqb_spec (mean (qw_c1 p) l) 0) as [|_]; [contradiction|]. reflexivity.
Qed.
Lemma q_fit_inv o k d t l b : q_fit o k d t l = Some b -> ro_wls o (cell d t l) = Some b /\ cell d t l <> [] /\ (k <= length (cell d t l))%nat.
Proof.
  unfold q_fit. cbn zeta. destruct (Nat.eqb_spec (length (cell d t l)) 0) as [|N]; [discriminate|]. destruct (Nat.ltb_spec (length (cell d t l)) k); [discriminate|]. cbn [orb].
  intros E. split; [exact E|]. split; [|lia]. destruct (cell d t l); [cbn in N; congruence|discriminate].
Qed.
Lemma q_fit_ols o k d t l b : q_fit o k d t l = Some b <-> ols_rc o k d t l = FCoef b.
Proof.
  unfold q_fit, ols_rc. cbn zeta. destruct (cell d t l) as [|x c] eqn:E; [cbn; split; discriminate|]. cbn [length Nat.eqb orb].
  destruct (S (length c) <? k)%nat; [split; discriminate|]. destruct (ro_wls o (x :: c)); split; intros H; try discriminate H; injection H as ->; reflexivity.
Qed.

(** ** the weights as sampling weight times a coefficient *)
Definition qk_ok (p : q_ps) : Prop := forall u, r_d u = true -> qp_keep p u = 1.
Lemma ps_part_keep o k m tl l p : ps_part o k m tl l p -> qk_ok p.
Proof. intros H u D. destruct m; [destruct H as [g [V [_ [_ ->]]]]|unfold ps_part in H; subst p|destruct H as [g [V [_ [_ ->]]]]]; cbn; try reflexivity; unfold q_keep; rewrite D; reflexivity. Qed.
Definition qC0 (p : q_ps) (u : runit) : Qc := ind (in_cell false false u) * (qp_keep p u * (qp_ps p u / (1 - qp_ps p u))).
Definition qC1 (p : q_ps) (u : runit) : Qc := ind (in_cell false true u) * (qp_keep p u * (qp_ps p u / (1 - qp_ps p u))).
Section W.
  Context (p : q_ps) (K : qk_ok p).
  Lemma qt0_c u : qw_t0 p u = r_w u * cT0 u. Proof. unfold qw_t0, cT0, r_D. destruct (r_d u) eqn:D; cbn [ind]; [rewrite (K u D)|]; ring. Qed.
  Lemma qt1_c u : qw_t1 p u = r_w u * cT1 u. Proof. unfold qw_t1, cT1, r_D. destruct (r_d u) eqn:D; cbn [ind]; [rewrite (K u D)|]; ring. Qed.
  Lemma qd_c u : qw_d p u = r_w u * r_D u. Proof. unfold qw_d, r_D. destruct (r_d u) eqn:D; cbn [ind]; [rewrite (K u D)|]; ring. Qed.
  Lemma qc0_c u : qw_c0 p u = r_w u * qC0 p u. Proof. unfold qw_c0, qC0, in_cell, r_D, r_P. destruct (r_d u), (r_post u); cbn [Bool.eqb andb ind]; unfold Qcdiv; ring. Qed.
  Lemma qc1_c u : qw_c1 p u = r_w u * qC1 p u. Proof. unfold qw_c1, qC1, in_cell, r_D, r_P. destruct (r_d u), (r_post u); cbn [Bool.eqb andb ind]; unfold Qcdiv; ring. Qed.
  Lemma qd_neq0 l : (forall u, In u l -> 0 <= r_w u) -> mean (qw_t0 p) l <> 0 -> mean (qw_d p) l <> 0.
  Proof.
    intros W N. rewrite (mean_ext (qw_d p) wr_cont) by (intros; apply qd_c). apply wr_cont_neq0; [exact W|].
    rewrite (mean_ext wr_treat_pre (qw_t0 p)) by (intros; rewrite wr0_c, qt0_c; reflexivity). exact N.
  Qed.
End W.

(** ** centring *)
Lemma q_reg_inf_lead p k c0 c1 M0 M1 l u (g := fun u => rout k c1 u - rout k c0 u) (m1 := rmean_col k (qw_d p) l) :
  q_reg_inf p k c0 c1 M0 M1 l u = lead (qw_t1 p) r_y l u - lead (qw_t0 p) r_y l u
    - (lead (qw_d p) g l u + (dotk k (alr_ols k false true c1 M1 u) m1 - dotk k (alr_ols k false false c0 M0 u) m1) / mean (qw_d p) l).
Proof. unfold q_reg_inf, lead, eta. cbn zeta. rewrite (att_wmean (qw_d p)). subst g m1. cbn beta. unfold wmean, Qcdiv. ring. Qed.
Definition qscore (k : nat) (m : emethod) (p : q_ps) (l : list runit) : Prop := m = Reg \/ rscore_equations k (qp_ps p) l.
Lemma did_centred o k m tl l a i p : rwls_ok o k -> (forall u, In u l -> 0 <= r_w u) -> did_facts o k m tl l a i p -> qscore k m p l -> qsum i = 0.
Proof.
  intros WO W [EP [N0 [N1 F]]] SC. assert (K := ps_part_keep _ _ _ _ _ _ EP). assert (ND := qd_neq0 p K l W N0).
  assert (NE : forall d t b, q_fit o k d t l = Some b -> rnormal_equations k (cell d t l) b) by (intros d t b E; apply q_fit_inv in E; apply WO, E).
  destruct m.
  - destruct SC as [SC|SC]; [discriminate|]. destruct F as [N2 [N3 [c0 [c1 [t0 [t1 [M0 [M1 [M2 [M3 [F0 [F1 [F2 [F3 [_ [_ [_ [_ [_ ->]]]]]]]]]]]]]]]]]]].
    apply NE in F0. apply NE in F1. apply NE in F2. apply NE in F3. rewrite qsum_map. apply mean_zero_sum. unfold q_dr_inf, q_or_inf, dralr. cbn zeta. cbn [qa_c0 qa_c1 qa_t0 qa_t1].
    rewrite (mean_ext _ (fun u => (lead (qw_t1 p) (fun u0 => r_y u0 - q_own (drouts k c0 c1 t0 t1) u0) l u - lead (qw_t0 p) (fun u0 => r_y u0 - q_own (drouts k c0 c1 t0 t1) u0) l u
      + (dotk k (alr_ols k false true c1 M1 u) (or_moment k (qw_t1 p) r_P l) + dotk k (alr_ols k false false c0 M0 u) (or_moment k (qw_t0 p) (fun u0 => 1 - r_P u0) l)))
      - (lead (qw_c1 p) (fun u0 => r_y u0 - q_own (drouts k c0 c1 t0 t1) u0) l u - lead (qw_c0 p) (fun u0 => r_y u0 - q_own (drouts k c0 c1 t0 t1) u0) l u
         + dotk k (alr_logit k (qp_ps p) (qp_H p) u) (vsub k (ps_moment k (qw_c1 p) (fun u0 => r_y u0 - q_own (drouts k c0 c1 t0 t1) u0) l) (ps_moment k (qw_c0 p) (fun u0 => r_y u0 - q_own (drouts k c0 c1 t0 t1) u0) l))
         + (dotk k (alr_ols k false true c1 M1 u) (or_moment k (qw_c1 p) r_P l) + dotk k (alr_ols k false false c0 M0 u) (or_moment k (qw_c0 p) (fun u0 => 1 - r_P u0) l)))
      + ((lead (qw_d p) (fun u0 => rout k t1 u0 - rout k c1 u0) l u - lead (qw_t1 p) (fun u0 => rout k t1 u0 - rout k c1 u0) l u)
         - (lead (qw_d p) (fun u0 => rout k t0 u0 - rout k c0 u0) l u - lead (qw_t0 p) (fun u0 => rout k t0 u0 - rout k c0 u0) l u))
      + ((dotk k (alr_ols k true true t1 M3 u) (rmean_col k (fun v => qw_d p v / mean (qw_d p) l - qw_t1 p v / mean (qw_t1 p) l) l)
          - dotk k (alr_ols k false true c1 M1 u) (rmean_col k (fun v => qw_d p v / mean (qw_d p) l - qw_t1 p v / mean (qw_t1 p) l) l))
         - (dotk k (alr_ols k true false t0 M2 u) (rmean_col k (fun v => qw_d p v / mean (qw_d p) l - qw_t0 p v / mean (qw_t0 p) l) l)
          - dotk k (alr_ols k false false c0 M0 u) (rmean_col k (fun v => qw_d p v / mean (qw_d p) l - qw_t0 p v / mean (qw_t0 p) l) l)))))
      by (intros u _; rewrite !dotk_vsub_l; reflexivity).
    repeat (rewrite mean_add || rewrite mean_sub). rewrite !lead_centred by assumption. rewrite !alr_ols_centred, alr_logit_centred by assumption. ring.
  - destruct F as [c0 [c1 [M0 [M1 [F0 [F1 [_ [_ [_ ->]]]]]]]]]. apply NE in F0. apply NE in F1. rewrite qsum_map. apply mean_zero_sum.
    rewrite (mean_ext _ _ _ (fun u _ => q_reg_inf_lead p k c0 c1 M0 M1 l u)).
    rewrite !mean_sub, mean_add, mean_div_r, mean_sub, !lead_centred, !alr_ols_centred by assumption. unfold Qcdiv. ring.
  - destruct SC as [SC|SC]; [discriminate|]. destruct F as [N2 [N3 [_ ->]]]. rewrite qsum_map. apply mean_zero_sum. unfold q_dr_inf. cbn zeta.
    repeat (rewrite mean_add || rewrite mean_sub). rewrite !lead_centred by assumption. rewrite alr_logit_centred by assumption.
    rewrite !(mean_0 (fun _ : runit => 0)) by apply sumf_0. ring.
Qed.
