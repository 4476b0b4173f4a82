(** Proofs for C53-C56, continued: no covariates, empty subgroups, shocks, centring, order, scale. *)
From Verif Require Import Base ListLib ReduceModel ReduceProofs2 Calc DrdidModel DrdidSpec DrdidProofs DrdidProofs2 DrdidProofs3 DrdidProofs4 DrdidProofs5 DrdidProofs9 DrdidProofs10 DddModel DddSpec DddProofs.

(** ** no covariates *)
Lemma odds_flat tl ps p v l : (forall u, In u l -> ps u = p) -> Qcltb p tl = true -> p / (1 - p) <> 0 -> odds_mean tl ps v l = group_mean false v l.
Proof.
  intros Hp Ht Hq. unfold odds_mean, group_mean. cbn zeta. rewrite !sumf_filter. symmetry. rewrite <- (ratio_scale (p / (1 - p)) _ _ Hq), <- !sumf_mul_l.
  f_equal; apply sumf_ext; intros u Hu; rewrite (Hp u Hu), Ht; destruct (p_d u); cbn; ring.
Qed.
Lemma sum_neq_mean {A} (f : A -> Qc) l : mean f l <> 0 -> sumf f l <> 0.
Proof. intros H Z. apply H. unfold mean. rewrite Z. apply Qcdiv_0_l. Qed.
Lemma weight_true m tl ps l : mean (tw_treat m tl ps) l <> 0 -> sumf p_w (filter (fun u => Bool.eqb (p_d u) true) l) <> 0.
Proof.
  intros H. apply sum_neq_mean in H. intros Z. apply H. rewrite <- Z, sumf_filter. apply sumf_ext. intros u _. rewrite twt. unfold p_D. destruct (p_d u); cbn; ring.
Qed.
Lemma weight_false m tl ps l : (forall u, In u l -> 0 <= p_w u) -> mean (tw_control m tl ps) l <> 0 -> sumf p_w (filter (fun u => Bool.eqb (p_d u) false) l) <> 0.
Proof.
  intros W H. apply sum_neq_mean in H. intros Z. apply H. apply sumf_zero. intros u Hu. rewrite twc.
  assert (X : p_d u = false -> p_w u = 0).
  { intros D. apply (nonneg_sum_zero p_w (filter (fun u => Bool.eqb (p_d u) false) l)); [|exact Z|].
    - intros a Ha. apply filter_In in Ha. apply W, Ha.
    - apply filter_In. split; [exact Hu|]. rewrite D. reflexivity. }
  unfold cwm, cw, p_D. destruct (p_d u) eqn:D.
  - destruct m; cbn; ring.
  - rewrite X by reflexivity. ring.
Qed.
Lemma group_mean_minus_const b v c l : sumf p_w (filter (fun u => Bool.eqb (p_d u) b) l) <> 0 ->
  group_mean b (fun u => v u - c) l = group_mean b v l - c.
Proof. intros H. rewrite group_mean_sub. f_equal. apply group_mean_const; [reflexivity|exact H]. Qed.
Lemma group_mean_ext b v v' l : (forall u, In u l -> v u = v' u) -> group_mean b v l = group_mean b v' l.
Proof. intros H. unfold group_mean. f_equal. apply sumf_ext. intros u Hu. apply filter_In in Hu. rewrite H by tauto. reflexivity. Qed.
Lemma nocov_pair o m tl l a i : (forall u, In u l -> p_x u = [1]) -> (forall u, In u l -> 0 <= p_w u) ->
  compute_did o 1 m tl l = Some (a, i) -> a = group_mean true p_dy l - group_mean false p_dy l.
Proof.
  intros HX HW E. apply compute_did_inv in E. destruct E as [ps [out [M [V F]]]]. destruct F as [Fp Fo Ft Fc Fa _].
  rewrite Fa, pair_att_value.
  assert (HO : exists b, forall u, In u l -> out u = b).
  { destruct m; [destruct Fo as [b [_ [-> _]]]; exists (nth 0 b 0)|destruct Fo as [b [_ [-> _]]]; exists (nth 0 b 0)|subst out; exists 0]; intros u Hu; try reflexivity;
      rewrite (HX u Hu); apply dotk_one. }
  destruct HO as [b HO].
  assert (HT := weight_true _ _ _ _ Ft). assert (HC := weight_false _ _ _ _ HW Fc).
  assert (EC : cmean m tl ps (fun u => p_dy u - out u) l = group_mean false (fun u => p_dy u - out u) l).
  { unfold cmean. destruct m; [|reflexivity|].
    - destruct Fp as [g [_ [-> _]]]. apply (odds_flat _ _ (let z := o_mu o (nth 0 g 0) in if Qcltb (1 - eps6) z then 1 - eps6 else z)).
      + intros u Hu. unfold ps_cap, ps_raw. rewrite (HX u Hu), dotk_one. reflexivity.
      + cbn zeta. match goal with |- Qcltb ?p tl = true => set (q := p) end. destruct (Qcltb q tl) eqn:EQ; [reflexivity|]. exfalso. apply sum_neq_mean in Fc. apply Fc. apply sumf_zero.
        intros u Hu. rewrite twc. unfold cwm, cw. replace (ps_cap (o_mu o) 1 g u) with q by (unfold ps_cap, ps_raw; rewrite (HX u Hu), dotk_one; reflexivity). rewrite EQ.
        destruct (p_d u); cbn; ring.
      + cbn zeta. match goal with |- ?p / _ <> 0 => set (q := p) end. intros EQ. apply sum_neq_mean in Fc. apply Fc. apply sumf_zero.
        intros u Hu. rewrite twc. unfold cwm, cw. replace (ps_cap (o_mu o) 1 g u) with q by (unfold ps_cap, ps_raw; rewrite (HX u Hu), dotk_one; reflexivity). rewrite EQ. ring.
    - destruct Fp as [g [_ [-> _]]]. apply (odds_flat _ _ (let z := o_mu o (nth 0 g 0) in if Qcltb (1 - eps6) z then 1 - eps6 else z)).
      + intros u Hu. unfold ps_cap, ps_raw. rewrite (HX u Hu), dotk_one. reflexivity.
      + cbn zeta. match goal with |- Qcltb ?p tl = true => set (q := p) end. destruct (Qcltb q tl) eqn:EQ; [reflexivity|]. exfalso. apply sum_neq_mean in Fc. apply Fc. apply sumf_zero.
        intros u Hu. rewrite twc. unfold cwm, cw. replace (ps_cap (o_mu o) 1 g u) with q by (unfold ps_cap, ps_raw; rewrite (HX u Hu), dotk_one; reflexivity). rewrite EQ.
        destruct (p_d u); cbn; ring.
      + cbn zeta. match goal with |- ?p / _ <> 0 => set (q := p) end. intros EQ. apply sum_neq_mean in Fc. apply Fc. apply sumf_zero.
        intros u Hu. rewrite twc. unfold cwm, cw. replace (ps_cap (o_mu o) 1 g u) with q by (unfold ps_cap, ps_raw; rewrite (HX u Hu), dotk_one; reflexivity). rewrite EQ. ring. }
  rewrite EC. rewrite !(group_mean_ext _ (fun u => p_dy u - out u) (fun u => p_dy u - b)) by (intros; rewrite HO by assumption; reflexivity).
  rewrite !group_mean_minus_const by assumption. ring.
Qed.

(** ** facts about the normalised pair samples *)
Lemma pair_weights_nonneg c l : (forall u, In u l -> 0 <= t_w u) -> forall p, In p (pair_units c l) -> 0 <= p_w p.
Proof. intros W p Hp. apply in_pair_units in Hp. destruct Hp as [u [Hu [_ ->]]]. apply W, Hu. Qed.
Lemma scaled_nonneg c l : 0 <= c -> (forall u, In u l -> 0 <= p_w u) -> forall u, In u (map (scale_w c) l) -> 0 <= p_w u.
Proof. intros Hc W u Hu. apply in_map_iff in Hu. destruct Hu as [v [<- Hv]]. cbn. apply Qcmult_nonneg; [exact Hc|apply W, Hv]. Qed.
Lemma nc_scale k c l : 0 < c -> no_collinearity k l -> no_collinearity k (map (scale_w c) l).
Proof.
  intros Hc NC v Hv. apply NC. intros u Hu D W. apply (Hv (scale_w c u)); [apply in_map, Hu|exact D|].
  cbn. setoid_replace 0 with (0 * p_w u) by ring. apply Qcmult_lt_compat_r; assumption.
Qed.

Lemma ddd_no_cov o m l att a3 a2 a1 inf : (forall u, In u l -> t_x u = [1]) -> ddd_panel o 1 m l = TEst att a3 a2 a1 inf ->
  let d := fun s => sub_mean s t_dy l in
  att = (d 4%Z - d 3%Z) - (d 2%Z - d 1%Z) /\ a3 = d 4%Z - d 3%Z /\ a2 = d 4%Z - d 2%Z /\ a1 = d 4%Z - d 1%Z.
Proof.
  intros HX E d. apply ddd_inv in E. destruct E as [W [_ [i3 [i2 [i1 [E3 [E2 [E1 [-> _]]]]]]]]].
  assert (Hm := pair_mean_weights _ _ _ _ _ _ _ _ E3). assert (P := t_mean_pos _ W Hm).
  assert (G : forall c a i, (c <> 4)%Z -> compute_did o 1 m trim995 (pair_units c (t_normalise l)) = Some (a, i) -> a = d 4%Z - d c).
  { intros c a i Hc E. rewrite pair_normalise in E. apply nocov_pair in E.
    - rewrite E, !group_mean_scale by (auto using Qc_pos_neq0). rewrite gm_true, gm_false by exact Hc. reflexivity.
    - intros p Hp. apply in_map_iff in Hp. destruct Hp as [q [<- Hq]]. apply in_pair_units in Hq. destruct Hq as [u [Hu [_ ->]]]. cbn. apply HX, Hu.
    - apply scaled_nonneg; [apply Qclt_le_weak, P|]. apply pair_weights_nonneg, W. }
  apply G in E3; [|discriminate]. apply G in E2; [|discriminate]. apply G in E1; [|discriminate]. rewrite E3, E2, E1. repeat split; ring.
Qed.

Lemma sub_weight_pos s l : (forall u, In u l -> 0 <= t_w u) -> sub_weight s l <> 0 -> 0 < sub_weight s l.
Proof.
  intros W H. destruct (Qc_le_or_lt (sub_weight s l) 0) as [L|L]; [|exact L]. exfalso. apply H, Qcle_antisym; [exact L|].
  apply sumf_nonneg. intros u Hu. apply filter_In in Hu. apply W, Hu.
Qed.
Lemma ddd_all_subgroups o k m l att a3 a2 a1 inf : ddd_panel o k m l = TEst att a3 a2 a1 inf ->
  forall s, In s [1; 2; 3; 4]%Z -> 0 < sub_weight s l.
Proof.
  intros E. apply ddd_inv in E. destruct E as [W [_ [i3 [i2 [i1 [E3 [E2 [E1 _]]]]]]]].
  assert (Hm := pair_mean_weights _ _ _ _ _ _ _ _ E3). assert (P := t_mean_pos _ W Hm).
  assert (G : forall c a i, (c <> 4)%Z -> compute_did o k m trim995 (pair_units c (t_normalise l)) = Some (a, i) -> sub_weight 4 l <> 0 /\ sub_weight c l <> 0).
  { intros c a i Hc E. apply compute_did_inv in E. destruct E as [ps [out [M [V F]]]]. destruct F as [_ _ Ft Fc _ _].
    assert (HT := weight_true _ _ _ _ Ft). rewrite pair_normalise in Fc, HT.
    assert (HC := weight_false _ _ _ _ (scaled_nonneg _ _ (Qclt_le_weak _ _ P) (pair_weights_nonneg c l W)) Fc).
    assert (X : forall b, sumf p_w (filter (fun u => Bool.eqb (p_d u) b) (map (scale_w (/ mean t_w l)) (pair_units c l))) = / mean t_w l * sub_weight (if b then 4 else c)%Z l).
    { intros b. unfold sub_weight, pair_units. rewrite !sumf_filter, !sumf_map, !sumf_filter, <- sumf_mul_l. apply sumf_ext. intros u _.
      unfold in_pair. cbn [as_pair scale_w set_w p_d p_w]. destruct b, (Z.eqb_spec (t_sg u) 4), (Z.eqb_spec (t_sg u) c); cbn; try ring; exfalso; congruence. }
    rewrite X in HT, HC. split; intros Z; [apply HT|apply HC]; rewrite Z; ring. }
  intros s Hs. apply sub_weight_pos; [exact W|].
  destruct Hs as [<-|[<-|[<-|[<-|[]]]]]; [apply (G 1%Z _ _ ltac:(discriminate) E1)|apply (G 2%Z _ _ ltac:(discriminate) E2)|apply (G 3%Z _ _ ltac:(discriminate) E3)|apply (G 3%Z _ _ ltac:(discriminate) E3)].
Qed.

(** ** shifts of the outcome changes *)
Section Shift.
  Context (f : punit -> punit) (C P Q : Qc) (l : list punit).
  Context (Hd : forall u, p_d (f u) = p_d u) (Hw : forall u, p_w (f u) = p_w u) (Hx : forall u, p_x (f u) = p_x u).
  Context (Hy : forall u, In u l -> p_dy (f u) = C * p_dy u + (if p_d u then P else Q)).
  Notation l' := (map f l).
  Lemma sh_D u : p_D (f u) = p_D u. Proof. unfold p_D. rewrite Hd. reflexivity. Qed.
  Lemma sh_view : map logit_view l' = map logit_view l.
  Proof. rewrite map_map. apply map_ext. intros u. unfold logit_view. rewrite Hd, Hw, Hx. reflexivity. Qed.
  Lemma sh_ols k : ols_gram k l' = ols_gram k l.
  Proof. unfold ols_gram, mat_of. apply map_ext. intros i. apply map_ext. intros j. rewrite mean_map. apply mean_ext. intros u _. unfold x_at. rewrite Hx, Hw, sh_D. reflexivity. Qed.
  Lemma sh_psg k ps : (forall u, ps (f u) = ps u) -> ps_gram k ps l' = ps_gram k ps l.
  Proof. intros Hp. unfold ps_gram, mat_of. apply map_ext. intros i. apply map_ext. intros j. rewrite sumf_map. apply sumf_ext. intros u _. unfold x_at. rewrite Hx, Hw, Hp. reflexivity. Qed.
  Lemma sh_cwm m tl ps u : (forall u, ps (f u) = ps u) -> cwm m tl ps (f u) = cwm m tl ps u.
  Proof. intros Hp. unfold cwm, cw. rewrite sh_D, Hd, Hp. reflexivity. Qed.
  Lemma sh_wt m tl ps u : (forall u, ps (f u) = ps u) -> tw_treat m tl ps (f u) = tw_treat m tl ps u.
  Proof. intros Hp. rewrite !twt, Hw, sh_D. reflexivity. Qed.
  Lemma sh_wc m tl ps u : (forall u, ps (f u) = ps u) -> tw_control m tl ps (f u) = tw_control m tl ps u.
  Proof. intros Hp. rewrite !twc, Hw, sh_cwm by exact Hp. reflexivity. Qed.
  (** regression fit *)
  Lemma sh_out o k beta beta' : wls_ok o k -> (forall u, In u l -> 0 <= p_w u) -> no_collinearity k l -> (Q = 0 \/ has_intercept l /\ (1 <= k)%nat) ->
    o_wls o (ctrl l) = Some beta -> o_wls o (ctrl l') = Some beta' -> forall u, In u l -> dotk k (p_x u) beta' = C * dotk k (p_x u) beta + Q.
  Proof.
    intros WO W NC I E E'. apply WO, normal_of_controls in E. apply WO, normal_of_controls in E'.
    apply (fit_affine k l C Q beta beta' (fun u => if p_d u then C * p_dy u + Q else p_dy (f u)) W NC I E).
    - intros u Hu. destruct (p_d u) eqn:D; [reflexivity|]. rewrite Hy by exact Hu. rewrite D. reflexivity.
    - intros j Hj. specialize (E' j Hj). rewrite sumf_map in E'. rewrite <- E'. apply sumf_ext. intros u Hu. unfold x_at. rewrite Hw, Hx, sh_D. unfold p_D. destruct (p_d u); cbn; ring.
  Qed.
  Context (m : emethod) (k : nat) (tl : Qc) (ps out out' : punit -> Qc) (A B : Qc).
  Context (Hp : forall u, ps (f u) = ps u).
  Context (Hr : forall u, In u l -> p_dy (f u) - out' (f u) = C * (p_dy u - out u) + (if p_d u then A else B)).
  Context (Ht : mean (tw_treat m tl ps) l <> 0) (Hc : mean (tw_control m tl ps) l <> 0).
  Notation r := (fun u => p_dy u - out u).
  Notation r' := (fun u => p_dy u - out' u).
  Lemma sh_mt : mean (tw_treat m tl ps) l' = mean (tw_treat m tl ps) l.
  Proof. rewrite mean_map. apply mean_ext. intros u _. apply sh_wt, Hp. Qed.
  Lemma sh_mc : mean (tw_control m tl ps) l' = mean (tw_control m tl ps) l.
  Proof. rewrite mean_map. apply mean_ext. intros u _. apply sh_wc, Hp. Qed.
  Lemma sh_eta_t : wmean (tw_treat m tl ps) r' l' = C * wmean (tw_treat m tl ps) r l + A.
  Proof.
    unfold wmean. rewrite sh_mt, mean_map. rewrite (mean_ext _ (fun u => C * (tw_treat m tl ps u * r u) + A * tw_treat m tl ps u)).
    - rewrite mean_add, !mean_mul_l. field. exact Ht.
    - intros u Hu. cbn beta. rewrite Hr, sh_wt by assumption. rewrite twt. unfold p_D. destruct (p_d u); cbn; ring.
  Qed.
  Lemma sh_eta_c : wmean (tw_control m tl ps) r' l' = C * wmean (tw_control m tl ps) r l + B.
  Proof.
    unfold wmean. rewrite sh_mc, mean_map. rewrite (mean_ext _ (fun u => C * (tw_control m tl ps u * r u) + B * tw_control m tl ps u)).
    - rewrite mean_add, !mean_mul_l. field. exact Hc.
    - intros u Hu. cbn beta. rewrite Hr, sh_wc by assumption. rewrite twc. unfold cwm, cw, p_D. destruct (p_d u), m; cbn; ring.
  Qed.
  Lemma sh_att : pair_att m tl ps out' l' = C * pair_att m tl ps out l + (A - B).
  Proof. unfold pair_att. rewrite sh_eta_t, sh_eta_c. ring. Qed.
  Lemma sh_mean_col (g g' : punit -> Qc) t : (forall u, In u l -> g' (f u) = t * g u) -> mean_col k g' l' = vscale t (mean_col k g l).
  Proof.
    intros H. unfold mean_col, vec_of, vscale. rewrite map_map. apply map_ext. intros j. rewrite mean_map, <- mean_mul_l. apply mean_ext. intros u Hu.
    unfold x_at. rewrite H, Hx by exact Hu. ring.
  Qed.
  Lemma dotk_vm_scale x M v c : dotk k (vm k (vscale c x) M) v = c * dotk k (vm k x M) v.
  Proof. rewrite !dotk_vm. apply dotk_scale_l. Qed.
  Lemma sh_alr M v u : (m = Ipw \/ B = 0) -> In u l -> m <> Ipw ->
    dotk k (alr_wols k out' M (f u)) v = C * dotk k (alr_wols k out M u) v.
  Proof.
    intros [E|E] Hu N; [contradiction|]. unfold alr_wols. rewrite !dotk_vm_scale, Hr, Hw, sh_D, Hx by exact Hu. subst B. unfold p_D. destruct (p_d u); cbn; ring.
  Qed.
  Lemma sh_inf M H u : (m = Ipw \/ B = 0) -> In u l -> pair_inf m k tl ps out' M H l' (f u) = C * pair_inf m k tl ps out M H l u.
  Proof.
    intros HB Hu. unfold pair_inf. cbn zeta. rewrite sh_eta_t, sh_eta_c, sh_mt, sh_mc, sh_wt, sh_wc, Hr by assumption.
    assert (X1 : mean_col k (tw_treat m tl ps) l' = mean_col k (tw_treat m tl ps) l).
    { rewrite (sh_mean_col (tw_treat m tl ps) (tw_treat m tl ps) 1) by (intros; rewrite sh_wt by exact Hp; ring). unfold vscale. rewrite (map_ext _ (fun x => x)) by (intros; ring). apply map_id. }
    assert (X2 : mean_col k (tw_control m tl ps) l' = mean_col k (tw_control m tl ps) l).
    { rewrite (sh_mean_col (tw_control m tl ps) (tw_control m tl ps) 1) by (intros; rewrite sh_wc by exact Hp; ring). unfold vscale. rewrite (map_ext _ (fun x => x)) by (intros; ring). apply map_id. }
    set (et := wmean (tw_treat m tl ps) r l). set (ec := wmean (tw_control m tl ps) r l).
    assert (X3 : mean_col k (fun v => tw_control m tl ps v * (p_dy v - out' v - (C * ec + B))) l' = vscale C (mean_col k (fun v => tw_control m tl ps v * (p_dy v - out v - ec)) l)).
    { apply sh_mean_col. intros v Hv. rewrite sh_wc by exact Hp. rewrite Hr by exact Hv. rewrite twc. unfold cwm, cw, p_D. destruct (p_d v), m; cbn; ring. }
    assert (X4 : alr_ps k ps H (f u) = alr_ps k ps H u) by (unfold alr_ps; rewrite Hw, sh_D, Hx, Hp; reflexivity).
    rewrite X1, X2, X3, X4, dotk_scale_r.
    assert (T1 : tw_treat m tl ps u * (C * (p_dy u - out u) + (if p_d u then A else B)) - tw_treat m tl ps u * (C * et + A) = C * (tw_treat m tl ps u * (p_dy u - out u) - tw_treat m tl ps u * et)).
    { rewrite twt. unfold p_D. destruct (p_d u); cbn; ring. }
    assert (T2 : tw_control m tl ps u * (C * (p_dy u - out u) + (if p_d u then A else B)) - tw_control m tl ps u * (C * ec + B) = C * (tw_control m tl ps u * (p_dy u - out u) - tw_control m tl ps u * ec)).
    { rewrite twc. unfold cwm, cw, p_D. destruct (p_d u), m; cbn; ring. }
    rewrite T1, T2. assert (SA : m <> Ipw -> forall v, dotk k (alr_wols k out' M (f u)) v = C * dotk k (alr_wols k out M u) v) by (intros N v; apply sh_alr; assumption).
    destruct m.
    - rewrite !SA by (intros X; discriminate X). unfold Qcdiv. ring.
    - rewrite !SA by (intros X; discriminate X). unfold Qcdiv. ring.
    - unfold Qcdiv. ring.
  Qed.
End Shift.

Lemma pair_shift o k m tl f C P Q l a i a' i' :
  (forall u, p_d (f u) = p_d u) -> (forall u, p_w (f u) = p_w u) -> (forall u, p_x (f u) = p_x u) ->
  (forall u, In u l -> p_dy (f u) = C * p_dy u + (if p_d u then P else Q)) ->
  (forall u, In u l -> 0 <= p_w u) -> logit_blind o ->
  (m <> Ipw -> wls_ok o k /\ no_collinearity k l /\ (Q = 0 \/ has_intercept l /\ (1 <= k)%nat)) ->
  compute_did o k m tl l = Some (a, i) -> compute_did o k m tl (map f l) = Some (a', i') ->
  a' = C * a + (P - Q) /\ i' = map (fun v => C * v) i.
Proof.
  intros Hd Hw Hx Hy W LB HM E E'. apply compute_did_inv in E. destruct E as [ps [out [M [V F]]]]. apply compute_did_inv in E'. destruct E' as [ps' [out' [M' [V' F']]]].
  destruct F as [Fp Fo Ft Fc Fa Fi]. destruct F' as [Fp' Fo' Ft' Fc' Fa' Fi'].
  assert (LE := LB _ _ (sh_view f l Hd Hw Hx)).
  assert (EPS : ps' = ps /\ (forall u, ps (f u) = ps u) /\ (m <> Reg -> V' = V)).
  { destruct m.
    - destruct Fp as [g [Eg [-> EV]]]. destruct Fp' as [g' [Eg' [-> EV']]]. assert (g' = g) by congruence. subst g'.
      assert (HP : forall u, ps_raw (o_mu o) k g (f u) = ps_raw (o_mu o) k g u) by (intros; unfold ps_raw; rewrite Hx; reflexivity).
      rewrite (sh_psg f l Hw Hx k _ HP) in EV'. split; [reflexivity|]. split; [intros; unfold ps_cap, ps_raw; rewrite Hx; reflexivity|]. congruence.
    - subst ps ps'. split; [reflexivity|]. split; [reflexivity|]. congruence.
    - destruct Fp as [g [Eg [-> EV]]]. destruct Fp' as [g' [Eg' [-> EV']]]. assert (g' = g) by congruence. subst g'.
      assert (HP : forall u, ps_raw (o_mu o) k g (f u) = ps_raw (o_mu o) k g u) by (intros; unfold ps_raw; rewrite Hx; reflexivity).
      rewrite (sh_psg f l Hw Hx k _ HP) in EV'. split; [reflexivity|]. split; [intros; unfold ps_cap, ps_raw; rewrite Hx; reflexivity|]. congruence. }
  destruct EPS as [-> [Hp EV]].
  assert (EOUT : exists A B, A - B = P - Q /\ (m = Ipw \/ B = 0) /\ (m <> Ipw -> M' = M) /\
     forall u, In u l -> p_dy (f u) - out' (f u) = C * (p_dy u - out u) + (if p_d u then A else B)).
  { destruct m.
    - destruct (HM (fun X => ltac:(discriminate X))) as [WO [NC I]]. destruct Fo as [b [Eb [-> EM]]]. destruct Fo' as [b' [Eb' [-> EM']]].
      rewrite (sh_ols f l Hd Hw Hx) in EM'. exists (P - Q), 0. split; [ring|]. split; [right; reflexivity|]. split; [congruence|]. intros u Hu.
      rewrite Hx, (sh_out f C P Q l Hd Hw Hx Hy o k b b' WO W NC I Eb Eb' u Hu), (Hy u Hu). destruct (p_d u); ring.
    - destruct (HM (fun X => ltac:(discriminate X))) as [WO [NC I]]. destruct Fo as [b [Eb [-> EM]]]. destruct Fo' as [b' [Eb' [-> EM']]].
      rewrite (sh_ols f l Hd Hw Hx) in EM'. exists (P - Q), 0. split; [ring|]. split; [right; reflexivity|]. split; [congruence|]. intros u Hu.
      rewrite Hx, (sh_out f C P Q l Hd Hw Hx Hy o k b b' WO W NC I Eb Eb' u Hu), (Hy u Hu). destruct (p_d u); ring.
    - subst out out'. exists P, Q. split; [ring|]. split; [left; reflexivity|]. split; [congruence|]. intros u Hu. rewrite (Hy u Hu). destruct (p_d u); ring. }
  destruct EOUT as [A [B [EAB [HB [EM Hr]]]]].
  split.
  - rewrite Fa', (sh_att f C l Hd Hw m tl ps out out' A B Hp Hr Ft Fc), <- Fa, EAB. reflexivity.
  - rewrite Fi', Fi, !map_map, map_length. apply map_ext_in. intros u Hu.
    rewrite <- (sh_inf f C l Hd Hw Hx m k tl ps out out' A B Hp Hr Ft Fc M (mscale (qn (length l)) V) u HB Hu).
    destruct m.
    + rewrite EM, EV by (intros X; discriminate X). reflexivity.
    + rewrite EM by (intros X; discriminate X). reflexivity.
    + rewrite EV by (intros X; discriminate X). reflexivity.
Qed.
