(** Proofs for C53-C56: the two-period triple-difference estimator. *)
From Verif Require Import Base ListLib ReduceModel ReduceProofs2 Calc DrdidModel DrdidSpec DrdidProofs DrdidProofs2 DrdidProofs3 DrdidProofs4 DrdidProofs5 DrdidProofs9 DrdidProofs10 DddModel DddSpec.

(** ** scatter *)
Lemma scatter_map {A} (q : A -> bool) (g : A -> Qc) l :
  scatter (map q l) (map g (filter q l)) = map (fun u => if q u then g u else 0) l.
Proof. induction l as [|a l IH]; [reflexivity|]. cbn [map filter]. destruct (q a) eqn:E; cbn; rewrite ?E, IH; reflexivity. Qed.

Lemma combine3_map {A} (f g h : A -> Qc) l (F : Qc -> Qc -> Qc -> Qc) :
  map (fun p => F (fst (fst p)) (snd (fst p)) (snd p)) (combine (combine (map f l) (map g l)) (map h l)) = map (fun u => F (f u) (g u) (h u)) l.
Proof. induction l as [|a l IH]; [reflexivity|]. cbn. rewrite IH. reflexivity. Qed.

(** ** one comparison *)
Definition cwm (m : emethod) (tl : Qc) (ps : punit -> Qc) (u : punit) : Qc := match m with Reg => 1 - p_D u | _ => cw tl ps u end.
Lemma twt m tl ps u : tw_treat m tl ps u = p_w u * p_D u.
Proof. unfold tw_treat, tw_keep, p_D. destruct m, (p_d u), (Qcltb (ps u) tl); cbn [orb ind]; ring. Qed.
Lemma twc m tl ps u : tw_control m tl ps u = p_w u * cwm m tl ps u.
Proof. unfold tw_control, tw_keep, cwm, cw, p_D. destruct m, (p_d u), (Qcltb (ps u) tl); cbn [orb andb negb ind]; unfold Qcdiv; ring. Qed.

(** What a successful comparison says. *)
Record pair_facts (o : oracle) (k : nat) (m : emethod) (tl : Qc) (l : list punit) (a : Qc) (inf : list Qc)
  (ps out : punit -> Qc) (Minv V : matrix) : Prop := {
  pf_ps : match m with Reg => ps = (fun _ => 1) | _ => exists gamma, o_logit o l = Some gamma /\ ps = ps_cap (o_mu o) k gamma
            /\ o_inv o (ps_gram k (ps_raw (o_mu o) k gamma) l) = Some V end;
  pf_out : match m with Ipw => out = (fun _ => 0) | _ => exists beta, o_wls o (ctrl l) = Some beta /\ out = outf k beta
            /\ o_inv o (ols_gram k l) = Some Minv end;
  pf_t : mean (tw_treat m tl ps) l <> 0;
  pf_c : mean (tw_control m tl ps) l <> 0;
  pf_a : a = pair_att m tl ps out l;
  pf_i : inf = map (pair_inf m k tl ps out Minv (mscale (qn (length l)) V) l) l }.
Lemma pair_inf_H_reg k tl ps out M H H' l u : pair_inf Reg k tl ps out M H l u = pair_inf Reg k tl ps out M H' l u.
Proof. reflexivity. Qed.
Lemma compute_did_inv o k m tl l a inf : compute_did o k m tl l = Some (a, inf) ->
  exists ps out Minv V, pair_facts o k m tl l a inf ps out Minv V.
Proof.
  unfold compute_did. intros E.
  destruct (pscore_fit o k m l) as [[ps H]|] eqn:EP; [|discriminate]. destruct (outcome_fit o k m l) as [out|] eqn:EO; [|discriminate].
  destruct (Qceqb_spec (mean (tw_treat m tl ps) l) 0) as [|NT]; [discriminate|].
  destruct (Qceqb_spec (mean (tw_control m tl ps) l) 0) as [|NC]; [discriminate|].
  destruct (outcome_inv o k m l) as [M|] eqn:EI; [|discriminate]. injection E as <- <-.
  destruct m; cbn in EP, EO, EI.
  - destruct (o_logit o l) as [g|] eqn:EG; [|discriminate]. destruct (o_inv o (ps_gram k (ps_raw (o_mu o) k g) l)) as [V|] eqn:EV; [|discriminate].
    destruct (o_wls o (ctrl l)) as [b|] eqn:EB; [|discriminate]. injection EP as <- <-. injection EO as <-.
    exists (ps_cap (o_mu o) k g), (outf k b), M, V. constructor; cbn; eauto.
  - destruct (o_wls o (ctrl l)) as [b|] eqn:EB; [|discriminate]. injection EP as <- <-. injection EO as <-.
    exists (fun _ => 1), (outf k b), M, []. constructor; cbn; eauto.
  - destruct (o_logit o l) as [g|] eqn:EG; [|discriminate]. destruct (o_inv o (ps_gram k (ps_raw (o_mu o) k g) l)) as [V|] eqn:EV; [|discriminate].
    injection EP as <- <-. injection EO as <-. injection EI as <-.
    exists (ps_cap (o_mu o) k g), (fun _ => 0), [], V. constructor; cbn; eauto.
Qed.

Lemma ddd_inv o k m l0 att a3 a2 a1 inf : ddd_panel o k m l0 = TEst att a3 a2 a1 inf ->
  (forall u, In u l0 -> 0 <= t_w u) /\ (forall u, In u l0 -> sg_ok u = true) /\
  exists i3 i2 i1, compute_did o k m trim995 (pair_units 3 (t_normalise l0)) = Some (a3, i3) /\
    compute_did o k m trim995 (pair_units 2 (t_normalise l0)) = Some (a2, i2) /\
    compute_did o k m trim995 (pair_units 1 (t_normalise l0)) = Some (a1, i1) /\
    att = a3 + a2 - a1 /\
    inf = (let l := t_normalise l0 in map (fun p => share 3 l * fst (fst p) + share 2 l * snd (fst p) - share 1 l * snd p)
       (combine (combine (scatter (map (in_pair 3) l) i3) (scatter (map (in_pair 2) l) i2)) (scatter (map (in_pair 1) l) i1))).
Proof.
  unfold ddd_panel. destruct (t_neg l0) eqn:EN; [discriminate|]. destruct (forallb sg_ok l0) eqn:ES; [|discriminate].
  destruct (existsb _ l0); [|discriminate]. cbn [negb]. unfold compute_all.
  destruct (compute_did o k m trim995 (pair_units 3 (t_normalise l0))) as [[x3 i3]|] eqn:E3; [|discriminate].
  destruct (compute_did o k m trim995 (pair_units 2 (t_normalise l0))) as [[x2 i2]|] eqn:E2; [|discriminate].
  destruct (compute_did o k m trim995 (pair_units 1 (t_normalise l0))) as [[x1 i1]|] eqn:E1; [|discriminate].
  intros E. injection E as <- <- <- <- <-. split; [|split; [|exists i3, i2, i1; repeat split; auto]].
  - intros u Hu. destruct (Qc_le_or_lt 0 (t_w u)) as [L|L]; [exact L|]. exfalso. assert (X : t_neg l0 = true); [|congruence].
    apply existsb_exists. exists u. split; [exact Hu|]. destruct (Qcltb_spec (t_w u) 0); [reflexivity|contradiction].
  - apply forallb_forall. exact ES.
Qed.

(** ** the pair samples *)
Lemma in_pair_sets c w u : in_pair c (t_set_w w u) = in_pair c u. Proof. reflexivity. Qed.
Lemma pair_normalise c l : pair_units c (t_normalise l) = map (scale_w (/ mean t_w l)) (pair_units c l).
Proof.
  unfold pair_units, t_normalise. rewrite filter_map, !map_map. apply map_ext. intros u. unfold as_pair, scale_w, set_w, t_set_w. cbn. f_equal. unfold Qcdiv. ring.
Qed.
Lemma in_pair_units c l p : In p (pair_units c l) <-> exists u, In u l /\ in_pair c u = true /\ p = as_pair u.
Proof.
  unfold pair_units. rewrite in_map_iff. split.
  - intros [u [<- Hu]]. apply filter_In in Hu. exists u. tauto.
  - intros [u [H1 [H2 ->]]]. exists u. split; [reflexivity|]. apply filter_In. tauto.
Qed.
Lemma t_mean_nonneg l : (forall u, In u l -> 0 <= t_w u) -> 0 <= mean t_w l.
Proof. apply mean_nonneg. Qed.
Lemma pair_mean_weights o k m tl c l a i : compute_did o k m tl (pair_units c (t_normalise l)) = Some (a, i) -> mean t_w l <> 0.
Proof.
  intros E Z. apply compute_did_inv in E. destruct E as [ps [out [M [V F]]]]. apply (pf_t _ _ _ _ _ _ _ _ _ _ _ F). apply mean_0, sumf_zero.
  intros p Hp. rewrite pair_normalise in Hp. apply in_map_iff in Hp. destruct Hp as [q [<- _]]. rewrite twt. cbn [scale_w set_w p_w].
  rewrite Z. change (/ 0) with (1 * / 0). fold (1 / 0). rewrite Qcdiv_0_r. ring.
Qed.
Lemma t_mean_pos l : (forall u, In u l -> 0 <= t_w u) -> mean t_w l <> 0 -> 0 < / mean t_w l.
Proof.
  intros N Hm. apply Qcinv_pos. destruct (Qc_le_or_lt (mean t_w l) 0) as [L|L]; [|exact L]. exfalso. apply Hm, Qcle_antisym; [exact L|]. apply mean_nonneg, N.
Qed.

(** ** value of one comparison *)
Definition cmean (m : emethod) (tl : Qc) (ps v : punit -> Qc) (l : list punit) : Qc :=
  match m with Reg => group_mean false v l | _ => odds_mean tl ps v l end.
Lemma wmean_t m tl ps v l : wmean (tw_treat m tl ps) v l = group_mean true v l.
Proof.
  rewrite wmean_sums. unfold group_mean. rewrite !sumf_filter. f_equal; apply sumf_ext; intros u _; rewrite twt; unfold p_D; destruct (p_d u); cbn; ring.
Qed.
Lemma wmean_c m tl ps v l : wmean (tw_control m tl ps) v l = cmean m tl ps v l.
Proof.
  rewrite wmean_sums. unfold cmean, group_mean, odds_mean. destruct m; cbn zeta; rewrite !sumf_filter; f_equal; apply sumf_ext; intros u _; rewrite twc;
    unfold cwm, cw, p_D; destruct (p_d u), (Qcltb (ps u) tl); cbn; ring.
Qed.
Lemma pair_att_value m tl ps out l : pair_att m tl ps out l = group_mean true (fun u => p_dy u - out u) l - cmean m tl ps (fun u => p_dy u - out u) l.
Proof. unfold pair_att. rewrite wmean_t, wmean_c. reflexivity. Qed.
Lemma group_mean_scale b v c l : c <> 0 -> (forall w u, v (set_w w u) = v u) -> group_mean b v (map (scale_w c) l) = group_mean b v l.
Proof.
  intros Hc Hv. unfold group_mean. rewrite !sumf_filter, !sumf_map. symmetry. rewrite <- (ratio_scale c _ _ Hc), <- !sumf_mul_l.
  f_equal; apply sumf_ext; intros u _; unfold scale_w; rewrite ?Hv; cbn [set_w p_d p_w]; ring.
Qed.
Lemma odds_mean_scale tl ps v c l : c <> 0 -> (forall w u, v (set_w w u) = v u) -> (forall w u, ps (set_w w u) = ps u) ->
  odds_mean tl ps v (map (scale_w c) l) = odds_mean tl ps v l.
Proof.
  intros Hc Hv Hp. unfold odds_mean. cbn zeta. rewrite !sumf_filter, !sumf_map. symmetry. rewrite <- (ratio_scale c _ _ Hc), <- !sumf_mul_l.
  f_equal; apply sumf_ext; intros u _; unfold scale_w; rewrite ?Hv, ?Hp; cbn [set_w p_d p_w]; ring.
Qed.
Lemma cmean_scale m tl ps v c l : c <> 0 -> (forall w u, v (set_w w u) = v u) -> (forall w u, ps (set_w w u) = ps u) ->
  cmean m tl ps v (map (scale_w c) l) = cmean m tl ps v l.
Proof. intros. destruct m; cbn; [apply odds_mean_scale|apply group_mean_scale|apply odds_mean_scale]; assumption. Qed.
Lemma ps_cap_set mu k g w u : ps_cap mu k g (set_w w u) = ps_cap mu k g u. Proof. reflexivity. Qed.

(** ** sub-group means *)
Lemma gm_true c v l : (c <> 4)%Z -> group_mean true v (pair_units c l) = sub_mean 4 (fun u => v (as_pair u)) l.
Proof.
  intros Hc. unfold group_mean, sub_mean, pair_units. rewrite !sumf_filter, !sumf_map, !sumf_filter.
  f_equal; apply sumf_ext; intros u _; unfold in_pair; cbn [as_pair p_d p_w]; destruct (Z.eqb_spec (t_sg u) 4); cbn; destruct (t_sg u =? c)%Z; cbn; ring.
Qed.
Lemma gm_false c v l : (c <> 4)%Z -> group_mean false v (pair_units c l) = sub_mean c (fun u => v (as_pair u)) l.
Proof.
  intros Hc. unfold group_mean, sub_mean, pair_units. rewrite !sumf_filter, !sumf_map, !sumf_filter.
  f_equal; apply sumf_ext; intros u _; unfold in_pair; cbn [as_pair p_d p_w]; destruct (Z.eqb_spec (t_sg u) 4), (Z.eqb_spec (t_sg u) c); cbn; try ring; exfalso; congruence.
Qed.
