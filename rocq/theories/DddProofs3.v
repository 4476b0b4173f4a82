(** Proofs for C53-C56, continued: shocks, centring, order, scale for the whole estimator. *)
From Verif Require Import Base ListLib ReduceModel ReduceProofs2 Calc DrdidModel DrdidSpec DrdidProofs DrdidProofs2 DrdidProofs3 DrdidProofs4 DrdidProofs5 DrdidProofs9 DrdidProofs10 DddModel DddSpec DddProofs DddProofs2.

Lemma scatter_scale c mask : forall v, scatter mask (map (fun x => c * x) v) = map (fun x => c * x) (scatter mask v).
Proof.
  induction mask as [|b mask IH]; intros v; [reflexivity|]. destruct b; cbn [scatter map].
  - rewrite <- IH. f_equal; [destruct v; cbn; ring|destruct v; reflexivity].
  - rewrite <- IH. f_equal. ring.
Qed.
Lemma combine_scale c (x y z : Qc) (f3 : list Qc) : forall f2 f1,
  map (fun p => x * fst (fst p) + y * snd (fst p) - z * snd p) (combine (combine (map (fun v => c * v) f3) (map (fun v => c * v) f2)) (map (fun v => c * v) f1))
  = map (fun v => c * v) (map (fun p => x * fst (fst p) + y * snd (fst p) - z * snd p) (combine (combine f3 f2) f1)).
Proof.
  induction f3 as [|a f3 IH]; intros [|b f2] [|d f1]; try reflexivity. cbn [map combine]. rewrite IH. f_equal. cbn [fst snd]. ring.
Qed.

(** ** shocks *)
Section Shock.
  Context (c g a b tau : Qc) (f : tunit -> Qc).
  Notation F := (shocked c g a b tau f).
  Definition pf (s : Z) (p : punit) : punit :=
    {| p_id := p_id p; p_d := p_d p; p_y1 := t_y1 (F (un_pair s p)); p_y0 := t_y0 (F (un_pair s p)); p_w := p_w p; p_x := p_x p |}.
  Lemma un_as s u : in_pair s u = true -> un_pair s (as_pair u) = u.
  Proof.
    unfold in_pair, un_pair, as_pair. destruct u as [i sg y1 y0 w x]. cbn. intros H.
    destruct (Z.eqb_spec sg 4) as [->|N]; [reflexivity|]. cbn in H. apply Z.eqb_eq in H. subst. reflexivity.
  Qed.
  Lemma shock_pair s l : pair_units s (map F l) = map (pf s) (pair_units s l).
  Proof.
    unfold pair_units. rewrite filter_map, !map_map. change (fun u => in_pair s (F u)) with (in_pair s). apply map_ext_in. intros u Hu. apply filter_In in Hu. destruct Hu as [_ Hu].
    unfold pf. rewrite (un_as s u Hu). reflexivity.
  Qed.
  Definition sP : Qc := g + a + b + tau.
  Definition sQ (s : Z) : Qc := g + (if (s =? 3)%Z then a else 0) + (if (s =? 2)%Z then b else 0).
  Lemma pf_dy s p : (s <> 4)%Z -> p_dy (pf s p) = c * p_dy p + (if p_d p then sP else sQ s).
  Proof.
    intros Hs. unfold p_dy, pf, sP, sQ, shocked, un_pair. cbn [p_y1 p_y0 t_y1 t_y0 t_sg]. destruct (p_d p); cbn [Z.eqb].
    - set (z := f _). cbn [Z.eqb Pos.eqb orb]. ring.
    - set (z := f _). apply Z.eqb_neq in Hs. rewrite Hs. cbn [orb]. destruct (s =? 3)%Z, (s =? 2)%Z; ring.
  Qed.
  Lemma mean_shock l : mean t_w (map F l) = mean t_w l.
  Proof. rewrite mean_map. apply mean_ext. reflexivity. Qed.
  Lemma share_shock s l : share s (t_normalise (map F l)) = share s (t_normalise l).
  Proof. unfold share, t_normalise. rewrite !filter_map, !map_length. reflexivity. Qed.
  Lemma mask_shock s l : map (in_pair s) (t_normalise (map F l)) = map (in_pair s) (t_normalise l).
  Proof. unfold t_normalise. rewrite !map_map. reflexivity. Qed.

  Lemma ddd_shock o k m l att a3 a2 a1 inf att' a3' a2' a1' inf' :
    logit_blind o -> (m <> Ipw -> wls_ok o k /\ ddd_no_collinearity k l /\ t_intercept k l) ->
    ddd_panel o k m l = TEst att a3 a2 a1 inf -> ddd_panel o k m (map F l) = TEst att' a3' a2' a1' inf' ->
    att' = c * att + tau /\ inf' = map (fun v => c * v) inf.
  Proof.
    intros LB HM E E'. apply ddd_inv in E. destruct E as [W [_ [i3 [i2 [i1 [E3 [E2 [E1 [-> ->]]]]]]]]].
    apply ddd_inv in E'. destruct E' as [_ [_ [j3 [j2 [j1 [D3 [D2 [D1 [-> ->]]]]]]]]].
    assert (Hm := pair_mean_weights _ _ _ _ _ _ _ _ E3). assert (P := t_mean_pos _ W Hm).
    assert (G : forall s x i x' i', In s [3; 2; 1]%Z -> compute_did o k m trim995 (pair_units s (t_normalise l)) = Some (x, i) ->
      compute_did o k m trim995 (pair_units s (t_normalise (map F l))) = Some (x', i') -> x' = c * x + (sP - sQ s) /\ i' = map (fun v => c * v) i).
    { intros s x i x' i' Hs E D. assert (Hs4 : (s <> 4)%Z) by (destruct Hs as [<-|[<-|[<-|[]]]]; discriminate).
      rewrite pair_normalise in E, D. rewrite mean_shock, shock_pair in D.
      assert (X : map (scale_w (/ mean t_w l)) (map (pf s) (pair_units s l)) = map (fun p => scale_w (/ mean t_w l) (pf s (scale_w (mean t_w l) p))) (map (scale_w (/ mean t_w l)) (pair_units s l))).
      { rewrite !map_map. apply map_ext_in. intros p Hp. apply in_pair_units in Hp. destruct Hp as [u [_ [Hu ->]]].
        replace (scale_w (mean t_w l) (scale_w (/ mean t_w l) (as_pair u))) with (as_pair u); [reflexivity|].
        unfold scale_w, set_w, as_pair. destruct u. cbn. f_equal. field. exact Hm. }
      rewrite X in D. revert E D. apply pair_shift; try reflexivity.
      - intros p. cbn. field. exact Hm.
      - intros p Hp. exact (pf_dy s (scale_w (mean t_w l) p) Hs4).
      - apply scaled_nonneg; [apply Qclt_le_weak, P|]. apply pair_weights_nonneg, W.
      - exact LB.
      - intros N. destruct (HM N) as [WO [NC [Hk HI]]]. split; [exact WO|]. split; [apply nc_scale; [exact P|apply NC, Hs]|]. right. split; [|exact Hk].
        intros p Hp. apply in_map_iff in Hp. destruct Hp as [q [<- Hq]]. apply in_pair_units in Hq. destruct Hq as [u [Hu [_ ->]]]. apply HI, Hu. }
    destruct (G _ _ _ _ _ ltac:(left; reflexivity) E3 D3) as [-> ->]. destruct (G _ _ _ _ _ ltac:(right; left; reflexivity) E2 D2) as [-> ->].
    destruct (G _ _ _ _ _ ltac:(right; right; left; reflexivity) E1 D1) as [-> ->]. split.
    - unfold sP, sQ. cbn [Z.eqb Pos.eqb]. ring.
    - cbn zeta. rewrite !share_shock, !mask_shock, !scatter_scale. apply combine_scale.
  Qed.
End Shock.

(** ** representation of the influence function unit by unit *)
Definition pterm (c : Z) (G : punit -> Qc) (u : tunit) : Qc := if in_pair c u then G (as_pair u) else 0.
Lemma ddd_inf_pointwise l G3 G2 G1 :
  map (fun p => share 3 l * fst (fst p) + share 2 l * snd (fst p) - share 1 l * snd p)
    (combine (combine (scatter (map (in_pair 3) l) (map G3 (pair_units 3 l))) (scatter (map (in_pair 2) l) (map G2 (pair_units 2 l)))) (scatter (map (in_pair 1) l) (map G1 (pair_units 1 l))))
  = map (fun u => share 3 l * pterm 3 G3 u + share 2 l * pterm 2 G2 u - share 1 l * pterm 1 G1 u) l.
Proof.
  unfold pair_units. rewrite !map_map, !scatter_map.
  exact (combine3_map (pterm 3 G3) (pterm 2 G2) (pterm 1 G1) l (fun x y z => share 3 l * x + share 2 l * y - share 1 l * z)).
Qed.
Lemma sum_pterm c G (h : tunit -> Qc) l : sumf (fun u => h u * pterm c G u) l = sumf (fun p => h (un_pair c p) * G p) (pair_units c l).
Proof.
  unfold pair_units. rewrite sumf_map, sumf_filter. apply sumf_ext. intros u _. unfold pterm. destruct (in_pair c u) eqn:E; cbn [ind]; [rewrite (un_as c u E)|]; ring.
Qed.
Lemma ddd_facts o k m l0 att a3 a2 a1 inf : ddd_panel o k m l0 = TEst att a3 a2 a1 inf ->
  let l := t_normalise l0 in
  exists ps3 out3 M3 V3 ps2 out2 M2 V2 ps1 out1 M1 V1,
  let G3 := pair_inf m k trim995 ps3 out3 M3 (mscale (qn (length (pair_units 3 l))) V3) (pair_units 3 l) in
  let G2 := pair_inf m k trim995 ps2 out2 M2 (mscale (qn (length (pair_units 2 l))) V2) (pair_units 2 l) in
  let G1 := pair_inf m k trim995 ps1 out1 M1 (mscale (qn (length (pair_units 1 l))) V1) (pair_units 1 l) in
  pair_facts o k m trim995 (pair_units 3 l) a3 (map G3 (pair_units 3 l)) ps3 out3 M3 V3 /\
  pair_facts o k m trim995 (pair_units 2 l) a2 (map G2 (pair_units 2 l)) ps2 out2 M2 V2 /\
  pair_facts o k m trim995 (pair_units 1 l) a1 (map G1 (pair_units 1 l)) ps1 out1 M1 V1 /\
  att = a3 + a2 - a1 /\
  inf = map (fun u => share 3 l * pterm 3 G3 u + share 2 l * pterm 2 G2 u - share 1 l * pterm 1 G1 u) l.
Proof.
  intros E. apply ddd_inv in E. destruct E as [W [_ [i3 [i2 [i1 [E3 [E2 [E1 [-> ->]]]]]]]]]. cbn zeta.
  apply compute_did_inv in E3. destruct E3 as [ps3 [out3 [M3 [V3 F3]]]]. apply compute_did_inv in E2. destruct E2 as [ps2 [out2 [M2 [V2 F2]]]].
  apply compute_did_inv in E1. destruct E1 as [ps1 [out1 [M1 [V1 F1]]]].
  assert (X3 := pf_i _ _ _ _ _ _ _ _ _ _ _ F3). assert (X2 := pf_i _ _ _ _ _ _ _ _ _ _ _ F2). assert (X1 := pf_i _ _ _ _ _ _ _ _ _ _ _ F1). subst i3 i2 i1.
  exists ps3, out3, M3, V3, ps2, out2, M2, V2, ps1, out1, M1, V1. split; [exact F3|]. split; [exact F2|]. split; [exact F1|]. split; [reflexivity|].
  apply ddd_inf_pointwise.
Qed.

(** ** centring *)
Lemma pair_inf_centred o k m tl l a i ps out M V : wls_ok o k -> pair_facts o k m tl l a i ps out M V ->
  (forall gamma, o_logit o l = Some gamma -> score_equations k (ps_cap (o_mu o) k gamma) l) ->
  forall H, sumf (pair_inf m k tl ps out M H l) l = 0.
Proof.
  intros WO F SC H. destruct F as [Fp Fo Ft Fc _ _].
  assert (N : m <> Ipw -> forall v, sumf (fun u => dotk k (alr_wols k out M u) v) l = 0).
  { intros Hm v. unfold alr_wols. apply (sum_alr_zero k (fun u => p_w u * (1 - p_D u) * (p_dy u - out u))). intros j Hj.
    assert (X : exists beta, o_wls o (ctrl l) = Some beta /\ out = outf k beta) by (destruct m; [destruct Fo as [b [? [? _]]]; eauto|destruct Fo as [b [? [? _]]]; eauto|congruence]).
    destruct X as [beta [Eb ->]]. apply WO, normal_of_controls in Eb. exact (Eb j Hj). }
  assert (S : m <> Reg -> forall v, sumf (fun u => dotk k (alr_ps k ps H u) v) l = 0).
  { intros Hm v. unfold alr_ps. apply (sum_alr_zero k (fun u => p_w u * (p_D u - ps u))). intros j Hj.
    assert (X : exists g, o_logit o l = Some g /\ ps = ps_cap (o_mu o) k g) by (destruct m; [destruct Fp as [g [? [? _]]]; eauto|congruence|destruct Fp as [g [? [? _]]]; eauto]).
    destruct X as [g [Eg ->]]. exact (SC g Eg j Hj). }
  unfold pair_inf. cbn zeta. set (wt := tw_treat m tl ps) in *. set (wc := tw_control m tl ps) in *.
  assert (T := mean_zero_sum _ _ (wmean_centred wt (fun u => p_dy u - out u) l Ft)). assert (C := mean_zero_sum _ _ (wmean_centred wc (fun u => p_dy u - out u) l Fc)). cbn beta in T, C.
  set (et := wmean wt (fun u => p_dy u - out u) l) in *. set (ec := wmean wc (fun u => p_dy u - out u) l) in *.
  rewrite sumf_sub, !sumf_div, !sumf_add, T, C. destruct m.
  - rewrite S, !sumf_opp, !N by (intros X; discriminate X). unfold Qcdiv. ring.
  - rewrite !sumf_opp, !N by (intros X; discriminate X). rewrite sumf_0. unfold Qcdiv. ring.
  - rewrite S by (intros X; discriminate X). rewrite !sumf_0. unfold Qcdiv. ring.
Qed.
Lemma sum_pterm1 c G l : sumf (pterm c G) l = sumf G (pair_units c l).
Proof. rewrite <- (sumf_ext (fun u => 1 * pterm c G u)) by (intros; ring). rewrite (sum_pterm c G (fun _ => 1)). apply sumf_ext. intros; ring. Qed.
Lemma ddd_centred o k m l att a3 a2 a1 inf : wls_ok o k -> (m = Reg \/ ddd_scores o k l) -> ddd_panel o k m l = TEst att a3 a2 a1 inf ->
  length inf = length l /\ qsum inf = 0.
Proof.
  intros WO SC E. apply ddd_facts in E. cbn zeta in E. destruct E as [ps3 [out3 [M3 [V3 [ps2 [out2 [M2 [V2 [ps1 [out1 [M1 [V1 [F3 [F2 [F1 [_ ->]]]]]]]]]]]]]]]].
  split; [rewrite map_length; apply map_length|]. rewrite qsum_map, sumf_sub, sumf_add, !sumf_mul_l, !sum_pterm1.
  assert (X : forall c a i ps out M V H, In c [3; 2; 1]%Z -> pair_facts o k m trim995 (pair_units c (t_normalise l)) a i ps out M V ->
    sumf (pair_inf m k trim995 ps out M H (pair_units c (t_normalise l))) (pair_units c (t_normalise l)) = 0).
  { intros c a i ps out M V H Hc F. destruct SC as [-> | SC].
    - (* the score is not used *)
      destruct F as [Fp Fo Ft Fc _ _]. destruct Fo as [beta [Eb [-> EM]]]. unfold pair_inf. cbn zeta.
      assert (N : forall v, sumf (fun u => dotk k (alr_wols k (outf k beta) M u) v) (pair_units c (t_normalise l)) = 0).
      { intros v. unfold alr_wols. apply (sum_alr_zero k (fun u => p_w u * (1 - p_D u) * (p_dy u - dotk k (p_x u) beta))). intros j Hj. apply WO, normal_of_controls in Eb. exact (Eb j Hj). }
      assert (T := mean_zero_sum _ _ (wmean_centred _ (fun u => p_dy u - dotk k (p_x u) beta) _ Ft)). assert (C := mean_zero_sum _ _ (wmean_centred _ (fun u => p_dy u - dotk k (p_x u) beta) _ Fc)). cbn beta in T, C.
      rewrite sumf_sub, !sumf_div, !sumf_add, T, C, !sumf_opp, !N, sumf_0. unfold Qcdiv. ring.
    - apply (pair_inf_centred o k m trim995 _ a i ps out M V WO F). intros g Eg. apply (SC c g Hc Eg). }
  rewrite (X _ _ _ _ _ _ _ _ ltac:(left; reflexivity) F3), (X _ _ _ _ _ _ _ _ ltac:(right; left; reflexivity) F2), (X _ _ _ _ _ _ _ _ ltac:(right; right; left; reflexivity) F1). ring.
Qed.

(** ** weight scale *)
Lemma t_normalise_scale c l : c <> 0 -> t_normalise (map (t_scale_w c) l) = t_normalise l.
Proof.
  intros Hc. unfold t_normalise. rewrite map_map. apply map_ext. intros u. rewrite mean_map. change (fun a => t_w (t_scale_w c a)) with (fun a => c * t_w a).
  rewrite mean_mul_l. unfold t_scale_w, t_set_w. cbn. f_equal. destruct (Qceqb_spec (mean t_w l) 0) as [E|N].
  - rewrite E. replace (c * 0) with 0 by ring. rewrite !Qcdiv_0_r. reflexivity.
  - field. split; assumption.
Qed.
Lemma t_neg_map (f : tunit -> tunit) l : (forall u, Qcltb (t_w (f u)) 0 = Qcltb (t_w u) 0) -> t_neg (map f l) = t_neg l.
Proof. intros H. unfold t_neg. induction l as [|a l IH]; [reflexivity|]. cbn. rewrite H, IH. reflexivity. Qed.
Lemma forallb_map' {A B} (p : B -> bool) (f : A -> B) l : forallb p (map f l) = forallb (fun a => p (f a)) l.
Proof. induction l as [|a l IH]; [reflexivity|]. cbn. rewrite IH. reflexivity. Qed.
Lemma existsb_map' {A B} (p : B -> bool) (f : A -> B) l : existsb p (map f l) = existsb (fun a => p (f a)) l.
Proof. induction l as [|a l IH]; [reflexivity|]. cbn. rewrite IH. reflexivity. Qed.
Lemma ddd_scale o k m l c : 0 < c -> ddd_panel o k m (map (t_scale_w c) l) = ddd_panel o k m l.
Proof.
  intros Hc. unfold ddd_panel. rewrite t_normalise_scale by (apply Qc_pos_neq0, Hc). rewrite t_neg_map.
  - rewrite forallb_map', existsb_map'. reflexivity.
  - intros u. cbn [t_scale_w t_set_w t_w]. destruct (Qcltb_spec (c * t_w u) 0) as [A|A], (Qcltb_spec (t_w u) 0) as [B|B]; try reflexivity; exfalso.
    + apply Qcnot_lt_le in B. assert (X : 0 <= c * t_w u) by (apply Qcmult_nonneg; [apply Qclt_le_weak, Hc|exact B]). apply (Qclt_not_le _ _ A X).
    + apply A. setoid_replace 0 with (0 * c) by ring. rewrite Qcmult_comm. apply Qcmult_lt_compat_r; assumption.
Qed.

(** ** order of the units *)
Lemma pair_units_perm c l l' : Permutation l l' -> Permutation (pair_units c l) (pair_units c l').
Proof. intros P. unfold pair_units. apply Permutation_map, filter_perm. exact P. Qed.
Lemma pair_inf_perm m k tl ps out M H l l' u : Permutation l l' -> pair_inf m k tl ps out M H l u = pair_inf m k tl ps out M H l' u.
Proof. intros P. unfold pair_inf. cbn zeta. rewrite !(wmean_perm _ _ _ _ P), !(mean_perm _ _ _ P), !(mean_col_perm _ _ _ _ P). reflexivity. Qed.
Lemma t_normalise_perm l l' : Permutation l l' -> Permutation (t_normalise l) (t_normalise l').
Proof. intros P. unfold t_normalise. rewrite (mean_perm t_w _ _ P). apply Permutation_map. exact P. Qed.
Lemma pscore_perm o k m l l' : fits_symmetric o -> Permutation l l' -> pscore_fit o k m l = pscore_fit o k m l'.
Proof.
  intros FS P. unfold pscore_fit. destruct (FS _ _ P) as [-> _]. rewrite (Permutation_length P). destruct m; [|reflexivity|];
    (destruct (o_logit o l'); [|reflexivity]; rewrite (ps_gram_perm _ _ _ _ P); reflexivity).
Qed.
Lemma compute_did_perm o k m tl l l' : fits_symmetric o -> Permutation l l' ->
  match compute_did o k m tl l, compute_did o k m tl l' with
  | Some (a, i), Some (a', i') => a = a' /\ exists G, i = map G l /\ i' = map G l'
  | None, None => True
  | _, _ => False
  end.
Proof.
  intros FS P. unfold compute_did. rewrite (pscore_perm o k m l l' FS P).
  assert (EO : outcome_fit o k m l = outcome_fit o k m l') by (unfold outcome_fit; destruct (FS _ _ (filter_perm (fun u => negb (p_d u)) _ _ P)) as [_ ->]; reflexivity).
  assert (EI : outcome_inv o k m l = outcome_inv o k m l') by (unfold outcome_inv; rewrite (ols_gram_perm _ _ _ P); reflexivity).
  rewrite EO, EI. destruct (pscore_fit o k m l') as [[ps H]|]; [|trivial]. destruct (outcome_fit o k m l') as [out|]; [|trivial].
  rewrite !(mean_perm _ _ _ P). destruct (Qceqb _ 0); [trivial|]. destruct (Qceqb _ 0); [trivial|]. destruct (outcome_inv o k m l') as [M|]; [|trivial].
  split; [unfold pair_att; rewrite !(wmean_perm _ _ _ _ P); reflexivity|]. exists (pair_inf m k tl ps out M H l'). split; [|reflexivity].
  apply map_ext. intros u. apply pair_inf_perm. exact P.
Qed.
Lemma share_perm c l l' : Permutation l l' -> share c l = share c l'.
Proof. intros P. unfold share. rewrite (Permutation_length (filter_perm (in_pair c) _ _ P)), (Permutation_length P). reflexivity. Qed.
Lemma forallb_perm {A} (p : A -> bool) l l' : Permutation l l' -> forallb p l = forallb p l'.
Proof.
  intros P. destruct (forallb p l) eqn:E.
  - symmetry. rewrite forallb_forall in *. intros x Hx. apply E. eapply Permutation_in; [symmetry; exact P|exact Hx].
  - destruct (forallb p l') eqn:E'; [|reflexivity]. rewrite <- E. rewrite forallb_forall in *. intros x Hx. apply E'. eapply Permutation_in; [exact P|exact Hx].
Qed.
Lemma ddd_perm o k m l l' : fits_symmetric o -> Permutation l l' -> same_ddd l l' (ddd_panel o k m l) (ddd_panel o k m l').
Proof.
  intros FS P. unfold ddd_panel, t_neg. rewrite (existsb_perm _ _ _ P), (forallb_perm _ _ _ P), (existsb_perm (fun u => t_sg u =? 4)%Z _ _ P).
  destruct (existsb _ l'); [cbn; trivial|]. destruct (forallb sg_ok l'); [|cbn; trivial]. destruct (existsb _ l'); [|cbn; trivial]. cbn [negb].
  assert (PN := t_normalise_perm _ _ P). unfold compute_all.
  assert (X3 := compute_did_perm o k m trim995 _ _ FS (pair_units_perm 3 _ _ PN)). assert (X2 := compute_did_perm o k m trim995 _ _ FS (pair_units_perm 2 _ _ PN)).
  assert (X1 := compute_did_perm o k m trim995 _ _ FS (pair_units_perm 1 _ _ PN)).
  destruct (compute_did o k m trim995 (pair_units 3 (t_normalise l))) as [[a3 i3]|], (compute_did o k m trim995 (pair_units 3 (t_normalise l'))) as [[b3 j3]|]; try contradiction; [|cbn; trivial].
  destruct (compute_did o k m trim995 (pair_units 2 (t_normalise l))) as [[a2 i2]|], (compute_did o k m trim995 (pair_units 2 (t_normalise l'))) as [[b2 j2]|]; try contradiction; [|cbn; trivial].
  destruct (compute_did o k m trim995 (pair_units 1 (t_normalise l))) as [[a1 i1]|], (compute_did o k m trim995 (pair_units 1 (t_normalise l'))) as [[b1 j1]|]; try contradiction; [|cbn; trivial].
  destruct X3 as [-> [G3 [-> ->]]]. destruct X2 as [-> [G2 [-> ->]]]. destruct X1 as [-> [G1 [-> ->]]]. cbn [same_ddd].
  repeat (split; [reflexivity|]). rewrite !ddd_inf_pointwise, !(share_perm _ _ _ PN).
  set (H := fun u => share 3 (t_normalise l') * pterm 3 G3 u + share 2 (t_normalise l') * pterm 2 G2 u - share 1 (t_normalise l') * pterm 1 G1 u).
  unfold t_normalise. rewrite !map_map, !combine_map_self, (mean_perm t_w _ _ P). apply Permutation_map. exact P.
Qed.
