(** did_multiplegt: unit effects, unit trends and the scale of the outcome. *)
From Verif Require Import Base ListLib PreprocessModel InterModel InterSpec InterProofs1 InterProofs2 InterProofs3 InterProofs4 InterProofs5 InterProofs8.

Definition aff (k : Qc) (d : Z -> Z -> Qc) (r : irow) : irow :=
  {| i_g := i_g r; i_t := i_t r; i_y := option_map (fun y => k * y + d (i_g r) (i_t r)) (i_y r); i_d := i_d r; i_w := i_w r; i_cl := i_cl r; i_tr := i_tr r |}.
Lemma aff_only k d : outcome_only (aff k d).
Proof. intros r. cbn. repeat split. now destruct (i_y r). Qed.

Section Scale.
  Context (c : icfg) (h tmax : Z) (valid : prow -> bool) (f : irow -> irow) (Hf : outcome_only f) (k : Qc) (Hv : forall p, valid (pf f p) = valid p).
  Definition cf (x : cell) : cell := {| c_p := pf f (c_p x); c_diff := option_map (Qcmult k) (c_diff x) |}.
  Context (cs : list cell).
  Notation cs' := (map cf cs).
  Lemma pf_g p : p_g (pf f p) = p_g p. Proof. apply f_g, Hf. Qed.
  Lemma pf_t p : p_t (pf f p) = p_t p. Proof. apply f_t, Hf. Qed.
  Lemma pf_d p : p_d (pf f p) = p_d p. Proof. apply f_d, Hf. Qed.
  Lemma pf_cl p : p_cl (pf f p) = p_cl p. Proof. apply f_cl, Hf. Qed.
  Lemma cf_peer a b : peer (cf a) (cf b) = peer a b.
  Proof. unfold peer, same_cell. cbn [cf c_p pf p_s]. rewrite sf_base, !sf_t by exact Hf. reflexivity. Qed.
  Lemma cf_mate a b : mate (cf a) (cf b) = mate a b. Proof. unfold mate. cbn [cf c_p]. now rewrite !pf_g. Qed.
  Lemma cf_never x : never c tmax (cf x) = never c tmax x.
  Proof. unfold never. cbn [cf c_diff c_p]. rewrite pf_t. now destruct (c_diff x). Qed.
  Lemma fil (p q : cell -> bool) : (forall x, p (cf x) = q x) -> filter p cs' = map cf (filter q cs).
  Proof. intros H. rewrite filter_map_swap. f_equal. now apply filter_ext. Qed.
  Lemma sum_cf (F G : cell -> Qc) l : (forall x, F (cf x) = G x) -> sumf F (map cf l) = sumf G l.
  Proof. intros H. rewrite sumf_map. apply sumf_ext. intros; apply H. Qed.
  Lemma sum_cfk (F G : cell -> Qc) l : (forall x, F (cf x) = k * G x) -> sumf F (map cf l) = k * sumf G l.
  Proof. intros H. rewrite sumf_map, <- sumf_mul_l. apply sumf_ext. intros; apply H. Qed.
  Lemma cf_nc x : n_control c tmax cs' (cf x) = n_control c tmax cs x.
  Proof.
    unfold n_control. rewrite (fil _ (peer x)) by apply cf_peer. apply sum_cf. intros y. now rewrite cf_never.
  Qed.
  Lemma cf_mask p : sw_mask c valid (pf f p) = sw_mask c valid p.
  Proof. unfold sw_mask, dir_ok. now rewrite Hv. Qed.
  Lemma cf_target x : at_target h (cf x) = at_target h x.
  Proof. unfold at_target. cbn [cf c_p]. rewrite pf_t. reflexivity. Qed.
  Lemma cf_dist x : dist c h tmax valid cs' (cf x) = dist c h tmax valid cs x.
  Proof.
    unfold dist. rewrite cf_nc, cf_target. cbn [cf c_diff c_p]. rewrite cf_mask. now destruct (c_diff x).
  Qed.
  Lemma cf_distw x : dist_w c h tmax valid cs' (cf x) = dist_w c h tmax valid cs x.
  Proof. unfold dist_w. rewrite cf_dist. cbn [cf c_p]. now rewrite cf_mask. Qed.
  Lemma cf_nt x : n_treated c h tmax valid cs' (cf x) = n_treated c h tmax valid cs x.
  Proof. unfold n_treated. rewrite (fil _ (peer x)) by apply cf_peer. apply sum_cf, cf_distw. Qed.
  Lemma cf_nsw : n_sw c h tmax valid cs' = n_sw c h tmax valid cs.
  Proof.
    unfold n_sw. rewrite (fil _ (is_sw c h tmax valid cs)).
    - rewrite map_map. erewrite map_ext; [reflexivity|]. intros x. apply pf_g.
    - intros x. unfold is_sw. rewrite cf_dist. cbn [cf c_p]. now rewrite cf_mask.
  Qed.
  Lemma cf_nsww : n_sw_weighted c h tmax valid cs' = n_sw_weighted c h tmax valid cs.
  Proof. apply sum_cf, cf_distw. Qed.
  Lemma cf_safe : safe_nsw c h tmax valid cs' = safe_nsw c h tmax valid cs.
  Proof. unfold safe_nsw. now rewrite cf_nsww. Qed.
  Lemma cf_units : n_units cs' = n_units cs.
  Proof. unfold n_units. rewrite map_map. erewrite map_ext; [reflexivity|]. intros x. apply pf_g. Qed.
  Lemma cf_coef x : coef c h tmax valid cs' (cf x) = coef c h tmax valid cs x.
  Proof.
    unfold coef. rewrite cf_dist. destruct (dist c h tmax valid cs x); [|reflexivity].
    unfold safe_ncontrol. rewrite cf_nc, cf_nt, cf_never, cf_safe, cf_units. reflexivity.
  Qed.
  Lemma cf_d0 x : oz0 (c_diff (cf x)) = k * oz0 (c_diff x).
  Proof. cbn. destruct (c_diff x); cbn; ring. Qed.
  Lemma cf_inf x : oz0 (inf_temp c h tmax valid cs' (cf x)) = k * oz0 (inf_temp c h tmax valid cs x).
  Proof.
    unfold inf_temp. rewrite cf_coef, cf_d0. destruct (coef c h tmax valid cs x); cbn; ring.
  Qed.
  Lemma cf_unit_sum (F G : cell -> Qc) x : (forall y, F (cf y) = k * G y) -> unit_sum cs' F (cf x) = k * unit_sum cs G x.
  Proof.
    intros H. unfold unit_sum. rewrite (fil _ (mate x)) by apply cf_mate. rewrite (sum_cfk F G) by exact H. cbn. ring.
  Qed.
  Lemma cf_raw : raw_estimate c h tmax valid cs' = k * raw_estimate c h tmax valid cs.
  Proof.
    unfold raw_estimate. rewrite cf_units.
    rewrite (sum_cfk _ (unit_sum cs (fun x => oz0 (inf_temp c h tmax valid cs x)))); [unfold Qcdiv; ring|].
    intros x. apply cf_unit_sum. apply cf_inf.
  Qed.
  Lemma cf_dist_one x : dist_one c h tmax valid cs' (cf x) = dist_one c h tmax valid cs x.
  Proof. unfold dist_one. now rewrite cf_dist. Qed.
  Lemma cf_dose x : dose h cs' (cf x) = dose h cs x.
  Proof.
    unfold dose. rewrite (fil _ (fun y => mate x y && match p_F (c_p y) with Fin F => (F <=? p_t (c_p y))%Z && (p_t (c_p y) <=? F - 1 + h)%Z | Inf => false end)).
    - apply sum_cf. intros y. cbn [cf c_p]. rewrite pf_d. reflexivity.
    - intros y. rewrite cf_mate. cbn [cf c_p]. rewrite pf_t. reflexivity.
  Qed.
  Lemma cf_delta : delta_d c h tmax valid cs' = delta_d c h tmax valid cs.
  Proof.
    unfold delta_d. cbv zeta. rewrite (fil _ (dist_one c h tmax valid cs)) by apply cf_dist_one.
    rewrite (sum_cf c_w c_w) by reflexivity.
    assert (E : forall v, match map cf v with [] => None | _ :: _ => if Qceqb (sumf c_w v) 0 then None else
               Some (sumf (fun x => c_w x / sumf c_w v * signed_dose h cs' x) (map cf v)) end
             = match v with [] => None | _ :: _ => if Qceqb (sumf c_w v) 0 then None else Some (sumf (fun x => c_w x / sumf c_w v * signed_dose h cs x) v) end).
    { intros [|y v]; [reflexivity|]. cbn [map]. destruct (Qceqb _ 0); [reflexivity|]. f_equal.
      change (cf y :: map cf v) with (map cf (y :: v)). apply sum_cf. intros x. unfold signed_dose. rewrite cf_dose. reflexivity. }
    apply E.
  Qed.
  Lemma cf_norm : norm_factor c h tmax valid cs' = norm_factor c h tmax valid cs.
  Proof. unfold norm_factor. now rewrite cf_delta. Qed.

  Context (placebo : bool) (rt : Qc -> Qc).
  Lemma cf_cohort x y : same_cohort (cf x) (cf y) = same_cohort x y.
  Proof. unfold same_cohort. cbn [cf c_p pf p_s]. rewrite sf_base by exact Hf. reflexivity. Qed.
  Lemma cf_group x : cohort_group c h tmax valid cs' placebo (cf x) = map cf (cohort_group c h tmax valid cs placebo x).
  Proof. apply fil. intros y. now rewrite cf_cohort, !cf_dist. Qed.
  Lemma cf_ctl x : is_control c tmax (cf x) = is_control c tmax x. Proof. unfold is_control. now rewrite cf_never. Qed.
  Lemma cf_union x : is_union c h tmax valid cs' (cf x) = is_union c h tmax valid cs x.
  Proof. unfold is_union. now rewrite cf_dist_one, cf_ctl. Qed.
  Lemma cf_dof (m m' : cell -> bool) (g g' : cell -> list cell) x : (forall y, m' (cf y) = m y) -> g' (cf x) = map cf (g x) ->
    dof_col c m' g' (cf x) = dof_col c m g x.
  Proof.
    intros Hm Hg. unfold dof_col. rewrite Hm, Hg. cbn [cf c_p]. rewrite pf_cl, map_map, filter_map_swap, map_length.
    rewrite (filter_ext _ m) by exact Hm.
    erewrite map_ext; [reflexivity|]. intros y. cbv beta. rewrite Hm. cbn [cf c_p]. now rewrite pf_cl.
  Qed.
  Lemma cf_peers x : filter (peer (cf x)) cs' = map cf (filter (peer x) cs). Proof. apply fil, cf_peer. Qed.
  Lemma cf_dof_s x : dof_s c h tmax valid cs' placebo (cf x) = dof_s c h tmax valid cs placebo x.
  Proof. apply cf_dof; [apply cf_dist_one|apply cf_group]. Qed.
  Lemma cf_dof_ns x : dof_ns c tmax cs' (cf x) = dof_ns c tmax cs x.
  Proof. apply cf_dof; [apply cf_ctl|apply cf_peers]. Qed.
  Lemma cf_dof_un x : dof_un c h tmax valid cs' (cf x) = dof_un c h tmax valid cs x.
  Proof. apply cf_dof; [apply cf_union|apply cf_peers]. Qed.
  Lemma cf_wmean l : wmean (map cf l) = k * wmean l.
  Proof.
    unfold wmean. rewrite (sum_cfk wdiff wdiff), (sum_cf c_w c_w); [unfold Qcdiv; ring|reflexivity|].
    intros x. unfold wdiff. rewrite cf_d0. unfold c_w. cbn. ring.
  Qed.
  Lemma cf_mean_s x : mean_s c h tmax valid cs' placebo (cf x) = k * mean_s c h tmax valid cs placebo x.
  Proof.
    unfold mean_s, cohort_rows. rewrite cf_dist_one, cf_group, filter_map_swap. rewrite (filter_ext _ _ cf_dist_one), cf_wmean.
    destruct (dist_one c h tmax valid cs x); ring.
  Qed.
  Lemma cf_mean_ns x : mean_ns c tmax cs' (cf x) = k * mean_ns c tmax cs x.
  Proof.
    unfold mean_ns, control_rows. rewrite cf_ctl, cf_peers, filter_map_swap. rewrite (filter_ext _ _ cf_ctl), cf_wmean.
    rewrite (sum_cf c_w c_w) by reflexivity. destruct (is_control c tmax x && _)%bool; ring.
  Qed.
  Lemma cf_mean_un x : mean_un c h tmax valid cs' (cf x) = k * mean_un c h tmax valid cs x.
  Proof.
    unfold mean_un, union_rows. rewrite cf_union, cf_peers, filter_map_swap. rewrite (filter_ext _ _ cf_union), cf_wmean.
    rewrite (sum_cf c_w c_w) by reflexivity. destruct (is_union c h tmax valid cs x && _)%bool; ring.
  Qed.
  Lemma cf_before x : before_switch (cf x) = before_switch x.
  Proof. unfold before_switch. cbn [cf c_p]. now rewrite pf_t. Qed.
  Lemma cf_e_hat x : e_hat c h tmax valid cs' placebo (cf x) = k * e_hat c h tmax valid cs placebo x.
  Proof.
    unfold e_hat. cbv zeta. rewrite cf_dof_s, cf_dof_ns, cf_dof_un, cf_target, cf_before, cf_mean_s, cf_mean_ns, cf_mean_un.
    repeat match goal with |- context [if ?b then _ else _] => destruct b end; ring.
  Qed.
  Lemma cf_scale x : dof_scale c h tmax valid cs' placebo rt (cf x) = dof_scale c h tmax valid cs placebo rt x.
  Proof.
    unfold dof_scale. cbv zeta. rewrite cf_dof_s, cf_dof_ns, cf_dof_un, cf_target, cf_before. reflexivity.
  Qed.
  Lemma cf_inf_var x : inf_var c h tmax valid cs' placebo rt (cf x) = k * inf_var c h tmax valid cs placebo rt x.
  Proof.
    unfold inf_var, in_window. rewrite cf_coef, cf_scale, cf_e_hat, cf_d0. cbn [cf c_p]. rewrite pf_t.
    change (p_T (pf f (c_p x))) with (p_T (c_p x)). destruct (coef c h tmax valid cs x); ring.
  Qed.
  Lemma cf_infs : unit_infs c h tmax valid cs' placebo rt = map (fun u => (fst u, k * snd u)) (unit_infs c h tmax valid cs placebo rt).
  Proof.
    unfold unit_infs. rewrite (fil _ (fun x => p_first (c_p x))) by reflexivity. rewrite !map_map. apply map_ext. intros x. cbn [fst snd].
    rewrite (cf_unit_sum _ (inf_var c h tmax valid cs placebo rt)) by apply cf_inf_var. cbn [cf c_p]. now rewrite pf_cl.
  Qed.
  Lemma sumsq_k {A B} (F : B -> Qc) (G : A -> Qc) (m : A -> B) l : (forall a, F (m a) = k * G a) -> sumsq F (map m l) = k * k * sumsq G l.
  Proof. intros H. unfold sumsq. rewrite sumf_map, <- sumf_mul_l. apply sumf_ext. intros a _. rewrite H. ring. Qed.
  Lemma clustered_k l : clustered_ss (map (fun u => (fst u, k * snd u)) l) = k * k * clustered_ss l.
  Proof.
    unfold clustered_ss. cbv zeta.
    set (v := flat_map (fun u : option Z * Qc => match fst u with Some z => [(z, snd u)] | None => [] end) l).
    assert (E : flat_map (fun u : option Z * Qc => match fst u with Some z => [(z, snd u)] | None => [] end) (map (fun u => (fst u, k * snd u)) l)
      = map (fun u : Z * Qc => (fst u, k * snd u)) v).
    { unfold v. induction l as [|[[z|] q] l IH]; cbn; [reflexivity| |exact IH]. now rewrite IH. }
    rewrite E. rewrite map_map. cbn [fst]. destruct (Nat.leb _ 1).
    - apply sumsq_k. reflexivity.
    - rewrite <- (map_id (zuniq (map (fun x : Z * Qc => fst x) v))) at 1. apply sumsq_k. intros z. rewrite filter_map_swap. cbn [fst]. rewrite sumf_map, <- sumf_mul_l.
      apply sumf_ext. intros; reflexivity.
  Qed.
  Lemma cf_se2 : se2_unnorm c h tmax valid cs' placebo rt = k * k * se2_unnorm c h tmax valid cs placebo rt.
  Proof.
    unfold se2_unnorm. rewrite cf_units, cf_infs. destruct (ic_cluster c).
    - rewrite clustered_k. unfold Qcdiv. ring.
    - rewrite (sumsq_k snd snd) by reflexivity. unfold Qcdiv. ring.
  Qed.
End Scale.

(** the result of one horizon when the outcome changes scale *)
Definition scaled (k : Qc) (r : hres) : hres :=
  {| h_est := k * h_est r; h_unnorm := k * h_unnorm r; h_norm := h_norm r; h_delta := h_delta r; h_se2 := k * k * h_se2 r;
     h_nsw := h_nsw r; h_nsw_w := h_nsw_w r; h_infs := map (Qcmult k) (h_infs r) |}.
Section Hor.
  Context (c : icfg) (rt : Qc -> Qc) (f : irow -> irow) (Hf : outcome_only f) (k : Qc) (P : list prow).
  Notation P' := (map (pf f) P).
  Context (Hy : forall p q, In p P -> In q P -> p_g p = p_g q -> osub (p_y (pf f p)) (p_y (pf f q)) = option_map (Qcmult k) (osub (p_y p) (p_y q))).
  Lemma cells_cf placebo h : cells placebo h P' = map (cf f k) (cells placebo h P).
  Proof.
    unfold cells. rewrite (sort_gt_map (pf f) p_g p_t p_g p_t P (pf_g f Hf) (pf_t f Hf)).
    rewrite (with_hist_map (pf f) p_g p_g _ (pf_g f Hf) []). rewrite !map_map. apply map_ext_in. intros (p, hist) Hin.
    apply with_hist_in in Hin as (l1 & l2 & e & Eh). rewrite app_nil_r in Eh.
    assert (Hp : In p P). { rewrite <- (sort_gt_in p_g p_t), e. apply in_or_app. right. now left. }
    assert (Hh : forall q, In q hist -> In q P /\ p_g q = p_g p).
    { intros q Hq. rewrite Eh in Hq. apply filter_In in Hq as [h1 h2]. apply Z.eqb_eq in h2. split; [|exact h2].
      rewrite <- (sort_gt_in p_g p_t), e. apply in_or_app. left. now apply in_rev. }
    unfold cf, hmap. cbn [fst snd c_p]. f_equal. cbn [c_diff]. unfold diff_of. cbn [fst snd]. rewrite !lag_row_map.
    assert (Hlag : forall j q, lag_row j hist = Some q -> In q P /\ p_g q = p_g p).
    { intros j q Hq. apply Hh. unfold lag_row in Hq. eapply nth_error_In; exact Hq. }
    destruct placebo.
    - destruct (lag_row (2 * h) hist) as [a|] eqn:Ea, (lag_row h hist) as [b|] eqn:Eb; cbn [option_map]; try reflexivity.
      apply Hlag in Ea as [h1 h2]. apply Hlag in Eb as [h3 h4]. apply Hy; congruence.
    - destruct (lag_row h hist) as [b|] eqn:Eb; cbn [option_map]; [|reflexivity]. apply Hlag in Eb as [h3 h4]. apply Hy; auto.
  Qed.
  Lemma horizon_cf tmax valid placebo h : (forall p, valid (pf f p) = valid p) ->
    horizon c rt tmax valid placebo h P' = option_map (scaled k) (horizon c rt tmax valid placebo h P).
  Proof.
    intros Hv. unfold horizon. rewrite cells_cf. cbv zeta. set (cs := cells placebo h P).
    rewrite !(cf_nsw c _ tmax valid f Hf k Hv cs).
    rewrite !(cf_raw c _ tmax valid f Hf k Hv cs), !(cf_norm c _ tmax valid f Hf k Hv cs), (cf_delta c _ tmax valid f Hf k Hv cs),
      (cf_se2 c _ tmax valid f Hf k Hv cs), (cf_safe c _ tmax valid f Hf k Hv cs), (cf_infs c _ tmax valid f Hf k Hv cs).
    rewrite map_map. cbn [snd]. destruct (n_sw c (Z.of_nat h) tmax valid cs); [reflexivity|]. cbn [option_map]. unfold scaled. cbn [h_est h_unnorm h_norm h_delta h_se2 h_nsw h_nsw_w h_infs].
    rewrite map_map. do 2 f_equal. unfold Qcdiv. ring.
  Qed.
  Lemma pf_map_t : map p_t P' = map p_t P. Proof. rewrite map_map. apply map_ext. apply (pf_t f Hf). Qed.
  Lemma pf_map_F : flat_map (fun p => match p_F p with Fin F => [F] | Inf => [] end) P' = flat_map (fun p => match p_F p with Fin F => [F] | Inf => [] end) P.
  Proof. now rewrite flat_map_map. Qed.
  Lemma all_cf placebo : all_horizons c rt placebo P' = map (option_map (scaled k)) (all_horizons c rt placebo P).
  Proof.
    unfold all_horizons, n_effects, n_placebo, max_effects, max_placebo. cbv zeta. rewrite pf_map_t, pf_map_F. rewrite map_map. apply map_ext. intros h.
    match goal with |- horizon _ _ _ (valid_mask c ?a ?b P') _ _ _ = _ => replace (valid_mask c a b P') with (valid_mask c a b P) end.
    - apply horizon_cf. intros p. unfold valid_mask. reflexivity.
    - unfold valid_mask. now rewrite pf_map_t.
  Qed.
End Hor.

(** ** the whole program *)
Lemma seq_scaled k (l : list (option hres)) : sequence (map (option_map (scaled k)) l) = option_map (map (scaled k)) (sequence l).
Proof. induction l as [|[a|] l IH]; cbn; [reflexivity| |reflexivity]. rewrite IH. now destruct (sequence l). Qed.
Lemma qsum_scale k l : qsum (map (Qcmult k) l) = k * qsum l.
Proof. induction l as [|a l IH]; cbn; [ring|]. unfold qsum in *. cbn in *. rewrite IH. ring. Qed.
Lemma estimates_scaled c k l : estimates c (map (option_map (scaled k)) l) = map (option_map (Qcmult k)) (estimates c l).
Proof.
  unfold estimates. rewrite seq_scaled. destruct (ic_trends_lin c).
  - destruct (sequence l) as [m|]; cbn [option_map].
    + rewrite !map_map. unfold cumulate. rewrite !map_map, !map_length. apply map_ext. intros i. cbn [option_map]. f_equal.
      rewrite <- qsum_scale. f_equal. rewrite <- !firstn_map, !map_map. reflexivity.
    + rewrite !map_map. apply map_ext. intros [a|]; reflexivity.
  - rewrite !map_map. apply map_ext. intros [a|]; reflexivity.
Qed.
Lemma detrend_aff c k d sl l : ic_trends_lin c = true ->
  (forall m s p hist, zmin (map s_t l) = Some m ->
     In (s, p :: hist) (with_hist s_g [] (sort_gt s_g s_t (filter (fun s => negb (grp_eqb (s_F s) (Fin (m + 1)%Z))) l))) ->
     d (s_g s) (s_t s) - d (s_g s) (s_t p) = sl (s_g s)) ->
  detrend c (map (sf (aff k d)) l) = map (sf (aff k (fun g _ => sl g))) (detrend c l).
Proof.
  intros Htl Hd. unfold detrend. rewrite Htl. rewrite map_map. rewrite (map_ext (fun x => s_t (sf (aff k d) x)) s_t) by reflexivity.
  destruct (zmin (map s_t l)) as [m|] eqn:Em.
  2:{ apply zmin_none in Em. apply map_eq_nil in Em. subst l. reflexivity. }
  rewrite (filter_map_swap (sf (aff k d))). cbn [sf s_F].
  specialize (Hd m). set (fl := filter _ l) in *.
  rewrite (sort_gt_map (sf (aff k d)) s_g s_t s_g s_t fl) by reflexivity.
  change (@nil srow) with (map (sf (aff k d)) []) at 1.
  rewrite (with_hist_map (sf (aff k d)) s_g s_g (sort_gt s_g s_t fl) ltac:(reflexivity) []).
  rewrite map_map.
  set (W := with_hist s_g [] (sort_gt s_g s_t fl)) in *.
  rewrite !filter_map_swap, map_map.
  match goal with |- map ?F (filter ?p W) = map ?G (filter ?q W) => change (filter q W) with (filter p W) end.
  apply map_ext_in. intros (s, hist) Hs. apply filter_In in Hs as [Hs _].
  assert (Hu : forall p, In p hist -> s_g p = s_g s).
  { intros p Hp. apply with_hist_in in Hs as (l1 & l2 & _ & Eh). rewrite Eh in Hp. apply filter_In in Hp as [_ Hp]. now apply Z.eqb_eq in Hp. }
  unfold hmap, set_y, sf. cbn [fst snd s_row s_F s_dsq s_dfg s_S s_L i_g i_t i_y i_d i_w i_cl i_tr aff].
  f_equal. unfold aff. cbn [i_g i_t i_y i_d i_w i_cl i_tr]. f_equal.
  destruct hist as [|p hist]; [reflexivity|]. specialize (Hd s p hist eq_refl Hs).
  unfold lag_row. cbn [nth_error Nat.sub map]. cbn [s_row i_y].
  pose proof (Hu p (or_introl eq_refl)) as eg. unfold s_g, s_t in *.
  destruct (i_y (s_row s)) as [y|], (i_y (s_row p)) as [y'|]; cbn; try reflexivity. f_equal. rewrite eg, <- Hd. ring.
Qed.

Section Whole.
  Context (c : icfg) (rt : Qc -> Qc) (rows : list irow) (k : Qc) (a : Z -> Qc).
  Lemma pipeline_fe : pipeline c (map (aff k (fun g _ => a g)) rows)
    = map (pf (aff k (fun g _ => if ic_trends_lin c then 0 else a g))) (pipeline c rows).
  Proof.
    unfold pipeline. fold (kept c (map (aff k (fun g _ => a g)) rows)) (kept c rows). rewrite nat_kept by apply aff_only.
    destruct (ic_trends_lin c) eqn:E.
    - rewrite (detrend_aff c k (fun g _ => a g) (fun _ => 0)); [|exact E|intros; ring]. apply nat_prepare, aff_only.
    - unfold detrend. rewrite E. apply nat_prepare, aff_only.
  Qed.
  Lemma aff_diff (b : Z -> Qc) p q : p_g p = p_g q -> osub (p_y (pf (aff k (fun g _ => b g)) p)) (p_y (pf (aff k (fun g _ => b g)) q)) = option_map (Qcmult k) (osub (p_y p) (p_y q)).
  Proof.
    intros e. unfold p_y, p_g, s_g in *. cbn. destruct (i_y (s_row (p_s p))), (i_y (s_row (p_s q))); cbn; try reflexivity. rewrite e. f_equal. ring.
  Qed.
  Lemma all_fe placebo : all_horizons c rt placebo (pipeline c (map (aff k (fun g _ => a g)) rows))
    = map (option_map (scaled k)) (all_horizons c rt placebo (pipeline c rows)).
  Proof.
    rewrite pipeline_fe. set (b := fun g : Z => if ic_trends_lin c then 0 else a g).
    apply (all_cf c rt (aff k (fun g _ => b g)) (aff_only _ _) k). intros p q _ _. apply (aff_diff b).
  Qed.
  Lemma did_fe : did_multiplegt c rt (map (aff k (fun g _ => a g)) rows)
    = (map (option_map (Qcmult k)) (fst (did_multiplegt c rt rows)), map (option_map (Qcmult k)) (snd (did_multiplegt c rt rows))).
  Proof. unfold did_multiplegt. cbv zeta. cbn [fst snd]. now rewrite (all_fe false), (all_fe true), !estimates_scaled. Qed.
End Whole.
(** unit-specific linear trends, with trends_lin *)
Section Trend.
  Context (c : icfg) (rt : Qc -> Qc) (rows : list irow) (Hn : one_row_per_period rows) (Hd : complete_treatment rows)
    (Hsize : (Z.of_nat (length rows) <= 2000000)%Z) (H0 : forall r, In r rows -> switch_date rows (i_g r) <> Fin 0%Z)
    (Hgap : gapless (used rows c)) (Htl : ic_trends_lin c = true) (a b : Z -> Qc).
  Notation f := (aff 1 (fun g t => a g + b g * qz t)).
  Notation L := (map (ann rows) (K c rows)).
  Lemma kept_eq : kept c rows = balance L.
  Proof. unfold kept. now rewrite (kept_spec c rows Hn Hd Hsize H0). Qed.
  Lemma HKu' : Permutation (K c rows) (used rows c). Proof. now apply K_perm. Qed.
  Lemma L_nodup' : NoDup (map (fun s => (s_g s, s_t s)) L).
  Proof. rewrite map_map. now apply (K_one c rows). Qed.
  Lemma ts_in' t : In t (ts L) <-> exists r, In r (used rows c) /\ i_t r = t.
  Proof.
    unfold ts. rewrite zuniq_in, map_map, in_map_iff. split; intros (r & h1 & h2); exists r.
    - split; [now apply (Permutation_in _ HKu')|exact h1].
    - split; [exact h2|now apply (Permutation_in _ (Permutation_sym HKu'))].
  Qed.
  Lemma step_one (flt : srow -> bool) s p hist : (forall x y, s_g x = s_g y -> In x (B L) -> In y (B L) -> flt x = flt y) ->
    In (s, p :: hist) (with_hist s_g [] (sort_gt s_g s_t (filter flt (B L)))) -> s_t p = (s_t s - 1)%Z /\ s_g p = s_g s.
  Proof.
    intros Hflt Hin.
    assert (Hnd : NoDup (map (fun s => (s_g s, s_t s)) (filter flt (B L)))).
    { pose proof (B_nodup L) as H. clear -H. induction (B L) as [|x l IH]; cbn in *; [constructor|]. inversion H as [|? ? h1 h2]; subst.
      destruct (flt x); cbn; [|auto]. constructor; [|auto]. intros h. apply h1. apply in_map_iff in h as (y & e & hy). apply filter_In in hy as [hy _].
      rewrite <- e. apply (in_map (fun s => (s_g s, s_t s))), hy. }
    destruct (hist_spec s_g s_t _ _ _ Hnd Hin) as (h1 & h2 & h3).
    destruct (proj1 (h2 p) (or_introl eq_refl)) as (k1 & k2 & k3). split; [|exact k2].
    apply filter_In in h1 as [h1 hf]. apply filter_In in k1 as [k1 kf].
    apply B_in in h1 as ((g, t) & hk & ->). apply B_in in k1 as ((g', t') & hk' & ->). rewrite !brow_g, !brow_t in *. cbn [fst snd] in *. subst g'.
    apply keys_in in hk as [hg ht]. apply keys_in in hk' as [_ ht'].
    destruct (Z.eq_dec t' (t - 1)) as [e|ne]; [exact e|]. exfalso.
    assert (Hm : In (t - 1)%Z (ts L)).
    { apply ts_in' in ht as (r & q1 & <-). apply ts_in' in ht' as (r' & q1' & <-). apply ts_in'. refine (Hgap r' r _ q1' q1 _). lia. }
    assert (Hb : forall x, In x (ts L) -> In (brow L (g, x)) (B L)).
    { intros x Hx. apply B_in. exists (g, x). split; [|reflexivity]. apply keys_in. now split. }
    assert (Hq : In (brow L (g, (t - 1)%Z)) (brow L (g, t') :: hist)).
    { apply h2. rewrite brow_g, brow_t. cbn [fst snd]. split; [|split; [reflexivity|lia]]. apply filter_In. split; [now apply Hb|].
      rewrite <- hf. apply Hflt; [now rewrite !brow_g|now apply Hb|now apply Hb]. }
    destruct Hq as [e|Hq].
    - apply (f_equal s_t) in e. rewrite !brow_t in e. cbn in e. congruence.
    - inversion h3 as [|? ? _ h4]; subst. rewrite Forall_forall in h4. specialize (h4 _ Hq). rewrite !brow_t in h4. cbn in h4. lia.
  Qed.
  Lemma brow_F k : In k (keys L) -> s_F (brow L k) = switch_date rows (fst k).
  Proof.
    intros Hk. destruct k as [g t]. apply keys_in in Hk as [hg _]. unfold gs in hg. rewrite zuniq_in in hg. apply in_map_iff in hg as (s0 & e0 & hs0).
    unfold brow. cbn [fst snd]. destruct (find (fun s => (s_g s =? g)%Z && (s_t s =? t)%Z) L) as [s|] eqn:E.
    - apply find_some in E as [E1 E2]. apply andb_true_iff in E2 as [E2 _]. apply Z.eqb_eq in E2. apply in_map_iff in E1 as (r & <- & _). cbn. rewrite <- E2. reflexivity.
    - destruct (find (fun s => (s_g s =? g)%Z) L) as [s|] eqn:E'.
      + apply find_some in E' as [E1 E2]. apply Z.eqb_eq in E2. apply in_map_iff in E1 as (r & <- & _). cbn. rewrite <- E2. reflexivity.
      + exfalso. eapply find_none in E'; [|exact hs0]. cbv beta in E'. rewrite e0, Z.eqb_refl in E'. discriminate.
  Qed.
  Lemma pipeline_trend : pipeline c (map f rows) = map (pf (aff 1 (fun g _ => b g))) (pipeline c rows).
  Proof.
    unfold pipeline. fold (kept c (map f rows)) (kept c rows). rewrite nat_kept by apply aff_only.
    rewrite (detrend_aff c 1 (fun g t => a g + b g * qz t) b); [apply nat_prepare, aff_only|exact Htl|].
    intros m s p hist _ Hin. rewrite kept_eq, balance_eq in Hin. fold (B L) in Hin.
    apply step_one in Hin as [e1 e2].
    - rewrite e1. change (s_t s - 1)%Z with (s_t s + - (1))%Z. rewrite qz_add, qz_opp, qz_1. ring.
    - intros x y e Hx Hy. apply B_in in Hx as (kx & h1 & ->). apply B_in in Hy as (ky & h2 & ->). rewrite !brow_g in e.
      rewrite !brow_F by assumption. now rewrite e.
  Qed.
  Lemma all_trend placebo : all_horizons c rt placebo (pipeline c (map f rows)) = map (option_map (scaled 1)) (all_horizons c rt placebo (pipeline c rows)).
  Proof.
    rewrite pipeline_trend. apply (all_cf c rt (aff 1 (fun g _ => b g)) (aff_only _ _) 1). intros p q _ _. apply (aff_diff 1 b).
  Qed.
End Trend.
Lemma scaled_1 r : scaled 1 r = r.
Proof. destruct r. unfold scaled. cbn. rewrite !Qcmult_1_l. f_equal. rewrite <- (map_id h_infs) at 2. apply map_ext. intros; ring. Qed.
Lemma map_scaled_1 l : map (option_map (scaled 1)) l = l.
Proof. rewrite <- (map_id l) at 2. apply map_ext. intros [r|]; cbn; [now rewrite scaled_1|reflexivity]. Qed.
Lemma map_mult_1 (l : list (option Qc)) : map (option_map (Qcmult 1)) l = l.
Proof. rewrite <- (map_id l) at 2. apply map_ext. intros [r|]; cbn; [now rewrite Qcmult_1_l|reflexivity]. Qed.
