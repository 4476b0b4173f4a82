(** did_multiplegt: assembling the reported horizons. *)
From Verif Require Import Base ListLib PreprocessModel InterModel InterSpec InterProofs1 InterProofs2 InterProofs3 InterProofs4 InterProofs5 InterProofs6.

Section Out.
  Context (c : icfg) (rt : Qc -> Qc) (rows : list irow) (Hn : one_row_per_period rows) (Hd : complete_treatment rows)
    (Hsize : (Z.of_nat (length rows) <= 2000000)%Z) (H0 : forall r, In r rows -> switch_date rows (i_g r) <> Fin 0%Z)
    (Hgap : gapless (used rows c)) (Hsame : ic_same c = false) (Htl : ic_trends_lin c = false).
  Notation u := (used rows c).
  Notation L := (map (ann rows) (K c rows)).
  Notation P := (pipeline c rows).
  Lemma pipeline_eq : P = prepare c (balance L).
  Proof. unfold pipeline, detrend. rewrite Htl. now rewrite (kept_spec c rows Hn Hd Hsize H0). Qed.
  Lemma tmax_eq : match zmax (map p_t P) with Some m => m | None => 0%Z end = tmx c rows.
  Proof. unfold tmx. now rewrite pipeline_eq. Qed.

  Definition result (placebo : bool) (h : nat) : option hres := horizon c rt (tmx c rows) (valid_mask c (n_effects c P) (n_placebo c P) P) placebo h P.
  Lemma result_some placebo h : (1 <= h)%nat -> tiny <= sumf (obs_weight c) (switchers c rows placebo (Z.of_nat h)) ->
    exists r, result placebo h = Some r /\ h_unnorm r = average_did c rows placebo (Z.of_nat h)
      /\ h_delta r = Some (average_dose c rows placebo (Z.of_nat h)) /\ h_nsw_w r = sumf (obs_weight c) (switchers c rows placebo (Z.of_nat h))
      /\ h_norm r = (if ic_norm c && negb (Qceqb (average_dose c rows placebo (Z.of_nat h)) 0) then average_dose c rows placebo (Z.of_nat h) else 1)
      /\ h_est r = average_did c rows placebo (Z.of_nat h) / h_norm r.
  Proof.
    intros Hh Hw. unfold result, horizon. rewrite pipeline_eq.
    set (valid := valid_mask _ _ _ _). set (cs := cells placebo h (prepare c (balance L))).
    assert (Hne : filter (eligible c (Z.of_nat h) (tmx c rows) valid cs) cs <> []).
    { apply elig_some; [now apply KL_nodup|]. rewrite sw_nil by assumption. now apply sw_ne. }
    destruct (n_sw c (Z.of_nat h) (tmx c rows) valid cs) eqn:E; [now apply n_sw_zero in E|].
    eexists. split; [reflexivity|]. cbn [h_unnorm h_delta h_nsw_w h_norm h_est]. unfold cs. clearbody valid.
    rewrite (raw_spec c rows Hn Hd Hgap placebo h Hh valid Hsame Hw).
    unfold norm_factor. rewrite (delta_spec c rows Hn Hd Hgap placebo h Hh valid Hsame Hw).
    rewrite (safe_spec c rows Hn Hd Hgap placebo h Hh valid Hsame Hw). auto.
  Qed.
  Lemma result_none h : (1 <= h)%nat -> switchers c rows false (Z.of_nat h) = [] -> result false h = None.
  Proof.
    intros Hh Hs. unfold result, horizon. rewrite pipeline_eq.
    set (valid := valid_mask _ _ _ _). set (cs := cells false h (prepare c (balance L))).
    destruct (n_sw c (Z.of_nat h) (tmx c rows) valid cs) eqn:E; [reflexivity|]. exfalso.
    assert (Hz : n_sw c (Z.of_nat h) (tmx c rows) valid cs = O); [|congruence]. apply n_sw_zero.
    apply elig_false; [now apply KL_nodup|reflexivity|]. apply sw_nil; auto.
  Qed.
  Lemma horizons_eq placebo : all_horizons c rt placebo P = map (result placebo) (seq 1 (if placebo then n_placebo c P else n_effects c P)).
  Proof. unfold all_horizons. rewrite tmax_eq. reflexivity. Qed.
  Lemma estimates_nth (placebo : bool) h : (1 <= h <= if placebo then n_placebo c P else n_effects c P)%nat ->
    nth_error (estimates c (all_horizons c rt placebo P)) (h - 1) = Some (option_map h_est (result placebo h)).
  Proof.
    intros Hh. unfold estimates. rewrite Htl, horizons_eq, map_map.
    rewrite nth_error_map. rewrite (nth_error_nth' _ O) by (rewrite seq_length; lia). cbn. rewrite seq_nth by lia. now replace (1 + (h - 1))%nat with h by lia.
  Qed.

  (** the clipped horizons have no switcher *)
  Lemma P_F_in r f : In r u -> switch_date rows (i_g r) = Fin f -> In f (flat_map (fun p => match p_F p with Fin F => [F] | Inf => [] end) P).
  Proof.
    intros Hr EF. rewrite pipeline_eq. apply in_flat_map. exists (pk c L (skey (ann rows r))).
    assert (Hl : In (ann rows r) L) by (apply in_map, (Permutation_in _ (Permutation_sym (HKu c rows Hn Hd)) Hr)).
    split.
    - apply (prepare_in c L). eexists. split; [|reflexivity]. now apply skey_in.
    - unfold p_F. cbn [pk p_s]. rewrite brow_in; [|now apply KL_nodup|exact Hl]. change (s_F (ann rows r)) with (switch_date rows (i_g r)). rewrite EF. now left.
  Qed.
  Lemma P_t_in r : In r u -> In (i_t r) (map p_t P).
  Proof.
    intros Hr. rewrite pipeline_eq. assert (Hl : In (ann rows r) L) by (apply in_map, (Permutation_in _ (Permutation_sym (HKu c rows Hn Hd)) Hr)).
    apply in_map_iff. exists (pk c L (skey (ann rows r))). split; [apply pk_t|]. apply (prepare_in c L). eexists. split; [|reflexivity]. now apply skey_in.
  Qed.
  Lemma effects_clip h : (n_effects c P < h <= ic_effects c)%nat -> switchers c rows false (Z.of_nat h) = [].
  Proof.
    intros [H1 H2]. destruct (switchers c rows false (Z.of_nat h)) as [|r l] eqn:E; [reflexivity|]. exfalso.
    assert (Hr : In r (switchers c rows false (Z.of_nat h))) by (rewrite E; now left). apply filter_In in Hr as [Hr Hs].
    unfold switcher in Hs. rewrite !andb_true_iff in Hs. destruct Hs as [[[Ht _] _] _].
    destruct (switch_date rows (i_g r)) as [f|] eqn:EF; [|discriminate]. apply Z.eqb_eq in Ht.
    pose proof (P_F_in r f Hr EF) as hF. pose proof (P_t_in r Hr) as ht.
    unfold n_effects, max_effects in H1.
    destruct (zmax_in_some _ _ ht) as [m Em]. destruct (zmin_in_some _ _ hF) as [F EF']. rewrite Em, EF' in H1.
    apply zmax_some in Em as [_ Em]. apply zmin_some in EF' as [_ EF']. specialize (Em _ ht). specialize (EF' _ hF). lia.
  Qed.
  Lemma placebo_clip h : (n_placebo c P < h <= ic_placebo c)%nat -> switchers c rows true (Z.of_nat h) = [].
  Proof.
    intros [H1 H2]. destruct (switchers c rows true (Z.of_nat h)) as [|r l] eqn:E; [reflexivity|]. exfalso.
    assert (Hr : In r (switchers c rows true (Z.of_nat h))) by (rewrite E; now left). apply filter_In in Hr as [Hr Hs].
    unfold switcher in Hs. rewrite !andb_true_iff in Hs. destruct Hs as [[[Ht Hy] _] _].
    destruct (switch_date rows (i_g r)) as [f|] eqn:EF; [|discriminate]. apply Z.eqb_eq in Ht.
    unfold h_change, change, y_at in Hy. destruct (obs u (i_g r) (i_t r - 2 * Z.of_nat h)) as [r'|] eqn:Eo; [|discriminate].
    apply obs_is_in in Eo as (k1 & k2 & k3).
    pose proof (P_F_in r f Hr EF) as hF. pose proof (P_t_in r' k1) as ht.
    unfold n_placebo, max_placebo in H1.
    destruct (zmin_in_some _ _ ht) as [m Em]. destruct (zmax_in_some _ _ hF) as [F EF']. rewrite Em, EF' in H1.
    apply zmin_some in Em as [_ Em]. apply zmax_some in EF' as [_ EF']. specialize (Em _ ht). specialize (EF' _ hF). lia.
  Qed.
  Lemma n_effects_le : (n_effects c P <= ic_effects c)%nat. Proof. unfold n_effects. lia. Qed.
  Lemma n_placebo_le : (n_placebo c P <= ic_placebo c)%nat. Proof. unfold n_placebo. lia. Qed.
  Lemma estimates_len (placebo : bool) : length (estimates c (all_horizons c rt placebo P)) = if placebo then n_placebo c P else n_effects c P.
  Proof.
    unfold estimates. rewrite Htl.
    rewrite map_length, horizons_eq, map_length, seq_length. reflexivity.
  Qed.
  (** unweighted effects: the weights add up to the number of switchers *)
  Lemma unweighted_total h : ic_weighted c = false -> switchers c rows false h <> [] -> tiny <= sumf (obs_weight c) (switchers c rows false h).
  Proof.
    intros Hw Hne.
    rewrite (sumf_ext _ (fun _ => 1)).
    - rewrite sumf_const. destruct (switchers c rows false h) as [|x l]; [tauto|]. rewrite Qcmult_1_r.
      apply Qcle_trans with 1; [discriminate|]. rewrite <- (qz_1). unfold qn. rewrite <- qz_le. cbn [length]. lia.
    - intros r Hr. unfold switchers in Hr. apply filter_In in Hr as [Hr Hs]. unfold switcher in Hs. rewrite !andb_true_iff in Hs. destruct Hs as [[[_ Hy] _] _].
      unfold obs_weight. rewrite Hw. unfold h_change, change, y_at in Hy. rewrite (obs_in u r) in Hy; [|now apply used_one|exact Hr].
      destruct (i_y r); [|discriminate]. destruct (Hd r) as [x ->]; [|reflexivity]. unfold used, sample in Hr. rewrite !filter_In in Hr. tauto.
  Qed.
  (** ** the end-to-end statement *)
  Lemma reported_eq (placebo : bool) h : (1 <= h)%nat -> reported c rt rows placebo h =
    if Nat.leb h (if placebo then n_placebo c P else n_effects c P) then option_map h_est (result placebo h) else None.
  Proof.
    intros Hh. unfold reported, did_multiplegt. set (l := (if placebo then snd else fst) _).
    assert (El : l = estimates c (all_horizons c rt placebo P)) by (unfold l; destruct placebo; reflexivity). rewrite El. clear l El.
    destruct (Nat.leb_spec h (if placebo then n_placebo c P else n_effects c P)) as [h1|h1].
    - erewrite nth_error_nth; [reflexivity|]. apply estimates_nth. lia.
    - apply nth_overflow. rewrite estimates_len. lia.
  Qed.
End Out.
