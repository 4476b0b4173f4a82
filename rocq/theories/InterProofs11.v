(** did_multiplegt: row order, weights, calendar, dose, total effect. *)
From Verif Require Import Base ListLib PreprocessModel InterModel InterSpec InterProofs1 InterProofs2 InterProofs3 InterProofs4 InterProofs5 InterProofs6 InterProofs7 InterProofs8 InterProofs10.

(** ** row order *)
Lemma pipeline_perm c rows rows' : one_row_per_period rows -> Permutation rows rows' -> pipeline c rows = pipeline c rows'.
Proof.
  intros Hn Hp.
  assert (E : Permutation (drop_missing_units rows) (drop_missing_units rows')).
  { unfold drop_missing_units. rewrite (filter_perm _ _ _ Hp). erewrite filter_ext; [apply Permutation_refl|]. intros r. cbv beta.
    f_equal; apply existsb_same; intros s; split; apply Permutation_in; auto using Permutation_sym. }
  assert (Hn' : one_row_per_period (drop_missing_units rows)) by (apply one_row_filter; exact Hn).
  unfold pipeline, identify. rewrite (sort_gt_perm_eq i_g i_t _ _ Hn' E). reflexivity.
Qed.

(** ** forbidden comparisons: outcomes after the switch matter only for the unit's own horizon *)
Lemma avg_local c rows placebo h phi : (1 <= h)%Z ->
  (forall r y, In r rows -> (match switch_date rows (i_g r) with Fin F => (i_t r < F)%Z \/ (placebo = false /\ i_t r = (F - 1 + h)%Z) | Inf => True end) -> phi r y = y) ->
  average_did c (map (with_y phi) rows) placebo h = average_did c rows placebo h.
Proof.
  intros Hh Hphi. apply avg_f. intros r r' v v' Hr Hr' Hv Hv'.
  unfold switchers in Hr. apply filter_In in Hr as [Hru Hs]. unfold switcher in Hs. rewrite !andb_true_iff in Hs. destruct Hs as [[[Ht _] _] _].
  destruct (switch_date rows (i_g r)) as [F|] eqn:EF; [|discriminate]. apply Z.eqb_eq in Ht.
  unfold comparisons in Hr'. apply filter_In in Hr' as [Hru' Hc]. rewrite !andb_true_iff in Hc. destruct Hc as [[[Ht' _] Hny] _]. apply Z.eqb_eq in Ht'.
  assert (Ey : forall g t, (match switch_date rows g with Fin F => (t < F)%Z \/ (placebo = false /\ t = (F - 1 + h)%Z) | Inf => True end) ->
     y_at (map (with_y phi) (used rows c)) g t = y_at (used rows c) g t).
  { intros g t Hg. unfold y_at. rewrite obs_f. destruct (obs (used rows c) g t) as [q|] eqn:E; [|reflexivity].
    apply obs_is_in in E as (h1 & h2 & h3). cbn. destruct (i_y q) as [y|]; [|reflexivity]. cbn. f_equal. apply Hphi; [now apply (used_rows c)|].
    rewrite h2, h3. exact Hg. }
  assert (G : forall q w, h_change (used rows c) placebo h q = Some w -> (match switch_date rows (i_g q) with Fin F => (i_t q < F)%Z \/ i_t q = (F - 1 + h)%Z | Inf => True end) ->
     val (h_change (map (with_y phi) (used rows c)) placebo h (with_y phi q)) - w = 0).
  { intros q w Hw Hq. replace (h_change (map (with_y phi) (used rows c)) placebo h (with_y phi q)) with (h_change (used rows c) placebo h q).
    - rewrite Hw. cbn. ring.
    - unfold h_change, change. cbn [with_y i_g i_t]. destruct placebo; rewrite !Ey; try reflexivity;
        destruct (switch_date rows (i_g q)); auto; destruct Hq; (right; split; [reflexivity|lia]) || (left; lia). }
  rewrite (G r v Hv), (G r' v' Hv'); [reflexivity| |].
  - unfold not_yet in Hny. destruct (switch_date rows (i_g r')); [|exact I]. apply andb_true_iff in Hny as [Hny _]. apply Z.ltb_lt in Hny. now left.
  - rewrite EF. now right.
Qed.

(** ** the scale of the sampling weights *)
Lemma Qcmult_pos_pos (a b : Qc) : 0 < a -> 0 < b -> 0 < a * b. Proof. intros. qcnra. Qed.
Lemma div_scale (k a b : Qc) : k <> 0 -> k * a / (k * b) = a / b.
Proof.
  intros Hk. destruct (Qc_eq_dec b 0) as [->|Hb].
  - rewrite Qcmult_0_r. unfold Qcdiv. replace (/ 0) with (0 : Qc) by (apply Qc_is_canon; reflexivity). ring.
  - field. split; assumption.
Qed.
Section Weights.
  Context (c : icfg) (rows : list irow) (k : Qc) (Hk : 0 < k) (Hcw : ic_weighted c = true).
  Notation f := (scale_w k).
  Lemma obs_w l g t : obs (map f l) g t = option_map f (obs l g t).
  Proof. unfold obs. rewrite find_map_swap. reflexivity. Qed.
  Lemma d_at_w g t : d_at (map f rows) g t = d_at rows g t.
  Proof. unfold d_at. rewrite obs_w. now destruct (obs rows g t). Qed.
  Lemma periods_w g : periods_of (map f rows) g = periods_of rows g.
  Proof. unfold periods_of. now rewrite filter_map_swap, map_map. Qed.
  Lemma baseline_w g : baseline (map f rows) g = baseline rows g.
  Proof. unfold baseline. rewrite periods_w. destruct (min_of _); [apply d_at_w|reflexivity]. Qed.
  Lemma switch_date_w g : switch_date (map f rows) g = switch_date rows g.
  Proof. unfold switch_date. rewrite periods_w. rewrite (filter_ext _ (changed rows g)); [reflexivity|]. intros t. unfold changed. now rewrite d_at_w, baseline_w. Qed.
  Lemma in_w g : switches_in (map f rows) g = switches_in rows g.
  Proof. unfold switches_in. rewrite switch_date_w, baseline_w. destruct (switch_date rows g); [|reflexivity]. now rewrite d_at_w. Qed.
  Lemma out_w g : switches_out (map f rows) g = switches_out rows g.
  Proof. unfold switches_out. rewrite switch_date_w, baseline_w. destruct (switch_date rows g); [|reflexivity]. now rewrite d_at_w. Qed.
  Lemma crossed_w g t : crossed (map f rows) g t = crossed rows g t.
  Proof. unfold crossed. rewrite periods_w, baseline_w. f_equal; apply existsb_ext_in; intros s _; now rewrite d_at_w. Qed.
  Lemma sample_w : sample (map f rows) c = map f (sample rows c).
  Proof.
    unfold sample. rewrite filter_map_swap. f_equal. apply filter_ext. intros r. unfold in_sample, direction_ok, has_outcome. cbn [scale_w i_g i_t].
    rewrite existsb_map_swap, in_w, out_w, crossed_w. reflexivity.
  Qed.
  Lemma same_baseline_w r r' : same_baseline (map f rows) (f r) (f r') = same_baseline rows r r'.
  Proof. unfold same_baseline. cbn [scale_w i_g i_tr]. now rewrite !baseline_w. Qed.
  Lemma used_w : used (map f rows) c = map f (used rows c).
  Proof.
    unfold used. rewrite sample_w, filter_map_swap. f_equal. apply filter_ext. intros r. unfold usable. rewrite sample_w, !existsb_map_swap.
    f_equal; apply existsb_ext_in; intros r' _; rewrite same_baseline_w; cbn [scale_w i_g i_t]; now rewrite ?switch_date_w.
  Qed.
  Lemma weight_w r : obs_weight c (f r) = k * obs_weight c r.
  Proof. unfold obs_weight. rewrite Hcw. cbn. destruct (is_some (i_y r) && is_some (i_d r))%bool; [|ring]. destruct (i_w r); cbn; ring. Qed.
  Lemma y_at_w l g t : y_at (map f l) g t = y_at l g t.
  Proof. unfold y_at. rewrite obs_w. now destruct (obs l g t). Qed.
  Lemma h_change_w l placebo h r : h_change (map f l) placebo h (f r) = h_change l placebo h r.
  Proof. unfold h_change, change. cbn [scale_w i_g i_t]. now rewrite !y_at_w. Qed.
  Lemma comparisons_w placebo h r : comparisons c (map f rows) placebo h (f r) = map f (comparisons c rows placebo h r).
  Proof.
    unfold comparisons. rewrite used_w, filter_map_swap. f_equal. apply filter_ext. intros r'. rewrite same_baseline_w, h_change_w.
    unfold not_yet. cbn [scale_w i_g i_t]. rewrite switch_date_w, used_w. destruct (switch_date rows (i_g r')); [|reflexivity]. rewrite existsb_map_swap. reflexivity.
  Qed.
  Lemma sum_w (F G : irow -> Qc) l : (forall r, F (f r) = k * G r) -> sumf F (map f l) = k * sumf G l.
  Proof. intros H. rewrite sumf_map, <- sumf_mul_l. apply sumf_ext. intros; apply H. Qed.
  Lemma comp_w placebo h r : sumf (obs_weight c) (comparisons c (map f rows) placebo h (f r)) = k * sumf (obs_weight c) (comparisons c rows placebo h r).
  Proof. rewrite comparisons_w. apply sum_w, weight_w. Qed.
  Lemma k_pos x : Qcltb 0 (k * x) = Qcltb 0 x.
  Proof.
    apply Bool.eq_true_iff_eq. destruct (Qcltb_spec 0 (k * x)) as [a|a], (Qcltb_spec 0 x) as [b|b]; try tauto; split; intros; try discriminate; exfalso.
    - apply b. assert (x = k * x * / k) as -> by (field; now apply Qc_pos_neq0). apply Qcmult_pos_pos; [exact a|now apply Qcinv_pos].
    - apply a. now apply Qcmult_pos_pos.
  Qed.
  Lemma switchers_w placebo h : switchers c (map f rows) placebo h = map f (switchers c rows placebo h).
  Proof.
    unfold switchers. rewrite used_w, filter_map_swap. f_equal. apply filter_ext. intros r. unfold switcher. rewrite comp_w, k_pos, used_w, h_change_w.
    cbn [scale_w i_g i_t]. now rewrite switch_date_w, in_w, out_w.
  Qed.
  Lemma sw_w placebo h : sumf (obs_weight c) (switchers c (map f rows) placebo h) = k * sumf (obs_weight c) (switchers c rows placebo h).
  Proof. rewrite switchers_w. apply sum_w, weight_w. Qed.
  Lemma Hk0 : k <> 0. Proof. now apply Qc_pos_neq0. Qed.
  Lemma div_k a b : k * a / (k * b) = a / b.
  Proof. apply div_scale, Hk0. Qed.
  Lemma avg_w placebo h : average_did c (map f rows) placebo h = average_did c rows placebo h.
  Proof.
    unfold average_did. rewrite sw_w, switchers_w. rewrite (sum_w _ (fun r => obs_weight c r * unit_did c rows placebo h r)); [apply div_k|].
    intros r. rewrite weight_w. rewrite <- Qcmult_assoc. do 2 f_equal. unfold unit_did. rewrite used_w, h_change_w, comp_w, comparisons_w.
    rewrite (sum_w _ (fun r' => obs_weight c r' * val (h_change (used rows c) placebo h r'))); [now rewrite div_k|].
    intros r'. rewrite weight_w, h_change_w. ring.
  Qed.
End Weights.
