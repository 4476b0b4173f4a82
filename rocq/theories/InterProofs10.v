(** did_multiplegt: what the documented average does with common shocks and with effects. *)
From Verif Require Import Base ListLib PreprocessModel InterModel InterSpec InterProofs1 InterProofs2 InterProofs3 InterProofs4 InterProofs8.

Section Shift.
  Context (rows : list irow) (phi : irow -> Qc -> Qc).
  Notation f := (with_y phi).
  Notation rows' := (map f rows).
  Lemma obs_f l g t : obs (map f l) g t = option_map f (obs l g t).
  Proof. unfold obs. rewrite find_map_swap. reflexivity. Qed.
  Lemma d_at_f g t : d_at rows' g t = d_at rows g t.
  Proof. unfold d_at. rewrite obs_f. now destruct (obs rows g t). Qed.
  Lemma periods_f g : periods_of rows' g = periods_of rows g.
  Proof. unfold periods_of. now rewrite filter_map_swap, map_map. Qed.
  Lemma baseline_f g : baseline rows' g = baseline rows g.
  Proof. unfold baseline. rewrite periods_f. destruct (min_of _); [apply d_at_f|reflexivity]. Qed.
  Lemma changed_f g t : changed rows' g t = changed rows g t. Proof. unfold changed. now rewrite d_at_f, baseline_f. Qed.
  Lemma switch_date_f g : switch_date rows' g = switch_date rows g.
  Proof. unfold switch_date. rewrite periods_f. rewrite (filter_ext _ (changed rows g)) by apply changed_f. reflexivity. Qed.
  Lemma in_f g : switches_in rows' g = switches_in rows g.
  Proof. unfold switches_in. rewrite switch_date_f, baseline_f. destruct (switch_date rows g); [|reflexivity]. now rewrite d_at_f. Qed.
  Lemma out_f g : switches_out rows' g = switches_out rows g.
  Proof. unfold switches_out. rewrite switch_date_f, baseline_f. destruct (switch_date rows g); [|reflexivity]. now rewrite d_at_f. Qed.
  Lemma crossed_f g t : crossed rows' g t = crossed rows g t.
  Proof. unfold crossed. rewrite periods_f, baseline_f. f_equal; apply existsb_ext_in; intros s _; now rewrite d_at_f. Qed.
  Lemma outcome_f g : has_outcome rows' g = has_outcome rows g.
  Proof. unfold has_outcome. rewrite existsb_map_swap. apply existsb_ext_in. intros r _. cbn. now destruct (i_y r). Qed.
  Lemma sample_f c : sample rows' c = map f (sample rows c).
  Proof.
    unfold sample. rewrite filter_map_swap. f_equal. apply filter_ext. intros r. unfold in_sample, direction_ok. cbn [with_y i_g i_t].
    now rewrite outcome_f, in_f, out_f, crossed_f.
  Qed.
  Lemma same_baseline_f r r' : same_baseline rows' (f r) (f r') = same_baseline rows r r'.
  Proof. unfold same_baseline. cbn [with_y i_g i_tr]. now rewrite !baseline_f. Qed.
  Lemma used_f c : used rows' c = map f (used rows c).
  Proof.
    unfold used. rewrite sample_f, filter_map_swap. f_equal. apply filter_ext. intros r. unfold usable. rewrite sample_f, !existsb_map_swap.
    f_equal; apply existsb_ext_in; intros r' _; rewrite same_baseline_f; cbn [with_y i_g i_t]; now rewrite ?switch_date_f.
  Qed.
  Lemma weight_f c r : obs_weight c (f r) = obs_weight c r.
  Proof. unfold obs_weight. cbn. now destruct (i_y r). Qed.
  Lemma y_at_some l g t : is_some (y_at (map f l) g t) = is_some (y_at l g t).
  Proof. unfold y_at. rewrite obs_f. destruct (obs l g t); cbn; [|reflexivity]. now destruct (i_y i). Qed.
  Lemma h_change_some l placebo h r : is_some (h_change (map f l) placebo h (f r)) = is_some (h_change l placebo h r).
  Proof.
    unfold h_change, change. cbn [with_y i_g i_t].
    assert (E : forall a b, is_some (match y_at (map f l) (i_g r) b, y_at (map f l) (i_g r) a with Some y1, Some y0 => Some (y1 - y0) | _, _ => None end)
      = is_some (match y_at l (i_g r) b, y_at l (i_g r) a with Some y1, Some y0 => Some (y1 - y0) | _, _ => None end)).
    { intros a b. pose proof (y_at_some l (i_g r) a). pose proof (y_at_some l (i_g r) b).
      destruct (y_at (map f l) (i_g r) b), (y_at (map f l) (i_g r) a), (y_at l (i_g r) b), (y_at l (i_g r) a); cbn in *; congruence. }
    destruct placebo; apply E.
  Qed.
  Lemma not_yet_f c r : not_yet c rows' (f r) = not_yet c rows r.
  Proof.
    unfold not_yet. cbn [with_y i_g i_t]. rewrite switch_date_f, used_f. destruct (switch_date rows (i_g r)); [|reflexivity]. rewrite existsb_map_swap. reflexivity.
  Qed.
  Lemma comparisons_f c placebo h r : comparisons c rows' placebo h (f r) = map f (comparisons c rows placebo h r).
  Proof.
    unfold comparisons. rewrite used_f, filter_map_swap. f_equal. apply filter_ext. intros r'.
    rewrite same_baseline_f, not_yet_f, h_change_some. reflexivity.
  Qed.
  Lemma comp_weight_f c placebo h r : sumf (obs_weight c) (comparisons c rows' placebo h (f r)) = sumf (obs_weight c) (comparisons c rows placebo h r).
  Proof. rewrite comparisons_f, sumf_map. apply sumf_ext. intros; apply weight_f. Qed.
  Lemma switcher_f c placebo h r : switcher c rows' placebo h (f r) = switcher c rows placebo h r.
  Proof.
    unfold switcher. rewrite comp_weight_f. rewrite used_f, h_change_some. cbn [with_y i_g i_t]. now rewrite switch_date_f, in_f, out_f.
  Qed.
  Lemma switchers_f c placebo h : switchers c rows' placebo h = map f (switchers c rows placebo h).
  Proof. unfold switchers. rewrite used_f, filter_map_swap. f_equal. apply filter_ext. intros; apply switcher_f. Qed.
  Lemma sw_weight_f c placebo h : sumf (obs_weight c) (switchers c rows' placebo h) = sumf (obs_weight c) (switchers c rows placebo h).
  Proof. rewrite switchers_f, sumf_map. apply sumf_ext. intros; apply weight_f. Qed.
  Lemma dose_f c h r : unit_dose c rows' h (f r) = unit_dose c rows h r.
  Proof.
    unfold unit_dose. cbn [with_y i_g]. rewrite switch_date_f, used_f. destruct (switch_date rows (i_g r)); [|reflexivity].
    rewrite filter_map_swap, sumf_map. apply sumf_ext. intros r' _. cbn [with_y i_g i_d]. now rewrite baseline_f.
  Qed.
  Lemma avg_dose_f c placebo h : average_dose c rows' placebo h = average_dose c rows placebo h.
  Proof.
    unfold average_dose. rewrite sw_weight_f, switchers_f, sumf_map. f_equal. apply sumf_ext. intros r _. rewrite weight_f, dose_f.
    unfold sign. cbn [with_y i_g]. now rewrite in_f.
  Qed.
  (** if, among a switcher and its comparison rows, the changes all move by the same amount, the average does not move *)
  Lemma avg_f c placebo h :
    (forall r r' v v', In r (switchers c rows placebo h) -> In r' (comparisons c rows placebo h r) ->
       h_change (used rows c) placebo h r = Some v -> h_change (used rows c) placebo h r' = Some v' ->
       val (h_change (map f (used rows c)) placebo h (f r)) - v = val (h_change (map f (used rows c)) placebo h (f r')) - v') ->
    average_did c rows' placebo h = average_did c rows placebo h.
  Proof.
    intros H. unfold average_did. rewrite sw_weight_f, switchers_f, sumf_map. f_equal. apply sumf_ext. intros r Hr. rewrite weight_f. f_equal.
    unfold unit_did. rewrite comp_weight_f, comparisons_f, used_f, sumf_map.
    assert (Hr' := Hr). unfold switchers in Hr'. apply filter_In in Hr' as [_ Hs]. unfold switcher in Hs. rewrite !andb_true_iff in Hs.
    destruct Hs as [[[_ Hc] _] Hp]. apply is_some_ex in Hc as [v Hv].
    assert (Hpos : 0 < sumf (obs_weight c) (comparisons c rows placebo h r)).
    { destruct (Qcltb_spec 0 (sumf (obs_weight c) (comparisons c rows placebo h r))); [assumption|discriminate]. }
    set (dl := val (h_change (map f (used rows c)) placebo h (f r)) - v).
    assert (E : sumf (fun a => obs_weight c (f a) * val (h_change (map f (used rows c)) placebo h (f a))) (comparisons c rows placebo h r)
      = sumf (fun r' => obs_weight c r' * val (h_change (used rows c) placebo h r')) (comparisons c rows placebo h r)
        + dl * sumf (obs_weight c) (comparisons c rows placebo h r)).
    { rewrite <- sumf_mul_l, <- sumf_add. apply sumf_ext. intros r' Hr'. rewrite weight_f.
      assert (Hc' := Hr'). unfold comparisons in Hc'. apply filter_In in Hc' as [_ Hc']. rewrite !andb_true_iff in Hc'. destruct Hc' as [_ Hc'].
      apply is_some_ex in Hc' as [v' Hv']. pose proof (H r r' v v' Hr Hr' Hv Hv') as E. fold dl in E. rewrite Hv'. cbn [val].
      rewrite E. ring. }
    rewrite E, Hv. cbn [val]. replace (val (h_change (map f (used rows c)) placebo h (f r))) with (v + dl) by (unfold dl; ring).
    apply Qc_pos_neq0 in Hpos. field. exact Hpos.
  Qed.
End Shift.

Section Shock.
  Context (c : icfg) (rows : list irow) (a : Z -> Qc) (b : Z -> option Qc -> option Z -> Qc).
  Context (Htr : unit_level_trends rows).
  Lemma used_rows r : In r (used rows c) -> In r rows.
  Proof. unfold used, sample. rewrite !filter_In. tauto. Qed.
  Lemma shock_y g t r0 : In r0 (used rows c) -> i_g r0 = g ->
    y_at (map (with_y (shock rows a b)) (used rows c)) g t = option_map (fun y => y + (a g + b t (baseline rows g) (i_tr r0))) (y_at (used rows c) g t).
  Proof.
    intros H0 Hg. unfold y_at. rewrite obs_f. destruct (obs (used rows c) g t) as [r|] eqn:E; [|reflexivity].
    apply obs_is_in in E as (h1 & h2 & h3). cbn. destruct (i_y r); [|reflexivity]. cbn. f_equal. unfold shock.
    rewrite h2, h3, (Htr r r0); [reflexivity|now apply used_rows|now apply used_rows|congruence].
  Qed.
  Lemma shock_avg placebo h : average_did c (map (with_y (shock rows a b)) rows) placebo h = average_did c rows placebo h.
  Proof.
    apply avg_f. intros r r' v v' Hr Hr' Hv Hv'.
    assert (Hru : In r (used rows c)) by (unfold switchers in Hr; apply filter_In in Hr; tauto).
    unfold comparisons in Hr'. apply filter_In in Hr' as [Hru' Hc]. rewrite !andb_true_iff in Hc. destruct Hc as [[[Ht Hb] _] _].
    apply Z.eqb_eq in Ht. apply same_baseline_iff in Hb as [Hb Htr'].
    assert (E : forall t1 t0 q w, change (used rows c) (i_g q) t0 t1 = Some w -> In q (used rows c) ->
       val (change (map (with_y (shock rows a b)) (used rows c)) (i_g q) t0 t1) - w = b t1 (baseline rows (i_g q)) (i_tr q) - b t0 (baseline rows (i_g q)) (i_tr q)).
    { intros t1 t0 q w Hw Hq. unfold change in *. rewrite !(shock_y (i_g q) _ q Hq eq_refl).
      destruct (y_at (used rows c) (i_g q) t1), (y_at (used rows c) (i_g q) t0); try discriminate. injection Hw as <-. cbn. ring. }
    unfold h_change in *. cbn [with_y i_g i_t]. destruct placebo; rewrite (E _ _ r v Hv Hru), (E _ _ r' v' Hv' Hru'), Hb, Htr', Ht; reflexivity.
  Qed.
End Shock.

Section Truth.
  (** outcomes with common trends within a baseline group, plus an effect tau from the switching date on *)
  Context (c : icfg) (rows : list irow) (a : Z -> Qc) (b : Z -> option Qc -> option Z -> Qc) (tau : Z -> Z -> Qc).
  Context (Htr : unit_level_trends rows) (Hy : truth rows a b tau).
  Lemma truth_y g t r0 y : In r0 (used rows c) -> i_g r0 = g -> y_at (used rows c) g t = Some y ->
    y = a g + b t (baseline rows g) (i_tr r0) + (if treated_at rows g t then tau g t else 0).
  Proof.
    intros H0 Hg. unfold y_at. destruct (obs (used rows c) g t) as [r|] eqn:E; [|discriminate]. intros Ey.
    apply obs_is_in in E as (h1 & h2 & h3). rewrite (Hy r y (used_rows c rows r h1) Ey), h2, h3.
    rewrite (Htr r r0); [reflexivity|now apply (used_rows c)|now apply (used_rows c)|congruence].
  Qed.
  Lemma truth_change t1 t0 q v : In q (used rows c) -> change (used rows c) (i_g q) t0 t1 = Some v ->
    v = b t1 (baseline rows (i_g q)) (i_tr q) - b t0 (baseline rows (i_g q)) (i_tr q)
        + ((if treated_at rows (i_g q) t1 then tau (i_g q) t1 else 0) - (if treated_at rows (i_g q) t0 then tau (i_g q) t0 else 0)).
  Proof.
    intros Hq. unfold change. destruct (y_at (used rows c) (i_g q) t1) as [y1|] eqn:E1, (y_at (used rows c) (i_g q) t0) as [y0|] eqn:E0; try discriminate.
    intros [= <-]. rewrite (truth_y _ _ q _ Hq eq_refl E1), (truth_y _ _ q _ Hq eq_refl E0). ring.
  Qed.
  Lemma truth_unit placebo h r : (1 <= h)%Z -> In r (switchers c rows placebo h) -> unit_did c rows placebo h r = if placebo then 0 else tau (i_g r) (i_t r).
  Proof.
    intros Hh Hr. unfold switchers in Hr. apply filter_In in Hr as [Hru Hs]. unfold switcher in Hs. rewrite !andb_true_iff in Hs.
    destruct Hs as [[[Hf Hc] _] Hp]. apply is_some_ex in Hc as [v Hv].
    assert (Hpos : 0 < sumf (obs_weight c) (comparisons c rows placebo h r)).
    { destruct (Qcltb_spec 0 (sumf (obs_weight c) (comparisons c rows placebo h r))); [assumption|discriminate]. }
    destruct (switch_date rows (i_g r)) as [F|] eqn:EF; [|discriminate]. apply Z.eqb_eq in Hf.
    set (t1 := (if placebo then i_t r - 2 * h else i_t r)%Z). set (dl := b t1 (baseline rows (i_g r)) (i_tr r) - b (i_t r - h) (baseline rows (i_g r)) (i_tr r)).
    unfold unit_did.
    assert (E : sumf (fun r' => obs_weight c r' * val (h_change (used rows c) placebo h r')) (comparisons c rows placebo h r)
      = dl * sumf (obs_weight c) (comparisons c rows placebo h r)).
    { rewrite <- sumf_mul_l. apply sumf_ext. intros r' Hr'. unfold comparisons in Hr'. apply filter_In in Hr' as [Hru' Hc']. rewrite !andb_true_iff in Hc'.
      destruct Hc' as [[[Ht Hb] Hny] Hc']. apply Z.eqb_eq in Ht. apply same_baseline_iff in Hb as [Hb Htr']. apply is_some_ex in Hc' as [v' Hv']. rewrite Hv'. cbn [val].
      assert (Hnt : forall s, (s <= i_t r)%Z -> treated_at rows (i_g r') s = false).
      { intros s Hs. unfold treated_at. unfold not_yet in Hny. destruct (switch_date rows (i_g r')) as [F'|]; [|reflexivity].
        apply andb_true_iff in Hny as [Hny _]. apply Z.ltb_lt in Hny. apply Z.leb_gt. lia. }
      assert (Ev : v' = dl).
      { unfold h_change in Hv'. unfold dl, t1. rewrite Ht in Hv'. destruct placebo; apply truth_change in Hv'; try exact Hru'; rewrite Hv', !Hnt, Hb, Htr' by lia; ring. }
      rewrite Ev. ring. }
    rewrite E. replace (dl * sumf (obs_weight c) (comparisons c rows placebo h r) / sumf (obs_weight c) (comparisons c rows placebo h r)) with dl.
    2:{ apply Qc_pos_neq0 in Hpos. field. exact Hpos. }
    rewrite Hv. cbn [val]. unfold h_change in Hv. unfold dl, t1.
    assert (Hbf : forall s, (s < F)%Z -> treated_at rows (i_g r) s = false) by (intros s Hs; unfold treated_at; rewrite EF; apply Z.leb_gt; lia).
    destruct placebo; apply truth_change in Hv; try exact Hru; rewrite Hv.
    - rewrite !Hbf by lia. ring.
    - rewrite (Hbf (i_t r - h)%Z) by lia. unfold treated_at. rewrite EF. replace (F <=? i_t r)%Z with true by (symmetry; apply Z.leb_le; lia). ring.
  Qed.
  Lemma truth_avg h : (1 <= h)%Z -> average_did c rows false h = sumf (fun r => obs_weight c r * tau (i_g r) (i_t r)) (switchers c rows false h) / sumf (obs_weight c) (switchers c rows false h).
  Proof. intros Hh. unfold average_did. f_equal. apply sumf_ext. intros r Hr. now rewrite (truth_unit false h r Hh Hr). Qed.
  Lemma truth_placebo h : (1 <= h)%Z -> average_did c rows true h = 0.
  Proof.
    intros Hh. unfold average_did. rewrite sumf_zero; [apply Qcdiv_0_l|]. intros r Hr. rewrite (truth_unit true h r Hh Hr). ring.
  Qed.
End Truth.
