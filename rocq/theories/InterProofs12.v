(** did_multiplegt: the origin of the calendar; the dose; the total effect. *)
From Verif Require Import Base ListLib PreprocessModel InterModel InterSpec InterProofs1 InterProofs2 InterProofs3 InterProofs4 InterProofs5 InterProofs6 InterProofs7 InterProofs8 InterProofs10 InterProofs11.

Definition shift_grp (k : Z) (g : grp) : grp := match g with Fin F => Fin (F + k)%Z | Inf => Inf end.
Lemma zmin_shift k l : zmin (map (fun t => t + k)%Z l) = option_map (fun t => t + k)%Z (zmin l).
Proof. induction l as [|x l IH]; [reflexivity|]. cbn. change (fold_right _ None ?m) with (zmin m). rewrite IH. destruct (zmin l); cbn; f_equal; lia. Qed.
Section Time.
  Context (c : icfg) (rows : list irow) (k : Z).
  Notation f := (shift_t k).
  Lemma eqb_shift a b : (a + k =? b + k)%Z = (a =? b)%Z.
  Proof. destruct (Z.eqb_spec a b), (Z.eqb_spec (a + k) (b + k)); try reflexivity; lia. Qed.
  Lemma leb_shift a b : (a + k <=? b + k)%Z = (a <=? b)%Z.
  Proof. destruct (Z.leb_spec a b), (Z.leb_spec (a + k) (b + k)); try reflexivity; lia. Qed.
  Lemma ltb_shift a b : (a + k <? b + k)%Z = (a <? b)%Z.
  Proof. destruct (Z.ltb_spec a b), (Z.ltb_spec (a + k) (b + k)); try reflexivity; lia. Qed.
  Lemma obs_s l g t : obs (map f l) g (t + k) = option_map f (obs l g t).
  Proof. unfold obs. rewrite find_map_swap. rewrite (find_ext' _ (fun r => (i_g r =? g)%Z && (i_t r =? t)%Z)); [reflexivity|]. intros r. cbn. now rewrite eqb_shift. Qed.
  Lemma d_at_s g t : d_at (map f rows) g (t + k) = d_at rows g t.
  Proof. unfold d_at. rewrite obs_s. now destruct (obs rows g t). Qed.
  Lemma periods_s g : periods_of (map f rows) g = map (fun t => t + k)%Z (periods_of rows g).
  Proof. unfold periods_of. rewrite filter_map_swap, !map_map. reflexivity. Qed.
  Lemma baseline_s g : baseline (map f rows) g = baseline rows g.
  Proof. unfold baseline. rewrite periods_s, !min_of_zmin, zmin_shift. destruct (zmin (periods_of rows g)); cbn; [apply d_at_s|reflexivity]. Qed.
  Lemma changed_s g t : changed (map f rows) g (t + k) = changed rows g t.
  Proof. unfold changed. now rewrite d_at_s, baseline_s. Qed.
  Lemma switch_date_s g : switch_date (map f rows) g = shift_grp k (switch_date rows g).
  Proof.
    unfold switch_date. rewrite periods_s, filter_map_swap, !min_of_zmin, zmin_shift. rewrite (filter_ext _ (changed rows g)) by (intros; apply changed_s).
    now destruct (zmin (filter (changed rows g) (periods_of rows g))).
  Qed.
  Lemma in_s g : switches_in (map f rows) g = switches_in rows g.
  Proof. unfold switches_in. rewrite switch_date_s, baseline_s. destruct (switch_date rows g); cbn; [|reflexivity]. now rewrite d_at_s. Qed.
  Lemma out_s g : switches_out (map f rows) g = switches_out rows g.
  Proof. unfold switches_out. rewrite switch_date_s, baseline_s. destruct (switch_date rows g); cbn; [|reflexivity]. now rewrite d_at_s. Qed.
  Lemma crossed_s g t : crossed (map f rows) g (t + k) = crossed rows g t.
  Proof. unfold crossed. rewrite periods_s, baseline_s, !existsb_map_swap. f_equal; apply existsb_ext_in; intros s _; now rewrite d_at_s, leb_shift. Qed.
  Lemma sample_s : sample (map f rows) c = map f (sample rows c).
  Proof.
    unfold sample. rewrite filter_map_swap. f_equal. apply filter_ext. intros r. unfold in_sample, direction_ok, has_outcome. cbn [shift_t i_g i_t].
    rewrite existsb_map_swap, in_s, out_s, crossed_s. reflexivity.
  Qed.
  Lemma same_baseline_s r r' : same_baseline (map f rows) (f r) (f r') = same_baseline rows r r'.
  Proof. unfold same_baseline. cbn [shift_t i_g i_tr]. now rewrite !baseline_s. Qed.
  Lemma grp_eqb_s a b : grp_eqb (shift_grp k a) (shift_grp k b) = grp_eqb a b.
  Proof. destruct a, b; cbn; try reflexivity. apply eqb_shift. Qed.
  Lemma used_s : used (map f rows) c = map f (used rows c).
  Proof.
    unfold used. rewrite sample_s, filter_map_swap. f_equal. apply filter_ext. intros r. unfold usable. rewrite sample_s, !existsb_map_swap.
    f_equal; apply existsb_ext_in; intros r' _; rewrite same_baseline_s; cbn [shift_t i_g i_t]; rewrite ?switch_date_s, ?grp_eqb_s, ?eqb_shift; [reflexivity|].
    now destruct (switch_date rows (i_g r')).
  Qed.
  Lemma weight_s r : obs_weight c (f r) = obs_weight c r. Proof. reflexivity. Qed.
  Lemma y_at_s l g t : y_at (map f l) g (t + k) = y_at l g t.
  Proof. unfold y_at. rewrite obs_s. now destruct (obs l g t). Qed.
  Lemma h_change_s l placebo h r : h_change (map f l) placebo h (f r) = h_change l placebo h r.
  Proof.
    unfold h_change, change. cbn [shift_t i_g i_t]. replace (i_t r + k - h)%Z with (i_t r - h + k)%Z by lia. replace (i_t r + k - 2 * h)%Z with (i_t r - 2 * h + k)%Z by lia.
    now rewrite !y_at_s.
  Qed.
  Lemma comparisons_s placebo h r : comparisons c (map f rows) placebo h (f r) = map f (comparisons c rows placebo h r).
  Proof.
    unfold comparisons. rewrite used_s, filter_map_swap. f_equal. apply filter_ext. intros r'. rewrite same_baseline_s, h_change_s.
    unfold not_yet. cbn [shift_t i_g i_t]. rewrite eqb_shift, switch_date_s, used_s. destruct (switch_date rows (i_g r')); cbn [shift_grp]; [|reflexivity].
    rewrite existsb_map_swap, ltb_shift. rewrite (existsb_ext_in (fun a => (z + k <=? i_t (f a))%Z) (fun a => (z <=? i_t a)%Z)) by (intros; apply leb_shift). reflexivity.
  Qed.
  Lemma switchers_s placebo h : switchers c (map f rows) placebo h = map f (switchers c rows placebo h).
  Proof.
    unfold switchers. rewrite used_s, filter_map_swap. f_equal. apply filter_ext. intros r. unfold switcher. rewrite comparisons_s, sumf_map, used_s, h_change_s.
    cbn [shift_t i_g i_t]. rewrite switch_date_s, in_s, out_s. destruct (switch_date rows (i_g r)); cbn [shift_grp]; [|reflexivity].
    replace (z + k - 1 + h)%Z with (z - 1 + h + k)%Z by lia. now rewrite eqb_shift.
  Qed.
  Lemma sw_s placebo h : sumf (obs_weight c) (switchers c (map f rows) placebo h) = sumf (obs_weight c) (switchers c rows placebo h).
  Proof. rewrite switchers_s, sumf_map. reflexivity. Qed.
  Lemma avg_s placebo h : average_did c (map f rows) placebo h = average_did c rows placebo h.
  Proof.
    unfold average_did. rewrite sw_s, switchers_s, sumf_map. f_equal. apply sumf_ext. intros r _. f_equal. unfold unit_did. rewrite used_s, h_change_s, comparisons_s, !sumf_map. f_equal.
    f_equal. apply sumf_ext. intros r' _. now rewrite h_change_s.
  Qed.
  Lemma dose_s h r : unit_dose c (map f rows) h (f r) = unit_dose c rows h r.
  Proof.
    unfold unit_dose. cbn [shift_t i_g]. rewrite switch_date_s, used_s. destruct (switch_date rows (i_g r)); cbn [shift_grp]; [|reflexivity].
    rewrite filter_map_swap, sumf_map. rewrite (filter_ext _ (fun r' => (i_g r' =? i_g r)%Z && (z <=? i_t r')%Z && (i_t r' <=? z - 1 + h)%Z)).
    - apply sumf_ext. intros r' _. cbn. now rewrite baseline_s.
    - intros r'. cbn [shift_t i_g i_t]. rewrite leb_shift. replace (z + k - 1 + h)%Z with (z - 1 + h + k)%Z by lia. now rewrite leb_shift.
  Qed.
  Lemma avg_dose_s placebo h : average_dose c (map f rows) placebo h = average_dose c rows placebo h.
  Proof.
    unfold average_dose. rewrite sw_s, switchers_s, sumf_map. f_equal. apply sumf_ext. intros r _. rewrite dose_s. unfold sign. cbn [shift_t i_g]. now rewrite in_s.
  Qed.
  Lemma gapless_s : gapless (used rows c) -> gapless (used (map f rows) c).
  Proof.
    intros H r r' x Hr Hr' Hx. rewrite used_s in *. apply in_map_iff in Hr as (q & <- & Hq). apply in_map_iff in Hr' as (q' & <- & Hq'). cbn in Hx.
    destruct (H q q' (x - k)%Z Hq Hq') as (q'' & h1 & h2); [lia|]. exists (f q''). split; [now apply in_map|]. cbn. lia.
  Qed.
  Lemma one_row_s : one_row_per_period rows -> one_row_per_period (map f rows).
  Proof.
    unfold one_row_per_period. rewrite map_map. cbn. intros H.
    assert (E : map (fun x => (i_g x, (i_t x + k)%Z)) rows = map (fun p => (fst p, (snd p + k)%Z)) (map (fun r => (i_g r, i_t r)) rows)) by now rewrite map_map.
    rewrite E. apply NoDup_map_inj; [|exact H]. intros (a, b) (a', b') _ _. cbn. intros [= -> e]. f_equal. lia.
  Qed.
  Lemma complete_s : complete_treatment rows -> complete_treatment (map f rows).
  Proof. intros H r Hr. apply in_map_iff in Hr as (q & <- & Hq). cbn. now apply H. Qed.
End Time.

Lemma neg_nonneg (x : Qc) : 0 <= - x -> x <= 0.
Proof. intros H. qclra. Qed.
(** ** without bidirectional rows the signed dose is its absolute value *)
Section Dose.
  Context (c : icfg) (rows : list irow) (Hn : one_row_per_period rows) (Hk : ic_keep_bi c = false).
  Lemma used_not_crossed r : In r (used rows c) -> crossed rows (i_g r) (i_t r) = false.
  Proof.
    unfold used, sample. rewrite !filter_In. intros [[_ H] _]. unfold in_sample in H. rewrite Hk in H. rewrite !andb_true_iff in H. destruct H as [_ H].
    now apply negb_true_iff in H.
  Qed.
  Lemma used_in_rows r : In r (used rows c) -> In r rows. Proof. unfold used, sample. rewrite !filter_In. tauto. Qed.
  Lemma dose_sign h r : In r (used rows c) -> (switches_in rows (i_g r) = true -> 0 <= unit_dose c rows h r)
    /\ (switches_out rows (i_g r) = true -> unit_dose c rows h r <= 0).
  Proof.
    intros Hr. unfold unit_dose. destruct (switch_date rows (i_g r)) as [F|] eqn:EF; [|split; intros _; apply Qcle_refl].
    destruct (switch_date_row rows (i_g r) F EF) as (s & hs1 & hs2 & hs3).
    assert (HdF : d_at rows (i_g r) F = i_d s). { unfold d_at. rewrite <- hs2, <- hs3. now rewrite obs_in. }
    assert (G : forall q, In q (used rows c) -> i_g q = i_g r -> (F <= i_t q)%Z ->
        (switches_in rows (i_g r) = true -> 0 <= val (osub (i_d q) (baseline rows (i_g q)))) /\ (switches_out rows (i_g r) = true -> val (osub (i_d q) (baseline rows (i_g q))) <= 0)).
    { intros q Hq Hg Ht. pose proof (used_not_crossed q Hq) as Hc. unfold crossed in Hc.
      assert (Hp1 : In (i_t q) (periods_of rows (i_g q))) by (apply in_periods; exists q; split; [now apply used_in_rows|auto]).
      assert (Hp2 : In F (periods_of rows (i_g q))) by (apply in_periods; exists s; rewrite Hg; auto).
      assert (Hdq : d_at rows (i_g q) (i_t q) = i_d q). { unfold d_at. rewrite obs_in; [reflexivity|exact Hn|now apply used_in_rows]. }
      unfold switches_in, switches_out. rewrite EF, HdF. rewrite Hg in *. rewrite <- HdF.
      destruct (baseline rows (i_g r)) as [b|]; [|destruct (i_d q); split; intros; apply Qcle_refl].
      destruct (i_d q) as [x|] eqn:Ex; [|split; intros; apply Qcle_refl].
      destruct (d_at rows (i_g r) F) as [y|] eqn:Ey; [|split; discriminate].
      split; intros Hs; destruct (Qcltb_spec b y) as [ly|ly]; destruct (Qcltb_spec y b) as [ry|ry]; try discriminate; cbn [osub val];
        destruct (Qcltb_spec x b) as [lx|lx]; destruct (Qcltb_spec b x) as [rx|rx]; try (clear - lx rx; qclra); try (apply Qcnot_lt_le in lx; clear - lx; qclra); try (apply Qcnot_lt_le in rx; clear - rx; qclra); exfalso;
        apply andb_false_iff in Hc as [Hc|Hc]; apply Bool.not_true_iff_false in Hc; apply Hc; apply existsb_exists.
      all: first [ exists F; split; [exact Hp2|]; rewrite Ey; apply andb_true_iff; split; [apply Z.leb_le; exact Ht|]; match goal with |- Qcltb ?a ?b = true => destruct (Qcltb_spec a b); [reflexivity|contradiction] end
                 | exists (i_t q); split; [exact Hp1|]; rewrite Hdq; apply andb_true_iff; split; [apply Z.leb_refl|]; match goal with |- Qcltb ?a ?b = true => destruct (Qcltb_spec a b); [reflexivity|contradiction] end ]. }
    split; intros Hs.
    - apply sumf_nonneg. intros q Hq. apply filter_In in Hq as [Hq Hb]. rewrite !andb_true_iff in Hb. destruct Hb as [[Hg Ht] _]. apply Z.eqb_eq in Hg. apply Z.leb_le in Ht. now apply G.
    - apply neg_nonneg. rewrite <- sumf_opp. apply sumf_nonneg. intros q Hq. apply filter_In in Hq as [Hq Hb]. rewrite !andb_true_iff in Hb. destruct Hb as [[Hg Ht] _]. apply Z.eqb_eq in Hg. apply Z.leb_le in Ht.
      destruct (G q Hq Hg Ht) as [_ G']. specialize (G' Hs). apply Qcopp_le_compat in G'. replace (- (0)) with (0 : Qc) in G' by ring. exact G'.
  Qed.
End Dose.

(** the signed dose averaged by the normalisation is the absolute dose *)
From Coq Require Import Qcabs.
From Verif Require Import Calc.
Lemma switcher_in_out rows g F : switch_date rows g = Fin F -> switches_in rows g = false -> switches_out rows g = true.
Proof.
  intros EF Ei. unfold switches_in in Ei. unfold switches_out. rewrite EF in *.
  assert (Hc : changed rows g F = true).
  { unfold switch_date in EF. rewrite min_of_zmin in EF. destruct (zmin _) as [k|] eqn:Ek; [|discriminate]. injection EF as ->.
    apply zmin_some in Ek as [Ek _]. apply filter_In in Ek. tauto. }
  unfold changed in Hc. destruct (d_at rows g F) as [x|], (baseline rows g) as [b|]; try discriminate.
  destruct (Qceqb_spec x b) as [|ne]; [discriminate|]. destruct (Qcltb_spec b x), (Qcltb_spec x b); try discriminate; auto.
  exfalso. apply ne. apply Qcle_antisym; now apply Qcnot_lt_le.
Qed.
Lemma abs_dose c rows placebo h : one_row_per_period rows -> ic_keep_bi c = false -> average_dose c rows placebo h = mean_abs_dose c rows placebo h.
Proof.
  intros Hn Hk. unfold average_dose, mean_abs_dose. f_equal. apply sumf_ext. intros r Hr. f_equal.
  unfold switchers in Hr. apply filter_In in Hr as [Hr Hs]. unfold switcher in Hs. rewrite !andb_true_iff in Hs. destruct Hs as [[[Ht _] _] _].
  destruct (switch_date rows (i_g r)) as [F|] eqn:EF; [|discriminate].
  destruct (dose_sign c rows Hn Hk h r Hr) as [Hi Ho]. unfold sign. destruct (switches_in rows (i_g r)) eqn:Ei.
  - rewrite Qcabs_pos by auto. ring.
  - rewrite Qcabs_neg by (apply Ho; now apply switcher_in_out with F). ring.
Qed.

Section Total.
  Context (c : icfg) (rt : Qc -> Qc) (rows : list irow) (Hn : one_row_per_period rows) (Hd : complete_treatment rows)
    (Hsize : (Z.of_nat (length rows) <= 2000000)%Z) (H0 : forall r, In r rows -> switch_date rows (i_g r) <> Fin 0%Z)
    (Hgap : gapless (used rows c)) (Hsame : ic_same c = false) (Htl : ic_trends_lin c = false).
  Lemma sumf_present {A B} (f : A -> option B) (g : B -> Qc) l :
    sumf g (present (map f l)) = sumf (fun a => match f a with Some x => g x | None => 0 end) l.
  Proof. unfold present. induction l as [|a l IH]; [reflexivity|]. cbn [map flat_map]. rewrite sumf_app, IH, sumf_cons. destruct (f a); rewrite ?sumf_cons, sumf_nil; ring. Qed.
  Lemma one_dose r : In r (switchers c rows false 1) -> unit_dose c rows 1 r = own_dose rows r.
  Proof.
    intros Hs. unfold switchers in Hs. apply filter_In in Hs as [Hr Hs]. unfold switcher in Hs. rewrite !andb_true_iff in Hs. destruct Hs as [[[Ht _] _] _].
    unfold unit_dose. destruct (switch_date rows (i_g r)) as [F|] eqn:EF; [|discriminate]. apply Z.eqb_eq in Ht.
    assert (E : filter (fun r' : irow => ((i_g r' =? i_g r)%Z && (F <=? i_t r')%Z && (i_t r' <=? F - 1 + 1)%Z)%bool) (used rows c) = (r :: nil)).
    { rewrite (filter_ext _ (fun r' => ((i_g r' =? i_g r)%Z && (i_t r' =? i_t r)%Z)%bool)).
      2: { intros r'. rewrite <- andb_assoc. f_equal. apply Bool.eq_true_iff_eq. rewrite andb_true_iff, !Z.leb_le, Z.eqb_eq. lia. }
      assert (Hu : one_row_per_period (used rows c)) by now apply used_one.
      unfold one_row_per_period in Hu. revert Hu Hr. generalize (used rows c). intros l. induction l as [|x l IH]; [easy|].
      cbn [map]. intros Hu Hr. inversion Hu as [|k m hk hm]; subst. cbn [filter].
      destruct Hr as [->|Hr].
      - rewrite !Z.eqb_refl. cbn. f_equal. apply filter_none. intros y Hy. apply Bool.not_true_iff_false. rewrite andb_true_iff, !Z.eqb_eq. intros [e1 e2].
        apply hk. apply in_map_iff. exists y. now rewrite e1, e2.
      - destruct ((i_g x =? i_g r)%Z && (i_t x =? i_t r)%Z)%bool eqn:E; [|now apply IH]. exfalso. rewrite andb_true_iff, !Z.eqb_eq in E. destruct E as [e1 e2].
        apply hk. apply in_map_iff. exists r. now rewrite e1, e2. }
    rewrite E. cbn. unfold own_dose. ring.
  Qed.
  Lemma sumf_seq_extend (f : nat -> Qc) n m : (n <= m)%nat -> (forall h, (n < h <= m)%nat -> f h = 0) -> sumf f (seq 1 m) = sumf f (seq 1 n).
  Proof.
    intros Hnm Hf. replace m with (n + (m - n))%nat by lia. rewrite seq_app, sumf_app. rewrite (sumf_zero _ (seq (1 + n) (m - n))); [ring|].
    intros h Hh. apply in_seq in Hh. apply Hf. lia.
  Qed.
  Context (dd : Qc) (Hdd : dd <> 0) (Hw : forall h, (1 <= h <= Z.of_nat (ic_effects c))%Z -> switchers c rows false h = [] \/ tiny <= sumf (obs_weight c) (switchers c rows false h))
    (Hin : forall h r, (1 <= h <= Z.of_nat (ic_effects c))%Z -> In r (switchers c rows false h) -> switches_in rows (i_g r) = true /\ own_dose rows r = dd)
    (H1 : switchers c rows false 1 <> []) (He : (1 <= ic_effects c)%nat).
  Lemma tiny_pos x : tiny <= x -> 0 < x.
  Proof. intros H. eapply Qclt_le_trans; [|exact H]. reflexivity. Qed.
  Lemma avg1 : average_dose c rows false 1 = dd.
  Proof.
    unfold average_dose. rewrite (sumf_ext _ (fun r => obs_weight c r * dd)).
    - unfold Qcdiv. rewrite sumf_mul_r. destruct (Hw 1%Z) as [e|e]; [lia|congruence|]. apply tiny_pos, Qc_pos_neq0 in e. field. exact e.
    - intros r Hr. destruct (Hin 1%Z r) as [e1 e2]; [lia|exact Hr|]. unfold sign. rewrite e1, (one_dose r Hr), e2. ring.
  Qed.
  Lemma ate_total : ate (all_horizons c rt false (pipeline c rows)) = Some (total_effect c rows (ic_effects c)).
  Proof.
    pose proof (n_effects_le c rows) as Hle.
    assert (Hne : (1 <= n_effects c (pipeline c rows))%nat).
    { destruct (n_effects c (pipeline c rows)) eqn:E; [|lia]. exfalso. apply H1.
      apply (effects_clip c rows Hn Hd Hsize H0 Htl 1). rewrite E. lia. }
    rewrite (horizons_eq c rt rows Hn Hd Hsize H0 Htl).
    set (n := n_effects c (pipeline c rows)) in *. set (S_ := fun h : nat => sumf (obs_weight c) (switchers c rows false (Z.of_nat h))).
    set (N_ := fun h : nat => sumf (fun r => obs_weight c r * unit_did c rows false (Z.of_nat h) r) (switchers c rows false (Z.of_nat h))).
    assert (R : forall h, (1 <= h <= ic_effects c)%nat -> (result c rt rows false h = None /\ switchers c rows false (Z.of_nat h) = []) \/
       (exists r, result c rt rows false h = Some r /\ h_nsw_w r = S_ h /\ h_unnorm r = N_ h / S_ h /\ h_delta r = Some (average_dose c rows false (Z.of_nat h)) /\ 0 < S_ h)).
    { intros h Hh. destruct (Hw (Z.of_nat h)) as [e|e]; [lia| |].
      - left. split; [|exact e]. apply result_none; auto; lia.
      - right. destruct (result_some c rt rows Hn Hd Hsize H0 Hgap Hsame Htl false h ltac:(lia) e) as (r & a1 & a2 & a3 & a4 & _). exists r.
        split; [exact a1|]. split; [exact a4|]. split; [exact a2|]. split; [exact a3|]. now apply tiny_pos. }
    assert (E1 : forall k : Qc, sumf (fun r => h_nsw_w r / k * h_unnorm r) (present (map (result c rt rows false) (seq 1 n))) = sumf N_ (seq 1 n) / k).
    { intros k. rewrite sumf_present. unfold Qcdiv at 2. rewrite <- sumf_mul_r. apply sumf_ext. intros h Hh. apply in_seq in Hh.
      destruct (R h) as [[e1 e2]|(r & e1 & e2 & e3 & _ & e4)]; [lia| |].
      - rewrite e1. unfold N_. rewrite e2. cbn. ring.
      - rewrite e1, e2, e3. apply Qc_pos_neq0 in e4. unfold Qcdiv. rewrite <- (Qcmult_1_l (N_ h * / k)). rewrite <- (Qcmult_inv_r (S_ h) e4). ring. }
    assert (E2 : sumf h_nsw_w (present (map (result c rt rows false) (seq 1 n))) = sumf S_ (seq 1 n)).
    { rewrite sumf_present. apply sumf_ext. intros h Hh. apply in_seq in Hh. destruct (R h) as [[e1 e2]|(r & e1 & e2 & _)]; [lia| |].
      - rewrite e1. unfold S_. now rewrite e2.
      - now rewrite e1. }
    destruct (R 1%nat) as [[_ e]|(r1 & e1 & e2 & _ & e3 & e4)]; [lia|now destruct H1|].
    assert (Ed : ate_denominator (map (result c rt rows false) (seq 1 n)) = dd).
    { destruct n as [|k]; [lia|]. cbn [seq map]. unfold ate_denominator. rewrite e1, e3. change (Z.of_nat 1) with 1%Z. rewrite avg1. destruct (Qceqb_spec dd 0); tauto. }
    assert (Hp : sumf S_ (seq 1 n) <> 0).
    { apply Qc_pos_neq0. destruct n as [|k]; [lia|]. cbn [seq]. rewrite sumf_cons. apply Qclt_le_trans with (S_ 1%nat); [exact e4|].
      assert (Hnn : 0 <= sumf S_ (seq 2 k)).
      { apply sumf_nonneg. intros h Hh. apply in_seq in Hh. destruct (R h) as [[_ e]|(r & _ & _ & _ & _ & e)]; [lia| |now apply Qclt_le_weak]. unfold S_. rewrite e. apply Qcle_refl. }
      revert Hnn. generalize (S_ 1%nat) (sumf S_ (seq 2 k)). intros. qclra. }
    unfold ate. destruct (present (map (result c rt rows false) (seq 1 n))) as [|x l] eqn:El.
    { exfalso. apply Hp. rewrite <- E2. reflexivity. }
    f_equal. rewrite E1, E2, Ed. unfold total_effect.
    rewrite (sumf_seq_extend _ n (ic_effects c) Hle).
    2: { intros h Hh. rewrite (effects_clip c rows Hn Hd Hsize H0 Htl h); [reflexivity|exact Hh]. }
    rewrite (sumf_seq_extend (fun h => sumf (fun r => obs_weight c r * own_dose rows r) (switchers c rows false (Z.of_nat h))) n (ic_effects c) Hle).
    2: { intros h Hh. rewrite (effects_clip c rows Hn Hd Hsize H0 Htl h); [reflexivity|exact Hh]. }
    rewrite (sumf_ext (fun h => sumf (fun r => obs_weight c r * own_dose rows r) (switchers c rows false (Z.of_nat h))) (fun h => S_ h * dd)).
    2: { intros h Hh. apply in_seq in Hh. unfold S_. rewrite <- sumf_mul_r. apply sumf_ext. intros r Hr. destruct (Hin (Z.of_nat h) r) as [_ ->]; [lia|exact Hr|reflexivity]. }
    rewrite sumf_mul_r. fold N_. field. split; auto.
  Qed.
End Total.
