(** did_multiplegt: the reported horizons are the documented averages. *)
From Verif Require Import Base ListLib PreprocessModel InterModel InterSpec InterProofs1 InterProofs2 InterProofs3 InterProofs4 InterProofs5.

Section Gen.
  Context (c : icfg) (L : list srow) (HL : NoDup (map (fun s => (s_g s, s_t s)) L)) (tmax : Z) (valid : prow -> bool) (placebo : bool) (h : nat).
  Notation cs := (cells placebo h (prepare c (balance L))).
  Notation lc := (lcell c L placebo h).
  Notation hz := (Z.of_nat h).
  Notation el := (eligible c hz tmax valid cs).
  (** sums over the cells of something that vanishes with the weight *)
  Lemma sum_cells (f : cell -> Qc) : (forall x, c_w x = 0 -> f x = 0) -> sumf f cs = sumf (fun s => f (lc s)) L.
  Proof.
    intros Hf. rewrite (sumf_perm _ _ _ (cells_split c L HL placebo h)), sumf_app, !sumf_map.
    rewrite (sumf_zero _ (rest L)); [ring|]. intros k Hk. apply Hf. now apply rest_w.
  Qed.
  Lemma n_control_L x : n_control c tmax cs x = sumf (fun s => oz0 (never c tmax (lc s)) * c_w (lc s)) (filter (fun s => peer x (lc s)) L).
  Proof.
    unfold n_control. rewrite !sumf_filter. rewrite sum_cells; [reflexivity|]. intros y ->. ring.
  Qed.
  Lemma ctrl_L x : ctrl c tmax cs x = sumf (fun s => oz0 (never c tmax (lc s)) * c_w (lc s) * d0 (lc s)) (filter (fun s => peer x (lc s)) L) / n_control c tmax cs x.
  Proof.
    unfold ctrl. rewrite !sumf_filter. rewrite sum_cells; [reflexivity|]. intros y ->. ring.
  Qed.
  Lemma sum_elig (f : cell -> Qc) : (forall x, c_w x = 0 -> f x = 0) -> sumf f (filter el cs) = sumf (fun s => f (lc s)) (filter (fun s => el (lc s)) L).
  Proof.
    intros Hf. rewrite !sumf_filter. rewrite sum_cells; [reflexivity|]. intros x Hx. rewrite (Hf x Hx). ring.
  Qed.
  Lemma nsw_L : n_sw_weighted c hz tmax valid cs = sumf (fun s => c_w (lc s)) (filter (fun s => el (lc s)) L).
  Proof. rewrite nsw_weighted_elig. now apply sum_elig. Qed.
  Lemma cells_nonempty : L <> [] -> cs <> [].
  Proof.
    intros H e. destruct L as [|s l] eqn:E; [tauto|]. pose proof (Permutation_length (cells_split c L ltac:(rewrite E; exact HL) placebo h)) as Hp.
    rewrite E, e in Hp. cbn in Hp. lia.
  Qed.
  Lemma raw_L : L <> [] -> raw_estimate c hz tmax valid cs
    = sumf (fun s => c_w (lc s) * (d0 (lc s) - ctrl c tmax cs (lc s))) (filter (fun s => el (lc s)) L) / safe_nsw c hz tmax valid cs.
  Proof.
    intros Hne. rewrite raw_estimate_avg; [|now apply cells_one_first|now apply cells_nonempty].
    rewrite (sum_elig (fun x => c_w x * (d0 x - ctrl c tmax cs x))); [reflexivity|]. intros x ->. ring.
  Qed.
  (** dose: the added rows contribute nothing because their treatment is null *)
  Lemma dose_L x : dose hz cs x = sumf (fun s => oz0 (osub (i_d (s_row s)) (s_dsq s)))
     (filter (fun s => (p_g (c_p x) =? s_g s)%Z && match s_F s with Fin F => (F <=? s_t s)%Z && (s_t s <=? F - 1 + hz)%Z | Inf => false end) L).
  Proof.
    unfold dose. rewrite !sumf_filter, (sumf_perm _ _ _ (cells_split c L HL placebo h)), sumf_app, !sumf_map.
    rewrite (sumf_zero _ (rest L)).
    2:{ intros k Hk. apply filter_In in Hk as [_ Hk]. apply negb_true_iff in Hk. unfold p_d. cbn. rewrite (brow_out L k Hk). cbn. ring. }
    rewrite Qcplus_0_r. apply sumf_ext. intros s Hs. unfold mate, p_F, p_t, p_d, p_dsq, p_g. rewrite !(lcell_p c L HL placebo h s Hs). reflexivity.
  Qed.
  Definition sdose (s : srow) : Qc := signed_dose hz cs (lc s).
  Lemma delta_L : let tot := sumf (fun s => c_w (lc s)) (filter (fun s => el (lc s)) L) in
    delta_d c hz tmax valid cs = match filter el cs with [] => None | _ =>
      if Qceqb tot 0 then None else Some (sumf (fun s => c_w (lc s) / tot * sdose s) (filter (fun s => el (lc s)) L)) end.
  Proof.
    cbv zeta. unfold delta_d. rewrite (filter_ext _ _ (fun x => dist_one_elig c hz tmax valid cs x)).
    rewrite (sum_elig c_w) by auto. destruct (filter el cs) as [|x l] eqn:E; [reflexivity|]. rewrite <- E.
    destruct (Qceqb _ 0); [reflexivity|]. f_equal.
    apply (sum_elig (fun x => c_w x / _ * signed_dose hz cs x)). intros y ->. unfold Qcdiv. ring.
  Qed.
  Lemma elig_false : placebo = false -> filter el cs = [] <-> filter (fun s => el (lc s)) L = [].
  Proof.
    intros Hp. assert (E : Permutation (filter el cs) (map lc (filter (fun s => el (lc s)) L))).
    { rewrite (filter_perm _ _ _ (cells_split c L HL placebo h)), filter_app, <- filter_map_swap.
      rewrite (filter_none _ (map (ck c L placebo h) (rest L))), app_nil_r; [apply Permutation_refl|].
      intros x Hx. apply in_map_iff in Hx as (k & <- & Hk). unfold eligible. subst placebo. now rewrite (rest_diff c L h k Hk). }
    split; intros H.
    - rewrite H in E. apply Permutation_nil in E. now apply map_eq_nil in E.
    - rewrite H in E. now apply Permutation_sym, Permutation_nil in E.
  Qed.
  Lemma elig_some : filter (fun s => el (lc s)) L <> [] -> filter el cs <> [].
  Proof.
    intros H e. destruct (filter (fun s => el (lc s)) L) as [|s l] eqn:E; [tauto|].
    assert (Hs : In s (filter (fun s => el (lc s)) L)) by (rewrite E; now left). apply filter_In in Hs as [h1 h2].
    apply (in_nil (a := lc s)). rewrite <- e. apply filter_In. split; [|exact h2].
    apply (Permutation_in _ (Permutation_sym (cells_split c L HL placebo h))), in_or_app. left. now apply in_map.
  Qed.
End Gen.

Section Main.
  Context (c : icfg) (rt : Qc -> Qc) (rows : list irow) (Hn : one_row_per_period rows) (Hd : complete_treatment rows)
    (Hsize : (Z.of_nat (length rows) <= 2000000)%Z) (H0 : forall r, In r rows -> switch_date rows (i_g r) <> Fin 0%Z)
    (Hgap : gapless (used rows c)).
  Notation u := (used rows c).
  Notation Kr := (K c rows).
  Notation an := (ann rows).
  Notation L := (map an Kr).
  Lemma HKu : Permutation Kr u. Proof. apply K_perm; auto. Qed.
  Lemma KL_nodup : NoDup (map (fun s => (s_g s, s_t s)) L).
  Proof. rewrite map_map. now apply (K_one c rows). Qed.
  Lemma u_one : one_row_per_period u. Proof. now apply used_one. Qed.
  Lemma yk_spec g t : yk L g t = y_at u g t.
  Proof.
    unfold yk, y_at. destruct (obs u g t) as [r|] eqn:E.
    - apply obs_is_in in E as (h1 & h2 & h3). assert (Hr : In r Kr) by (apply (Permutation_in _ (Permutation_sym HKu)), h1).
      subst g t. change (i_g r, i_t r) with (skey (an r)). rewrite brow_in; [reflexivity|apply KL_nodup|now apply in_map].
    - rewrite brow_out; [reflexivity|]. destruct (mem L (g, t)) eqn:Em; [|reflexivity]. exfalso.
      apply mem_iff in Em as (s & h1 & h2). apply in_map_iff in h1 as (r & <- & Hr). injection h2 as e1 e2.
      apply obs_none in E. apply E, in_periods. exists r. split; [now apply (Permutation_in _ HKu)|auto].
  Qed.
  Lemma ts_in t : In t (ts L) <-> exists r, In r u /\ i_t r = t.
  Proof.
    unfold ts. rewrite zuniq_in, map_map, in_map_iff. split; intros (r & h1 & h2); exists r.
    - split; [now apply (Permutation_in _ HKu)|exact h1].
    - split; [exact h2|now apply (Permutation_in _ (Permutation_sym HKu))].
  Qed.
  Lemma ts_consecutive : consecutive (ts L).
  Proof.
    intros a b Ha Hb x Hx. apply ts_in in Ha as (r & h1 & <-). apply ts_in in Hb as (r' & h1' & <-).
    apply ts_in. exact (Hgap r r' x h1 h1' Hx).
  Qed.
  Lemma y_at_none g t : ~ In t (ts L) -> y_at u g t = None.
  Proof.
    intros H. unfold y_at. destruct (obs u g t) as [r|] eqn:E; [|reflexivity]. exfalso. apply H, ts_in. apply obs_is_in in E as (h1 & _ & h3). eauto.
  Qed.

  Section Hor.
  Context (placebo : bool) (h : nat) (Hh : (1 <= h)%nat).
  Notation hz := (Z.of_nat h).
  Lemma prev_y g j t : In t (ts L) -> (1 <= j)%nat ->
    match prev_period (ts L) j t with Some s => yk L g s | None => None end = y_at u g (t - Z.of_nat j).
  Proof.
    intros Ht Hj. rewrite prev_consecutive; [|apply zuniq_sorted|apply ts_consecutive|exact Ht|exact Hj].
    destruct (zmem_spec (t - Z.of_nat j) (ts L)) as [i|i]; [apply yk_spec|]. now rewrite y_at_none.
  Qed.
  Lemma diff_spec r : In r u -> c_diff (lcell c L placebo h (an r)) = h_change u placebo hz r.
  Proof.
    intros Hr. assert (Ht : In (i_t r) (ts L)) by (apply ts_in; eauto).
    unfold lcell, ck, dk, c_diff, skey. cbn [fst snd]. change (s_g (an r)) with (i_g r). change (s_t (an r)) with (i_t r).
    unfold h_change, change. rewrite <- (prev_y (i_g r) h (i_t r) Ht Hh).
    destruct placebo.
    - replace (i_t r - 2 * hz)%Z with (i_t r - Z.of_nat (2 * h))%Z by lia. rewrite <- (prev_y (i_g r) (2 * h) (i_t r) Ht) by lia.
      destruct (prev_period (ts L) (2 * h) (i_t r)), (prev_period (ts L) h (i_t r)); cbn; try reflexivity.
      now destruct (yk L (i_g r) z).
    - rewrite yk_spec. destruct (prev_period (ts L) h (i_t r)); cbn; try reflexivity. now destruct (y_at u (i_g r) (i_t r)).
  Qed.
  Lemma weight_spec r : In r u -> c_w (lcell c L placebo h (an r)) = obs_weight c r.
  Proof.
    intros Hr. rewrite lcell_w; [reflexivity|apply KL_nodup|]. apply in_map, (Permutation_in _ (Permutation_sym HKu)), Hr.
  Qed.
  Definition tmx : Z := match zmax (map p_t (prepare c (balance L))) with Some m => m | None => 0%Z end.
  Lemma tmx_spec f r0 : In r0 u -> (f <=? tmx)%Z = existsb (fun r' => (f <=? i_t r')%Z) u.
  Proof.
    intros Hr0. unfold tmx.
    assert (Hi : forall t, In t (map p_t (prepare c (balance L))) <-> In t (ts L)).
    { intros t. rewrite in_map_iff. split.
      - intros (p & <- & Hp). apply (prepare_in c L) in Hp as ((g, t') & Hk & ->). rewrite pk_t. now apply keys_in in Hk.
      - intros Ht. exists (pk c L (i_g r0, t)). rewrite pk_t. split; [reflexivity|]. apply (prepare_in c L). exists (i_g r0, t). split; [|reflexivity].
        apply keys_in. split; [|exact Ht]. unfold gs. rewrite zuniq_in, map_map. apply (in_map (fun x => s_g (an x))).
        now apply (Permutation_in _ (Permutation_sym HKu)). }
    rewrite (zmax_ext _ _ Hi). destruct (zmax_in_some (ts L) (i_t r0)) as [m Em]; [apply ts_in; eauto|]. rewrite Em.
    apply zmax_some in Em as [E1 E2]. apply Bool.eq_true_iff_eq. rewrite existsb_exists, Z.leb_le. split.
    - intros Hf. apply ts_in in E1 as (r & h1 & h2). exists r. split; [exact h1|]. apply Z.leb_le. lia.
    - intros (r & h1 & h2). apply Z.leb_le in h2. specialize (E2 (i_t r)). assert (i_t r <= m)%Z by (apply E2, ts_in; eauto). lia.
  Qed.
  Lemma lcell_an r : In r u -> p_s (c_p (lcell c L placebo h (an r))) = an r.
  Proof. intros Hr. apply lcell_p; [apply KL_nodup|]. apply in_map, (Permutation_in _ (Permutation_sym HKu)), Hr. Qed.
  Lemma never_spec r : In r u -> oz0 (never c tmx (lcell c L placebo h (an r))) = ind (not_yet c rows r && is_some (h_change u placebo hz r)).
  Proof.
    intros Hr. unfold never. rewrite (diff_spec r Hr). destruct (h_change u placebo hz r); [|now rewrite andb_false_r]. cbn [is_some oz0]. rewrite andb_true_r.
    unfold p_F, p_t. rewrite (lcell_an r Hr). unfold not_yet. change (s_F (an r)) with (switch_date rows (i_g r)). change (s_t (an r)) with (i_t r).
    destruct (switch_date rows (i_g r)) as [f|]; cbn.
    - rewrite (tmx_spec f r Hr). destruct (ic_only_never c), (i_t r <? f)%Z, (existsb _ u); reflexivity.
    - now rewrite andb_false_r.
  Qed.
  Lemma peer_spec r r' : In r u -> In r' u -> peer (lcell c L placebo h (an r)) (lcell c L placebo h (an r')) = ((i_t r' =? i_t r)%Z && same_baseline rows r r')%bool.
  Proof.
    intros Hr Hr'. unfold peer, same_cell. rewrite !lcell_an by assumption. rewrite ann_same_base. f_equal. apply Z.eqb_sym.
  Qed.
  Lemma sum_K (f : irow -> Qc) : sumf f Kr = sumf f u. Proof. apply sumf_perm, HKu. Qed.
  Notation cs := (cells placebo h (prepare c (balance L))).
  Lemma n_control_spec r : In r u -> n_control c tmx cs (lcell c L placebo h (an r)) = sumf (obs_weight c) (comparisons c rows placebo hz r).
  Proof.
    intros Hr. rewrite n_control_L by apply KL_nodup. rewrite sumf_filter, sumf_map, sum_K. unfold comparisons. rewrite sumf_filter.
    apply sumf_ext. intros r' Hr'. rewrite (peer_spec r r' Hr Hr'), (never_spec r' Hr'), (weight_spec r' Hr').
    destruct ((i_t r' =? i_t r)%Z && same_baseline rows r r')%bool; cbn; [|ring].
    destruct (not_yet c rows r' && _)%bool; cbn; ring.
  Qed.
  Lemma d0_spec r : In r u -> d0 (lcell c L placebo h (an r)) = val (h_change u placebo hz r).
  Proof. intros Hr. unfold d0. now rewrite diff_spec. Qed.
  Lemma ctrl_spec r : In r u -> ctrl c tmx cs (lcell c L placebo h (an r))
     = sumf (fun r' => obs_weight c r' * val (h_change u placebo hz r')) (comparisons c rows placebo hz r) / sumf (obs_weight c) (comparisons c rows placebo hz r).
  Proof.
    intros Hr. rewrite ctrl_L by apply KL_nodup. rewrite (n_control_spec r Hr). f_equal. rewrite sumf_filter, sumf_map, sum_K. unfold comparisons. rewrite sumf_filter.
    apply sumf_ext. intros r' Hr'. rewrite (peer_spec r r' Hr Hr'), (never_spec r' Hr'), (weight_spec r' Hr'), (d0_spec r' Hr').
    destruct ((i_t r' =? i_t r)%Z && same_baseline rows r r')%bool; cbn; [|ring].
    destruct (not_yet c rows r' && _)%bool; cbn; ring.
  Qed.
  Context (valid : prow -> bool) (Hsame : ic_same c = false).
  Lemma u_rows r : In r u -> In r rows.
  Proof. unfold used, sample. rewrite !filter_In. tauto. Qed.
  Lemma elig_spec r : In r u -> eligible c hz tmx valid cs (lcell c L placebo h (an r)) = switcher c rows placebo hz r.
  Proof.
    intros Hr. unfold eligible, switcher. rewrite (diff_spec r Hr), (n_control_spec r Hr). unfold at_target, sw_mask, dir_ok, p_F, p_t, p_L, p_S.
    rewrite !(lcell_an r Hr), Hsame. cbn [negb orb]. rewrite andb_true_r.
    change (s_F (an r)) with (switch_date rows (i_g r)). change (s_t (an r)) with (i_t r). change (s_S (an r)) with (sgn rows (i_g r)).
    unfold an. cbn [s_L].
    destruct (switch_date rows (i_g r)) as [f|] eqn:EF; [|now rewrite !andb_false_l, andb_false_r].
    destruct (is_some (h_change u placebo hz r)); [|now rewrite !andb_false_r, !andb_false_l]. rewrite andb_true_l, andb_true_r.
    destruct (Z.eqb_spec (i_t r) (f - 1 + hz)) as [Et|_]; [|reflexivity]. cbn [andb].
    destruct (zmax_in_some (periods_of rows (i_g r)) (i_t r)) as [m Em]; [apply in_periods; exists r; split; [now apply u_rows|auto]|].
    rewrite Em. apply zmax_some in Em as [_ Em]. specialize (Em (i_t r)).
    assert (Hm : (i_t r <= m)%Z) by (apply Em, in_periods; exists r; split; [now apply u_rows|auto]).
    replace (hz <=? m - f + 1)%Z with true by (symmetry; apply Z.leb_le; lia). cbn [andb]. rewrite andb_comm. f_equal.
    destruct (ic_dir c).
    - unfold sgn. destruct (switches_in rows (i_g r)) eqn:Ei; [reflexivity|]. destruct (switches_out rows (i_g r)) eqn:Eo; [reflexivity|]. exfalso.
      unfold switches_in in Ei. unfold switches_out in Eo. rewrite EF in Ei, Eo.
      assert (Hc : changed rows (i_g r) f = true).
      { unfold switch_date in EF. rewrite min_of_zmin in EF. destruct (zmin _) as [k|] eqn:Ek; [|discriminate]. injection EF as ->.
        apply zmin_some in Ek as [Ek _]. apply filter_In in Ek. tauto. }
      unfold changed in Hc. destruct (d_at rows (i_g r) f) as [x|], (baseline rows (i_g r)) as [b|]; try discriminate.
      destruct (Qceqb_spec x b) as [|ne]; [discriminate|]. destruct (Qcltb_spec b x), (Qcltb_spec x b); try discriminate.
      apply ne. apply Qcle_antisym; now apply Qcnot_lt_le.
    - apply Bool.eq_true_iff_eq. rewrite Z.eqb_eq. apply sgn_in.
    - apply Bool.eq_true_iff_eq. rewrite Z.eqb_eq. apply sgn_out.
  Qed.
  Lemma sum_sw (f : irow -> Qc) (g : srow -> Qc) : (forall r, In r u -> g (an r) = f r) ->
    sumf g (filter (fun s => eligible c hz tmx valid cs (lcell c L placebo h s)) L) = sumf f (switchers c rows placebo hz).
  Proof.
    intros Hg. unfold switchers. rewrite !sumf_filter, sumf_map, sum_K. apply sumf_ext. intros r Hr. now rewrite (elig_spec r Hr), (Hg r Hr).
  Qed.
  Lemma sw_nil : filter (fun s => eligible c hz tmx valid cs (lcell c L placebo h s)) L = [] <-> switchers c rows placebo hz = [].
  Proof.
    rewrite filter_map_swap. unfold switchers.
    assert (P : Permutation (filter (fun r => eligible c hz tmx valid cs (lcell c L placebo h (an r))) Kr) (filter (switcher c rows placebo hz) u)).
    { rewrite (filter_perm _ _ _ HKu). erewrite filter_ext_in; [apply Permutation_refl|]. intros r Hr. now apply elig_spec. }
    split; intros H.
    - apply map_eq_nil in H. rewrite H in P. now apply Permutation_nil in P.
    - rewrite H in P. now apply Permutation_sym, Permutation_nil in P as ->.
  Qed.
  Context (Hw : tiny <= sumf (obs_weight c) (switchers c rows placebo hz)).
  Lemma sw_ne : switchers c rows placebo hz <> [].
  Proof. intros e. rewrite e in Hw. cbn in Hw. apply Qcle_not_lt in Hw. apply Hw. reflexivity. Qed.
  Lemma tot_ne : sumf (obs_weight c) (switchers c rows placebo hz) <> 0.
  Proof. intros e. rewrite e in Hw. apply Qcle_not_lt in Hw. apply Hw. reflexivity. Qed.
  Lemma safe_spec : safe_nsw c hz tmx valid cs = sumf (obs_weight c) (switchers c rows placebo hz).
  Proof.
    unfold safe_nsw. rewrite nsw_L by apply KL_nodup. rewrite (sum_sw (obs_weight c)) by apply weight_spec.
    fold tiny. destruct (Qcltb_spec (sumf (obs_weight c) (switchers c rows placebo hz)) tiny) as [l|]; [|reflexivity].
    exfalso. exact (Qcle_not_lt _ _ Hw l).
  Qed.
  Lemma L_ne : L <> [].
  Proof.
    intros e. apply sw_ne, sw_nil. rewrite e. reflexivity.
  Qed.
  Lemma raw_spec : raw_estimate c hz tmx valid cs = average_did c rows placebo hz.
  Proof.
    rewrite raw_L by (apply KL_nodup || apply L_ne). rewrite safe_spec. unfold average_did. f_equal.
    apply sum_sw. intros r Hr. rewrite (weight_spec r Hr), (d0_spec r Hr), (ctrl_spec r Hr). reflexivity.
  Qed.
  Lemma dose_spec r : In r u -> In r (switchers c rows placebo hz) -> dose hz cs (lcell c L placebo h (an r)) = unit_dose c rows hz r.
  Proof.
    intros Hr Hs. rewrite dose_L by apply KL_nodup. unfold p_g. rewrite (lcell_an r Hr). change (s_g (an r)) with (i_g r).
    rewrite sumf_filter, sumf_map, sum_K. unfold unit_dose. apply filter_In in Hs as [_ Hs]. unfold switcher in Hs.
    destruct (switch_date rows (i_g r)) as [f|] eqn:EF; [|discriminate]. rewrite sumf_filter. apply sumf_ext. intros r' Hr'.
    cbn. unfold s_g, s_t. cbn. rewrite (Z.eqb_sym (i_g r) (i_g r')). destruct (Z.eqb_spec (i_g r') (i_g r)) as [e|]; [|reflexivity].
    rewrite e, EF. reflexivity.
  Qed.
  Lemma delta_spec : delta_d c hz tmx valid cs = Some (average_dose c rows placebo hz).
  Proof.
    rewrite delta_L by apply KL_nodup. rewrite !(sum_sw (obs_weight c) (fun s => c_w (lcell c L placebo h s))) by apply weight_spec.
    destruct (filter (eligible c hz tmx valid cs) cs) as [|x l] eqn:E.
    - exfalso. revert E. apply elig_some; [apply KL_nodup|]. rewrite sw_nil. apply sw_ne.
    - destruct (Qceqb_spec (sumf (obs_weight c) (switchers c rows placebo hz)) 0) as [e|_]; [now destruct tot_ne|]. f_equal.
      rewrite filter_map_swap, sumf_map, (sumf_perm _ _ _ (filter_perm _ _ _ HKu)).
      rewrite (filter_ext_in _ (switcher c rows placebo hz) u) by (intros r Hr; now apply elig_spec).
      fold (switchers c rows placebo hz). unfold average_dose, Qcdiv. rewrite <- sumf_mul_r. apply sumf_ext. intros r Hs.
      assert (Hr : In r u) by (unfold switchers in Hs; apply filter_In in Hs; tauto).
      rewrite (weight_spec r Hr). unfold sdose, signed_dose. rewrite (dose_spec r Hr Hs). unfold p_S. rewrite (lcell_an r Hr).
      change (s_S (an r)) with (sgn rows (i_g r)). unfold sign.
      destruct (switches_in rows (i_g r)) eqn:Ei.
      + apply sgn_in in Ei. rewrite Ei. cbn. ring.
      + destruct (Z.eqb_spec (sgn rows (i_g r)) 1) as [e|_]; [apply sgn_in in e; congruence|]. ring.
  Qed.
  End Hor.
End Main.
