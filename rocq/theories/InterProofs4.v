(** did_multiplegt: the rows that reach the estimation are the documented ones. *)
From Verif Require Import Base ListLib PreprocessModel InterModel InterSpec InterProofs1 InterProofs2 InterProofs3.

Lemma filter_map_swap {A B} (f : A -> B) (p : B -> bool) l : filter p (map f l) = map f (filter (fun a => p (f a)) l).
Proof. induction l as [|a l IH]; cbn; [reflexivity|]. destruct (p (f a)); cbn; now rewrite IH. Qed.
Lemma existsb_map_swap {A B} (f : A -> B) (p : B -> bool) l : existsb p (map f l) = existsb (fun a => p (f a)) l.
Proof. induction l as [|a l IH]; cbn; [reflexivity|]. now rewrite IH. Qed.
Lemma existsb_ext_in {A} (p q : A -> bool) l : (forall a, In a l -> p a = q a) -> existsb p l = existsb q l.
Proof. induction l as [|a l IH]; cbn; intros H; [reflexivity|]. rewrite (H a) by auto. rewrite IH; auto. Qed.
Lemma existsb_same {A} (p : A -> bool) l l' : (forall a, In a l <-> In a l') -> existsb p l = existsb p l'.
Proof. intros H. apply Bool.eq_true_iff_eq. rewrite !existsb_exists. split; intros (a & h1 & h2); exists a; split; auto; now apply H. Qed.

Lemma one_row_filter p l : one_row_per_period l -> one_row_per_period (filter p l).
Proof.
  unfold one_row_per_period. induction l as [|r l IH]; cbn; intros H; [exact H|]. inversion H as [|? ? Hr Hl]; subst.
  destruct (p r); cbn; [|auto]. constructor; [|auto]. intros h. apply Hr. apply in_map_iff in h as (s & e & hs).
  apply filter_In in hs as [hs _]. rewrite <- e. apply (in_map (fun r => (i_g r, i_t r))), hs.
Qed.
Lemma one_row_perm l l' : Permutation l l' -> one_row_per_period l -> one_row_per_period l'.
Proof. intros Hp H. eapply Permutation_NoDup; [apply Permutation_map; exact Hp|exact H]. Qed.

(** the variance of the switching dates *)
Lemma svar_const l v : l <> [] -> (forall s, In s l -> f_code s = v) -> svar l = 0.
Proof.
  intros Hne H. unfold svar. rewrite sumf_zero; [apply Qcdiv_0_l|]. intros s Hs.
  assert (E : mean f_code l = v).
  { rewrite (mean_ext f_code (fun _ => v) l H). apply mean_const. exact Hne. }
  rewrite E, (H s Hs). ring.
Qed.
Lemma sq_nonneg (x : Qc) : 0 <= x * x. Proof. qcnra. Qed.
Lemma svar_pos l a b : In a l -> In b l -> f_code a <> f_code b ->
  (exists u v, f_code a = qz u /\ f_code b = qz v) -> (Z.of_nat (length l) <= 2000000)%Z -> (2 <= length l)%nat /\ std_threshold2 <= svar l.
Proof.
  intros Ha Hb Hne (u & v & Eu & Ev) Hlen.
  apply in_split in Ha as (l1 & l2 & El).
  assert (Hb' : In b (l1 ++ l2)).
  { rewrite El in Hb. apply in_app_or in Hb. apply in_or_app. destruct Hb as [h|[->|h]]; [tauto|contradiction|tauto]. }
  apply in_split in Hb' as (m1 & m2 & Em).
  assert (P : Permutation l (a :: b :: m1 ++ m2)).
  { rewrite El. transitivity (a :: l1 ++ l2); [apply Permutation_sym, Permutation_middle|]. constructor. rewrite Em.
    apply Permutation_sym, Permutation_middle. }
  assert (H2 : (2 <= length l)%nat) by (rewrite (Permutation_length P); cbn; lia).
  split; [exact H2|]. unfold svar. set (m := mean f_code l). rewrite (sumf_perm _ _ _ P), !sumf_cons.
  pose proof (sumf_nonneg (fun s => (f_code s - m) * (f_code s - m)) (m1 ++ m2) (fun s _ => sq_nonneg _)) as Hrest.
  set (rest := sumf _ (m1 ++ m2)) in *. rewrite Eu, Ev in *. clearbody m rest.
  assert (Huv : (1 <= (u - v) * (u - v))%Z). { assert (u <> v) by congruence. nia. }
  apply qz_le in Huv. change (u - v)%Z with (u + - v)%Z in Huv. rewrite qz_1, qz_mul, qz_add, qz_opp in Huv.
  set (n := qn (length l - 1)). assert (Hn : 0 < n) by (apply qn_pos; lia).
  assert (Hn' : n <= qz 2000000) by (unfold n, qn; rewrite <- qz_le; lia).
  assert (Hs : Q2Qc (1 # 2) <= (qz u - m) * (qz u - m) + ((qz v - m) * (qz v - m) + rest)).
  { clear -Hrest Huv. assert (Hk : Q2Qc (1 # 2) + Q2Qc (1 # 2) = 1) by (apply Qc_is_canon; reflexivity).
    generalize dependent (Q2Qc (1 # 2)). generalize dependent (qz u). intros U. generalize (qz v). intros V. intros Huv k Hk.
    pose proof (sq_nonneg ((U - m) + (V - m))) as Hq.
    assert (E : (U - m) * (U - m) + (V - m) * (V - m) + ((U - m) * (U - m) + (V - m) * (V - m))
                = (U + - V) * (U + - V) + ((U - m) + (V - m)) * ((U - m) + (V - m))) by ring.
    generalize dependent ((U - m) * (U - m)). intros A. generalize ((V - m) * (V - m)). intros B E.
    generalize dependent ((U + - V) * (U + - V)). intros C HC. generalize dependent ((U - m + (V - m)) * (U - m + (V - m))). intros D HD E. qclra. }
  generalize dependent ((qz u - m) * (qz u - m) + ((qz v - m) * (qz v - m) + rest)). intros S HS. clearbody n.
  assert (Hle : std_threshold2 * n <= S).
  { apply Qcle_trans with (Q2Qc (1 # 2)); [|exact HS]. 
    apply Qcle_trans with (std_threshold2 * qz 2000000); [|discriminate].
    unfold std_threshold2. clear -Hn'. generalize dependent (qz 2000000). intros k Hk. qclra. }
  replace std_threshold2 with (std_threshold2 * n / n) by (field; now apply Qc_pos_neq0).
  unfold Qcdiv. apply Qcmult_le_compat_r; [exact Hle|]. apply Qclt_le_weak, Qcinv_pos, Hn.
Qed.

Section Kept.
  Context (c : icfg) (rows : list irow) (Hn : one_row_per_period rows) (Hd : complete_treatment rows).
  Definition R0 : list irow := drop_missing_units rows.
  Lemma drop_missing_eq : R0 = filter (fun r => has_outcome rows (i_g r)) rows.
  Proof.
    apply filter_ext_in'. intros r Hr. unfold has_outcome.
    replace (existsb (fun s => of_unit (i_g r) s && is_some (i_d s)) rows) with true; [reflexivity|].
    symmetry. apply existsb_exists. exists r. split; [exact Hr|]. unfold of_unit. rewrite Z.eqb_refl. destruct (Hd r Hr) as [x ->]. reflexivity.
  Qed.
  Lemma R0_in r : In r R0 <-> In r rows /\ has_outcome rows (i_g r) = true.
  Proof. rewrite drop_missing_eq, filter_In. reflexivity. Qed.
  Lemma R0_one : one_row_per_period R0. Proof. rewrite drop_missing_eq. now apply one_row_filter. Qed.
  Lemma R0_complete : complete_treatment R0. Proof. intros r Hr. apply R0_in in Hr. now apply Hd. Qed.
  Lemma R0_ueq r : In r R0 -> ueq (i_g r) R0 rows.
  Proof. intros Hr s Hs. rewrite R0_in. rewrite Hs. apply R0_in in Hr. tauto. Qed.

  Definition sgn (g : Z) : Z := (if switches_in rows g then 1 else if switches_out rows g then -1 else 0)%Z.
  Definition ann (r : irow) : srow :=
    {| s_row := r; s_F := switch_date rows (i_g r); s_dsq := baseline rows (i_g r);
       s_dfg := match switch_date rows (i_g r) with Fin F => d_at rows (i_g r) F | Inf => None end;
       s_S := sgn (i_g r);
       s_L := match switch_date rows (i_g r), zmax (periods_of rows (i_g r)) with Fin F, Some m => (m - F + 1)%Z | _, _ => 0%Z end |}.
  Definition kb (r : irow) : bool := ic_keep_bi c || negb (crossed rows (i_g r) (i_t r)).
  Let l0 := with_hist i_g [] (sort_gt i_g i_t R0).
  Definition X0 : list irow := filter kb (sort_gt i_g i_t R0).

  Lemma l0_in_R0 a : In a l0 -> In (fst a) R0.
  Proof. intros H. rewrite <- (sort_gt_in i_g i_t), <- (with_hist_fst i_g (sort_gt i_g i_t R0) []). now apply in_map. Qed.
  Lemma drop_bi_filter : drop_bidirectional c l0 = filter (fun a => kb (fst a)) l0.
  Proof.
    unfold drop_bidirectional, kb. destruct (ic_keep_bi c); cbn [orb].
    - symmetry. apply filter_all. reflexivity.
    - apply filter_ext_in'. intros a Ha. f_equal. pose proof (l0_in_R0 a Ha) as Hr.
      unfold l0. rewrite with_hist_fst, base_treat_spec.
      cbv zeta. rewrite (ever_crossed R0 R0_one a Ha).
      + apply ueq_crossed; [apply R0_one|exact Hn|now apply R0_ueq].
      + apply ueq_baseline; [apply R0_one| |apply ueq_perm, Permutation_sym, sort_gt_perm].
        eapply one_row_perm; [apply Permutation_sym, sort_gt_perm|apply R0_one].
  Qed.
  Lemma bi_fst : map fst (drop_bidirectional c l0) = X0.
  Proof.
    rewrite drop_bi_filter. unfold X0. rewrite <- (with_hist_fst i_g (sort_gt i_g i_t R0) []) at 1. fold l0.
    rewrite filter_map_swap. reflexivity.
  Qed.
  Lemma bi_sub a : In a (drop_bidirectional c l0) -> In a l0.
  Proof. rewrite drop_bi_filter, filter_In. tauto. Qed.
  Lemma switch_row_kept r : In r rows -> (forall F, switch_date rows (i_g r) = Fin F -> (i_t r <= F)%Z) -> kb r = true.
  Proof. intros Hr HF. unfold kb. rewrite (not_crossed_by_switch rows Hn Hd r Hr HF). apply orb_true_r. Qed.
  Lemma bi_keep a : In a l0 -> switch_date R0 (i_g (fst a)) = Fin (i_t (fst a)) -> In a (drop_bidirectional c l0).
  Proof.
    intros Ha HF. rewrite drop_bi_filter. apply filter_In. split; [exact Ha|]. pose proof (l0_in_R0 a Ha) as Hr.
    apply switch_row_kept; [now apply R0_in in Hr|]. intros F EF.
    rewrite <- (ueq_switch_date (i_g (fst a)) R0 rows R0_one Hn (R0_ueq _ Hr)) in EF. rewrite EF in HF. injection HF as ->. lia.
  Qed.
  Lemma bi_sorted : StronglySorted (fun a b => key_lt i_g i_t (fst a) (fst b)) (drop_bidirectional c l0).
  Proof.
    rewrite drop_bi_filter. apply ssorted_filter.
    assert (H : StronglySorted (key_lt i_g i_t) (map fst l0)).
    { unfold l0. rewrite with_hist_fst. apply sort_gt_strict, R0_one. }
    revert H. generalize l0. intros l. induction l as [|a l IH]; cbn; intros H; inversion H as [|? ? H1 H2]; subst; constructor; auto.
    rewrite Forall_forall in *. intros b Hb. apply H2. now apply in_map.
  Qed.
  (** a unit's first row and its row at the switching date survive *)
  Lemma X0_in r : In r X0 <-> In r R0 /\ kb r = true.
  Proof. unfold X0. rewrite filter_In, sort_gt_in. reflexivity. Qed.
  Lemma X0_one : one_row_per_period X0.
  Proof. apply one_row_filter. eapply one_row_perm; [apply Permutation_sym, sort_gt_perm|apply R0_one]. Qed.
  Lemma X0_obs r t : In r R0 -> (forall F, switch_date rows (i_g r) = Fin F -> (t <= F)%Z) -> obs X0 (i_g r) t = obs rows (i_g r) t.
  Proof.
    intros Hr Ht. destruct (obs rows (i_g r) t) as [s|] eqn:E.
    - apply obs_some; [apply X0_one|]. apply obs_is_in in E as (h1 & h2 & h3). split; [|auto]. apply X0_in. split.
      + apply R0_in. rewrite h2. apply R0_in in Hr. tauto.
      + apply switch_row_kept; [exact h1|]. rewrite h2, h3. exact Ht.
    - apply obs_none. apply obs_none in E. intros h. apply E. apply in_periods in h as (s & h1 & h2 & h3). apply in_periods.
      exists s. apply X0_in in h1 as [h1 _]. apply R0_in in h1. tauto.
  Qed.
  Lemma X0_baseline r : In r R0 -> baseline X0 (i_g r) = baseline rows (i_g r).
  Proof.
    intros Hr. pose proof (proj1 (R0_in r) Hr) as [Hr' _].
    unfold baseline. rewrite !min_of_zmin.
    destruct (zmin_in_some (periods_of rows (i_g r)) (i_t r)) as [m Em]; [apply in_periods; eauto|].
    pose proof (proj1 (zmin_some _ _) Em) as [Hm1 Hm2].
    assert (HmF : forall F, switch_date rows (i_g r) = Fin F -> (m <= F)%Z).
    { intros F EF. destruct (switch_date_row rows (i_g r) F EF) as (s & h1 & h2 & h3). apply Hm2, in_periods. eauto. }
    assert (Em' : zmin (periods_of X0 (i_g r)) = Some m).
    { apply zmin_some. split.
      - apply in_periods in Hm1 as (s & h1 & h2 & h3). apply in_periods. exists s. split; [|auto].
        apply (obs_some X0 (i_g r) m s X0_one). rewrite (X0_obs r m Hr HmF). apply obs_some; auto.
      - intros t Ht. apply Hm2. apply in_periods in Ht as (s & h1 & h2 & h3). apply in_periods. exists s.
        apply X0_in in h1 as [h1 _]. apply R0_in in h1. tauto. }
    rewrite Em, Em'. unfold d_at. now rewrite (X0_obs r m Hr HmF).
  Qed.

  Lemma ann_of a : In a (drop_bidirectional c l0) ->
    {| s_row := fst a; s_F := first_switch (drop_bidirectional c l0) (i_g (fst a));
       s_dsq := base_treat (map fst (drop_bidirectional c l0)) (i_g (fst a)); s_dfg := switch_treat (drop_bidirectional c l0) (i_g (fst a));
       s_S := switch_sign (drop_bidirectional c l0) (i_g (fst a)); s_L := horizon_len l0 (i_g (fst a)) |} = ann (fst a).
  Proof.
    intros Ha. pose proof (bi_sub a Ha) as Ha0. pose proof (l0_in_R0 a Ha0) as Hr. pose proof (R0_ueq _ Hr) as Hu.
    assert (EF : switch_date R0 (i_g (fst a)) = switch_date rows (i_g (fst a))) by (apply ueq_switch_date; auto; apply R0_one).
    unfold ann. f_equal.
    - rewrite (first_switch_spec R0 R0_one R0_complete _ bi_sub bi_keep). exact EF.
    - rewrite bi_fst, base_treat_spec. now apply X0_baseline.
    - unfold switch_treat. rewrite (first_switch_spec R0 R0_one R0_complete _ bi_sub bi_keep), EF, bi_fst.
      destruct (switch_date rows (i_g (fst a))) as [F|] eqn:E; [|reflexivity]. unfold d_at.
      change (find (fun r => of_unit (i_g (fst a)) r && (i_t r =? F)%Z) X0) with (obs X0 (i_g (fst a)) F).
      rewrite (X0_obs _ F Hr); [reflexivity|]. intros F' E'. injection (eq_trans (eq_sym E) E') as ->. lia.
    - rewrite (switch_sign_spec R0 R0_one R0_complete _ bi_sub bi_keep bi_sorted). unfold sgn.
      rewrite (ueq_in _ R0 rows R0_one Hn Hu), (ueq_out _ R0 rows R0_one Hn Hu). reflexivity.
    - unfold horizon_len. rewrite (first_switch_spec R0 R0_one R0_complete l0 (fun a H => H) (fun a H _ => H)), EF.
      rewrite (zmax_ext _ (periods_of rows (i_g (fst a)))); [reflexivity|]. intros t.
      rewrite <- (ueq_periods _ R0 rows Hu), in_periods, in_map_iff. setoid_rewrite filter_In. unfold of_unit. setoid_rewrite Z.eqb_eq. split.
      + intros (b & h1 & h2 & h3). exists (fst b). split; [now apply l0_in_R0|auto].
      + intros (s & h1 & h2 & h3). destruct (with_hist_exists i_g i_t R0 s h1) as [hist hh]. exists (s, hist). auto.
  Qed.
  Lemma identify_spec : identify c R0 = map ann X0.
  Proof.
    unfold identify. cbv zeta. change (with_hist i_g [] (sort_gt i_g i_t R0)) with l0.
    assert (E : map (fun a => 
        {| s_row := fst a; s_F := first_switch (drop_bidirectional c l0) (i_g (fst a)); s_dsq := base_treat (map fst (drop_bidirectional c l0)) (i_g (fst a));
           s_dfg := switch_treat (drop_bidirectional c l0) (i_g (fst a)); s_S := switch_sign (drop_bidirectional c l0) (i_g (fst a)); s_L := horizon_len l0 (i_g (fst a)) |})
        (drop_bidirectional c l0) = map ann X0).
    { rewrite <- bi_fst, map_map. apply map_ext_in. intros a Ha. now apply ann_of. }
    rewrite E. destruct (ic_drop_missing c); [|reflexivity]. apply filter_all. intros s Hs. apply in_map_iff in Hs as (r & <- & Hr).
    apply X0_in in Hr as [Hr _]. destruct (R0_complete r Hr) as [x Hx]. cbn. unfold missing_preswitch.
    destruct (zmin _); [|reflexivity]. rewrite Hx. cbn. now rewrite !andb_false_r.
  Qed.

  Definition X1 : list irow := filter (fun r => direction_ok rows c (i_g r)) X0.
  Lemma sgn_in g : sgn g = 1%Z <-> switches_in rows g = true.
  Proof. unfold sgn. destruct (switches_in rows g), (switches_out rows g); split; congruence. Qed.
  Lemma in_out_excl g : switches_in rows g = true -> switches_out rows g = false.
  Proof.
    unfold switches_in, switches_out. destruct (switch_date rows g); [|discriminate]. destruct (d_at rows g z) as [x|], (baseline rows g) as [b|]; try discriminate.
    destruct (Qcltb_spec b x), (Qcltb_spec x b); try congruence. intros _. exfalso. apply (Qclt_not_le b x); auto. now apply Qclt_le_weak.
  Qed.
  Lemma sgn_out g : sgn g = (-1)%Z <-> switches_out rows g = true.
  Proof.
    unfold sgn. destruct (switches_in rows g) eqn:E; [rewrite (in_out_excl g E)|destruct (switches_out rows g)]; split; congruence.
  Qed.
  Lemma switcher_filter_spec : switcher_filter c (map ann X0) = map ann X1.
  Proof.
    unfold switcher_filter, X1.
    assert (G : forall v, (forall g, ((sgn g =? v)%Z || (sgn g =? 0)%Z)%bool = direction_ok rows c g) ->
      filter (fun s => existsb (fun s' => (s_g s' =? s_g s)%Z && ((s_S s' =? v)%Z || (s_S s' =? 0)%Z)) (map ann X0)) (map ann X0)
      = map ann (filter (fun r => direction_ok rows c (i_g r)) X0)).
    { intros v Hv. rewrite filter_map_swap. f_equal. apply filter_ext_in'. intros r Hr. apply Bool.eq_true_iff_eq.
      rewrite existsb_map_swap, existsb_exists, <- Hv. split.
      - intros (s & h1 & h2). apply andb_true_iff in h2 as [h2 h3]. apply Z.eqb_eq in h2. unfold s_g in h2. cbn in h2, h3. now rewrite <- h2.
      - intros h. exists r. split; [exact Hr|]. unfold s_g. cbn. rewrite Z.eqb_refl. exact h. }
    unfold direction_ok in G. destruct (ic_dir c) eqn:E.
    - rewrite filter_all; [reflexivity|]. intros r _. unfold direction_ok. now rewrite E.
    - rewrite G; [f_equal; apply filter_ext; intros r; unfold direction_ok; now rewrite E|].
      intros g. pose proof (sgn_out g). unfold sgn in *. destruct (switches_in rows g) eqn:Ei, (switches_out rows g) eqn:Eo; cbn; try reflexivity.
      rewrite (in_out_excl g Ei) in Eo. discriminate.
    - rewrite G; [f_equal; apply filter_ext; intros r; unfold direction_ok; now rewrite E|].
      intros g. unfold sgn in *. destruct (switches_in rows g) eqn:Ei, (switches_out rows g) eqn:Eo; cbn; reflexivity.
  Qed.
  Lemma X1_in r : In r X1 <-> In r (sample rows c).
  Proof.
    unfold X1, sample, in_sample. rewrite !filter_In, X0_in, R0_in, !andb_true_iff. unfold kb. tauto.
  Qed.
  Lemma ann_same_base r r' : same_base (ann r) (ann r') = same_baseline rows r r'.
  Proof. reflexivity. Qed.
  Lemma same_baseline_iff r r' : same_baseline rows r r' = true <-> baseline rows (i_g r) = baseline rows (i_g r') /\ i_tr r = i_tr r'.
  Proof. rewrite <- ann_same_base. apply same_base_iff. Qed.

  Context (Hsize : (Z.of_nat (length rows) <= 2000000)%Z) (H0 : forall r, In r rows -> switch_date rows (i_g r) <> Fin 0%Z).
  Definition varies (r : irow) : bool :=
    existsb (fun r' => same_baseline rows r r' && negb (grp_eqb (switch_date rows (i_g r)) (switch_date rows (i_g r')))) (sample rows c).
  Definition has_never (r : irow) : bool :=
    existsb (fun r' => (i_t r =? i_t r')%Z && same_baseline rows r r' && grp_eqb (switch_date rows (i_g r')) Inf) (sample rows c).
  Lemma grp_eqb_iff a b : grp_eqb a b = true <-> a = b.
  Proof. destruct a, b; cbn; try (split; congruence). rewrite Z.eqb_eq. split; congruence. Qed.
  Lemma code_inj r r' : In r rows -> In r' rows -> f_code (ann r) = f_code (ann r') -> switch_date rows (i_g r) = switch_date rows (i_g r').
  Proof.
    intros Hr Hr'. unfold f_code. cbn. destruct (switch_date rows (i_g r)) eqn:E, (switch_date rows (i_g r')) eqn:E'; intros e; try reflexivity.
    - apply qz_inj in e. now subst.
    - rewrite <- qz_0 in e. apply qz_inj in e. subst. now destruct (H0 r Hr).
    - rewrite <- qz_0 in e. apply qz_inj in e. subst. now destruct (H0 r' Hr').
  Qed.
  Lemma sample_in_rows r : In r (sample rows c) -> In r rows.
  Proof. unfold sample. rewrite filter_In. tauto. Qed.
  Lemma X1_len : (Z.of_nat (length X1) <= 2000000)%Z.
  Proof.
    assert (F : forall {A} (p : A -> bool) l, (length (filter p l) <= length l)%nat).
    { intros A p l. induction l as [|a l IH]; cbn; [lia|]. destruct (p a); cbn; lia. }
    eapply Z.le_trans; [apply Nat2Z.inj_le|exact Hsize].
    unfold X1, X0. eapply Nat.le_trans; [apply F|]. eapply Nat.le_trans; [apply F|].
    rewrite (Permutation_length (sort_gt_perm i_g i_t R0)), drop_missing_eq. apply F.
  Qed.
  Lemma fg_spec : fg_variation_filter (map ann X1) = map ann (filter varies X1).
  Proof.
    unfold fg_variation_filter. rewrite filter_map_swap. f_equal. apply filter_ext_in'. intros r Hr.
    set (G := filter (same_base (ann r)) (map ann X1)).
    assert (HrG : In (ann r) G). { apply filter_In. split; [now apply in_map|apply same_base_refl]. }
    assert (HG : forall s, In s G -> exists r', s = ann r' /\ In r' X1 /\ same_baseline rows r r' = true).
    { intros s Hs. apply filter_In in Hs as [Hs1 Hs2]. apply in_map_iff in Hs1 as (r' & <- & Hr'). eauto. }
    destruct (varies r) eqn:E.
    - unfold varies in E. apply existsb_exists in E as (r' & h1 & h2). apply andb_true_iff in h2 as [h2 h3]. apply negb_true_iff in h3.
      assert (Hr'1 : In r' X1) by now apply X1_in.
      assert (Hr'G : In (ann r') G). { apply filter_In. split; [now apply in_map|exact h2]. }
      destruct (svar_pos G (ann r) (ann r') HrG Hr'G) as [k1 k2].
      + intros e. apply code_inj in e; [|now apply sample_in_rows, X1_in|now apply sample_in_rows].
        rewrite e in h3. destruct (switch_date rows (i_g r')); cbn in h3; [now rewrite Z.eqb_refl in h3|discriminate].
      + unfold f_code. cbn. destruct (switch_date rows (i_g r)), (switch_date rows (i_g r')); rewrite <- ?qz_0; eauto.
      + unfold G. eapply Z.le_trans; [|apply X1_len]. apply Nat2Z.inj_le. rewrite <- (map_length ann X1). generalize (map ann X1). intros l.
        induction l as [|a l IH]; cbn; [lia|]. destruct (same_base (ann r) a); cbn; lia.
      + apply andb_true_iff. split; [now apply Nat.leb_le|]. destruct (Qcleb_spec std_threshold2 (svar G)); [reflexivity|contradiction].
    - replace (svar G) with (0 : Qc); [now rewrite andb_false_r|]. symmetry. apply (svar_const G (f_code (ann r))).
      + intros e. rewrite e in HrG. destruct HrG.
      + intros s Hs. destruct (HG s Hs) as (r' & -> & h1 & h2). unfold f_code. cbn.
        replace (switch_date rows (i_g r')) with (switch_date rows (i_g r)); [reflexivity|].
        destruct (grp_eqb (switch_date rows (i_g r)) (switch_date rows (i_g r'))) eqn:Eg; [now apply grp_eqb_iff|]. exfalso.
        assert (varies r = true); [|congruence]. unfold varies. apply existsb_exists. exists r'. split; [now apply X1_in|]. now rewrite h2, Eg.
  Qed.
  Definition K : list irow := filter has_never (filter varies X1).
  Lemma ctf_spec : controls_time_filter (map ann (filter varies X1)) = map ann K.
  Proof.
    unfold controls_time_filter, K. rewrite filter_map_swap. f_equal. apply filter_ext_in'. intros r Hr. apply filter_In in Hr as [Hr Hv].
    rewrite existsb_map_swap. apply Bool.eq_true_iff_eq. unfold has_never. rewrite !existsb_exists. split.
    - intros (r' & h1 & h2). exists r'. apply filter_In in h1 as [h1 _]. split; [now apply X1_in|].
      apply andb_true_iff in h2 as [h2 h3]. rewrite <- ann_same_base. unfold same_cell in h2. unfold s_t in h2. cbn in h2, h3. rewrite h2. cbn.
      now destruct (switch_date rows (i_g r')).
    - intros (r' & h1 & h2). exists r'. apply andb_true_iff in h2 as [h2 h3]. apply andb_true_iff in h2 as [h2 h4].
      apply grp_eqb_iff in h3. split.
      + apply filter_In. split; [now apply X1_in|].
        unfold varies in Hv. apply existsb_exists in Hv as (r'' & k1 & k2). apply andb_true_iff in k2 as [k2 k3].
        unfold varies. apply existsb_exists. rewrite h3. apply same_baseline_iff in h4 as [e1 e2]. apply same_baseline_iff in k2 as [e3 e4].
        destruct (switch_date rows (i_g r)) as [F|] eqn:EF.
        * exists r. split; [now apply X1_in|]. rewrite EF. apply andb_true_iff. split; [apply same_baseline_iff; split; congruence|reflexivity].
        * exists r''. split; [exact k1|]. rewrite k3, andb_true_r. apply same_baseline_iff. split; congruence.
      + unfold same_cell, s_t. cbn. rewrite h2, h3. rewrite ann_same_base, h4. reflexivity.
  Qed.
  Lemma K_in r : In r K <-> In r (used rows c).
  Proof.
    unfold K, used, usable. rewrite !filter_In, X1_in. fold (varies r) (has_never r). rewrite andb_true_iff. tauto.
  Qed.
  Lemma K_one : one_row_per_period K.
  Proof. unfold K, X1. do 3 apply one_row_filter. apply X0_one. Qed.
  Lemma used_one : one_row_per_period (used rows c).
  Proof. unfold used, sample. repeat apply one_row_filter. exact Hn. Qed.
  Lemma K_perm : Permutation K (used rows c).
  Proof.
    apply NoDup_Permutation.
    - eapply NoDup_map_inv. exact K_one.
    - eapply NoDup_map_inv. exact used_one.
    - apply K_in.
  Qed.
  (** the rows that reach the balancing step *)
  Lemma kept_spec : controls_time_filter (fg_variation_filter (switcher_filter c (identify c (drop_missing_units rows)))) = map ann K.
  Proof. fold R0. now rewrite identify_spec, switcher_filter_spec, fg_spec, ctf_spec. Qed.
End Kept.
