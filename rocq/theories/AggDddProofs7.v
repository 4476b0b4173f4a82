(** Derivatives of the reported aggregates (C66). *)
From Verif Require Import Base ListLib Calc PreprocessModel PreprocessProofs SeModel AggteModel AggteSpec AggteProofs AggteProofs2 AggteProofs3 AggteProofs4 AggteProofs5 AggDddModel AggDddSpec AggDddProofs AggDddProofs2 AggDddProofs3 AggDddProofs4 AggDddProofs5.

Lemma havg_empty us n h : havg n h (winf us n []) = 0.
Proof.
  assert (EW : winf us n [] = repeat 0 n). { unfold winf. rewrite (map_ext _ (fun _ => 0)) by (intros; unfold wavg; cbn; unfold Qcdiv; ring). apply map_const_seq. }
  rewrite EW. apply havg_repeat0.
Qed.
Section Paths.
  Context (tlist glist : list Z) (us : list grp) (mp : list mp_cell) (OK : table_ok tlist glist us mp).
  Context (ty : agg_type) (dropna : bool) (be mi ma : option Z) (h : list Qc) (F : kcell -> Qc -> Qc).
  Let cells := used_cells ty dropna mp.
  Let vals := scale dropna tlist glist cells.
  Let n := length us.
  Let cov key := filter (dcovers ty vals cells be ma key) cells.
  Context (KP : kpaths n h F cells).
  Lemma cov_in key k : In k (cov key) -> In k cells. Proof. intros H. apply filter_In in H. apply H. Qed.
  Lemma cov_group key k k' : ty = TGroup -> In k (cov key) -> In k' (cov key) -> k_g k = k_g k'.
  Proof.
    intros ET H H'. apply filter_In in H. apply filter_In in H'. destruct H as [_ H], H' as [_ H']. rewrite ET in H, H'. cbn in H, H'.
    rewrite !andb_true_iff, Z.eqb_eq in H, H'. destruct H as [[-> _] _], H' as [[-> _] _]. reflexivity.
  Qed.
  Lemma D_effect_fixed key : derivative_at_0 (fun e => or0 (effect_of ty (frac us) vals cells be ma (fun k => F k e) key)) (havg n h (winf us n (cov key))).
  Proof.
    unfold effect_of. fold (cov key).
    assert (W : derivative_at_0 (fun e => or0 (wavg_opt (frac us) (fun k => F k e) (cov key))) (havg n h (winf us n (cov key)))).
    { assert (X := D_wavg_fixed us h F cells KP (cov key) (cov_in key)). fold n in X. destruct (cov key) as [|k ks] eqn:E; [|exact X].
      rewrite havg_empty. exact (D_const 0). }
    assert (G : ty = TGroup -> derivative_at_0 (fun e => or0 (avg_opt (fun k => F k e) (cov key))) (havg n h (winf us n (cov key)))).
    { intros ET. apply (D_avg_opt us h F cells KP); [apply cov_in| |].
      - intros k Hk. apply (used_pos tlist glist us mp OK ty dropna). exact (cov_in key k Hk).
      - intros k k'. apply (cov_group key k k' ET). }
    destruct ty; [exact W|apply G; reflexivity|exact W|exact W].
  Qed.
  Lemma D_effect_shares key : ty <> TGroup -> cov key <> [] ->
    derivative_at_0 (fun e => or0 (effect_of ty (shares_along us h e) vals cells be ma (fun k => F k e) key)) (havg n h (winf us n (cov key)) + havg n h (map (share_term us (cov key)) us)).
  Proof.
    intros NT N. unfold effect_of. fold (cov key).
    assert (SP : 0 < sumf (fun k => frac us (k_g k)) (cov key)).
    { assert (HP : forall k, In k (cov key) -> 0 < frac us (k_g k)) by (intros k Hk; apply (used_pos tlist glist us mp OK ty dropna); exact (cov_in key k Hk)).
      destruct (cov key) as [|k ks]; [congruence|]. rewrite sumf_cons. assert (0 < frac us (k_g k)) by (apply HP; left; reflexivity).
      assert (0 <= sumf (fun k => frac us (k_g k)) ks) by (apply sumf_nonneg; intros; apply Qclt_le_weak, HP; right; assumption). qclra. }
    assert (NZ : sumf (fun k => frac us (k_g k)) (cov key) <> 0) by (intros Z; rewrite Z in SP; qclra).
    assert (X := D_wavg us h F cells KP (cov key) (cov_in key) NZ). fold n in X.
    assert (W : derivative_at_0 (fun e => or0 (wavg_opt (shares_along us h e) (fun k => F k e) (cov key))) (havg n h (winf us n (cov key)) + havg n h (map (share_term us (cov key)) us))).
    { destruct (cov key) as [|k ks] eqn:E; [congruence|exact X]. }
    destruct ty; [exact W|congruence|exact W|exact W].
  Qed.
  Lemma D_average_keys (keys : list Z) (f : Z -> Qc -> Qc) (d : Z -> Qc) : (forall key, In key keys -> derivative_at_0 (f key) (d key)) ->
    derivative_at_0 (fun e => average (map (fun key => f key e) keys)) (average (map d keys)).
  Proof.
    intros Hd. unfold average, mean. apply (D_ext (fun e => / qn (length keys) * sumf (fun key => f key e) keys)).
    { apply near0_all. intros e. rewrite sumf_map, map_length. unfold Qcdiv. ring. }
    apply (D_eq _ (/ qn (length keys) * sumf d keys)); [rewrite sumf_map, map_length; unfold Qcdiv; rewrite Qcmult_comm; reflexivity|]. apply D_scale, D_sum, Hd.
  Qed.
  Lemma D_avg_existing keys : (forall key, In key keys -> cov key <> []) -> ty <> TGroup ->
    derivative_at_0 (fun e => or0 (avg_existing (effect_of ty (frac us) vals cells be ma (fun k => F k e)) keys)) (havg n h (mean_cols n (map (fun key => winf us n (cov key)) keys))).
  Proof.
    intros HN NT. rewrite havg_mean_cols. rewrite sumf_map, map_length.
    apply (D_ext (fun e => average (map (fun key => or0 (effect_of ty (frac us) vals cells be ma (fun k => F k e) key)) keys))).
    - apply near0_all. intros e. unfold avg_existing. rewrite (map_ext_in _ (fun key => Some (or0 (effect_of ty (frac us) vals cells be ma (fun k => F k e) key)))).
      + rewrite existing_map_some. destruct keys as [|key keys]; [unfold average, mean; cbn; reflexivity|]. reflexivity.
      + intros key Hk. specialize (HN key Hk). unfold effect_of. fold (cov key). destruct (cov key) as [|k ks]; [congruence|]. destruct ty; reflexivity.
    - assert (X := D_average_keys keys (fun key e => or0 (effect_of ty (frac us) vals cells be ma (fun k => F k e) key)) (fun key => havg n h (winf us n (cov key))) (fun key _ => D_effect_fixed key)).
      unfold average at 2, mean in X. rewrite sumf_map, map_length in X. exact X.
  Qed.
  Lemma D_cohort_avg0 (gl : list Z) : ty = TGroup -> sumf (frac us) gl <> 0 ->
    derivative_at_0 (fun e => cohort_avg0 (shares_along us h e) (effect_of ty (frac us) vals cells be ma (fun k => F k e)) gl)
      (havg n h (map (fun q => sumf (fun g => nth (fst q) (winf us n (cov g)) 0 * (frac us g / sumf (frac us) gl)) gl
                          + sumf (fun g => share_if us gl (snd q) g * or0 (effect_of ty (frac us) vals cells be ma k_att g)) gl) (indexed us))).
  Proof.
    intros ET NZ. assert (X := D_avg us h (fun g : Z => g) gl (fun g e => or0 (effect_of ty (frac us) vals cells be ma (fun k => F k e) g)) (fun g => havg n h (winf us n (cov g))) (fun g _ => D_effect_fixed g) NZ).
    unfold cohort_avg0. refine (D_eq _ _ _ _ X).
    assert (E0 : forall g, effect_of ty (frac us) vals cells be ma (fun k => F k 0) g = effect_of ty (frac us) vals cells be ma k_att g).
    { intros g. unfold effect_of. fold (cov g). rewrite ET. unfold avg_opt. destruct (cov g) as [|k ks] eqn:E; [reflexivity|]. f_equal. unfold mean. f_equal. apply sumf_ext. intros k' Hk'.
      apply (KP k'). apply (cov_in g). rewrite E. exact Hk'. }
    set (s := sumf (frac us) gl) in *. set (v := fun g => or0 (effect_of ty (frac us) vals cells be ma k_att g)).
    assert (X2 := havg_avg us h (fun g : Z => g) gl (fun g => winf us n (cov g))). fold n in X2. cbv beta zeta in X2 |- *. change (sumf (fun k => frac us k) gl) with s in X2. change (sumf (fun k => frac us k) gl) with s. rewrite X2.
    set (av := sumf (fun g => frac us g * v g) gl / s).
    rewrite (sumf_ext (fun k => dshare us h k * _) (fun g => dshare us h g * (v g - av))).
    2: { intros g _. rewrite E0. fold (v g). f_equal. f_equal. unfold av. f_equal. apply sumf_ext. intros g' _. rewrite E0. reflexivity. }
    assert (X3 := havg_share us h (fun g : Z => g) gl (fun g => v g - av)). fold n in X3. cbv beta zeta in X3. change (sumf (fun k => frac us k) gl) with s in X3. rewrite X3. clear X X2 X3.
    rewrite (indexed_map _ us). rewrite havg_seq. unfold n. rewrite !havg_indexed. fold n.
    assert (SI : forall f, sumf f (seq 0 n) = sumf (fun p => f (fst p)) (indexed us)) by (intros f; symmetry; apply sumf_indexed_fst). rewrite SI.
    unfold Qcdiv. rewrite <- Qcmult_plus_distr_l. f_equal. rewrite <- sumf_add. apply sumf_ext. intros q _.
    assert (S1 := share_if_sum us gl (snd q) v NZ). fold s in S1. fold av in S1. unfold v in S1 at 1. unfold Qcdiv in S1. rewrite S1.
    rewrite <- Qcmult_plus_distr_r. f_equal. f_equal. rewrite <- sumf_mul_r. apply sumf_ext. intros g _. ring.
  Qed.
End Paths.

Lemma ex_deriv_effects ty dropna be mi ma tlist glist us mp r h F i key : table_ok tlist glist us mp -> agg_ddd ty dropna be mi ma tlist glist us mp = Some r ->
  let cells := used_cells ty dropna mp in let vals := scale dropna tlist glist cells in let n := length us in kpaths n h F cells ->
  nth_error (da_keys r) i = Some key ->
  derivative_at_0 (fun e => or0 (effect_of ty (frac us) vals cells be ma (fun k => F k e) key)) (havg n h (nth i (da_inf_by r) [])).
Proof.
  intros OK H cells vals n KP Hk. destruct (uniform tlist glist us mp OK ty dropna be mi ma r H) as [_ [_ [_ [_ Er]]]]. rewrite Er in Hk |- *. cbn [da_keys da_inf_by] in *.
  fold cells vals in Hk |- *. unfold infs_of. erewrite nth_error_nth; [|apply map_nth_error; exact Hk]. apply (D_effect_fixed tlist glist us mp OK ty dropna be ma h F KP key).
Qed.
Lemma ex_deriv_group dropna be mi ma tlist glist us mp r h F : table_ok tlist glist us mp -> agg_ddd TGroup dropna be mi ma tlist glist us mp = Some r ->
  let cells := used_cells TGroup dropna mp in let vals := scale dropna tlist glist cells in let n := length us in kpaths n h F cells ->
  derivative_at_0 (fun e => or0 (overall_of TGroup (shares_along us h e) vals cells be ma (fun k => F k e) (da_keys r))) (havg n h (da_inf r)).
Proof.
  intros OK H cells vals n KP. destruct (uniform tlist glist us mp OK TGroup dropna be mi ma r H) as [_ [_ [N [_ Er]]]]. rewrite Er. cbn [da_keys da_inf]. fold cells vals.
  unfold overall_of, inf_of. cbn [or0 keys_of]. fold n.
  assert (NZ : sumf (frac us) (used_glist dropna glist cells) <> 0).
  { assert (GP : forall g, In g (used_glist dropna glist cells) -> 0 < frac us g) by (intros g Hg; apply (n_fp tlist glist us mp OK TGroup dropna g Hg)).
    assert (HI : forall k, In k cells -> In (k_g k) (used_glist dropna glist cells)) by (intros k Hk; apply used_glist_in; [exact Hk|exact (proj1 (used_in tlist glist us mp OK TGroup dropna k Hk))]).
    assert (HE : exists k, In k cells) by (fold cells in N; destruct cells as [|k ks]; [congruence|exists k; left; reflexivity]). destruct HE as [k Hk].
    destruct (in_split _ _ (HI k Hk)) as [a [b E]]. rewrite E. rewrite sumf_app, sumf_cons. assert (0 < frac us (k_g k)) by (apply GP, HI, Hk).
    assert (0 <= sumf (frac us) a) by (apply sumf_nonneg; intros; apply Qclt_le_weak, GP; rewrite E; apply in_or_app; left; assumption).
    assert (0 <= sumf (frac us) b) by (apply sumf_nonneg; intros; apply Qclt_le_weak, GP; rewrite E; apply in_or_app; right; right; assumption). intros Z. qclra. }
  exact (D_cohort_avg0 tlist glist us mp OK TGroup dropna be ma h F KP (used_glist dropna glist cells) eq_refl NZ).
Qed.
Lemma ex_deriv_fixed ty dropna be mi ma tlist glist us mp r h F : table_ok tlist glist us mp -> agg_ddd ty dropna be mi ma tlist glist us mp = Some r ->
  let cells := used_cells ty dropna mp in let vals := scale dropna tlist glist cells in let n := length us in kpaths n h F cells -> ty <> TGroup ->
  (ty = TCalendar -> ~ In None (da_by r)) ->
  derivative_at_0 (fun e => or0 (overall_of ty (frac us) vals cells be ma (fun k => F k e) (da_keys r))) (havg n h (da_inf r)).
Proof.
  intros OK H cells vals n KP NT HN. destruct (uniform tlist glist us mp OK ty dropna be mi ma r H) as [_ [_ [N [_ Er]]]]. rewrite Er in HN |- *. cbn [da_keys da_inf da_by] in HN |- *. fold cells vals in HN |- *.
  assert (DE := D_effect_fixed tlist glist us mp OK ty dropna be ma h F KP). assert (DA := D_avg_existing tlist glist us mp OK ty dropna be ma h F KP). fold cells vals n in DE, DA.
  assert (EK := event_keys_cov tlist glist mp ty dropna be mi ma). unfold covered in EK. cbv zeta in EK. fold cells vals in EK.
  unfold overall_of, inf_of. fold n. destruct ty.
  - apply DE.
  - congruence.
  - cbn [keys_of] in *. assert (HP : forall e, In e (filter (fun e => (0 <=? e)%Z) (event_keys vals cells be mi ma)) -> filter (dcovers TDynamic vals cells be ma e) cells <> []).
    { intros e He. apply filter_In in He. apply (EK e eq_refl (proj1 He)). }
    specialize (DA _ HP NT). destruct (filter (fun e => (0 <=? e)%Z) (event_keys vals cells be mi ma)) as [|e0 es] eqn:E; [|exact DA].
    rewrite havg_repeat0. exact (D_const 0).
  - apply DA; [|exact NT]. intros t Ht Hz. apply (HN eq_refl). apply in_map_iff. exists t. split; [|exact Ht]. unfold effect_of. rewrite Hz. reflexivity.
Qed.
