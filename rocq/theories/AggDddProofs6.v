(** Influence functions and standard errors of agg_ddd (C65, C66). *)
From Verif Require Import Base ListLib Calc PreprocessModel PreprocessProofs SeModel AggteModel AggteSpec AggteProofs AggteProofs2 AggteProofs3 AggteProofs4 AggteProofs5 AggDddModel AggDddSpec AggDddProofs AggDddProofs2 AggDddProofs3 AggDddProofs4 AggDddProofs5.

Lemma ex_se ty dropna be mi ma tlist glist us mp r : table_ok tlist glist us mp -> agg_ddd ty dropna be mi ma tlist glist us mp = Some r ->
  length (da_inf r) = length us /\ (forall c, In c (da_inf_by r) -> length c = length us) /\
  da_se2_by r = map se2_of (da_inf_by r) /\
  da_se2 r = match ty with
             | TDynamic => if existsb (fun e => (0 <=? e)%Z) (da_keys r) then se2_of (da_inf r) else None
             | _ => se2_of (da_inf r)
             end.
Proof.
  intros OK H. destruct (uniform tlist glist us mp OK ty dropna be mi ma r H) as [_ [_ [_ [_ ->]]]]. cbn [da_inf da_inf_by da_se2_by da_se2 da_keys].
  split. { unfold inf_of. destruct ty.
    - apply winf_length.
    - rewrite map_length, indexed_length. reflexivity.
    - destruct (filter _ _); [apply repeat_length|]. unfold mean_cols. rewrite map_length, seq_length. reflexivity.
    - unfold mean_cols. rewrite map_length, seq_length. reflexivity. }
  split. { intros c Hc. apply in_map_iff in Hc. destruct Hc as [key [<- _]]. apply winf_length. }
  split; [reflexivity|]. destruct ty; try reflexivity.
  match goal with |- match filter _ ?L with [] => None | _ :: _ => ?X end = _ => generalize X; generalize L end. intros l X.
  induction l as [|e l IH]; [reflexivity|]. cbn [filter existsb]. destruct (0 <=? e)%Z; [reflexivity|]. exact IH.
Qed.
Lemma ex_columns ty dropna be mi ma tlist glist us mp r : table_ok tlist glist us mp -> agg_ddd ty dropna be mi ma tlist glist us mp = Some r ->
  let cells := used_cells ty dropna mp in let vals := scale dropna tlist glist cells in let n := length us in
  let column key := winf us n (filter (dcovers ty vals cells be ma key) cells) in
  da_inf_by r = map column (da_keys r) /\
  match ty with
  | TSimple => da_inf r = column 0%Z
  | TGroup => True
  | TCalendar => da_inf r = mean_cols n (map column (da_keys r))
  | TDynamic => forall e, In e (da_keys r) -> (0 <= e)%Z -> da_inf r = mean_cols n (map column (filter (fun e => (0 <=? e)%Z) (da_keys r)))
  end.
Proof.
  intros OK H cells vals n column. destruct (uniform tlist glist us mp OK ty dropna be mi ma r H) as [_ [_ [_ [_ ->]]]]. cbn [da_inf da_inf_by da_keys]. fold cells vals n. split; [reflexivity|].
  destruct ty; try exact I; try reflexivity. intros e He Pe. unfold inf_of. fold n.
  assert (X : In e (filter (fun e => (0 <=? e)%Z) (keys_of TDynamic dropna be mi ma glist vals cells))) by (apply filter_In; split; [exact He|apply Z.leb_le, Pe]).
  fold column. destruct (filter _ _) as [|e0 es]; [destruct X|reflexivity].
Qed.

Lemma winf_centred us n ks : (forall k, In k ks -> centred n (k_inf k)) -> centred n (winf us n ks).
Proof.
  intros H. split; [apply winf_length|]. unfold winf, wavg. change (qsum (map ?f ?l)) with (sumf f l). rewrite sumf_div, sumf_swap.
  rewrite (sumf_zero (fun k => sumf _ (seq 0 n))); [unfold Qcdiv; ring|]. intros k Hk. rewrite sumf_mul_l. destruct (H k Hk) as [L Z0]. rewrite (sumf_nth_seq _ n L), Z0. ring.
Qed.
Lemma frac_sum us g : sumf (fun c => ind (grp_eqb c (Fin g))) us = qn (length us) * frac us g.
Proof.
  rewrite sumf_ind. unfold frac. destruct us as [|c l]; [cbn; rewrite Qcmult_0_l; reflexivity|]. field. apply qn_neq0. cbn. lia.
Qed.
Lemma ex_centred ty dropna be mi ma tlist glist us mp r : table_ok tlist glist us mp -> agg_ddd ty dropna be mi ma tlist glist us mp = Some r ->
  (forall m, In m mp -> length (m_inf m) = length us /\ qsum (m_inf m) = 0) ->
  qsum (da_inf r) = 0 /\ forall c, In c (da_inf_by r) -> qsum c = 0.
Proof.
  intros OK H HC. destruct (uniform tlist glist us mp OK ty dropna be mi ma r H) as [_ [_ [N [_ ->]]]]. cbn [da_inf da_inf_by].
  set (cells := used_cells ty dropna mp) in *. set (vals := scale dropna tlist glist cells). set (n := length us).
  assert (CC : forall k, In k cells -> centred n (k_inf k)). { intros k Hk. apply used_cells_incl in Hk. destruct Hk as [m [Hm [_ [_ [_ <-]]]]]. apply (HC m Hm). }
  assert (CW : forall key, centred n (winf us n (filter (dcovers ty vals cells be ma key) cells))). { intros key. apply winf_centred. intros k Hk. apply CC. apply filter_In in Hk. apply Hk. }
  split. 2: { intros c Hc. apply in_map_iff in Hc. destruct Hc as [key [<- _]]. apply CW. }
  assert (GN : 0 < sumf (frac us) (used_glist dropna glist cells)).
  { assert (GP : forall g, In g (used_glist dropna glist cells) -> 0 < frac us g) by (intros g Hg; apply (n_fp tlist glist us mp OK ty dropna g Hg)).
    assert (HI : forall k, In k cells -> In (k_g k) (used_glist dropna glist cells)) by (intros k Hk; apply used_glist_in; [exact Hk|exact (proj1 (used_in tlist glist us mp OK ty dropna k Hk))]).
    assert (HE : exists k, In k cells) by (destruct cells as [|k ks]; [congruence|exists k; left; reflexivity]). destruct HE as [k Hk].
    apply in_split in Hk. assert (X := HI k). destruct (in_split (k_g k) (used_glist dropna glist cells)) as [a [b E]]. { apply HI. destruct Hk as [c [d ->]]. apply in_or_app. right. left. reflexivity. }
    rewrite E. rewrite sumf_app, sumf_cons. assert (0 < frac us (k_g k)) by (apply GP; rewrite E; apply in_or_app; right; left; reflexivity).
    assert (0 <= sumf (frac us) a) by (apply sumf_nonneg; intros; apply Qclt_le_weak, GP; rewrite E; apply in_or_app; left; assumption).
    assert (0 <= sumf (frac us) b) by (apply sumf_nonneg; intros; apply Qclt_le_weak, GP; rewrite E; apply in_or_app; right; right; assumption). qclra. }
  unfold inf_of. fold n. destruct ty.
  - apply CW.
  - cbn [keys_of]. set (gl := used_glist dropna glist cells) in *. change (qsum (map ?f ?l)) with (sumf f l). set (s := sumf (frac us) gl) in *.
    assert (NZ : s <> 0) by (intros Z; rewrite Z in GN; qclra).
    rewrite (sumf_ext _ (fun q => sumf (fun g => nth (fst q) (winf us n (filter (dcovers TGroup vals cells be ma g) cells)) 0 * (frac us g / s)) gl +
      sumf (fun g => ind (grp_eqb (snd q) (Fin g)) * (or0 (effect_of TGroup (frac us) vals cells be ma k_att g) - sumf (fun g => frac us g * or0 (effect_of TGroup (frac us) vals cells be ma k_att g)) gl / s)) gl / s)).
    2: { intros q _. f_equal. apply (share_if_sum us gl (snd q) (fun g => or0 (effect_of TGroup (frac us) vals cells be ma k_att g))). exact NZ. }
    set (v := fun g => or0 (effect_of TGroup (frac us) vals cells be ma k_att g)).
    rewrite sumf_add. assert (A1 : sumf (fun q : nat * grp => sumf (fun g => nth (fst q) (winf us n (filter (dcovers TGroup vals cells be ma g) cells)) 0 * (frac us g / s)) gl) (indexed us) = 0).
    { rewrite sumf_swap. apply sumf_zero. intros g _. rewrite sumf_mul_r. rewrite (sumf_indexed_fst us (fun i => nth i (winf us n (filter (dcovers TGroup vals cells be ma g) cells)) 0)).
      fold n. destruct (CW g) as [L Z0]. rewrite (sumf_nth_seq _ n L), Z0. ring. }
    rewrite A1. rewrite sumf_div, sumf_swap.
    rewrite (sumf_ext _ (fun g => qn n * (frac us g * v g - frac us g * (sumf (fun g => frac us g * v g) gl / s)))).
    2: { intros g _. rewrite sumf_mul_r. rewrite (sumf_indexed_snd (fun c => ind (grp_eqb c (Fin g)))), frac_sum. unfold v, n. ring. }
    rewrite sumf_mul_l, sumf_sub, sumf_mul_r. fold s. field. exact NZ.
  - destruct (filter _ _) as [|e0 es]; [apply qsum_repeat0|]. apply mean_cols_centred. intros c Hc. apply in_map_iff in Hc. destruct Hc as [key [<- _]]. apply CW.
  - apply mean_cols_centred. intros c Hc. apply in_map_iff in Hc. destruct Hc as [key [<- _]]. apply CW.
Qed.
