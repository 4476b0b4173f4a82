(** Shifting the effects of the cells (C69), windows (C68), cohorts without effect (C67). *)
From Verif Require Import Base ListLib Calc PreprocessModel PreprocessProofs SeModel AggteModel AggteSpec AggteProofs AggteProofs2 AggteProofs3 AggteProofs4 AggteProofs5 AggDddModel AggDddSpec AggDddProofs AggDddProofs2 AggDddProofs3 AggDddProofs4 AggDddProofs5.

Definition kshift (d : Z -> Z -> Qc) (k : kcell) : kcell := {| k_g := k_g k; k_t := k_t k; k_att := k_att k + d (k_g k) (k_t k); k_inf := k_inf k |}.
Section Shift.
  Context (d : Z -> Z -> Qc).
  Let s := kshift d.
  Lemma with_effect_shift mp : with_effect (map (shift_cell d) mp) = map s (with_effect mp).
  Proof.
    induction mp as [|m mp IH]; [reflexivity|]. cbn [map with_effect flat_map]. unfold with_effect in IH. rewrite IH, map_app. f_equal. cbn [shift_cell m_att m_g m_t m_inf]. destruct (m_att m); reflexivity.
  Qed.
  Lemma filter_map_ext {A B} (f : A -> B) (p : B -> bool) (q : A -> bool) l : (forall a, In a l -> p (f a) = q a) -> filter p (map f l) = map f (filter q l).
  Proof. induction l as [|a l IH]; intros H; [reflexivity|]. cbn [map filter]. rewrite (H a (or_introl eq_refl)). rewrite IH by (intros; apply H; right; assumption). destruct (q a); reflexivity. Qed.
  Lemma existsb_map {A B} (f : A -> B) (p : B -> bool) l : existsb p (map f l) = existsb (fun a => p (f a)) l.
  Proof. induction l as [|a l IH]; [reflexivity|]. cbn. rewrite IH. reflexivity. Qed.
  Lemma used_shift ty dropna mp : used_cells ty dropna (map (shift_cell d) mp) = map s (used_cells ty dropna mp).
  Proof.
    unfold used_cells. rewrite with_effect_shift. destruct ty; try reflexivity. destruct dropna; [|reflexivity]. apply filter_map_ext. intros a _. rewrite existsb_map. reflexivity.
  Qed.
  Lemma scale_shift dropna tlist glist cells : scale dropna tlist glist (map s cells) = scale dropna tlist glist cells.
  Proof. unfold scale. destruct dropna; [|reflexivity]. rewrite map_map. reflexivity. Qed.
  Lemma eligible_shift cells be k : eligible (map s cells) be (s k) = eligible cells be k.
  Proof. unfold eligible. destruct be; [|reflexivity]. rewrite existsb_map. reflexivity. Qed.
  Lemma covered_shift ty vals cells be ma key : filter (dcovers ty vals (map s cells) be ma key) (map s cells) = map s (filter (dcovers ty vals cells be ma key) cells).
  Proof. apply filter_map_ext. intros k _. unfold dcovers. destruct ty; try reflexivity. cbn [s kshift k_g k_t]. rewrite eligible_shift. reflexivity. Qed.
  Lemma wavg_map sh a ks : wavg sh a (map s ks) = wavg sh (fun k => a (s k)) ks.
  Proof. unfold wavg. rewrite !sumf_map. reflexivity. Qed.
  Lemma effect_shift ty sh vals cells be ma a key : effect_of ty sh vals (map s cells) be ma a key = effect_of ty sh vals cells be ma (fun k => a (s k)) key.
  Proof.
    unfold effect_of. rewrite covered_shift. set (ks := filter _ cells).
    assert (W : wavg_opt sh a (map s ks) = wavg_opt sh (fun k => a (s k)) ks) by (unfold wavg_opt; destruct ks as [|k ks]; [reflexivity|]; rewrite <- wavg_map; reflexivity).
    assert (V : avg_opt a (map s ks) = avg_opt (fun k => a (s k)) ks). { unfold avg_opt. destruct ks as [|k ks]; [reflexivity|]. f_equal. unfold mean. rewrite sumf_map, map_length. reflexivity. }
    destruct ty; assumption.
  Qed.
  Lemma winf_shift us n ks : winf us n (map s ks) = winf us n ks.
  Proof. unfold winf. apply map_ext. intros i. rewrite wavg_map. reflexivity. Qed.
  Lemma keys_shift ty dropna be mi ma glist vals cells : keys_of ty dropna be mi ma glist vals (map s cells) = keys_of ty dropna be mi ma glist vals cells.
  Proof.
    unfold keys_of. destruct ty; [reflexivity| | |].
    - unfold used_glist. destruct dropna; [|reflexivity]. rewrite map_map. reflexivity.
    - unfold event_keys. assert (E1 : map event (filter (eligible (map s cells) be) (map s cells)) = map event (filter (eligible cells be) cells)).
      { rewrite (filter_map_ext s (eligible (map s cells) be) (eligible cells be)) by (intros; apply eligible_shift). rewrite map_map. reflexivity. }
      rewrite E1, map_map. reflexivity.
    - unfold calendar_keys. rewrite map_map. apply filter_ext_in'. intros t _. rewrite existsb_map. reflexivity.
  Qed.
End Shift.
(** additivity *)
Lemma wavg_add sh a b ks : wavg sh (fun k => a k + b k) ks = wavg sh a ks + wavg sh b ks.
Proof. unfold wavg. rewrite (sumf_ext (fun k => sh (k_g k) * (a k + b k)) (fun k => sh (k_g k) * a k + sh (k_g k) * b k)) by (intros; ring). rewrite sumf_add. unfold Qcdiv. ring. Qed.
Lemma effect_add ty sh vals cells be ma a b key : effect_of ty sh vals cells be ma (fun k => a k + b k) key = opt_plus (effect_of ty sh vals cells be ma a key) (effect_of ty sh vals cells be ma b key).
Proof.
  unfold effect_of. set (ks := filter _ cells). clearbody ks.
  assert (W : wavg_opt sh (fun k => a k + b k) ks = opt_plus (wavg_opt sh a ks) (wavg_opt sh b ks)) by (unfold wavg_opt; destruct ks; [reflexivity|]; rewrite wavg_add; reflexivity).
  assert (V : avg_opt (fun k => a k + b k) ks = opt_plus (avg_opt a ks) (avg_opt b ks)). { unfold avg_opt. destruct ks as [|k ks]; [reflexivity|]. cbn [opt_plus]. f_equal. unfold mean. rewrite sumf_add. unfold Qcdiv. ring. }
  destruct ty; assumption.
Qed.
Lemma effect_none ty sh vals cells be ma a b key : effect_of ty sh vals cells be ma a key = None <-> effect_of ty sh vals cells be ma b key = None.
Proof. unfold effect_of. destruct (filter _ cells); destruct ty; cbn; split; congruence. Qed.
Lemma or0_plus x y : (x = None <-> y = None) -> or0 (opt_plus x y) = or0 x + or0 y.
Proof. destruct x, y; cbn; intros H; [reflexivity| | |ring]; exfalso; [assert (X := proj2 H eq_refl)|assert (X := proj1 H eq_refl)]; discriminate. Qed.
Lemma existing_add (v w : Z -> option Qc) keys : (forall key, v key = None <-> w key = None) ->
  length (existing (map v keys)) = length (existing (map w keys)) /\ length (existing (map (fun key => opt_plus (v key) (w key)) keys)) = length (existing (map v keys)) /\
  qsum (existing (map (fun key => opt_plus (v key) (w key)) keys)) = qsum (existing (map v keys)) + qsum (existing (map w keys)).
Proof.
  intros H. induction keys as [|key keys [I1 [I2 I3]]]; [repeat split; cbn; ring|]. cbn [map]. specialize (H key). destruct (v key) as [x|], (w key) as [y|]; cbn [opt_plus existing].
  - cbn [length]. split; [congruence|]. split; [congruence|]. change (qsum (?a :: ?l)) with (a + qsum l). rewrite I3. ring.
  - exfalso. assert (X := proj2 H eq_refl). discriminate.
  - exfalso. assert (X := proj1 H eq_refl). discriminate.
  - auto.
Qed.
Lemma average_qsum l : average l = qsum l / qn (length l).
Proof. unfold average, mean, sumf. rewrite map_id. reflexivity. Qed.
Lemma avg_existing_add (v w : Z -> option Qc) keys : (forall key, v key = None <-> w key = None) ->
  avg_existing (fun key => opt_plus (v key) (w key)) keys = opt_plus (avg_existing v keys) (avg_existing w keys).
Proof.
  intros H. destruct (existing_add v w keys H) as [L1 [L2 S]]. unfold avg_existing.
  assert (AV : forall l : list Qc, match l with [] => None | z :: l0 => Some (average (z :: l0)) end = match length l with O => None | _ => Some (qsum l / qn (length l)) end).
  { intros [|x l]; [reflexivity|]. rewrite average_qsum. reflexivity. }
  rewrite !AV. rewrite L2, S, <- L1. destruct (length (existing (map v keys))); [reflexivity|]. cbn [opt_plus]. f_equal. unfold Qcdiv. ring.
Qed.
Lemma overall_add ty sh vals cells be ma a b keys : overall_of ty sh vals cells be ma (fun k => a k + b k) keys = opt_plus (overall_of ty sh vals cells be ma a keys) (overall_of ty sh vals cells be ma b keys).
Proof.
  assert (HN : forall key, effect_of ty sh vals cells be ma a key = None <-> effect_of ty sh vals cells be ma b key = None) by (intros; apply effect_none).
  assert (AE : forall ks, avg_existing (effect_of ty sh vals cells be ma (fun k => a k + b k)) ks = opt_plus (avg_existing (effect_of ty sh vals cells be ma a) ks) (avg_existing (effect_of ty sh vals cells be ma b) ks)).
  { intros ks. rewrite <- avg_existing_add by exact HN. unfold avg_existing. rewrite (map_ext _ (fun key => opt_plus (effect_of ty sh vals cells be ma a key) (effect_of ty sh vals cells be ma b key))) by (intros; apply effect_add). reflexivity. }
  unfold overall_of. destruct ty.
  - apply effect_add.
  - cbn [opt_plus]. f_equal. unfold cohort_avg0.
    rewrite (sumf_ext _ (fun g => sh g * or0 (effect_of TGroup sh vals cells be ma a g) + sh g * or0 (effect_of TGroup sh vals cells be ma b g))).
    + rewrite sumf_add. unfold Qcdiv. ring.
    + intros g _. rewrite effect_add, or0_plus by apply HN. ring.
  - apply AE.
  - apply AE.
Qed.
Lemma ex_shift ty dropna be mi ma tlist glist us mp r d : table_ok tlist glist us mp -> agg_ddd ty dropna be mi ma tlist glist us mp = Some r ->
  let cells := used_cells ty dropna mp in let vals := scale dropna tlist glist cells in let dk := fun k => d (k_g k) (k_t k) in
  exists r', agg_ddd ty dropna be mi ma tlist glist us (map (shift_cell d) mp) = Some r' /\ da_keys r' = da_keys r /\
    da_by r' = map (fun key => opt_plus (effect_of ty (frac us) vals cells be ma k_att key) (effect_of ty (frac us) vals cells be ma dk key)) (da_keys r) /\
    da_overall r' = opt_plus (da_overall r) (overall_of ty (frac us) vals cells be ma dk (da_keys r)) /\
    da_inf_by r' = da_inf_by r /\ da_se2_by r' = da_se2_by r /\ (ty <> TGroup -> da_inf r' = da_inf r /\ da_se2 r' = da_se2 r).
Proof.
  intros OK H cells vals dk.
  assert (OK' : table_ok tlist glist us (map (shift_cell d) mp)).
  { destruct OK as [A [B C]]. split; [exact A|]. split; [|exact C]. intros m Hm. apply in_map_iff in Hm. destruct Hm as [m0 [<- Hm]]. apply (B m0 Hm). }
  destruct (agg_ddd ty dropna be mi ma tlist glist us (map (shift_cell d) mp)) as [r'|] eqn:E'.
  2: { exfalso. apply (ex_raises ty dropna be mi ma tlist glist us _ OK') in E'. assert (X : agg_ddd ty dropna be mi ma tlist glist us mp = None); [|congruence].
    apply (ex_raises ty dropna be mi ma tlist glist us mp OK). rewrite used_shift in E'. destruct E' as [E'|[E'|[[D [m [Hm Em]]]|[E'|[T E']]]]].
    - left. exact E'.
    - right. left. exact E'.
    - right. right. left. split; [exact D|]. apply in_map_iff in Hm. destruct Hm as [m0 [<- Hm]]. exists m0. split; [exact Hm|]. cbn in Em. destruct (m_att m0); [discriminate|reflexivity].
    - right. right. right. left. apply map_eq_nil in E'. exact E'.
    - right. right. right. right. split; [exact T|]. intros k k' Hk Hk'. apply (E' _ _ (in_map (kshift d) _ _ Hk) (in_map (kshift d) _ _ Hk')). }
  exists r'. split; [reflexivity|].
  destruct (uniform tlist glist us mp OK ty dropna be mi ma r H) as [_ [_ [_ [_ ->]]]].
  destruct (uniform tlist glist us _ OK' ty dropna be mi ma r' E') as [_ [_ [_ [_ ->]]]].
  rewrite used_shift, scale_shift. fold cells vals. cbn [da_keys da_by da_overall da_inf_by da_se2_by da_inf da_se2]. rewrite keys_shift.
  assert (EE : forall key, effect_of ty (frac us) vals (map (kshift d) cells) be ma k_att key = opt_plus (effect_of ty (frac us) vals cells be ma k_att key) (effect_of ty (frac us) vals cells be ma dk key)).
  { intros key. rewrite effect_shift. apply (effect_add ty (frac us) vals cells be ma k_att dk key). }
  assert (IB : infs_of ty dropna be mi ma glist us (map (kshift d) cells) vals = infs_of ty dropna be mi ma glist us cells vals).
  { unfold infs_of. rewrite keys_shift. apply map_ext. intros key. rewrite covered_shift. apply winf_shift. }
  assert (EI : ty <> TGroup -> inf_of ty dropna be mi ma glist us (map (kshift d) cells) vals k_att = inf_of ty dropna be mi ma glist us cells vals k_att).
  { intros NT. unfold inf_of. rewrite keys_shift. assert (W : forall key, winf us (length us) (filter (dcovers ty vals (map (kshift d) cells) be ma key) (map (kshift d) cells)) = winf us (length us) (filter (dcovers ty vals cells be ma key) cells)).
    { intros key. rewrite covered_shift. apply winf_shift. }
    destruct ty; [apply W|congruence| |].
    - destruct (filter _ _) as [|e0 es]; [reflexivity|]. f_equal. apply map_ext. intros key. apply W.
    - f_equal. apply map_ext. intros key. apply W. }
  split; [reflexivity|]. split; [apply map_ext; intros key; apply EE|]. split.
  { rewrite <- (overall_add ty (frac us) vals cells be ma k_att dk). unfold overall_of. destruct ty.
    - rewrite EE. symmetry. apply effect_add.
    - f_equal. unfold cohort_avg0. f_equal. apply sumf_ext. intros g _. rewrite EE, effect_add. reflexivity.
    - unfold avg_existing. rewrite (map_ext _ _ EE). rewrite (map_ext (effect_of TDynamic (frac us) vals cells be ma (fun k => k_att k + dk k)) _ (fun key => effect_add TDynamic (frac us) vals cells be ma k_att dk key)). reflexivity.
    - unfold avg_existing. rewrite (map_ext _ _ EE). rewrite (map_ext (effect_of TCalendar (frac us) vals cells be ma (fun k => k_att k + dk k)) _ (fun key => effect_add TCalendar (frac us) vals cells be ma k_att dk key)). reflexivity. }
  split; [exact IB|]. rewrite IB. split; [reflexivity|]. intros NT. rewrite (EI NT). split; reflexivity.
Qed.

(** C67 *)
Lemma ex_group_all dropna be mi ma tlist glist us mp r : table_ok tlist glist us mp -> agg_ddd TGroup dropna be mi ma tlist glist us mp = Some r ->
  let cells := used_cells TGroup dropna mp in let vals := scale dropna tlist glist cells in
  ~ In None (da_by r) -> da_overall r = cohort_avg (frac us) (effect_of TGroup (frac us) vals cells be ma k_att) (da_keys r).
Proof.
  intros OK H cells vals HN. destruct (ex_effects TGroup dropna be mi ma tlist glist us mp r OK H) as [EB EO]. fold cells vals in EB, EO. rewrite EO. unfold overall_of, cohort_avg.
  assert (NK : da_keys r <> []). { destruct (uniform tlist glist us mp OK TGroup dropna be mi ma r H) as [_ [_ [N [_ ->]]]]. cbn [da_keys keys_of]. fold cells in N |- *. intros Z.
    destruct cells as [|k ks] eqn:E; [congruence|]. assert (Hk : In k cells) by (rewrite E; left; reflexivity). assert (X := used_glist_in dropna glist cells k Hk (proj1 (used_in tlist glist us mp OK TGroup dropna k Hk))). rewrite E, Z in X. destruct X. }
  assert (EF : filter (has_value (effect_of TGroup (frac us) vals cells be ma k_att)) (da_keys r) = da_keys r).
  { rewrite EB in HN. clear -HN. induction (da_keys r) as [|g l IH]; [reflexivity|]. cbn [map filter] in *. unfold has_value at 1. destruct (effect_of TGroup (frac us) vals cells be ma k_att g); [|exfalso; apply HN; left; reflexivity].
    f_equal. apply IH. intros X. apply HN. right. exact X. }
  rewrite EF. destruct (da_keys r); [congruence|reflexivity].
Qed.
(** C68 *)
Definition consecutive_vals (l : list Z) : Prop := forall a b v, In a l -> In b l -> (a <= v <= b)%Z -> In v l.
Lemma steps_consecutive l g t : consecutive_vals l -> In g l -> In t l -> (g <= t)%Z -> steps_over l g t = (t - g)%Z.
Proof.
  intros HC Hg Ht L. unfold steps_over. assert (E : filter (fun v => ((g <? v) && (v <=? t))%Z) (zuniq l) = map (fun i => (g + 1 + Z.of_nat i)%Z) (seq 0 (Z.to_nat (t - g)))).
  { apply (ssorted_ext Z.lt); [intros; lia|apply ssorted_filter, zuniq_sorted| |apply NoDup_filter, ssorted_lt_nodup, zuniq_sorted| |].
    - generalize 0%nat. induction (Z.to_nat (t - g)) as [|m IH]; intros s; [constructor|]. cbn [seq map]. constructor; [apply IH|]. apply Forall_forall. intros x Hx. apply in_map_iff in Hx. destruct Hx as [i [<- Hi]]. apply in_seq in Hi. lia.
    - apply FinFun.Injective_map_NoDup; [intros i j; lia|apply seq_NoDup].
    - intros x. rewrite filter_In, zuniq_in, andb_true_iff, Z.ltb_lt, Z.leb_le, in_map_iff. split.
      + intros [_ [A B]]. exists (Z.to_nat (x - g - 1)). split; [lia|]. apply in_seq. lia.
      + intros [i [<- Hi]]. apply in_seq in Hi. split; [|lia]. apply (HC g t); [exact Hg|exact Ht|lia]. }
  rewrite E, map_length, seq_length. lia.
Qed.
