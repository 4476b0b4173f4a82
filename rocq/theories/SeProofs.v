(** Analytical standard errors of cells and aggregates. *)
From Verif Require Import Base ListLib Calc PreprocessModel PreprocessSpec PreprocessProofs2 AttGtModel AttGtSpec AttGtProofs AttGtProofs2 AttGtProofs3 AttGtProofs4 AttGtProofs5
  AggteModel AggteSpec AggteProofs AggteProofs2 AggteProofs3 AggteProofs4 AggteProofs5 SeModel.
Local Open Scope list_scope.
Local Notation length := List.length.

Lemma vcov_self n a : vcov n a a = sumf (fun v => v * v) a / qn n.
Proof. unfold vcov. f_equal. induction a as [|x a IH]; [reflexivity|]. cbn [combine]. rewrite !sumf_cons, IH. reflexivity. Qed.
Lemma two_period_centred psi : (2 <= length psi)%nat -> qsum psi = 0 -> two_period_se2 psi = sumf (fun v => v * v) psi / (qn (length psi) * qn (length psi)).
Proof.
  intros Hn Hs. unfold two_period_se2. cbn zeta. rewrite mean_id, Hs.
  assert (N : qn (length psi) <> 0) by (apply Qc_pos_neq0, qn_pos; lia).
  assert (N1 : qn (length psi) - 1 <> 0).
  { replace (length psi) with (S (length psi - 1)) by lia. rewrite qn_S. assert (P : 0 < qn (length psi - 1)) by (apply qn_pos; lia).
    apply Qc_pos_neq0. replace (1 + qn (length psi - 1) - 1) with (qn (length psi - 1)) by ring. exact P. }
  rewrite (sumf_ext _ (fun v => v * v)) by (intros; unfold Qcdiv; ring). field. split; assumption.
Qed.
Lemma scatter_squares ix v : length v = length (flags ix) -> sumf (fun x => x * x) (scatter ix v) = sumf (fun x => x * x) v.
Proof.
  revert v. induction ix as [|[b|] ix IH]; intros v H; cbn [flags scatter length] in *.
  - destruct v; [reflexivity|discriminate].
  - destruct v as [|x v]; [discriminate|]. rewrite !sumf_cons. f_equal. apply IH. cbn in H. lia.
  - rewrite sumf_cons, (IH v H). ring.
Qed.
Lemma scale_squares k v : sumf (fun x => x * x) (scale k v) = k * k * sumf (fun x => x * x) v.
Proof. unfold scale. rewrite sumf_map, <- sumf_mul_l. apply sumf_ext. intros; ring. Qed.

(** rows scaled by n / n_used, standard error computed with N units *)
Lemma scattered_se2 ix psi N : (2 <= length psi)%nat -> length psi = length (flags ix) -> (0 < N)%nat -> qsum psi = 0 ->
  se2 N (scatter ix (scale (qn (length ix) / qn (length (flags ix))) psi)) = (qn (length ix) / qn N) * (qn (length ix) / qn N) * two_period_se2 psi.
Proof.
  intros H2 HL HN HS. unfold se2. rewrite vcov_self, scatter_squares by (unfold scale; rewrite map_length; exact HL). rewrite scale_squares, two_period_centred by assumption.
  rewrite HL in *. assert (A : qn (length (flags ix)) <> 0) by (apply Qc_pos_neq0, qn_pos; lia). assert (B : qn N <> 0) by (apply Qc_pos_neq0, qn_pos; lia).
  field. split; assumption.
Qed.

(** estimators that return one centred value per observation *)
Definition centred_panel (e : panel_estimator) : Prop := forall y1 y0 d x w att psi, e y1 y0 d x w = Some (att, psi) -> length psi = length d /\ qsum psi = 0.
Definition centred_rc (e : rc_estimator) : Prop := forall y post d x w att psi, e y post d x w = Some (att, psi) -> length psi = length d /\ qsum psi = 0.
Lemma two_flags ix : has_flag true ix = true -> has_flag false ix = true -> (2 <= length (flags ix))%nat.
Proof.
  assert (H : forall v, has_flag v ix = true -> In v (flags ix)).
  { intros v. unfold has_flag. induction ix as [|[b|] ix IH]; cbn [existsb flags]; try discriminate; [|exact IH]. rewrite orb_true_iff. intros [E|E]; [left; apply Bool.eqb_prop, E|right; apply IH, E]. }
  intros T F. apply H in T. apply H in F. destruct (flags ix) as [|a [|b l]]; cbn in *; [destruct T|destruct T as [->|[]]; destruct F as [|[]]; discriminate|lia].
Qed.
Lemma flags_le ix : (length (flags ix) <= length ix)%nat. Proof. induction ix as [|[b|] ix IH]; cbn; lia. Qed.
Lemma panel_cell_se c d out b e g t att inf (D := build_did_data c out) :
  c_panel c = true -> c_unbal c = false -> c_has_id c = true -> valid_panel d -> did_pipeline c d = Some out -> centred_panel e ->
  run_att_gt (EPanel e) c D b g t = CEst att inf ->
  exists y1 y0 dd x w psi, e y1 y0 dd x w = Some (att, psi) /\ se2 (d_ids D) inf = two_period_se2 psi.
Proof.
  intros H1 H2 H3 V HP CE HR. destruct (run_panel_inv e c D b g t att inf HR) as [pre [HB [F1 [F0 [psi [y1 [y0 [x [HE ->]]]]]]]]].
  set (ix := cohort_index_panel c D b g t pre) in *. do 5 eexists. exists psi. split; [exact HE|].
  destruct (CE _ _ _ _ _ _ _ HE) as [HL HS]. assert (T := two_flags ix F1 F0).
  assert (PX := pipe_index c d out H1 H2 H3 V HP b g t pre). fold D in PX. fold ix in PX.
  assert (PI := pipe_ids c d out H1 H2 H3 V HP : d_ids D = length (d_units D)).
  assert (LX : length ix = d_ids D) by (rewrite PX, map_length; symmetry; exact PI).
  assert (LF := flags_le ix).
  rewrite scattered_se2; [|lia|exact HL|lia|exact HS]. rewrite LX. assert (B : qn (d_ids D) <> 0) by (apply Qc_pos_neq0, qn_pos; lia). field. exact B.
Qed.
Lemma run_rc_inv e c D b g t att inf : run_att_gt (ERc e) c D b g t = CEst att inf ->
  exists pre, base_index (c_ant c) D b g t = Base pre /\
    let ix := cohort_index_rc c D b g t pre in has_flag true ix = true /\ has_flag false ix = true /\
    exists psi y post x w, e (select ix y) (select ix post) (flags ix) (select ix x) (select ix w) = Some (att, psi) /\
      inf = if c_unbal c then map (sum_by_id (map r_id (d_rows D)) (scatter ix (scale (qn (d_ids D) / qn (length (flags ix))) psi))) (zuniq (map r_id (d_rows D)))
            else scatter ix (scale (qn (length ix) / qn (length (flags ix))) psi).
Proof.
  unfold run_att_gt. destruct (base_index _ _ _ _ _) as [i| |].
  - intros H. exists i. split; [reflexivity|]. cbn zeta. revert H.
    destruct (match b with Universal => _ | Varying => _ end); [discriminate|].
    destruct (has_flag true _), (has_flag false _); try discriminate. cbn [andb negb]. unfold run_drdid_rc.
    destruct (e _ _ _ _ _) as [[x psi]|] eqn:E; [|discriminate]. intros H. split; [reflexivity|]. split; [reflexivity|].
    destruct (c_unbal c); injection H as <- <-; do 5 eexists; (split; [exact E|reflexivity]).
  - destruct (negb _); discriminate.
  - discriminate.
Qed.
Lemma zuniq_len l : l <> [] -> (0 < length (zuniq l))%nat.
Proof. destruct l as [|a l]; [congruence|]. intros _. assert (H : In a (zuniq (a :: l))) by (apply zuniq_in; left; reflexivity). destruct (zuniq (a :: l)); [destruct H|cbn; lia]. Qed.
Lemma rc_cell_se c l b e g t att inf (D := build_did_data c l) : c_unbal c = false -> centred_rc e ->
  run_att_gt (ERc e) c D b g t = CEst att inf ->
  exists y post dd x w psi, e y post dd x w = Some (att, psi) /\
    let ratio := qn (length l) / qn (length (zuniq (map r_id l))) in se2 (d_ids D) inf = ratio * ratio * two_period_se2 psi.
Proof.
  intros HU CE HR. destruct (run_rc_inv e c D b g t att inf HR) as [pre [HB [F1 [F0 [psi [y [post [x [w [HE HI]]]]]]]]]]. rewrite HU in HI. subst inf.
  set (ix := cohort_index_rc c D b g t pre) in *. do 5 eexists. exists psi. split; [exact HE|]. cbn zeta.
  destruct (CE _ _ _ _ _ _ _ HE) as [HL HS]. assert (T := two_flags ix F1 F0).
  assert (LX : length ix = length l) by (unfold ix, cohort_index_rc; rewrite map_length; reflexivity).
  assert (LF := flags_le ix). change (d_ids D) with (length (zuniq (map r_id l))).
  assert (NP : (0 < length (zuniq (map r_id l)))%nat) by (apply zuniq_len; destruct l; [cbn in *; lia|discriminate]).
  rewrite scattered_se2; [|lia|exact HL|exact NP|exact HS]. rewrite LX. reflexivity.
Qed.
(** one row per id: the standard error is exactly the two-period one *)
Lemma rc_cell_se_distinct c l b e g t att inf (D := build_did_data c l) : c_unbal c = false -> NoDup (map r_id l) -> centred_rc e ->
  run_att_gt (ERc e) c D b g t = CEst att inf ->
  exists y post dd x w psi, e y post dd x w = Some (att, psi) /\ se2 (d_ids D) inf = two_period_se2 psi.
Proof.
  intros HU ND CE HR. destruct (rc_cell_se c l b e g t att inf HU CE HR) as [y [post [dd [x [w [psi [HE HS]]]]]]]. do 5 eexists. exists psi. split; [exact HE|].
  cbn zeta in HS. fold D in HS. rewrite HS.
  assert (L : length (zuniq (map r_id l)) = length l).
  { rewrite <- (map_length r_id l). apply Permutation_length. apply NoDup_Permutation; [apply zuniq_nodup|exact ND|intros; apply zuniq_in]. }
  rewrite L. destruct l as [|r l'].
  { exfalso. destruct (run_rc_inv e c D b g t att inf HR) as [pre [_ [F1 _]]]. cbn in F1. discriminate. }
  assert (B : qn (length (r :: l')) <> 0) by (apply Qc_pos_neq0, qn_pos; cbn; lia). field. exact B.
Qed.
Lemma unbalanced_cell_se c l b e g t att inf (D := build_did_data c l) : c_unbal c = true -> centred_rc e ->
  run_att_gt (ERc e) c D b g t = CEst att inf ->
  exists y post dd x w psi ids, e y post dd x w = Some (att, psi) /\ length ids = length psi /\ (forall i, In i ids -> In i (map r_id l)) /\
    let unit_sum i := sumf snd (filter (fun p => (fst p =? i)%Z) (combine ids psi)) in
    se2 (d_ids D) inf = sumf (fun i => unit_sum i * unit_sum i) (zuniq (map r_id l)) / (qn (length psi) * qn (length psi)).
Proof.
  intros HU CE HR. destruct (run_rc_inv e c D b g t att inf HR) as [pre [HB [F1 [F0 [psi [y [post [x [w [HE HI]]]]]]]]]]. rewrite HU in HI. subst inf.
  set (ix := cohort_index_rc c D b g t pre) in *. do 5 eexists. exists psi, (select ix (map r_id l)). split; [exact HE|].
  destruct (CE _ _ _ _ _ _ _ HE) as [HL HS]. assert (T := two_flags ix F1 F0).
  assert (LX : length ix = length (map r_id l)) by (unfold ix, cohort_index_rc; rewrite !map_length; reflexivity).
  split; [rewrite HL; apply select_length; congruence|]. split; [intros i; apply select_in|]. cbn zeta.
  change (d_ids D) with (length (zuniq (map r_id l))). change (d_rows D) with l. set (N := length (zuniq (map r_id l))).
  assert (NP : (0 < N)%nat) by (apply zuniq_len; assert (LF := flags_le ix); destruct l; [cbn in *; lia|discriminate]).
  unfold se2. rewrite vcov_self, sumf_map.
  rewrite (sumf_ext _ (fun i => (qn N / qn (length (flags ix))) * (qn N / qn (length (flags ix))) *
     (sumf snd (filter (fun p => (fst p =? i)%Z) (combine (select ix (map r_id l)) psi)) * sumf snd (filter (fun p => (fst p =? i)%Z) (combine (select ix (map r_id l)) psi))))).
  - rewrite sumf_mul_l, <- HL. assert (A : qn (length psi) <> 0) by (apply Qc_pos_neq0, qn_pos; lia). assert (B : qn N <> 0) by (apply Qc_pos_neq0, qn_pos; lia). field. split; assumption.
  - intros i _. rewrite sum_by_id_scatter; [|congruence|unfold scale; rewrite map_length; exact HL].
    rewrite (sumf_by_scale (fun z => (z =? i)%Z)) by (rewrite select_length; congruence). ring.
Qed.

(** * aggregates *)
Lemma vcov_nth n a b : length a = n -> length b = n -> vcov n a b = sumf (fun i => nth i a 0 * nth i b 0) (seq 0 n) / qn n.
Proof.
  intros Ha Hb. unfold vcov. f_equal. revert b n Ha Hb. induction a as [|x a IH]; intros [|y b] [|n] Ha Hb; try discriminate; [reflexivity|].
  cbn [combine seq]. rewrite !sumf_cons. cbn [fst snd nth]. f_equal. rewrite (IH b n) by (cbn in *; lia). rewrite <- seq_shift, sumf_map. reflexivity.
Qed.
Lemma mean_cols_length n cols : length (mean_cols n cols) = n. Proof. unfold mean_cols. rewrite map_length, seq_length. reflexivity. Qed.
Lemma se2_mean_cols n cols : (0 < n)%nat -> (forall c, In c cols -> length c = n) ->
  se2 n (mean_cols n cols) = sumf (fun a => sumf (fun b => vcov n a b) cols) cols / (qn (length cols) * qn (length cols)) / qn n.
Proof.
  intros Hn HC. unfold se2. f_equal. rewrite vcov_nth by apply mean_cols_length.
  set (m := qn (length cols)).
  rewrite (sumf_ext _ (fun i => sumf (fun a => sumf (fun b => nth i a 0 * nth i b 0) cols) cols * (1 / m * (1 / m)))).
  2: { intros i Hi. unfold mean_cols. rewrite (nth_map_in _ _ _ 0%nat) by (rewrite seq_length; apply in_seq in Hi; lia). rewrite seq_nth by (apply in_seq in Hi; lia). cbn [plus].
       fold m. rewrite !sumf_mul_r. rewrite (sumf_ext (fun a => sumf _ cols) (fun a => nth i a 0 * sumf (fun b => nth i b 0) cols)) by (intros; apply sumf_mul_l). rewrite sumf_mul_r. ring. }
  rewrite sumf_mul_r, sumf_swap.
  rewrite (sumf_ext (fun a => sumf (fun b => vcov n a b) cols) (fun a => sumf (fun i => sumf (fun b => nth i a 0 * nth i b 0) cols) (seq 0 n) / qn n)).
  - rewrite sumf_div. unfold Qcdiv. set (S := sumf _ cols). clearbody S. destruct (Qc_eq_dec m 0) as [Z|NZ]; [rewrite Z; change (/ (0 * 0)) with (/ 0); change (/ 0) with 0; ring|]. field. split; [exact NZ|]. apply Qc_pos_neq0, qn_pos, Hn.
  - intros a Ha. rewrite sumf_swap, <- sumf_div. apply sumf_ext. intros b Hb. apply vcov_nth; apply HC; assumption.
Qed.
Lemma mean_inf_cols n ks : ks <> [] -> mean_inf n ks = mean_cols n (map k_inf ks).
Proof.
  intros Hk. unfold mean_inf. destruct ks as [|k0 ks0]; [congruence|]. set (ks := k0 :: ks0) in *. unfold mean_cols. apply map_ext. intros i. unfold agg_inf_at.
  rewrite map_length, sumf_map. rewrite (sumf_zero (fun k => 0 * k_att k)) by (intros; ring). ring.
Qed.
Lemma variance_se2 psi : variance (length psi) psi = se2 (length psi) psi.
Proof. unfold variance, se2, mean. rewrite vcov_self. reflexivity. Qed.
Lemma group_by_variance dropna be mi ma units mp r i g : aggte TGroup dropna be mi ma units mp = Some r -> units <> [] ->
  (forall m, In m mp -> length (m_inf m) = length units) -> nth_error (a_keys r) i = Some g ->
  let cells := used_cells TGroup dropna mp in
  let ks := filter (covers TGroup cells be ma g) cells in
  ks <> [] -> variance (length units) (nth i (a_inf_by r) []) =
    sumf (fun a => sumf (fun b => vcov (length units) (k_inf a) (k_inf b)) ks) ks / (qn (length ks) * qn (length ks)) / qn (length units).
Proof.
  intros H Hn HL Hk. cbn zeta. apply aggte_inv in H. cbn zeta in H. set (cells := used_cells TGroup dropna mp) in *. unfold group_att in H. apply guard_some in H. destruct H as [-> _].
  cbn [a_keys a_inf_by] in *. set (n := length units) in *. intros NE.
  assert (Hu : In g (all_vals cells)). { apply nth_error_In, zuniq_in, in_map_iff in Hk. destruct Hk as [k [<- Hk]]. apply u_g, Hk. }
  rewrite map_map. rewrite (nth_map_in _ _ _ 0%Z) by (apply nth_error_Some; rewrite Hk; discriminate).
  assert (Eg : nth i (zuniq (map k_g cells)) 0%Z = g) by (apply nth_error_nth, Hk). rewrite Eg, group_cells_eq by exact Hu.
  change (filter (fun k => (k_g k =? g)%Z && post k && in_window_steps cells ma k) cells) with (filter (covers TGroup cells be ma g) cells).
  set (ks := filter (covers TGroup cells be ma g) cells) in *. rewrite mean_inf_cols by exact NE. 
  assert (P : (0 < n)%nat) by (unfold n; destruct units; [congruence|cbn; lia]).
  assert (LC : forall c, In c (map k_inf ks) -> length c = n).
  { intros c Hc. apply in_map_iff in Hc. destruct Hc as [k [<- Hk']]. apply filter_In in Hk'. destruct Hk' as [Hk' _]. destruct (used_cells_incl _ _ _ _ Hk') as [m [Hm [_ [_ [_ E]]]]]. rewrite <- E. apply HL, Hm. }
  assert (V := variance_se2 (mean_cols n (map k_inf ks))). rewrite mean_cols_length in V. rewrite V, se2_mean_cols by assumption. rewrite map_length, sumf_map. f_equal. f_equal. apply sumf_ext. intros a _. apply sumf_map.
Qed.
Lemma averaged_columns dropna be mi ma units mp r ty : aggte ty dropna be mi ma units mp = Some r -> units <> [] ->
  (forall m, In m mp -> centred (length units) (m_inf m)) -> ty = TDynamic \/ ty = TCalendar -> a_overall r <> None ->
  let cols := map snd (filter (fun q => match ty with TDynamic => (0 <=? fst (fst q))%Z | _ => match snd (fst q) with Some _ => true | None => false end end) (combine (combine (a_keys r) (a_by r)) (a_inf_by r))) in
  cols <> [] /\ variance (length units) (a_inf r) =
    sumf (fun a => sumf (fun b => vcov (length units) a b) cols) cols / (qn (length cols) * qn (length cols)) / qn (length units).
Proof.
  intros H Hn HL Hty NO. cbn zeta. assert (CI := proj2 (aggte_centred ty dropna be mi ma units mp r Hn HL H)). apply aggte_inv in H. cbn zeta in H.
  set (cols := map snd _). set (n := length units) in *.
  enough (G : cols <> [] /\ a_inf r = mean_cols n cols).
  { destruct G as [G1 ->]. split; [exact G1|]. assert (V := variance_se2 (mean_cols n cols)). rewrite mean_cols_length in V. rewrite V. apply se2_mean_cols.
    - unfold n. destruct units; [congruence|cbn; lia].
    - intros c Hc. unfold cols in Hc. apply in_map_iff in Hc. destruct Hc as [[q c'] [<- Hq]]. apply filter_In in Hq. destruct Hq as [Hq _]. apply in_combine_r in Hq. apply CI, Hq. }
  clear CI. destruct Hty as [-> | ->]; set (cells := used_cells _ dropna mp) in *.
  - unfold dynamic_att in H. apply guard_some in H. destruct H as [-> _]. cbn [a_keys a_by a_inf_by a_inf a_overall] in *. unfold cols. clear cols.
    set (u := all_vals cells) in *. set (evs := event_list u cells be mi ma) in *. set (B := fun ev => cov_att (cell_prob u units) (event_cells u cells be ev)) in *. set (I := fun ev => cov_inf u units (event_cells u cells be ev)) in *.
    assert (E : map snd (filter (fun q => (0 <=? fst (fst q))%Z) (combine (combine evs (map B evs)) (map I evs))) = map I (filter (fun ev => (0 <=? ev)%Z) evs)).
    { clear. induction evs as [|a l IH]; [reflexivity|]. cbn. destruct (0 <=? a)%Z; cbn; rewrite IH; reflexivity. }
    rewrite E. clear E. rewrite combine_maps, (filter_combine_map (fun ev => (0 <=? ev)%Z)) in *. set (ps := filter (fun ev => (0 <=? ev)%Z) evs) in *. rewrite !map_map in *. cbn [fst snd] in *.
    destruct ps as [|p0 ps0]; [exfalso; apply NO; reflexivity|]. split; [discriminate|reflexivity].
  - unfold calendar_att in H. apply guard_some in H. destruct H as [-> _]. cbn [a_keys a_by a_inf_by a_inf a_overall] in *. unfold cols. clear cols.
    set (u := all_vals cells) in *. set (ts := filter _ (zuniq _)) in *. set (B := fun t => cov_att (cell_prob u units) (calendar_cells u cells t)) in *. set (I := fun t => cov_inf u units (calendar_cells u cells t)) in *.
    assert (E : map snd (filter (fun q => match snd (fst q) with Some _ => true | None => false end) (combine (combine (map (t2orig u) ts) (map B ts)) (map I ts))) =
       map snd (filter (fun q : option Qc * list Qc => match fst q with Some _ => true | None => false end) (combine (map B ts) (map I ts)))).
    { clear. induction ts as [|a l IH]; [reflexivity|]. cbn [map combine filter fst snd]. destruct (B a); cbn [map]; rewrite IH; reflexivity. }
    rewrite E. clear E. set (valid := filter _ (combine (map B ts) (map I ts))).
    assert (NV : valid <> []).
    { intros Z. apply NO. unfold nanmean. replace (somes (map B ts)) with (@nil Qc); [reflexivity|]. symmetry. revert Z. unfold valid. clear. induction ts as [|a l IH]; [reflexivity|].
      cbn [map combine filter fst]. unfold somes. cbn [flat_map]. fold (somes (map B l)). destruct (B a); [discriminate|]. exact IH. }
    split; [destruct valid; [congruence|discriminate]|]. destruct valid; [congruence|reflexivity].
Qed.
