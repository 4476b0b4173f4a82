(** Statements of C64-C67 from the uniform form. *)
From Verif Require Import Base ListLib Calc PreprocessModel PreprocessProofs SeModel AggteModel AggteSpec AggteProofs AggteProofs2 AggteProofs3 AggteProofs4 AggteProofs5 AggDddModel AggDddSpec AggDddProofs AggDddProofs2 AggDddProofs3 AggDddProofs4.

Lemma ex_effects ty dropna be mi ma tlist glist us mp r : table_ok tlist glist us mp -> agg_ddd ty dropna be mi ma tlist glist us mp = Some r ->
  let cells := used_cells ty dropna mp in let vals := scale dropna tlist glist cells in
  da_by r = map (effect_of ty (frac us) vals cells be ma k_att) (da_keys r) /\ da_overall r = overall_of ty (frac us) vals cells be ma k_att (da_keys r).
Proof. intros OK H cells vals. destruct (uniform tlist glist us mp OK ty dropna be mi ma r H) as [_ [_ [_ [_ ->]]]]. split; reflexivity. Qed.

Lemma ex_keys ty dropna be mi ma tlist glist us mp r : table_ok tlist glist us mp -> agg_ddd ty dropna be mi ma tlist glist us mp = Some r ->
  let cells := used_cells ty dropna mp in
  StronglySorted Z.lt (da_keys r) /\
  forall key, In key (da_keys r) <-> match ty with
    | TSimple => False
    | TGroup => if dropna then exists k, In k cells /\ k_g k = key else In key glist
    | TCalendar => (exists k, In k cells /\ k_t k = key) /\ exists k, In k cells /\ (k_g k <= key)%Z
    | TDynamic => (exists k, In k cells /\ (k_t k - k_g k)%Z = key /\ eligible cells be k = true) /\
        (forall m, mi = Some m -> (m <= key)%Z) /\ (forall m, ma = Some m -> (key <= m)%Z) /\
        (forall b lo hi, be = Some b -> is_min lo (scale dropna tlist glist cells) -> is_max hi (map k_t cells) -> (b - hi + lo <= key <= b)%Z)
    end.
Proof.
  intros OK H cells. destruct (uniform tlist glist us mp OK ty dropna be mi ma r H) as [_ [_ [N [_ ->]]]]. cbn [da_keys]. fold cells in N |- *.
  assert (NV : scale dropna tlist glist cells <> []).
  { intros Z. destruct cells as [|k ks] eqn:EC; [congruence|]. assert (Hk : In k cells) by (rewrite EC; left; reflexivity).
    assert (X := proj2 (used_in tlist glist us mp OK ty dropna k Hk)). unfold scale in Z. apply app_eq_nil in Z. rewrite (proj1 Z) in X. destruct X. }
  assert (NT : map k_t cells <> []) by (destruct cells; [congruence|discriminate]).
  assert (MX := zmax_spec _ NT). assert (MN := zmin_spec _ NV).
  assert (SG : StronglySorted Z.lt (used_glist dropna glist cells)). { unfold used_glist. destruct dropna; [apply zuniq_sorted|apply OK]. }
  unfold keys_of. destruct ty.
  - split; [constructor|]. intros key. cbn. tauto.
  - split; [exact SG|]. intros key. unfold used_glist. destruct dropna; [|tauto]. rewrite zuniq_in, in_map_iff. split; intros [k [A B]]; exists k; tauto.
  - split; [apply ssorted_filter, zuniq_sorted|]. intros e. unfold event_keys. rewrite filter_In, zuniq_in, in_map_iff, !andb_true_iff.
    assert (R1 : (exists x, event x = e /\ In x (filter (eligible cells be) cells)) <-> exists k, In k cells /\ (k_t k - k_g k)%Z = e /\ eligible cells be k = true).
    { split; intros [k A]; exists k; rewrite filter_In in *; unfold event in *; tauto. }
    assert (R2 : ge_min e mi = true <-> forall m, mi = Some m -> (m <= e)%Z).
    { destruct mi as [m|]; cbn; [|split; [discriminate|reflexivity]]. rewrite Z.leb_le. split; [intros A ? [= <-]; exact A|intros A; apply A; reflexivity]. }
    assert (R3 : le_max e ma = true <-> forall m, ma = Some m -> (e <= m)%Z).
    { destruct ma as [m|]; cbn; [|split; [discriminate|reflexivity]]. rewrite Z.leb_le. split; [intros A ? [= <-]; exact A|intros A; apply A; reflexivity]. }
    assert (R4 : match be with None => true | Some b => ((e <=? b) && (b - zmax (map k_t cells) + zmin (scale dropna tlist glist cells) <=? e))%Z end = true <->
      forall b lo hi, be = Some b -> is_min lo (scale dropna tlist glist cells) -> is_max hi (map k_t cells) -> (b - hi + lo <= e <= b)%Z).
    { destruct be as [b|]; [|split; [discriminate|reflexivity]]. rewrite andb_true_iff, !Z.leb_le. split.
      - intros A b' lo hi [= <-] L U. rewrite (is_min_unique _ _ _ L MN), (is_max_unique _ _ _ U MX). lia.
      - intros A. specialize (A b _ _ eq_refl MN MX). lia. }
    rewrite R1, R2, R3, R4. tauto.
  - split; [apply ssorted_filter, zuniq_sorted|]. intros t. unfold calendar_keys. rewrite filter_In, zuniq_in, in_map_iff, existsb_exists.
    split; intros [[k A] [k' B]]; (split; [exists k; tauto|exists k'; rewrite Z.leb_le in *; tauto]).
Qed.

Lemma ex_raises ty dropna be mi ma tlist glist us mp : table_ok tlist glist us mp ->
  let cells := used_cells ty dropna mp in
  agg_ddd ty dropna be mi ma tlist glist us mp = None <->
    (exists b, be = Some b /\ (b < 0)%Z) \/ (exists a b, mi = Some a /\ ma = Some b /\ (b < a)%Z) \/
    (dropna = false /\ exists m, In m mp /\ m_att m = None) \/ cells = [] \/
    (ty = TCalendar /\ forall k k', In k cells -> In k' cells -> (k_t k < k_g k')%Z).
Proof.
  intros OK cells.
  assert (RA : agg_args_ok be mi ma = false <-> (exists b, be = Some b /\ (b < 0)%Z) \/ (exists a b, mi = Some a /\ ma = Some b /\ (b < a)%Z)).
  { unfold agg_args_ok. rewrite andb_false_iff. destruct be as [b|], mi as [a|], ma as [c|]; rewrite ?Z.leb_gt; split; intros A;
      repeat match goal with
      | H : _ \/ _ |- _ => destruct H
      | H : exists _, _ |- _ => destruct H
      | H : _ /\ _ |- _ => destruct H
      | H : Some _ = Some _ |- _ => injection H as <-
      end; try discriminate; eauto 8; try (right; do 2 eexists; split; [reflexivity|]; split; [reflexivity|assumption]). }
  destruct (agg_args_ok be mi ma) eqn:A.
  2: { split; [intros _; tauto|]. intros _. unfold agg_ddd. rewrite A. reflexivity. }
  assert (RA' : ~ ((exists b, be = Some b /\ (b < 0)%Z) \/ (exists a b, mi = Some a /\ ma = Some b /\ (b < a)%Z))) by (rewrite <- RA; discriminate).
  destruct (clean_cells dropna (is_tgroup ty) mp) as [cs|] eqn:EC.
  2: { split.
    - intros _. right. right. left. destruct dropna; [exfalso; rewrite (clean_some ty true mp (or_introl eq_refl)) in EC; discriminate|].
      split; [reflexivity|]. apply clean_none in EC. exact EC.
    - intros _. unfold agg_ddd. rewrite A, EC. reflexivity. }
  assert (ED := clean_used _ _ _ _ EC). fold cells in ED. subst cs.
  assert (RM : ~ (dropna = false /\ exists m, In m mp /\ m_att m = None)).
  { intros [D M]. assert (X : clean_cells false (is_tgroup ty) mp = None) by (apply clean_none; exact M). rewrite D in EC. congruence. }
  assert (DN : cells = [] \/ cells <> []) by (destruct cells; [left; reflexivity|right; discriminate]). destruct DN as [N|N].
  { split; [intros _; tauto|]. intros _. unfold agg_ddd. rewrite A, EC, N. reflexivity. }
  assert (NG : used_glist dropna glist cells <> []).
  { assert (HI : forall k, In k cells -> used_glist dropna glist cells <> []). { intros k Hk Hz. assert (X := used_glist_in dropna glist cells k Hk (proj1 (used_in tlist glist us mp OK ty dropna k Hk))). rewrite Hz in X. destruct X. }
    destruct cells as [|k ks]; [congruence|]. apply (HI k). left. reflexivity. }
  rewrite (agg_unfold ty dropna be mi ma tlist glist us mp cells A EC N).
  assert (NC := norm_calendar tlist glist us mp OK ty dropna be ma). assert (NGR := norm_group tlist glist us mp OK ty dropna be ma).
  fold cells in NC, NGR. destruct ty.
  - split; [discriminate|]. intros [X|[X|[X|[X|[X _]]]]]; try tauto; discriminate.
  - rewrite (NGR eq_refl NG). split; [discriminate|]. intros [X|[X|[X|[X|[X _]]]]]; try tauto; discriminate.
  - split; [discriminate|]. intros [X|[X|[X|[X|[X _]]]]]; try tauto; discriminate.
  - rewrite (NC eq_refl N). destruct (calendar_keys cells) as [|t0 ts] eqn:EK.
    + split; [intros _|reflexivity]. right. right. right. right. split; [reflexivity|]. intros k k' Hk Hk'.
      destruct (Z_lt_le_dec (k_t k) (k_g k')) as [L|L]; [exact L|exfalso]. assert (X : In (k_t k) (calendar_keys cells)).
      { unfold calendar_keys. apply filter_In. split; [apply zuniq_in, in_map, Hk|]. apply existsb_exists. exists k'. split; [exact Hk'|]. apply Z.leb_le. exact L. }
      rewrite EK in X. destruct X.
    + split; [discriminate|]. intros [X|[X|[X|[X|[_ X]]]]]; try tauto. exfalso.
      assert (Y : In t0 (calendar_keys cells)) by (rewrite EK; left; reflexivity). unfold calendar_keys in Y. apply filter_In in Y. destruct Y as [Y1 Y2].
      rewrite zuniq_in, in_map_iff in Y1. destruct Y1 as [k [<- Hk]]. apply existsb_exists in Y2. destruct Y2 as [k' [Hk' L]]. apply Z.leb_le in L. specialize (X k k' Hk Hk'). lia.
Qed.

(** bounds *)
Lemma wavg_bounds sh a ks lo hi : ks <> [] -> (forall k, In k ks -> 0 < sh (k_g k)) -> (forall k, In k ks -> lo <= a k /\ a k <= hi) -> lo <= wavg sh a ks /\ wavg sh a ks <= hi.
Proof.
  intros N HP HB. assert (SP : 0 < sumf (fun k => sh (k_g k)) ks).
  { destruct ks as [|k ks]; [congruence|]. rewrite sumf_cons. assert (0 < sh (k_g k)) by (apply HP; left; reflexivity).
    assert (0 <= sumf (fun k => sh (k_g k)) ks) by (apply sumf_nonneg; intros; apply Qclt_le_weak, HP; right; assumption). qclra. }
  assert (L : sumf (fun k => sh (k_g k) * lo) ks <= sumf (fun k => sh (k_g k) * a k) ks).
  { apply sumf_le. intros k Hk. specialize (HB k Hk). assert (P := HP k Hk). apply Qcle_minus_iff. replace (sh (k_g k) * a k + - (sh (k_g k) * lo)) with (sh (k_g k) * (a k - lo)) by ring. apply Qcmult_nonneg; [apply Qclt_le_weak, P|]. destruct HB. qclra. }
  assert (U : sumf (fun k => sh (k_g k) * a k) ks <= sumf (fun k => sh (k_g k) * hi) ks).
  { apply sumf_le. intros k Hk. specialize (HB k Hk). assert (P := HP k Hk). apply Qcle_minus_iff. replace (sh (k_g k) * hi + - (sh (k_g k) * a k)) with (sh (k_g k) * (hi - a k)) by ring. apply Qcmult_nonneg; [apply Qclt_le_weak, P|]. destruct HB. qclra. }
  rewrite sumf_mul_r in L, U. unfold wavg. assert (NZ : sumf (fun k => sh (k_g k)) ks <> 0) by (intros Z; rewrite Z in SP; qclra).
  set (s := sumf (fun k => sh (k_g k)) ks) in *. set (w := sumf (fun k => sh (k_g k) * a k) ks) in *. clearbody s w.
  assert (IP : 0 <= / s) by (apply Qclt_le_weak, Qcinv_pos, SP).
  split; apply Qcle_minus_iff.
  - replace (w / s + - lo) with (/ s * (w - s * lo)) by (field; exact NZ). apply Qcmult_nonneg; [exact IP|]. qclra.
  - replace (hi + - (w / s)) with (/ s * (s * hi - w)) by (field; exact NZ). apply Qcmult_nonneg; [exact IP|]. qclra.
Qed.

Section Bounds.
  Context (tlist glist : list Z) (us : list grp) (mp : list mp_cell) (OK : table_ok tlist glist us mp).
  Lemma used_pos ty dropna k : In k (used_cells ty dropna mp) -> 0 < frac us (k_g k).
  Proof. intros Hk. apply frac_pos. destruct OK as [_ [_ H]]. apply H. exact (proj1 (used_in tlist glist us mp OK ty dropna k Hk)). Qed.
  Lemma effect_bounds ty dropna be ma vals key v lo hi : let cells := used_cells ty dropna mp in
    effect_of ty (frac us) vals cells be ma k_att key = Some v -> let ks := filter (dcovers ty vals cells be ma key) cells in
    ks <> [] /\ ((forall k, In k ks -> lo <= k_att k /\ k_att k <= hi) -> lo <= v /\ v <= hi).
  Proof.
    intros cells H ks. unfold effect_of in H. fold ks in H. assert (HS : forall k, In k ks -> In k cells) by (intros k Hk; apply filter_In in Hk; apply Hk).
    assert (HP : forall k, In k ks -> 0 < frac us (k_g k)) by (intros k Hk; apply (used_pos ty dropna), HS, Hk).
    assert (N : ks <> []) by (intros Z; rewrite Z in H; destruct ty; discriminate). split; [exact N|]. intros HB.
    assert (V : v = mean k_att ks \/ v = wavg (frac us) k_att ks).
    { destruct ty; unfold wavg_opt, avg_opt in H; clearbody ks; destruct ks; try congruence; injection H as <-; tauto. }
    destruct V as [->| ->]; [|apply wavg_bounds; assumption].
    assert (X := average_bounds (map k_att ks) lo hi). unfold average, mean in X. rewrite sumf_map, map_length in X. apply X; [destruct ks; [congruence|discriminate]|].
    intros x Hx. apply in_map_iff in Hx. destruct Hx as [k [<- Hk]]. apply HB, Hk.
  Qed.
  Lemma cohort_avg0_bounds (v : Z -> option Qc) keys lo hi : keys <> [] -> (forall g, In g keys -> 0 < frac us g) ->
    (forall g, In g keys -> exists a, v g = Some a /\ lo <= a /\ a <= hi) -> lo <= cohort_avg0 (frac us) v keys /\ cohort_avg0 (frac us) v keys <= hi.
  Proof.
    intros N HP HB. set (mk := fun g => {| k_g := g; k_t := 0%Z; k_att := or0 (v g); k_inf := [] |}).
    assert (X := wavg_bounds (frac us) k_att (map mk keys) lo hi). unfold wavg in X. rewrite !sumf_map in X. apply X.
    - destruct keys; [congruence|discriminate].
    - intros k Hk. apply in_map_iff in Hk. destruct Hk as [g [<- Hg]]. apply HP, Hg.
    - intros k Hk. apply in_map_iff in Hk. destruct Hk as [g [<- Hg]]. destruct (HB g Hg) as [a [E B]]. cbn. rewrite E. exact B.
  Qed.
End Bounds.
Lemma ex_bounds ty dropna be mi ma tlist glist us mp r v lo hi : table_ok tlist glist us mp -> agg_ddd ty dropna be mi ma tlist glist us mp = Some r ->
  (ty = TGroup -> ~ In None (da_by r)) -> (forall k, In k (used_cells ty dropna mp) -> lo <= k_att k /\ k_att k <= hi) ->
  In (Some v) (da_overall r :: da_by r) -> lo <= v /\ v <= hi.
Proof.
  intros OK H NG HB. destruct (uniform tlist glist us mp OK ty dropna be mi ma r H) as [_ [_ [N [_ Er]]]].
  set (cells := used_cells ty dropna mp) in *. set (vals := scale dropna tlist glist cells) in *.
  assert (EB : forall key v, effect_of ty (frac us) vals cells be ma k_att key = Some v -> lo <= v /\ v <= hi).
  { intros key v' Hv. destruct (effect_bounds tlist glist us mp OK ty dropna be ma vals key v' lo hi Hv) as [_ B]. apply B. intros k Hk. apply HB. apply filter_In in Hk. apply Hk. }
  assert (BY : In (Some v) (da_by r) -> lo <= v /\ v <= hi).
  { rewrite Er. cbn [da_by]. intros Hv. apply in_map_iff in Hv. destruct Hv as [key [E _]]. apply (EB key v E). }
  assert (AV : forall keys, avg_existing (effect_of ty (frac us) vals cells be ma k_att) keys = Some v -> lo <= v /\ v <= hi).
  { intros keys E. unfold avg_existing in E. destruct (existing _) as [|x l] eqn:EX; [discriminate|]. injection E as <-. apply average_bounds; [discriminate|]. intros y Hy.
    rewrite <- EX in Hy. apply existing_in in Hy. apply in_map_iff in Hy. destruct Hy as [key [E _]]. apply (EB key y E). }
  intros [HO|HV]; [|apply BY, HV]. rewrite Er in HO, NG. cbn [da_overall da_by] in HO, NG.
  assert (GP : forall g, In g (used_glist dropna glist cells) -> 0 < frac us g) by (intros g Hg; apply (n_fp tlist glist us mp OK ty dropna g Hg)).
  assert (GN : used_glist dropna glist cells <> []).
  { assert (HI : forall k, In k cells -> used_glist dropna glist cells <> []). { intros k Hk Hz. assert (X := used_glist_in dropna glist cells k Hk (proj1 (used_in tlist glist us mp OK ty dropna k Hk))). rewrite Hz in X. destruct X. }
    destruct cells as [|k ks]; [congruence|]. apply (HI k). left. reflexivity. }
  unfold overall_of in HO. destruct ty.
  - apply (EB 0%Z v HO).
  - injection HO as <-. specialize (NG eq_refl). apply cohort_avg0_bounds; [exact GN|exact GP|]. intros g Hg.
    destruct (effect_of TGroup (frac us) vals cells be ma k_att g) as [a|] eqn:E; [exists a; split; [reflexivity|apply (EB g a E)]|].
    exfalso. apply NG. apply in_map_iff. exists g. split; [exact E|exact Hg].
  - apply (AV _ HO).
  - apply (AV _ HO).
Qed.
