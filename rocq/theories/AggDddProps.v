(** C64-C69: aggregation of multi-period triple differences. Vocabulary: AggDddSpec.v (and AggteSpec.v for post, eligible, used_cells, havg). *)
From Verif Require Import Base ListLib PreprocessModel PreprocessProofs AttGtModel SeModel ReduceModel Calc DrdidModel DrdidSpec DrdidWitness DrdidWitness2 Witness DddModel DddSpec DddWitness
  DddMpModel DddMpSpec DddMpProofs1 DddMpWitness DddMpProps AggteModel AggteSpec AggteProofs4 AggDddModel AggDddSpec AggDddProofs3 AggDddProofs4 AggDddProofs5 AggDddProofs6 AggDddProofs7 AggDddProofs8 AggDddProofs9.

(** * C64. What is reported. *)
(** Each effect is the average of the cells covered by its key (for 'group' plain, otherwise weighted by the fraction of the units in
    each cohort); the overall effect is the weighted average over cohorts ('group'), the average over event times >= 0 ('eventstudy'),
    the average over the periods that have an effect ('calendar'). *)
Theorem C64_effects : forall ty dropna be mi ma tlist glist us mp r, table_ok tlist glist us mp -> agg_ddd ty dropna be mi ma tlist glist us mp = Some r ->
  let cells := used_cells ty dropna mp in let vals := scale dropna tlist glist cells in
  da_by r = map (effect_of ty (frac us) vals cells be ma k_att) (da_keys r) /\ da_overall r = overall_of ty (frac us) vals cells be ma k_att (da_keys r).
Proof. exact ex_effects. Qed.
Print Assumptions C64_effects.
Theorem C64_keys : forall ty dropna be mi ma tlist glist us mp r, table_ok tlist glist us mp -> agg_ddd ty dropna be mi ma tlist glist us mp = Some r ->
  let cells := used_cells ty dropna mp in
  StronglySorted Z.lt (da_keys r) /\
  forall key, In key (da_keys r) <-> match ty with
    | TSimple => False
    | TGroup => if dropna then exists k, In k cells /\ k_g k = key else In key glist
    | TCalendar => (exists k, In k cells /\ k_t k = key) /\ exists k, In k cells /\ (k_g k <= key)%Z
    | TDynamic => (exists k, In k cells /\ (k_t k - k_g k)%Z = key /\ eligible cells be k = true) /\
        (forall m, mi = Some m -> (m <= key)%Z) /\ (forall m, ma = Some m -> (key <= m)%Z) /\
        (forall b lo hi, be = Some b -> is_min lo (scale dropna tlist glist cells) -> is_max hi (map k_t cells) -> (b - hi + lo <= key <= b)%Z)
    end.
Proof. exact ex_keys. Qed.
Print Assumptions C64_keys.
Theorem C64_raises : forall ty dropna be mi ma tlist glist us mp, table_ok tlist glist us mp ->
  let cells := used_cells ty dropna mp in
  agg_ddd ty dropna be mi ma tlist glist us mp = None <->
    (exists b, be = Some b /\ (b < 0)%Z) \/ (exists a b, mi = Some a /\ ma = Some b /\ (b < a)%Z) \/
    (dropna = false /\ exists m, In m mp /\ m_att m = None) \/ cells = [] \/
    (ty = TCalendar /\ forall k k', In k cells -> In k' cells -> (k_t k < k_g k')%Z).
Proof. exact ex_raises. Qed.
Print Assumptions C64_raises.
(** Every reported effect is an average of at least one covered cell and lies between the extremes of those covered; every reported
    value, the overall one included (for 'group': when every cohort has an effect, see C67), lies between the extremes of the cells. *)
Theorem C64_effect_between : forall ty dropna be ma tlist glist us mp key v lo hi, table_ok tlist glist us mp ->
  let cells := used_cells ty dropna mp in let vals := scale dropna tlist glist cells in
  effect_of ty (frac us) vals cells be ma k_att key = Some v -> let ks := filter (dcovers ty vals cells be ma key) cells in
  ks <> [] /\ ((forall k, In k ks -> lo <= k_att k /\ k_att k <= hi) -> lo <= v /\ v <= hi).
Proof. intros ty dropna be ma tlist glist us mp key v lo hi OK cells vals. exact (effect_bounds tlist glist us mp OK ty dropna be ma vals key v lo hi). Qed.
Print Assumptions C64_effect_between.
Theorem C64_between : forall ty dropna be mi ma tlist glist us mp r v lo hi, table_ok tlist glist us mp -> agg_ddd ty dropna be mi ma tlist glist us mp = Some r ->
  (ty = TGroup -> ~ In None (da_by r)) -> (forall k, In k (used_cells ty dropna mp) -> lo <= k_att k /\ k_att k <= hi) ->
  In (Some v) (da_overall r :: da_by r) -> lo <= v /\ v <= hi.
Proof. exact ex_bounds. Qed.
Print Assumptions C64_between.

(** * C65. Standard errors and influence functions. *)
(** Mean square of the influence function over the number of units; missing below the floor, and for 'eventstudy' without an event time >= 0. *)
Theorem C65_standard_errors : forall ty dropna be mi ma tlist glist us mp r, table_ok tlist glist us mp -> agg_ddd ty dropna be mi ma tlist glist us mp = Some r ->
  length (da_inf r) = length us /\ (forall c, In c (da_inf_by r) -> length c = length us) /\
  da_se2_by r = map se2_of (da_inf_by r) /\
  da_se2 r = match ty with
             | TDynamic => if existsb (fun e => (0 <=? e)%Z) (da_keys r) then se2_of (da_inf r) else None
             | _ => se2_of (da_inf r)
             end.
Proof. exact ex_se. Qed.
Print Assumptions C65_standard_errors.
Theorem C65_columns : forall ty dropna be mi ma tlist glist us mp r, table_ok tlist glist us mp -> agg_ddd ty dropna be mi ma tlist glist us mp = Some r ->
  let cells := used_cells ty dropna mp in let vals := scale dropna tlist glist cells in let n := length us in
  let column key := winf us n (filter (dcovers ty vals cells be ma key) cells) in
  da_inf_by r = map column (da_keys r) /\
  match ty with
  | TSimple => da_inf r = column 0%Z
  | TGroup => True
  | TCalendar => da_inf r = mean_cols n (map column (da_keys r))
  | TDynamic => forall e, In e (da_keys r) -> (0 <= e)%Z -> da_inf r = mean_cols n (map column (filter (fun e => (0 <=? e)%Z) (da_keys r)))
  end.
Proof. exact ex_columns. Qed.
Print Assumptions C65_columns.
Theorem C65_centred : forall ty dropna be mi ma tlist glist us mp r, table_ok tlist glist us mp -> agg_ddd ty dropna be mi ma tlist glist us mp = Some r ->
  (forall m, In m mp -> length (m_inf m) = length us /\ qsum (m_inf m) = 0) ->
  qsum (da_inf r) = 0 /\ forall c, In c (da_inf_by r) -> qsum c = 0.
Proof. exact ex_centred. Qed.
Print Assumptions C65_centred.

(** * C66. The influence functions are those of the reported numbers. *)
(** [F k] gives the estimate of cell k as unit weights move in direction h; [shares_along] the cohort shares. For type 'group' the
    reported influence values give the derivative of the overall effect, shares included ... *)
Theorem C66_group : forall dropna be mi ma tlist glist us mp r h F, table_ok tlist glist us mp -> agg_ddd TGroup dropna be mi ma tlist glist us mp = Some r ->
  let cells := used_cells TGroup dropna mp in let vals := scale dropna tlist glist cells in let n := length us in kpaths n h F cells ->
  derivative_at_0 (fun e => or0 (overall_of TGroup (shares_along us h e) vals cells be ma (fun k => F k e) (da_keys r))) (havg n h (da_inf r)) /\
  forall i g, nth_error (da_keys r) i = Some g ->
    derivative_at_0 (fun e => or0 (effect_of TGroup (shares_along us h e) vals cells be ma (fun k => F k e) g)) (havg n h (nth i (da_inf_by r) [])).
Proof.
  intros dropna be mi ma tlist glist us mp r h F OK H cells vals n KP. split; [exact (ex_deriv_group dropna be mi ma tlist glist us mp r h F OK H KP)|].
  intros i g Hg. exact (ex_deriv_effects TGroup dropna be mi ma tlist glist us mp r h F i g OK H KP Hg).
Qed.
Print Assumptions C66_group.
(** ... for the other types only with the shares held fixed (and, for 'calendar', when every period has an effect) ... *)
Theorem C66_fixed_shares_partial : forall ty dropna be mi ma tlist glist us mp r h F, table_ok tlist glist us mp -> agg_ddd ty dropna be mi ma tlist glist us mp = Some r ->
  let cells := used_cells ty dropna mp in let vals := scale dropna tlist glist cells in let n := length us in kpaths n h F cells ->
  (ty <> TGroup -> (ty = TCalendar -> ~ In None (da_by r)) ->
   derivative_at_0 (fun e => or0 (overall_of ty (frac us) vals cells be ma (fun k => F k e) (da_keys r))) (havg n h (da_inf r))) /\
  forall i key, nth_error (da_keys r) i = Some key ->
    derivative_at_0 (fun e => or0 (effect_of ty (frac us) vals cells be ma (fun k => F k e) key)) (havg n h (nth i (da_inf_by r) [])).
Proof.
  intros ty dropna be mi ma tlist glist us mp r h F OK H cells vals n KP. split.
  - intros NT HN. exact (ex_deriv_fixed ty dropna be mi ma tlist glist us mp r h F OK H KP NT HN).
  - intros i key Hk. exact (ex_deriv_effects ty dropna be mi ma tlist glist us mp r h F i key OK H KP Hk).
Qed.
Print Assumptions C66_fixed_shares_partial.
(** ... and the derivative of an effect with the shares estimated is the reported one plus the average of [share_term]. *)
Theorem C66_missing_term : forall ty dropna be ma tlist glist us mp h F key, table_ok tlist glist us mp -> ty <> TGroup ->
  let cells := used_cells ty dropna mp in let vals := scale dropna tlist glist cells in let n := length us in
  let ks := filter (dcovers ty vals cells be ma key) cells in kpaths n h F cells -> ks <> [] ->
  derivative_at_0 (fun e => or0 (effect_of ty (shares_along us h e) vals cells be ma (fun k => F k e) key)) (havg n h (winf us n ks) + havg n h (map (share_term us ks) us)).
Proof.
  intros ty dropna be ma tlist glist us mp h F key OK NT cells vals n ks KP N. exact (D_effect_shares tlist glist us mp OK ty dropna be ma h F KP key NT N).
Qed.
Print Assumptions C66_missing_term.
(** Three cells, cohorts 2 and 3 of two and one units, one never-treated unit; only the first unit's weight moves and all influence
    values of the cells are 0. Reported influence: 0. *)
Definition ag_us : list grp := [Fin 2; Fin 2; Fin 3; Inf]%Z.
Definition ag_mp : list AggteModel.mp_cell :=
  [{| m_g := 2; m_t := 2; m_att := Some 1%Qc; m_inf := [0%Qc; 0%Qc; 0%Qc; 0%Qc] |}; {| m_g := 2; m_t := 3; m_att := Some (qz 2); m_inf := [0%Qc; 0%Qc; 0%Qc; 0%Qc] |};
   {| m_g := 3; m_t := 3; m_att := Some (qz 5); m_inf := [0%Qc; 0%Qc; 0%Qc; 0%Qc] |}]%Z.
Lemma ag_ok : table_ok [1; 2; 3]%Z [2; 3]%Z ag_us ag_mp.
Proof.
  split; [repeat constructor|]. split.
  - intros m Hm. repeat (destruct Hm as [<-|Hm]; [cbn; lia|]). destruct Hm.
  - intros g [<-|[<-|[]]]; cbn; auto.
Qed.
Definition still (k : kcell) (_ : Qc) : Qc := k_att k.
Lemma ag_paths ty h : kpaths 4 h still (used_cells ty false ag_mp).
Proof.
  intros k Hk. split; [reflexivity|]. assert (Z0 : havg 4 h (k_inf k) = 0).
  { assert (E : k_inf k = [0; 0; 0; 0]). { assert (Hk' : In k (with_effect ag_mp)) by (destruct ty; exact Hk). repeat (destruct Hk' as [<-|Hk']; [reflexivity|]). destruct Hk'. }
    rewrite E. unfold havg. cbn [seq nth]. rewrite !sumf_cons, sumf_nil. unfold Qcdiv. ring. }
  rewrite Z0. apply D_const.
Qed.
Lemma not_derivative f d d' : derivative_at_0 f d -> Qceqb d' d = false -> ~ derivative_at_0 f d'.
Proof. intros D E D'. rewrite (D_unique f d' d D' D) in E. destruct (Qceqb_spec d d); congruence. Qed.
Theorem C66_refuted : exists tlist glist us mp h F, table_ok tlist glist us mp /\ (forall ty, kpaths (length us) h F (used_cells ty false mp)) /\
  (exists r, agg_ddd TSimple false None None None tlist glist us mp = Some r /\
     ~ derivative_at_0 (fun e => or0 (overall_of TSimple (shares_along us h e) (scale false tlist glist (used_cells TSimple false mp)) (used_cells TSimple false mp) None None (fun k => F k e) (da_keys r))) (havg (length us) h (da_inf r))) /\
  (exists r, agg_ddd TDynamic false None None None tlist glist us mp = Some r /\ nth_error (da_keys r) 0 = Some 0%Z /\
     ~ derivative_at_0 (fun e => or0 (effect_of TDynamic (shares_along us h e) (scale false tlist glist (used_cells TDynamic false mp)) (used_cells TDynamic false mp) None None (fun k => F k e) 0)) (havg (length us) h (nth 0 (da_inf_by r) []))) /\
  (exists r, agg_ddd TCalendar false None None None tlist glist us mp = Some r /\ nth_error (da_keys r) 1 = Some 3%Z /\
     ~ derivative_at_0 (fun e => or0 (effect_of TCalendar (shares_along us h e) (scale false tlist glist (used_cells TCalendar false mp)) (used_cells TCalendar false mp) None None (fun k => F k e) 3)) (havg (length us) h (nth 1 (da_inf_by r) []))).
Proof.
  exists [1; 2; 3]%Z, [2; 3]%Z, ag_us, ag_mp, [1; 0; 0; 0], still. split; [exact ag_ok|]. split; [intros ty; apply ag_paths|].
  assert (MT := fun ty key NT N => C66_missing_term ty false None None [1; 2; 3]%Z [2; 3]%Z ag_us ag_mp [1; 0; 0; 0] still key ag_ok NT (ag_paths ty _) N).
  split; [|split]; eexists; (split; [vm_compute; reflexivity|]).
  - refine (not_derivative _ _ _ (MT TSimple 0%Z _ _) _); [discriminate|vm_compute; discriminate|vm_compute; reflexivity].
  - split; [vm_compute; reflexivity|]. refine (not_derivative _ _ _ (MT TDynamic 0%Z _ _) _); [discriminate|vm_compute; discriminate|vm_compute; reflexivity].
  - split; [vm_compute; reflexivity|]. refine (not_derivative _ _ _ (MT TCalendar 3%Z _ _) _); [discriminate|vm_compute; discriminate|vm_compute; reflexivity].
Qed.
Print Assumptions C66_refuted.
(** 'calendar' with a period that has no effect: the overall effect is the single one that exists, its influence function half that
    effect's, its variance a quarter. *)
Definition ag_gap : list AggteModel.mp_cell :=
  [{| m_g := 2; m_t := 3; m_att := Some (qz 2); m_inf := [1%Qc; (- (1))%Qc; 0%Qc] |}; {| m_g := 4; m_t := 2; m_att := Some 0%Qc; m_inf := [0%Qc; 1%Qc; (- (1))%Qc] |}]%Z.
Theorem C66_calendar_refuted : let tlist := [1; 2; 3; 4]%Z in let us := [Fin 2; Fin 4; Inf]%Z in table_ok tlist [2; 4]%Z us ag_gap /\
  exists r, agg_ddd TCalendar false None None None tlist [2; 4]%Z us ag_gap = Some r /\ da_keys r = [2; 3]%Z /\ da_by r = [None; da_overall r] /\
    da_inf_by r = [[0; 0; 0]; [1; - (1); 0]] /\ da_inf r = [1 / qz 2; - (1) / qz 2; 0] /\
    da_se2_by r = [None; Some (qz 2 / qz 9)] /\ da_se2 r = Some (qz 2 / qz 9 / qz 4).
Proof.
  cbn zeta. split.
  - split; [repeat constructor|]. split; [|intros g [<-|[<-|[]]]; cbn; auto]. intros m Hm. repeat (destruct Hm as [<-|Hm]; [cbn; lia|]). destruct Hm.
  - eexists. split; [vm_compute; reflexivity|]. cbn [da_keys da_by da_overall da_inf_by da_inf da_se2_by da_se2]. repeat split; repeat first [apply (f_equal2 cons) | apply (f_equal Some) | (apply Qc_is_canon; reflexivity) | reflexivity].
Qed.
Print Assumptions C66_calendar_refuted.

(** * C67. Cohorts without an effect. *)
Theorem C67_overall_partial : forall dropna be mi ma tlist glist us mp r, table_ok tlist glist us mp -> agg_ddd TGroup dropna be mi ma tlist glist us mp = Some r ->
  let cells := used_cells TGroup dropna mp in let vals := scale dropna tlist glist cells in
  ~ In None (da_by r) -> da_overall r = cohort_avg (frac us) (effect_of TGroup (frac us) vals cells be ma k_att) (da_keys r).
Proof. exact ex_group_all. Qed.
Print Assumptions C67_overall_partial.
(** Two cohorts of four units, no never-treated units: only cell (2,2) can be estimated. The group effect of cohort 2 is that estimate,
    cohort 3 has none, and the overall effect is half of it. *)
Definition mp_two : list lrow := firstn 24 mp_data.
Theorem C67_overall_refuted : keyed mp_two /\ time_constant mp_two /\
  exists rows cols ses r v, ddd_mp wit_oracle3 g_oracle 1 Dr Varying false mp_two = MTable rows cols ses /\ rows = [(2%Z, 2%Z, v)] /\ v <> 0 /\
    agg_of_ddd TGroup false None None None mp_two (MTable rows cols ses) = Some r /\ da_keys r = [2; 3]%Z /\ da_by r = [Some v; None] /\ da_overall r = Some (v / qz 2) /\
    exists r', agg_of_ddd TSimple false None None None mp_two (MTable rows cols ses) = Some r' /\ da_overall r' = Some v.
Proof.
  split; [apply nodup_b_ok; vm_compute; reflexivity|]. split; [apply tc_b_ok; vm_compute; reflexivity|].
  do 5 eexists. split; [vm_compute; reflexivity|]. split; [reflexivity|]. split; [intros X; apply (f_equal (fun q => Qceqb q 0)) in X; vm_compute in X; discriminate|].
  split; [vm_compute; reflexivity|]. cbn [da_keys da_by da_overall]. split; [reflexivity|]. split; [repeat first [apply (f_equal2 cons) | apply (f_equal Some) | (apply Qc_is_canon; reflexivity) | reflexivity]|].
  split; [by_parts|]. eexists. split; [vm_compute; reflexivity|]. by_parts.
Qed.
Print Assumptions C67_overall_refuted.

(** * C68. Windows and balance. *)
(** max_e for 'simple' and 'group' counts values of the union of periods and cohorts; when these are consecutive that is event time ... *)
Theorem C68_window_consecutive_partial : forall ty dropna be ma tlist glist us mp key k, table_ok tlist glist us mp ->
  let cells := used_cells ty dropna mp in let vals := scale dropna tlist glist cells in
  ty = TSimple \/ ty = TGroup -> (forall a b v, In a vals -> In b vals -> (a <= v <= b)%Z -> In v vals) -> In k cells ->
  (dcovers ty vals cells be ma key k = true <-> (ty = TGroup -> k_g k = key) /\ (k_g k <= k_t k)%Z /\ forall m, ma = Some m -> (k_t k - k_g k <= m)%Z).
Proof.
  intros ty dropna be ma tlist glist us mp key k OK cells vals HT HC Hk. destruct (AggDddProofs2.used_in tlist glist us mp OK ty dropna k Hk) as [Hg Ht].
  assert (Ig : In (k_g k) vals) by (apply AggDddProofs2.used_glist_scale, AggDddProofs2.used_glist_in; [exact Hk|exact Hg]).
  assert (It : In (k_t k) vals) by (apply in_or_app; left; exact Ht).
  assert (X : forall L : (k_g k <= k_t k)%Z, in_steps vals ma k = true <-> forall m, ma = Some m -> (k_t k - k_g k <= m)%Z).
  { intros L. unfold in_steps. destruct ma as [m|]; [|split; [discriminate|reflexivity]]. rewrite (steps_consecutive vals _ _ HC Ig It L), Z.leb_le. split; [intros A ? [= <-]; exact A|intros A; apply A; reflexivity]. }
  destruct HT as [-> | ->]; cbn [dcovers]; rewrite !andb_true_iff; unfold post; rewrite Z.leb_le.
  - split; [intros [L S]; split; [discriminate|]; split; [exact L|apply X; assumption]|intros [_ [L S]]; split; [exact L|apply X; assumption]].
  - rewrite Z.eqb_eq. split; [intros [[E L] S]; split; [auto|]; split; [exact L|apply X; assumption]|intros [E [L S]]; split; [split; [auto|exact L]|apply X; assumption]].
Qed.
Print Assumptions C68_window_consecutive_partial.
(** ... otherwise not: periods 1, 2, 4 and cohort 2, max_e = 1 includes the effect two years after treatment; the event study with the
    same window does not. *)
Definition ag_years : list AggteModel.mp_cell :=
  [{| m_g := 2; m_t := 2; m_att := Some 1%Qc; m_inf := [1%Qc; (- (1))%Qc] |}; {| m_g := 2; m_t := 4; m_att := Some (qz 5); m_inf := [1%Qc; (- (1))%Qc] |}]%Z.
Theorem C68_gaps_refuted : let us := [Fin 2; Inf]%Z in table_ok [1; 2; 4]%Z [2]%Z us ag_years /\
  (exists r, agg_ddd TSimple false None None (Some 1%Z) [1; 2; 4]%Z [2]%Z us ag_years = Some r /\ da_overall r = Some (qz 3)) /\
  (exists r, agg_ddd TGroup false None None (Some 1%Z) [1; 2; 4]%Z [2]%Z us ag_years = Some r /\ da_overall r = Some (qz 3)) /\
  (exists r, agg_ddd TDynamic false None None (Some 1%Z) [1; 2; 4]%Z [2]%Z us ag_years = Some r /\ da_keys r = [0]%Z /\ da_overall r = Some 1).
Proof.
  cbn zeta. split.
  - split; [repeat constructor|]. split; [|intros g [<-|[]]; cbn; auto]. intros m Hm. repeat (destruct Hm as [<-|Hm]; [cbn; lia|]). destruct Hm.
  - split; [|split]; eexists; (split; [vm_compute; reflexivity|]); try (split; [reflexivity|]); by_parts.
Qed.
Print Assumptions C68_gaps_refuted.
(** With balance_e = b every event time 0..b of the event study averages the same cohorts (complete grid, consecutive periods, cohorts
    treated no earlier than the first evaluated period). *)
Theorem C68_balanced_post_partial : forall vals cells b e g ma, complete_grid cells -> no_gaps (map k_t cells) ->
  (forall k, In k cells -> exists c, In c cells /\ (k_t c <= k_g k)%Z) -> (0 <= e <= b)%Z ->
  ((exists k, In k cells /\ dcovers TDynamic vals cells (Some b) ma e k = true /\ k_g k = g) <-> exists k, In k cells /\ k_g k = g /\ eligible cells (Some b) k = true).
Proof. intros vals cells b e g ma. exact (balance_composition cells b e g). Qed.
Print Assumptions C68_balanced_post_partial.

(** * C69. From ddd to agg_ddd. *)
(** What multi-period ddd returns is a table as assumed above: all periods, all treated cohorts, one cohort per unit, one entry per
    reported effect. *)
Theorem C69_table : forall o q k m b never data rows cols ses, keyed data -> time_constant data -> ddd_mp o q k m b never data = MTable rows cols ses ->
  table_ok (mp_tlist data) (mp_glist data) (mp_unit_groups data) (mp_entries rows cols) /\
  (forall s, In s (mp_tlist data) <-> is_period data s) /\ (forall g, In g (mp_glist data) <-> is_cohort data g) /\
  (exists ids, is_units data ids /\ Forall2 (fun i c => forall r, In r data -> l_id r = i -> l_g r = c) ids (mp_unit_groups data)) /\
  Forall2 (fun p e => let '(g, t, att, col) := p in m_g e = g /\ m_t e = t /\ m_att e = Some att /\ m_inf e = col) (combine rows cols) (mp_entries rows cols).
Proof.
  intros o q k m b never data rows cols ses K TC E. split; [exact (table_ok_mp o q k m b never data rows cols ses K TC E)|]. split; [apply tlist_in|]. split; [apply glist_in|]. split.
  - exists (mp_ids data). split; [split; [apply zuniq_sorted|]; intros i; unfold mp_ids; rewrite zuniq_in, in_map_iff; split; intros [r [A B]]; exists r; tauto|].
    unfold mp_unit_groups. induction (mp_ids data) as [|i l IH]; constructor; [|exact IH]. intros r Hr <-. symmetry. apply unit_group_of; assumption.
  - unfold mp_entries. induction (combine rows cols) as [|[[[g t] a] c] l IH]; constructor; [|exact IH]. repeat split.
Qed.
Print Assumptions C69_table.
(** Adding d g t to every effect adds to every aggregate the same aggregate of d and changes no influence function or standard error
    (except the overall ones of type 'group', where the shares are estimated). *)
Theorem C69_shift : forall ty dropna be mi ma tlist glist us mp r d, table_ok tlist glist us mp -> agg_ddd ty dropna be mi ma tlist glist us mp = Some r ->
  let cells := used_cells ty dropna mp in let vals := scale dropna tlist glist cells in let dk := fun k => d (k_g k) (k_t k) in
  exists r', agg_ddd ty dropna be mi ma tlist glist us (map (shift_cell d) mp) = Some r' /\ da_keys r' = da_keys r /\
    da_by r' = map (fun key => opt_plus (effect_of ty (frac us) vals cells be ma k_att key) (effect_of ty (frac us) vals cells be ma dk key)) (da_keys r) /\
    da_overall r' = opt_plus (da_overall r) (overall_of ty (frac us) vals cells be ma dk (da_keys r)) /\
    da_inf_by r' = da_inf_by r /\ da_se2_by r' = da_se2_by r /\ (ty <> TGroup -> da_inf r' = da_inf r /\ da_se2 r' = da_se2 r).
Proof. exact ex_shift. Qed.
Print Assumptions C69_shift.
(** From the data: unit effects, cohort-by-period and eligibility-by-period shocks leave the aggregates unchanged, and a treatment
    effect tau g t moves each of them by its aggregate of tau over the post-treatment cells. *)
Theorem C69_effects : forall o q k m b never data f gam bet tau ty dropna be mi ma, keyed data -> time_constant data -> logit_blind o -> wls_existence_blind o -> gmm_inv_ok q ->
  (m <> Ipw -> (1 <= k)%nat /\ wls_ok o k /\
    forall g t p z u, in_grid b data g t -> base_for b data g t p -> controls_of never data g t p z -> is_sample data g z t p u -> ddd_no_collinearity k u) ->
  (forall g t p cols, in_grid b data g t -> base_for b data g t p -> pool_columns o k m never data g t p cols -> gm_inv q (gmm_omega cols) <> None) ->
  forall rows cols ses r, ddd_mp o q k m b never data = MTable rows cols ses -> agg_of_ddd ty dropna be mi ma data (MTable rows cols ses) = Some r ->
  let us := mp_unit_groups data in let cells := used_cells ty dropna (mp_entries rows cols) in let vals := scale dropna (mp_tlist data) (mp_glist data) cells in
  let data' := map (shock_row f gam bet tau) data in let dk := fun c => if (k_g c <=? k_t c)%Z then tau (k_g c) (k_t c) else 0 in
  exists r', agg_of_ddd ty dropna be mi ma data' (ddd_mp o q k m b never data') = Some r' /\ da_keys r' = da_keys r /\
    da_by r = map (effect_of ty (frac us) vals cells be ma k_att) (da_keys r) /\
    da_by r' = map (fun key => opt_plus (effect_of ty (frac us) vals cells be ma k_att key) (effect_of ty (frac us) vals cells be ma dk key)) (da_keys r) /\
    da_overall r' = opt_plus (da_overall r) (overall_of ty (frac us) vals cells be ma dk (da_keys r)) /\
    da_inf_by r' = da_inf_by r /\ da_se2_by r' = da_se2_by r /\ (ty <> TGroup -> da_inf r' = da_inf r /\ da_se2 r' = da_se2 r).
Proof.
  intros o q k m b never data f gam bet tau ty dropna be mi ma K TC LB WB IO HM REG rows cols ses r E H us cells vals data' dk.
  assert (SH := C63_effects o q k m b never data f gam bet tau K TC LB WB IO HM REG). rewrite E in SH. cbn [agg_of_ddd] in H.
  assert (OK := table_ok_mp o q k m b never data rows cols ses K TC E).
  set (d := fun g t => if (g <=? t)%Z then tau g t else 0).
  destruct (C69_shift ty dropna be mi ma _ _ _ _ r d OK H) as [r' [H' [A1 [A2 [A3 [A4 [A5 A6]]]]]]].
  exists r'. unfold data'. rewrite SH. cbn [agg_of_ddd]. rewrite shock_tlist, shock_glist, shock_groups.
  assert (SE := shock_entries d rows cols). unfold d in SE at 1. rewrite SE. clear SE.
  split; [exact H'|]. split; [exact A1|]. split; [exact (proj1 (C64_effects ty dropna be mi ma _ _ _ _ r OK H))|]. auto.
Qed.
Print Assumptions C69_effects.
(** The influence columns are those ddd hands over, displaced or not (C58): with two units treated from the first period on, the standard
    error of cohort 3 is computed from influence values of units of cohort 2, which cohort 3's only post-treatment cell does not use
    when its control cohort is the never treated. *)
Theorem C69_displaced_refuted : keyed mp_always /\ time_constant mp_always /\
  (exists r, agg_of_ddd TGroup false None None None mp_always (ddd_mp wit_oracle3 g_oracle 1 Dr Varying true mp_always) = Some r /\
     da_keys r = [1; 2; 3]%Z /\ (exists a, nth_error (da_by r) 2 = Some (Some a)) /\ nth 0 (nth 2 (da_inf_by r) []) 0 <> 0) /\
  (exists r, agg_of_ddd TGroup false None None None mp_data (ddd_mp wit_oracle3 g_oracle 1 Dr Varying true mp_data) = Some r /\
     da_keys r = [2; 3]%Z /\ (exists a, nth_error (da_by r) 1 = Some (Some a)) /\ nth 0 (nth 1 (da_inf_by r) []) 0 = 0).
Proof.
  split; [exact mp_always_keyed|]. split; [apply tc_b_ok; vm_compute; reflexivity|]. split; eexists; (split; [vm_compute; reflexivity|]); cbn [da_keys da_by da_inf_by nth nth_error]; (split; [reflexivity|]); (split; [eexists; reflexivity|]).
  - intros X. apply (f_equal (fun q => Qceqb q 0)) in X. vm_compute in X. discriminate.
  - apply Qc_is_canon. reflexivity.
Qed.
Print Assumptions C69_displaced_refuted.

(** A concrete case for C64-C69: the panel of C57, all types. *)
Example C64_case : forall ty, exists r, agg_of_ddd ty false None None None mp_data (ddd_mp wit_oracle3 g_oracle 1 Dr Varying false mp_data) = Some r /\ da_overall r <> None /\ da_se2 r <> None /\
  (ty = TDynamic -> da_keys r = [-1; 0; 1]%Z).
Proof. intros ty. destruct ty; eexists; (split; [vm_compute; reflexivity|]); cbn [da_overall da_se2 da_keys]; (split; [discriminate|]); (split; [discriminate|]); intros E; try discriminate E; reflexivity. Qed.
Example C64_balance : exists r, agg_of_ddd TDynamic true (Some 0%Z) (Some (-1)%Z) (Some 1%Z) mp_data (ddd_mp wit_oracle3 g_oracle 1 Dr Varying false mp_data) = Some r /\ da_keys r = [-1; 0]%Z.
Proof. eexists. split; [vm_compute; reflexivity|]. reflexivity. Qed.
