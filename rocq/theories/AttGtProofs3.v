From Verif Require Import Base ListLib PreprocessModel PreprocessSpec PreprocessProofs PreprocessProofs2 PreprocessProofs3 AttGtModel AttGtSpec AttGtProofs AttGtProofs2.
Local Open Scope nat_scope.

(** * C12: comparison units and the user's own group codes *)
Lemma pipeline_before_cutoff c d out r z : did_pipeline c d = Some out -> In r out ->
  no_never (early_filter c (did_stage_encoded c d)) -> latest_cohort (early_filter c (did_stage_encoded c d)) z ->
  (r_t r < z - c_ant c)%Z.
Proof.
  intros HP Hr NN LC. apply pipeline_stages in HP as [_ [b [Hb ->]]].
  apply (proj1 (data_sorter_in _ _)) in Hr. apply rc_handler_in in Hr as [r0 [Hr0 [Et _]]]. rewrite Et.
  destruct (balance_sub _ _ _ Hb) as [p ->]. apply filter_In in Hr0 as [Hr0 _].
  apply (control_group_construction c _ z NN LC) in Hr0 as [r1 [_ [Ht [_ [E _]]]]]. rewrite E. exact Ht.
Qed.
Lemma pipeline_time_le c d out t m : did_pipeline c d = Some out -> In t (tlist out) -> last_period_of (clean c d) m -> (t <= m)%Z.
Proof.
  intros HP Ht [_ HL]. apply tlist_in in Ht as [r [Hr <-]].
  destruct (pipeline_provenance c d out r HP Hr) as [q [r0 [Hq [E [T _]]]]]. rewrite <- ?T.
  assert (In r0 (clean c d)) by (apply clean_in; eauto). specialize (HL r0 H). lia.
Qed.
Lemma pipeline_clean_nonempty c d out : did_pipeline c d = Some out -> clean c d <> [].
Proof. intros H. apply pipeline_stages in H as [H _]. exact H. Qed.

Lemma comparison_raw c d out r g0 year base :
  did_pipeline c d = Some out -> In r out -> (0 <= c_ant c)%Z -> In year (tlist out) -> In base (tlist out) ->
  is_comparison (c_never c) (c_ant c) g0 year base (r_g r) ->
  exists q g, In q d /\ raw_t q = Some (r_t r) /\ raw_y q = Some (r_y r) /\ (c_has_id c = true -> raw_id q = Some (r_id r)) /\
    raw_g q = Some g /\ (g = Inf \/ g = Fin 0 \/ exists z, g = Fin z /\ (Z.max year base < z)%Z).
Proof.
  intros HP Hr Ha Hy Hb [_ HC]. set (m := last (tlist (clean c d)) 0%Z).
  assert (HL : last_period_of (clean c d) m) by (apply last_period_last; eapply pipeline_clean_nonempty; eauto).
  destruct (group_codes_end_to_end c d out r m HP Hr HL) as [q [g [e [Hq [T [Y [I [G [GC H]]]]]]]]].
  exists q, g. repeat (split; [assumption|]).
  assert (My := pipeline_time_le c d out year m HP Hy HL). assert (Mb := pipeline_time_le c d out base m HP Hb HL).
  destruct H as [E|[_ [_ [z [E [_ [NN LC]]]]]]].
  - inversion GC; subst; auto.
    + right; right. exists z. split; [reflexivity|lia].
    + right; right. exists z. split; [reflexivity|]. rewrite <- H2 in HC. destruct (c_never c); [discriminate|]. cbn in HC. lia.
  - inversion GC; subst; try discriminate; auto. injection H2 as ->. right; right. exists z. split; [reflexivity|].
    apply tlist_in in Hy as [ry [Hy <-]]. apply tlist_in in Hb as [rb [Hb <-]].
    assert (A := pipeline_before_cutoff c d out ry z HP Hy NN LC). assert (B := pipeline_before_cutoff c d out rb z HP Hb NN LC). lia.
Qed.

Lemma no_forbidden_panel c d out b g_idx t_idx pre j q :
  c_panel c = true -> c_unbal c = false -> c_has_id c = true -> valid_panel d -> did_pipeline c d = Some out -> (0 <= c_ant c)%Z ->
  let D := build_did_data c out in
  let year := nth (t_idx + time_factor b) (d_times D) 0%Z in
  let base := nth pre (d_times D) 0%Z in
  let u := nth j (d_units D) drow0 in
  t_idx + time_factor b < length (d_times D) -> base_index (c_ant c) D b g_idx t_idx = Base pre -> j < d_ids D ->
  nth_error (cohort_index_panel c D b g_idx t_idx pre) j = Some (Some false) ->
  In q d -> raw_id q = Some (r_id u) ->
  exists g, raw_g q = Some g /\ (g = Inf \/ g = Fin 0 \/ exists z, g = Fin z /\ (Z.max year base < z)%Z).
Proof.
  intros H1 H2 H3 V HP Ha. cbn zeta. set (D := build_did_data c out). intros Ht HB Hj HN Hq Hi.
  destruct (roles_exact c d out b g_idx t_idx pre j H1 H2 H3 V HP Ha Ht HB Hj) as [_ [_ [RC _]]].
  apply (proj1 RC) in HN. clear RC.
  assert (PI := pipe_ids c d out H1 H2 H3 V HP : d_ids D = length (d_units D)).
  assert (Hu : In (nth j (d_units D) drow0) out).
  { apply (firsts_incl Z.eqb Z.eqb_spec r_id). apply nth_In. change (j < length (d_units D)). lia. }
  assert (Hpre := base_index_in_range (c_ant c) D b g_idx t_idx pre Ht HB).
  assert (Iy : In (nth (t_idx + time_factor b) (d_times D) 0%Z) (tlist out)) by (apply nth_In; exact Ht).
  assert (Ib : In (nth pre (d_times D) 0%Z) (tlist out)) by (apply nth_In; exact Hpre).
  destruct (comparison_raw c d out _ _ _ _ HP Hu Ha Iy Ib HN) as [q' [g [Hq' [_ [_ [I' [G' R]]]]]]].
  exists g. split; [|exact R]. destruct V as [_ V]. rewrite <- G'. apply V; auto. rewrite Hi, (I' H3). reflexivity.
Qed.

(** rows of a repeated cross-section *)
Lemma roles_rc c l b g_idx t_idx pre r :
  let D := build_did_data c l in
  let g0 := nth g_idx (d_groups D) 0%Z in
  let year := nth (t_idx + time_factor b) (d_times D) 0%Z in
  let base := nth pre (d_times D) 0%Z in
  (0 <= c_ant c)%Z -> t_idx + time_factor b < length (d_times D) -> base_index (c_ant c) D b g_idx t_idx = Base pre ->
  let in_period := r_t r = year \/ r_t r = base in
  let flag := cohort_flag_rc c D b g_idx t_idx pre r in
  (flag = Some true <-> in_period /\ is_treated g0 (r_g r)) /\
  (flag = Some false <-> in_period /\ is_comparison (c_never c) (c_ant c) g0 year base (r_g r)) /\
  (flag = None <-> ~ (in_period /\ (is_treated g0 (r_g r) \/ is_comparison (c_never c) (c_ant c) g0 year base (r_g r)))).
Proof.
  cbn zeta. intros Ha Ht HB. set (D := build_did_data c l) in *.
  destruct (role_of_spec c D b g_idx t_idx pre (r_g r) (tlist_sorted l) Ha Ht HB) as [A [B C]]. cbn zeta in *.
  set (year := nth (t_idx + time_factor b) (d_times D) 0%Z) in *. set (base := nth pre (d_times D) 0%Z) in *.
  set (g0 := nth g_idx (d_groups D) 0%Z) in *.
  assert (E : cohort_flag_rc c D b g_idx t_idx pre r
     = if (r_t r =? year)%Z || (r_t r =? base)%Z then role_of c D b g_idx t_idx pre (r_g r) else None).
  { unfold cohort_flag_rc, role_of. fold year base g0. destruct ((r_t r =? year)%Z || (r_t r =? base)%Z); [|reflexivity].
    cbn [andb]. destruct (grp_eqb (r_g r) (Fin g0)) eqn:Eg; [reflexivity|]. cbn [negb]. rewrite andb_true_r.
    destruct (c_never c); [reflexivity|]. destruct (r_g r) as [z|]; [reflexivity|]. reflexivity. }
  rewrite E. assert (P : ((r_t r =? year)%Z || (r_t r =? base)%Z) = true <-> (r_t r = year \/ r_t r = base)).
  { rewrite orb_true_iff, !Z.eqb_eq. reflexivity. }
  destruct ((r_t r =? year)%Z || (r_t r =? base)%Z).
  - assert (Q : r_t r = year \/ r_t r = base) by (apply P; reflexivity). rewrite A, B, C. tauto.
  - assert (Q : ~ (r_t r = year \/ r_t r = base)) by (intros h; apply P in h; discriminate).
    split; [split; [discriminate|tauto]|]. split; [split; [discriminate|tauto]|]. tauto.
Qed.
Lemma no_forbidden_rc c d out b g_idx t_idx pre r :
  did_pipeline c d = Some out -> (0 <= c_ant c)%Z ->
  let D := build_did_data c out in
  let year := nth (t_idx + time_factor b) (d_times D) 0%Z in
  let base := nth pre (d_times D) 0%Z in
  t_idx + time_factor b < length (d_times D) -> base_index (c_ant c) D b g_idx t_idx = Base pre -> In r out ->
  cohort_flag_rc c D b g_idx t_idx pre r = Some false ->
  exists q g, In q d /\ raw_t q = Some (r_t r) /\ raw_y q = Some (r_y r) /\ (c_has_id c = true -> raw_id q = Some (r_id r)) /\
    raw_g q = Some g /\ (g = Inf \/ g = Fin 0 \/ exists z, g = Fin z /\ (Z.max year base < z)%Z).
Proof.
  intros HP Ha. cbn zeta. set (D := build_did_data c out). intros Ht HB Hr HF.
  destruct (roles_rc c out b g_idx t_idx pre r Ha Ht HB) as [_ [RC _]]. cbn zeta in RC. apply (proj1 RC) in HF as [_ HC].
  assert (Hpre := base_index_in_range (c_ant c) D b g_idx t_idx pre Ht HB).
  apply (comparison_raw c d out r _ _ _ HP Hr Ha) in HC; [exact HC| |]; apply nth_In; assumption.
Qed.

(** * C13 *)
Lemma base_period_choice c l b g_idx t_idx :
  let D := build_did_data c l in
  let g0 := nth g_idx (d_groups D) 0%Z in
  let year := nth (t_idx + time_factor b) (d_times D) 0%Z in
  (0 <= c_ant c)%Z -> t_idx + time_factor b < length (d_times D) ->
  ((b = Universal \/ (g0 <= year)%Z) ->
     (forall i, base_index (c_ant c) D b g_idx t_idx = Base i <-> is_last_before (d_times D) (g0 - c_ant c) i) /\
     ((forall i, base_index (c_ant c) D b g_idx t_idx <> Base i) <-> forall p, In p (d_times D) -> (g0 - c_ant c <= p)%Z)) /\
  ((b = Varying /\ (year < g0)%Z) ->
     base_index (c_ant c) D b g_idx t_idx = Base t_idx /\ (nth t_idx (d_times D) 0 < year)%Z /\
     forall p, In p (d_times D) -> (p <= nth t_idx (d_times D) 0 \/ year <= p)%Z) /\
  (forall i, (g0 <= year)%Z -> base_index (c_ant c) D b g_idx t_idx = Base i ->
     (nth i (d_times D) 0 < g0 - c_ant c)%Z /\ (nth i (d_times D) 0 < year)%Z).
Proof.
  cbn zeta. intros Ha Ht. set (D := build_did_data c l) in *.
  set (g0 := nth g_idx (d_groups D) 0%Z). set (year := nth (t_idx + time_factor b) (d_times D) 0%Z).
  assert (S := tlist_sorted l : StronglySorted Z.lt (d_times D)).
  assert (HL := last_before_spec (d_times D) (g0 - c_ant c)%Z).
  assert (UN : forall i k, is_last_before (d_times D) (g0 - c_ant c) i -> is_last_before (d_times D) (g0 - c_ant c) k -> i = k).
  { intros i k [I1 [I2 I3]] [K1 [K2 K3]]. destruct (Nat.lt_trichotomy i k) as [h|[h|h]]; [|exact h|].
    - specialize (I3 k ltac:(lia)). lia.
    - specialize (K3 i ltac:(lia)). lia. }
  assert (M : (b = Universal \/ (g0 <= year)%Z) -> base_index (c_ant c) D b g_idx t_idx =
     match last_before (d_times D) (g0 - c_ant c) with Some i => Base i | None => match b with Universal => PreNone | Varying => NoPre end end).
  { intros H. unfold base_index. fold g0. destruct b; [reflexivity|].
    destruct H as [H|H]; [discriminate|]. unfold is_post. fold year g0. apply Z.leb_le in H. rewrite H.
    destruct (last_before _ _); reflexivity. }
  split; [|split].
  - intros H. rewrite (M H). destruct (last_before (d_times D) (g0 - c_ant c)) as [k|].
    + split.
      * intros i. split; [intros E; injection E as <-; exact HL|]. intros Hi. rewrite (UN i k Hi HL). reflexivity.
      * split; [intros E; exfalso; apply (E k); reflexivity|]. intros E. exfalso. destruct HL as [K1 [K2 _]].
        specialize (E _ (nth_In _ 0%Z K1)). lia.
    + split.
      * intros i. split; [destruct b; discriminate|]. intros [I1 [I2 _]]. specialize (HL i I1). lia.
      * split; [|destruct b; discriminate]. intros _ p Hp. apply (In_nth _ _ 0%Z) in Hp as [i [Hi <-]]. apply HL, Hi.
  - intros [-> Hlt]. unfold base_index, is_post. cbn [time_factor] in *. fold year g0.
    assert (E : (g0 <=? year)%Z = false) by (apply Z.leb_gt; exact Hlt). rewrite E. split; [reflexivity|].
    split; [apply ssorted_nth; auto; lia|]. intros p Hp. apply (In_nth _ _ 0%Z) in Hp as [i [Hi <-]].
    destruct (Nat.le_gt_cases i t_idx).
    + left. apply ssorted_nth_le; auto. lia.
    + right. apply ssorted_nth_le; auto. lia.
  - intros i Hp HB. rewrite (M (or_intror Hp)) in HB.
    destruct (last_before _ _) as [k|]; [|destruct b; discriminate]. injection HB as <-. destruct HL as [_ [K2 _]]. lia.
Qed.

(** * C14 *)
Lemma sequence_map {A B} (f : A -> option B) l ys : sequence (map f l) = Some ys <-> Forall2 (fun x y => f x = Some y) l ys.
Proof.
  revert ys. induction l as [|x l IH]; intros ys; cbn.
  - split; [intros H; injection H as <-; constructor|intros H; inversion H; reflexivity].
  - destruct (f x) as [y|] eqn:E.
    + destruct (sequence (map f l)) as [r|] eqn:R.
      * split.
        -- intros H; injection H as <-. constructor; [exact E|]. apply IH. reflexivity.
        -- intros H; inversion H as [|? y' ? ys' Ey Hy]; subst. apply IH in Hy. injection Hy as ->. congruence.
      * split; [discriminate|]. intros H; inversion H as [|? y' ? ys' Ey Hy]; subst. apply IH in Hy. discriminate.
    + split; [discriminate|]. intros H; inversion H; congruence.
Qed.

Definition lexz (a b : Z * Z) : Prop := (fst a < fst b)%Z \/ (fst a = fst b /\ (snd a < snd b)%Z).
Definition lexn (a b : nat * nat) : Prop := fst a < fst b \/ (fst a = fst b /\ snd a < snd b).
Definition cell_key (a : att_cell) : Z * Z := (ac_group a, ac_year a).

Lemma ssorted_app {A} (R : A -> A -> Prop) l1 l2 : StronglySorted R l1 -> StronglySorted R l2 ->
  (forall a b, In a l1 -> In b l2 -> R a b) -> StronglySorted R (l1 ++ l2).
Proof.
  induction 1 as [|a l1 Hs IH Hf]; intros H2 H; [exact H2|]. cbn. constructor.
  - apply IH; auto. intros; apply H; [right|]; assumption.
  - rewrite Forall_forall in *. intros b Hb. apply in_app_or in Hb as [Hb|Hb]; [apply Hf, Hb|apply H; [left; reflexivity|exact Hb]].
Qed.
Lemma seq_sorted s n : StronglySorted lt (seq s n).
Proof.
  revert s. induction n as [|n IH]; intros s; cbn; constructor; [apply IH|]. rewrite Forall_forall. intros x Hx.
  apply in_seq in Hx. lia.
Qed.
Lemma prod_sorted l m : StronglySorted lt l -> StronglySorted lt m -> StronglySorted lexn (list_prod l m).
Proof.
  intros Hl Hm. induction Hl as [|a l Hs IH Hf]; [constructor|]. cbn. apply ssorted_app; [|exact IH|].
  - apply ssorted_map. revert Hm. apply ssorted_impl. intros x y _ _ H. right. cbn. auto.
  - intros p q Hp Hq. apply in_map_iff in Hp as [x [<- _]]. destruct q as [q1 q2]. apply in_prod_iff in Hq as [Hq _].
    rewrite Forall_forall in Hf. left. cbn. apply Hf, Hq.
Qed.
Lemma flat_option_sorted {A B} (RA : A -> A -> Prop) (RB : B -> B -> Prop) (k : A -> B) (key : att_cell -> B) xs ys :
  StronglySorted RA xs -> (forall x y, In x xs -> In y xs -> RA x y -> RB (k x) (k y)) ->
  Forall2 (fun x (o : option att_cell) => forall a, o = Some a -> key a = k x) xs ys ->
  StronglySorted RB (map key (flat_map (fun o : option att_cell => match o with Some a => [a] | None => [] end) ys)).
Proof.
  intros HS. revert ys. induction HS as [|x xs Hs IH Hf]; intros ys HR HF; inversion HF as [|? o ? ys' Ho HF']; subst; [constructor|].
  cbn [flat_map]. rewrite map_app. assert (IH' := IH ys' (fun a b Ha Hb => HR a b (or_intror Ha) (or_intror Hb)) HF').
  apply ssorted_app; [destruct o; cbn; repeat constructor|exact IH'|].
  intros p q Hp Hq. destruct o as [a|]; [|destruct Hp]. destruct Hp as [<-|[]]. rewrite (Ho a eq_refl).
  apply in_map_iff in Hq as [b [<- Hb]]. apply in_flat_map in Hb as [o' [Ho' Hb]].
  destruct o' as [b'|]; [|destruct Hb]. destruct Hb as [<-|[]].
  assert (X : exists y, In y xs /\ key b' = k y).
  { clear -HF' Ho'. induction HF' as [|y o ys os Hy HF IH]; [destruct Ho'|]. destruct Ho' as [->|Ho'].
    - exists y. split; [left; reflexivity|]. apply Hy. reflexivity.
    - destruct (IH Ho') as [y' [A1 B1]]. exists y'. split; [right; exact A1|exact B1]. }
  destruct X as [y [Hy ->]]. apply HR; [left; reflexivity|right; exact Hy|]. rewrite Forall_forall in Hf. apply Hf, Hy.
Qed.

Lemma process_cell_key est c D b p o : process_cell est c D b p = Some o ->
  (forall a, o = Some a -> cell_key a = (nth (fst p) (d_groups D) 0%Z, nth (snd p + time_factor b) (d_times D) 0%Z)
      /\ ac_post a = is_post D b (fst p) (snd p)) /\
  (o = None <-> b = Varying /\ run_att_gt est c D b (fst p) (snd p) = CNone).
Proof.
  destruct p as [g t]. cbn [fst snd]. unfold process_cell.
  destruct (run_att_gt est c D b g t) as [| |[a|] inf]; [destruct b| | |]; intros H; try discriminate H; injection H as <-.
  - split; [intros a H; injection H as <-; split; reflexivity|]. split; [discriminate|intros [X _]; discriminate].
  - split; [discriminate|]. tauto.
  - split; [intros x H; injection H as <-; split; reflexivity|]. split; [discriminate|intros [_ X]; discriminate].
  - split; [intros x H; injection H as <-; split; reflexivity|]. split; [discriminate|intros [_ X]; discriminate].
Qed.
Lemma cell_pairs_in D b g t : In (g, t) (cell_pairs D b) <-> g < length (d_groups D) /\ t + time_factor b < length (d_times D).
Proof.
  unfold cell_pairs. rewrite in_prod_iff, !in_seq. destruct b; cbn [time_factor]; lia.
Qed.
Lemma finite_groups_sorted l : StronglySorted Z.lt (finite_groups l). Proof. apply zuniq_sorted. Qed.
Lemma lexn_key c l b x y (D := build_did_data c l) : In x (cell_pairs D b) -> In y (cell_pairs D b) -> lexn x y ->
  lexz (nth (fst x) (d_groups D) 0%Z, nth (snd x + time_factor b) (d_times D) 0%Z)
       (nth (fst y) (d_groups D) 0%Z, nth (snd y + time_factor b) (d_times D) 0%Z).
Proof.
  destruct x as [g t], y as [g' t']. intros Hx Hy H. apply cell_pairs_in in Hx as [A B]. apply cell_pairs_in in Hy as [A' B'].
  unfold lexn, lexz in *; cbn in H |- *. destruct H as [H|[-> H]].
  - left. apply ssorted_nth; auto. apply finite_groups_sorted.
  - right. split; [reflexivity|]. apply ssorted_nth; auto; [apply tlist_sorted|lia].
Qed.

Lemma compute_keys est c l b cells : let D := build_did_data c l in compute_att_gt est c D b = Some cells ->
  exists os, Forall2 (fun p o => process_cell est c D b p = Some o) (cell_pairs D b) os /\
             cells = flat_map (fun o : option att_cell => match o with Some a => [a] | None => [] end) os.
Proof.
  intros D H. unfold compute_att_gt in H. destruct (sequence _) as [os|] eqn:E; [|discriminate]. injection H as <-.
  exists os. split; [apply sequence_map, E|reflexivity].
Qed.

Lemma Forall2_impl {A B} (R S : A -> B -> Prop) xs ys : (forall x y, R x y -> S x y) -> Forall2 R xs ys -> Forall2 S xs ys.
Proof. induction 2; constructor; auto. Qed.
Lemma Forall2_in_r {A B} (R : A -> B -> Prop) xs ys y : Forall2 R xs ys -> In y ys -> exists x, In x xs /\ R x y.
Proof. induction 1 as [|x y' xs ys Hxy H IH]; intros Hy; [destruct Hy|]. destruct Hy as [->|Hy]; [exists x; split; [left; reflexivity|assumption]|].
  destruct (IH Hy) as [x' [A1 B1]]. exists x'. split; [right; exact A1|exact B1]. Qed.
Lemma Forall2_in_l {A B} (R : A -> B -> Prop) xs ys x : Forall2 R xs ys -> In x xs -> exists y, In y ys /\ R x y.
Proof. induction 1 as [|x' y' xs ys Hxy H IH]; intros Hx; [destruct Hx|]. destruct Hx as [->|Hx]; [exists y'; split; [left; reflexivity|assumption]|].
  destruct (IH Hx) as [y [A1 B1]]. exists y. split; [right; exact A1|exact B1]. Qed.

Lemma in_cells (os : list (option att_cell)) a :
  In a (flat_map (fun o => match o with Some a => [a] | None => [] end) os) <-> In (Some a) os.
Proof.
  rewrite in_flat_map. split.
  - intros [[b|] [H1 H2]]; [destruct H2 as [->|[]]; exact H1|destruct H2].
  - intros H. exists (Some a). split; [exact H|left; reflexivity].
Qed.

Lemma cells_enumeration est c l b cells (D := build_did_data c l) : compute_att_gt est c D b = Some cells ->
  StronglySorted lexz (map cell_key cells) /\
  (forall a, In a cells -> In (ac_group a) (d_groups D) /\ In (ac_year a) (d_times D) /\
     (ac_post a = true <-> (ac_group a <= ac_year a)%Z) /\
     (b = Varying -> exists p, In p (d_times D) /\ (p < ac_year a)%Z)).
Proof.
  intros H. apply compute_keys in H as [os [HF ->]]. split.
  - apply (flat_option_sorted lexn lexz (fun p => (nth (fst p) (d_groups D) 0%Z, nth (snd p + time_factor b) (d_times D) 0%Z)) cell_key (cell_pairs D b)).
    + apply prod_sorted; apply seq_sorted.
    + intros x y. apply lexn_key.
    + revert HF. apply Forall2_impl. intros p o Hp a Ea. apply (proj1 (process_cell_key est c D b p o Hp) a Ea).
  - intros a Ha. apply in_cells in Ha. destruct (Forall2_in_r _ _ _ _ HF Ha) as [[g t] [Hp Hc]].
    apply (proj1 (cell_pairs_in D b g t)) in Hp as [Hg Ht].
    destruct (proj1 (process_cell_key est c D b (g, t) _ Hc) a eq_refl) as [K P]. cbn [fst snd] in *.
    unfold cell_key in K. injection K as -> ->. split; [apply nth_In, Hg|]. split; [apply nth_In, Ht|]. split.
    + rewrite P. unfold is_post. apply Z.leb_le.
    + intros ->. cbn [time_factor] in *. exists (nth 0 (d_times D) 0%Z). split; [apply nth_In; lia|].
      apply (ssorted_nth (d_times D)); [apply tlist_sorted|lia|exact Ht].
Qed.

Lemma Forall2_map_eq {A B C} (f : A -> C) (g : B -> C) xs ys : Forall2 (fun x y => g y = f x) xs ys -> map g ys = map f xs.
Proof. induction 1; cbn; congruence. Qed.

Lemma map_nth_seq (l : list Z) : map (fun i => nth i l 0%Z) (seq 0 (length l)) = l.
Proof.
  induction l as [|a l IH]; [reflexivity|]. cbn [length seq map nth]. f_equal. rewrite <- seq_shift, map_map. exact IH.
Qed.
Lemma map_list_prod {A B C D} (f : A -> C) (g : B -> D) l m :
  map (fun p => (f (fst p), g (snd p))) (list_prod l m) = list_prod (map f l) (map g m).
Proof.
  induction l as [|a l IH]; [reflexivity|]. cbn. rewrite map_app, IH, !map_map. reflexivity.
Qed.
Lemma universal_grid est c l cells (D := build_did_data c l) : compute_att_gt est c D Universal = Some cells ->
  map cell_key cells = list_prod (d_groups D) (d_times D).
Proof.
  intros H. apply compute_keys in H as [os [HF ->]]. fold D in HF.
  assert (E : exists cells, os = map Some cells /\ Forall2 (fun p a => cell_key a = (nth (fst p) (d_groups D) 0%Z, nth (snd p) (d_times D) 0%Z)) (cell_pairs D Universal) cells).
  { induction HF as [|p o ps os Hp HF [cs [-> IH]]]; [exists []; split; [reflexivity|constructor]|].
    destruct (process_cell_key est c D Universal p o Hp) as [K N]. destruct o as [a|].
    - exists (a :: cs). split; [reflexivity|]. constructor; [|exact IH]. destruct (K a eq_refl) as [K' _].
      cbn [time_factor] in K'. rewrite Nat.add_0_r in K'. exact K'.
    - destruct (proj1 N eq_refl) as [X _]. discriminate. }
  destruct E as [cs [-> HF']].
  assert (F : flat_map (fun o : option att_cell => match o with Some a => [a] | None => [] end) (map Some cs) = cs).
  { clear. induction cs as [|a cs IH]; [reflexivity|]. cbn. f_equal. exact IH. }
  rewrite F. rewrite (Forall2_map_eq _ cell_key _ _ HF'). unfold cell_pairs.
  rewrite (map_list_prod (fun i => nth i (d_groups D) 0%Z) (fun i => nth i (d_times D) 0%Z)), !map_nth_seq. reflexivity.
Qed.

(** the base-period cell under 'universal' *)
Lemma universal_base_cell est c l cells a i (D := build_did_data c l) : compute_att_gt est c D Universal = Some cells ->
  In a cells -> is_last_before (d_times D) (ac_group a - c_ant c) i -> ac_year a = nth i (d_times D) 0%Z ->
  ac_att a = 0%Qc /\ ac_inf a = repeat 0%Qc (d_ids D).
Proof.
  intros H Ha Hi Hy. apply compute_keys in H as [os [HF ->]]. fold D in HF. apply in_cells in Ha.
  destruct (Forall2_in_r _ _ _ _ HF Ha) as [[g t] [Hp Hc]].
  apply (proj1 (cell_pairs_in D _ g t)) in Hp as [Hg Ht].
  destruct (proj1 (process_cell_key est c D _ (g, t) _ Hc) a eq_refl) as [K _]. cbn [fst snd] in K.
  unfold cell_key in K. injection K as K1 K2. change (ac_group a = nth g (d_groups D) 0%Z) in K1.
  change (ac_year a = nth (t + time_factor Universal) (d_times D) 0%Z) in K2.
  assert (X : run_att_gt est c D Universal g t = CNone).
  { assert (BI : base_index (c_ant c) D Universal g t = Base i).
    { unfold base_index. rewrite <- K1. assert (HL := last_before_spec (d_times D) (ac_group a - c_ant c)%Z).
      destruct (last_before _ _) as [k|].
      - f_equal. destruct HL as [L1 [L2 L3]], Hi as [I1 [I2 I3]]. destruct (Nat.lt_trichotomy i k) as [h|[h|h]]; [|auto|].
        + specialize (I3 k ltac:(lia)). lia.
        + specialize (L3 i ltac:(lia)). lia.
      - exfalso. destruct Hi as [I1 [I2 _]]. specialize (HL i I1). lia. }
    unfold run_att_gt. rewrite BI. replace (nth i (d_times D) 0 =? nth (t + time_factor Universal) (d_times D) 0)%Z with true; [reflexivity|].
    symmetry. apply Z.eqb_eq. congruence. }
  unfold process_cell in Hc. rewrite X in Hc. injection Hc as <-. split; reflexivity.
Qed.

(** 'varying': which cells are reported *)
Lemma varying_cells est c l cells g t (D := build_did_data c l) : compute_att_gt est c D Varying = Some cells ->
  g < length (d_groups D) -> t + 1 < length (d_times D) ->
  ((exists a, In a cells /\ ac_group a = nth g (d_groups D) 0%Z /\ ac_year a = nth (t + 1) (d_times D) 0%Z)
   <-> run_att_gt est c D Varying g t <> CNone).
Proof.
  intros H Hg Ht. apply compute_keys in H as [os [HF ->]]. fold D in HF.
  assert (Hp : In (g, t) (cell_pairs D Varying)) by (apply cell_pairs_in; auto). split.
  - intros [a [Ha [Ea Eb]]]. apply in_cells in Ha. destruct (Forall2_in_r _ _ _ _ HF Ha) as [[g' t'] [Hp' Hc]].
    destruct (process_cell_key est c D _ (g', t') _ Hc) as [K N]. destruct (K a eq_refl) as [K' _]. cbn [fst snd time_factor] in *.
    apply (proj1 (cell_pairs_in D _ g' t')) in Hp' as [Hg' Ht']. cbn [time_factor] in Ht'.
    unfold cell_key in K'. injection K' as K1 K2. rewrite Ea in K1. rewrite Eb in K2.
    change (nth g (d_groups D) 0%Z = nth g' (d_groups D) 0%Z) in K1.
    change (nth (t+1) (d_times D) 0%Z = nth (t'+1) (d_times D) 0%Z) in K2.
    assert (g = g').
    { assert (S := finite_groups_sorted l : StronglySorted Z.lt (d_groups D)).
      destruct (Nat.lt_trichotomy g g') as [h|[h|h]]; [|exact h|]; apply (ssorted_nth _ _ _ S) in h; auto; lia. }
    assert (t = t').
    { assert (S := tlist_sorted l : StronglySorted Z.lt (d_times D)).
      destruct (Nat.lt_trichotomy (t+1) (t'+1)) as [h|[h|h]]; [|lia|]; apply (ssorted_nth _ _ _ S) in h; auto; lia. }
    subst. intros X. assert (Some a = None) by (apply N; auto). discriminate.
  - intros X. destruct (Forall2_in_l _ _ _ _ HF Hp) as [o [Ho Hc]].
    destruct (process_cell_key est c D _ (g, t) _ Hc) as [K N]. cbn [fst snd] in *. destruct o as [a|].
    + exists a. split; [apply in_cells, Ho|]. destruct (K a eq_refl) as [K' _]. unfold cell_key in K'. injection K' as K1 K2. auto.
    + exfalso. apply X. apply N. reflexivity.
Qed.
