(** Properties of the panel utilities: C29 (DDD subgroup codes), C30 (get_group), C42 (balance and
    gaps), C43 (deduplication), C44 (diagnose_panel, are_varying), C45 (first differences). *)
From Verif Require Import Base ListLib PanelModel PanelSpec PanelProofs PanelProofs2 PanelProofs3.
Local Open Scope nat_scope.
Local Open Scope list_scope.

(** closed [NoDup] goals *)
Ltac by_nodup := repeat (apply NoDup_cons; [cbn; unfold pkey; cbn; intuition (try congruence; try lia)|]); apply NoDup_nil.

(** * C29 *)
(** Position by position, the code is exactly one of 4, 3, 2, 1 and it says whether the
    observation belongs to the treated cohort [g] and whether it is eligible, and conversely. *)
Theorem C29_subgroup_codes : forall (g : Qc) (rows : list (Qc * Qc)) (j : nat) (treat part : Qc),
  length (ddd_subgroups g rows) = length rows /\
  (nth_error rows j = Some (treat, part) ->
   exists c, nth_error (ddd_subgroups g rows) j = Some c /\
     (c = 4%Z \/ c = 3%Z \/ c = 2%Z \/ c = 1%Z) /\
     (c = 4%Z <-> treat = g /\ part = 1%Qc) /\ (c = 3%Z <-> treat = g /\ part <> 1%Qc) /\
     (c = 2%Z <-> treat <> g /\ part = 1%Qc) /\ (c = 1%Z <-> treat <> g /\ part <> 1%Qc)).
Proof.
  intros g rows j treat part. unfold ddd_subgroups. split; [apply map_length|]. intros H.
  exists (ddd_code treat g part). split; [rewrite nth_error_map, H; reflexivity|].
  pose proof (proj1 (ddd_code_iff treat g part _) eq_refl) as D.
  destruct D as [[-> D]|[[-> D]|[[-> D]|[-> D]]]]; intuition (try lia; congruence).
Qed.
Print Assumptions C29_subgroup_codes.

(** The docstring describes codes 2 and 1 by treat = 0; any cohort other than [g] gets them. *)
Theorem C29_untreated_means_zero_refuted :
  ~ (forall g treat part : Qc, In (ddd_code treat g part) [1%Z; 2%Z] -> treat = 0%Qc).
Proof. intros H. specialize (H (qz 4) (qz 7) 1%Qc (or_intror (or_introl eq_refl))). discriminate H. Qed.
Print Assumptions C29_untreated_means_zero_refuted.

Example C29_nonvacuous :
  ddd_subgroups (qz 4) [(qz 4, 1%Qc); (qz 4, 0%Qc); (0%Qc, 1%Qc); (0%Qc, 0%Qc); (qz 7, 1%Qc)] = [4; 3; 2; 1; 2]%Z.
Proof. reflexivity. Qed.

(** * C30 *)
(** Whatever the row order and however ties are sorted: the rows come back in order, unchanged,
    and each carries the earliest treated period of its unit, or 0 if it has none. *)
Theorem C30_first_treated_period : forall (A : Type) (treat : A -> option Qc) (sorted df : list (prow A)),
  sorted_version sorted df ->
  map fst (get_group treat sorted df) = df /\
  forall r g, In (r, g) (get_group treat sorted df) -> is_group treat df (r_id r) g.
Proof.
  intros A treat sorted df S. split; [apply get_group_rows|]. intros r g H. eapply get_group_spec; eassumption.
Qed.
Print Assumptions C30_first_treated_period.

(** The assignment does not depend on the order of the rows. *)
Theorem C30_row_order_irrelevant : forall (A : Type) (treat : A -> option Qc) (s df s' df' : list (prow A)) r g g',
  sorted_version s df -> sorted_version s' df' -> Permutation df df' ->
  In (r, g) (get_group treat s df) -> In (r, g') (get_group treat s' df') -> g = g'.
Proof.
  intros A treat s df s' df' r g g' S S' P H H'.
  apply (get_group_spec treat s df r g S) in H as [_ H]. apply (get_group_spec treat s' df' r g' S') in H' as [_ H'].
  eapply is_group_unique; [eapply is_group_perm; [exact P|exact H]|exact H'].
Qed.
Print Assumptions C30_row_order_irrelevant.

(** With positive periods, G = 0 identifies the never-treated units. *)
Theorem C30_zero_is_never_treated : forall (A : Type) (treat : A -> option Qc) (s df : list (prow A)) r g,
  sorted_version s df -> (forall q, In q df -> (0 < r_t q)%Z) ->
  In (r, g) (get_group treat s df) -> (g = 0%Z <-> never_treated treat df (r_id r)).
Proof.
  intros A treat s df r g S Pos H. apply (get_group_spec treat s df r g S) in H as [_ [[T _]|[N ->]]].
  - split.
    + intros ->. destruct T as [q [d [Hq [_ [E _]]]]]. specialize (Pos q Hq). lia.
    + intros N. exfalso. eapply N, T.
  - split; auto.
Qed.
Print Assumptions C30_zero_is_never_treated.
(** ... but not when a period is numbered 0: a unit first treated then is indistinguishable. *)
Theorem C30_zero_is_never_treated_refuted :
  ~ (forall (A : Type) (treat : A -> option Qc) (s df : list (prow A)) r,
       sorted_version s df -> In (r, 0%Z) (get_group treat s df) -> never_treated treat df (r_id r)).
Proof.
  intros H. pose (df := [PRow 1%Z (-1)%Z (Some 0%Qc); PRow 1%Z 0%Z (Some 1%Qc)]).
  apply (H _ (fun x => x) df df (PRow 1%Z 0%Z (Some 1%Qc))) with (t := 0%Z).
  - split; [reflexivity|]. repeat constructor; cbn; unfold row_le; cbn; lia.
  - right. left. reflexivity.
  - exists (PRow 1%Z 0%Z (Some 1%Qc)), 1%Qc. cbn. repeat split; auto.
Qed.
Print Assumptions C30_zero_is_never_treated_refuted.

(** With treat_period: units with a positive treatment value anywhere get that period, the others 0. *)
Theorem C30_static_treatment : forall (A : Type) (treat : A -> option Qc) tp (df : list (prow A)),
  map fst (get_group_static treat tp df) = df /\
  forall r g, In (r, g) (get_group_static treat tp df) ->
    ((exists t, treated_at treat df (r_id r) t) /\ g = tp) \/ (never_treated treat df (r_id r) /\ g = 0%Z).
Proof.
  intros A treat tp df. split.
  - unfold get_group_static. rewrite map_map. cbn. apply map_id.
  - intros r g H. eapply get_group_static_spec, H.
Qed.
Print Assumptions C30_static_treatment.
(** On a frame that already has a column "G" the static branch leaves that column as it was. *)
Theorem C30_static_existing_column_refuted :
  ~ (forall (A : Type) (oldG : A -> Z) (treat : A -> option Qc) tp (df : list (prow A)) r g,
       In (r, g) (get_group_static_over oldG treat tp df) ->
       (exists t, treated_at treat df (r_id r) t) -> g = tp).
Proof.
  intros H. pose (df := [PRow 1%Z 5%Z 1%Qc]).
  specialize (H Qc (fun _ => 9%Z) (fun x => Some x) 5%Z df (PRow 1%Z 5%Z 1%Qc) 9%Z (or_introl eq_refl)).
  assert (E : 9%Z = 5%Z); [|discriminate]. apply H. exists 5%Z, (PRow 1%Z 5%Z 1%Qc), 1%Qc. cbn. repeat split; auto.
Qed.
Print Assumptions C30_static_existing_column_refuted.

(** A witness: rows out of order, a null treatment value, a unit that switches off again, a
    never-treated unit, a duplicated pair. *)
Definition wit_df : list (prow (option Qc)) :=
  [PRow 2 2004 (Some 1%Qc); PRow 1 2003 (Some 0%Qc); PRow 2 2003 None; PRow 1 2004 (Some 0%Qc);
   PRow 2 2002 (Some 0%Qc); PRow 3 2004 (Some 0%Qc); PRow 3 2003 (Some 1%Qc); PRow 3 2003 (Some (qz 2))]%Z.
Definition wit_sorted : list (prow (option Qc)) :=
  [PRow 1 2003 (Some 0%Qc); PRow 1 2004 (Some 0%Qc); PRow 2 2002 (Some 0%Qc); PRow 2 2003 None;
   PRow 2 2004 (Some 1%Qc); PRow 3 2003 (Some (qz 2)); PRow 3 2003 (Some 1%Qc); PRow 3 2004 (Some 0%Qc)]%Z.
Lemma wit_sorted_ok : sorted_version wit_sorted wit_df.
Proof.
  split.
  - unfold wit_sorted, wit_df.
    repeat match goal with |- Permutation (?a :: ?l) ?r =>
      let rec go pre rest := match rest with
        | a :: ?t => change r with (pre ++ a :: t); apply Permutation_cons_app; cbn [app]
        | ?b :: ?t => go (pre ++ [b]) t end in
      match r with context [a] => idtac end;
      first [ match r with a :: ?t => apply perm_skip end
            | match r with ?b1 :: a :: ?t => apply (Permutation_cons_app [b1] t a); cbn [app] end
            | match r with ?b1 :: ?b2 :: a :: ?t => apply (Permutation_cons_app [b1; b2] t a); cbn [app] end
            | match r with ?b1 :: ?b2 :: ?b3 :: a :: ?t => apply (Permutation_cons_app [b1; b2; b3] t a); cbn [app] end ] end.
    apply perm_nil.
  - unfold wit_sorted. repeat (constructor; [|repeat (constructor; [unfold row_le; cbn; lia|]); constructor]). constructor.
Qed.
Example C30_nonvacuous : sorted_version wit_sorted wit_df /\
  map snd (get_group (fun x => x) wit_sorted wit_df) = [2004; 0; 2004; 0; 2004; 2003; 2003; 2003]%Z.
Proof. split; [apply wit_sorted_ok|reflexivity]. Qed.

(** * C42 *)
(** is_balanced_panel, has_gaps and scan_gaps agree with each other and with the meaning of
    balance: every unit is observed in every period (duplicated rows notwithstanding). *)
Theorem C42_balance_tests_agree : forall (A : Type) (ids times : list Z) (df : list (prow A)),
  enumerates ids (is_unit df) -> enumerates times (is_period df) ->
  (is_balanced df = true <-> balanced_panel df) /\
  (has_gaps df = false <-> balanced_panel df) /\
  (scan_gaps ids times df = [] <-> balanced_panel df).
Proof.
  intros A ids times df Hi Ht. split; [apply is_balanced_spec|split; [apply has_gaps_spec|apply no_gaps_balanced; assumption]].
Qed.
Print Assumptions C42_balance_tests_agree.

(** scan_gaps lists each missing unit-period pair exactly once and nothing else. *)
Theorem C42_scan_gaps_exact : forall (A : Type) (ids times : list Z) (df : list (prow A)),
  enumerates ids (is_unit df) -> enumerates times (is_period df) ->
  enumerates (scan_gaps ids times df)
    (fun k => is_unit df (fst k) /\ is_period df (snd k) /\ ~ observed df (fst k) (snd k)).
Proof. intros. apply scan_gaps_spec; assumption. Qed.
Print Assumptions C42_scan_gaps_exact.

(** fill_panel_gaps: the result has no gaps; the rows of an observed pair are kept, in order and
    with their values; a missing pair gets exactly one row, with nulls; no other rows appear. *)
Theorem C42_fill_panel_gaps : forall (A : Type) (ids times : list Z) (df : list (prow A)),
  enumerates ids (is_unit df) -> enumerates times (is_period df) ->
  has_gaps (fill_gaps ids times df) = false /\
  (forall i t, observed (fill_gaps ids times df) i t <-> is_unit df i /\ is_period df t) /\
  (forall i t, observed df i t ->
     rows_at (fill_gaps ids times df) (i, t) =
     map (fun r => PRow (r_id r) (r_t r) (Some (r_val r))) (rows_at df (i, t))) /\
  (forall i t, is_unit df i -> is_period df t -> ~ observed df i t ->
     rows_at (fill_gaps ids times df) (i, t) = [PRow i t None]).
Proof.
  intros A ids times df Hi Ht. split; [apply has_gaps_spec, fill_balanced; assumption|].
  split; [intros; apply fill_obs; assumption|]. split.
  - intros i t H. apply fill_rows_at; assumption.
  - intros. apply fill_rows_new; assumption.
Qed.
Print Assumptions C42_fill_panel_gaps.

(** complete_data(min_periods = m) keeps, in order, exactly the rows of the units observed in at
    least [m] distinct periods; whole units are kept or dropped. *)
Theorem C42_complete_data_threshold : forall (A : Type) (m : nat) (df : list (prow A)),
  (forall r, In r (complete_data (Some m) df) <->
     In r df /\ exists n, has_card (observed df (r_id r)) n /\ m <= n) /\
  (forall i, is_unit (complete_data (Some m) df) i -> unit_rows (complete_data (Some m) df) i = unit_rows df i) /\
  (exists p, complete_data (Some m) df = filter p df).
Proof.
  intros A m df.
  assert (E : forall r, In r (complete_data (Some m) df) <->
     In r df /\ exists n, has_card (observed df (r_id r)) n /\ m <= n).
  { intros r. rewrite complete_data_in. split; intros [H1 H2]; (split; [exact H1|]).
    - exists (obs_periods df (r_id r)). split; [apply obs_periods_card|exact H2].
    - destruct H2 as [n [C L]]. rewrite (card_unique _ _ _ (obs_periods_card df (r_id r)) C). exact L. }
  split; [exact E|]. split.
  - intros i [t [r [Hr [<- _]]]]. apply complete_keeps_unit. apply (complete_data_in (Some m)) in Hr. apply Hr.
  - rewrite complete_data_filter. eexists. reflexivity.
Qed.
Print Assumptions C42_complete_data_threshold.

(** complete_data() with no threshold keeps exactly the units observed in every period, so its
    result is balanced, with or without duplicated rows. *)
Theorem C42_complete_data_balanced : forall (A : Type) (df : list (prow A)),
  (forall r, In r (complete_data None df) <-> In r df /\ forall t, is_period df t -> observed df (r_id r) t) /\
  is_balanced (complete_data None df) = true.
Proof. intros A df. split; [intros; apply complete_none_in|apply is_balanced_spec, complete_none_balanced]. Qed.
Print Assumptions C42_complete_data_balanced.

(** make_balanced_panel does the same when no unit-period pair is duplicated ... *)
Theorem C42_make_balanced_panel : forall (A : Type) (df : list (prow A)), unique_pairs df ->
  make_balanced df = complete_data None df /\
  (forall r, In r (make_balanced df) <-> In r df /\ forall t, is_period df t -> observed df (r_id r) t) /\
  is_balanced (make_balanced df) = true.
Proof.
  intros A df U. rewrite (make_balanced_complete df U). split; [reflexivity|]. apply C42_complete_data_balanced.
Qed.
Print Assumptions C42_make_balanced_panel.
(** ... but it counts rows: with duplicates it can keep a unit with a gap and drop a complete
    one, so the result need not be balanced and differs from complete_data(). *)
Theorem C42_make_balanced_duplicates_refuted :
  ~ (forall (A : Type) (df : list (prow A)), is_balanced (make_balanced df) = true) /\
  ~ (forall (A : Type) (df : list (prow A)), make_balanced df = complete_data None df) /\
  ~ (forall (A : Type) (df : list (prow A)) r, In r df -> (forall t, is_period df t -> observed df (r_id r) t) ->
       In r (make_balanced df)).
Proof.
  pose (df := [PRow 1 1 tt; PRow 1 1 tt; PRow 2 1 tt; PRow 2 2 tt]%Z).
  pose (df2 := [PRow 1 1 tt; PRow 1 1 tt; PRow 1 2 tt; PRow 2 1 tt; PRow 2 2 tt]%Z).
  split; [|split].
  - intros H. specialize (H unit df). discriminate H.
  - intros H. specialize (H unit df). discriminate H.
  - intros H. specialize (H unit df2 (PRow 1 1 tt)%Z (or_introl eq_refl)).
    assert (X : In (PRow 1 1 tt)%Z (make_balanced df2)).
    { apply H. intros t [i [r [Hr [_ <-]]]]. cbn in Hr.
      assert (C : r_t r = 1%Z \/ r_t r = 2%Z) by (intuition (subst; cbn; auto)).
      destruct C as [->| ->]; [exists (PRow 1 1 tt)%Z|exists (PRow 1 2 tt)%Z]; cbn; auto. }
    cbn in X. intuition discriminate.
Qed.
Print Assumptions C42_make_balanced_duplicates_refuted.

Definition wit_panel : list (prow Z) :=
  [PRow 1 1 10; PRow 1 2 11; PRow 2 1 20; PRow 3 2 31; PRow 3 1 30]%Z.
Example C42_nonvacuous :
  enumerates [3; 1; 2]%Z (is_unit wit_panel) /\ enumerates [2; 1]%Z (is_period wit_panel) /\ unique_pairs wit_panel /\
  scan_gaps [3; 1; 2]%Z [2; 1]%Z wit_panel = [(2, 2)]%Z /\ has_gaps wit_panel = true /\
  make_balanced wit_panel = [PRow 1 1 10; PRow 1 2 11; PRow 3 2 31; PRow 3 1 30]%Z.
Proof.
  assert (N : forall l : list Z, StronglySorted Z.lt (zuniq l)) by (intros; apply zuniq_sorted).
  split; [|split; [|split; [|repeat split; reflexivity]]].
  - split; [by_nodup|]. intros x. rewrite <- in_ids. cbn. intuition.
  - split; [by_nodup|]. intros x. rewrite <- in_times. cbn. intuition.
  - unfold unique_pairs. cbn. by_nodup.
Qed.

(** * C43 *)
(** deduplicate_panel: whatever order polars returns the pairs in, the result has one row per
    observed pair and no other pair; "first" keeps the earliest row of the pair and "last" the latest. *)
Theorem C43_one_row_per_pair : forall (A : Type) (keys : list (Z * Z)) (df : list (prow A)),
  enumerates keys (fun k => observed df (fst k) (snd k)) ->
  (unique_pairs (dedup_first keys df) /\ forall i t, observed (dedup_first keys df) i t <-> observed df i t) /\
  (unique_pairs (dedup_last keys df) /\ forall i t, observed (dedup_last keys df) i t <-> observed df i t) /\
  (forall r, In r (dedup_first keys df) <->
     exists before after, df = before ++ r :: after /\ forall q, In q before -> pkey q <> pkey r) /\
  (forall r, In r (dedup_last keys df) <->
     exists before after, df = before ++ r :: after /\ forall q, In q after -> pkey q <> pkey r).
Proof.
  intros A keys df H. split; [|split; [|split]].
  - eapply keys_obs; [exact H|]. apply dedup_first_keys, H.
  - eapply keys_obs; [exact H|]. apply dedup_last_keys, H.
  - intros r. apply dedup_first_in, H.
  - intros r. apply dedup_last_in, H.
Qed.
Print Assumptions C43_one_row_per_pair.

(** strategy "mean": one row per pair; each numeric column is the mean of the non-null values
    the pair's rows have in that column (null if there are none); the other columns come from the
    pair's first row. *)
Theorem C43_mean_strategy : forall (B : Type) (k : nat) (keys : list (Z * Z)) (df : list (prow (list (option Qc) * B))),
  enumerates keys (fun p => observed df (fst p) (snd p)) ->
  (unique_pairs (dedup_mean k keys df) /\ forall i t, observed (dedup_mean k keys df) i t <-> observed df i t) /\
  forall q, In q (dedup_mean k keys df) ->
    length (fst (r_val q)) = k /\
    (forall j, j < k ->
       let col := flat_map (fun r => match nth j (fst (r_val r)) None with Some x => [x] | None => [] end)
                    (filter (fun r => pair_eqb (pkey r) (pkey q)) df) in
       (col = [] /\ nth j (fst (r_val q)) None = None) \/
       (col <> [] /\ exists m, nth j (fst (r_val q)) None = Some m /\ (m * qn (length col) = qsum col)%Qc)) /\
    (exists before r after, df = before ++ r :: after /\ pkey r = pkey q /\
       (forall s, In s before -> pkey s <> pkey q) /\ snd (r_val q) = snd (r_val r)).
Proof.
  intros B k keys df H. split.
  - eapply keys_obs; [exact H|]. apply dedup_mean_keys, H.
  - intros q Hq. destruct (dedup_mean_in k keys df q H Hq) as [h1 [h2 h3]]. split; [exact h1|split].
    + intros j Hj. cbv zeta. rewrite (h2 j Hj). unfold pl_mean.
      assert (E : non_null (map (fun r => nth j (fst (r_val r)) None) (rows_at df (pkey q)))
        = flat_map (fun r => match nth j (fst (r_val r)) None with Some x => [x] | None => [] end)
            (filter (fun r => pair_eqb (pkey r) (pkey q)) df)).
      { unfold non_null, rows_at. rewrite !flat_map_concat_map, map_map. reflexivity. }
      rewrite E. destruct (flat_map _ _) as [|x xs]; [left; auto|]. right. split; [discriminate|].
      eexists. split; [reflexivity|]. field. apply qn_neq0. cbn; lia.
    + destruct h3 as [l1 [l2 [r [e1 [e2 [e3 e4]]]]]]. exists l1, r, l2. auto.
Qed.
Print Assumptions C43_mean_strategy.

(** On a panel without duplicates deduplication only permutes the rows. *)
Theorem C43_no_duplicates_unchanged : forall (A : Type) (keys : list (Z * Z)) (df : list (prow A)),
  enumerates keys (fun k => observed df (fst k) (snd k)) -> unique_pairs df ->
  Permutation (dedup_first keys df) df /\ Permutation (dedup_last keys df) df.
Proof. intros A keys df H U. split; [apply dedup_first_unique|apply dedup_last_unique]; assumption. Qed.
Print Assumptions C43_no_duplicates_unchanged.

Definition wit_dup : list (prow (list (option Qc) * Z)) :=
  [PRow 1 1 ([Some 1%Qc], 7); PRow 2 1 ([None], 8); PRow 1 1 ([Some (qz 3)], 9); PRow 1 1 ([None], 5)]%Z.
Example C43_nonvacuous :
  enumerates [(2, 1); (1, 1)]%Z (fun k => observed wit_dup (fst k) (snd k)) /\
  dedup_last [(2, 1); (1, 1)]%Z wit_dup = [PRow 2 1 ([None], 8); PRow 1 1 ([None], 5)]%Z /\
  map (fun q => (pkey q, map (option_map this) (fst (r_val q)), snd (r_val q))) (dedup_mean 1 [(2, 1); (1, 1)]%Z wit_dup)
  = [((2, 1), [None], 8); ((1, 1), [Some (2 # 1)%Q], 7)]%Z.
Proof.
  split; [|split; reflexivity]. split; [by_nodup|].
  intros [i t]. rewrite <- in_pkey. cbn. intuition.
Qed.

(** * C44 *)
(** Every count of diagnose_panel is the number of things it names. *)
Theorem C44_diagnostics_counts : forall (A : Type) (treat : A -> option Qc) (has_null : A -> bool) (df : list (prow A)),
  let d := diagnose (Some treat) has_null df in
  has_card (is_unit df) (d_n_units d) /\ has_card (is_period df) (d_n_periods d) /\
  d_n_obs d = length df /\
  (d_balanced d = true <-> balanced_panel df) /\
  has_card (fun k => is_unit df (fst k) /\ is_period df (snd k) /\ ~ observed df (fst k) (snd k)) (d_n_gaps d) /\
  has_card (fun i => is_unit df i /\ exists t, is_period df t /\ ~ observed df i t) (d_n_unbalanced d) /\
  has_card (fun i => is_unit df i /\ exists t, forall u, observed df i u <-> u = t) (d_n_single d) /\
  d_n_missing d = length (filter (fun r => has_null (r_val r)) df) /\
  (exists n, d_n_early d = Some n /\ (df <> [] -> exists first, is_period df first /\
     (forall t, is_period df t -> (first <= t)%Z) /\ has_card (fun i => treated_at treat df i first) n)) /\
  (exists v, d_varying d = Some v /\ (v = true <->
     exists r q, In r df /\ In q df /\ r_id r = r_id q /\ treat (r_val r) <> treat (r_val q))) /\
  (exists np, has_card (fun k => observed df (fst k) (snd k)) np /\ d_n_dups d + np = length df).
Proof.
  intros A treat hn df d. unfold d, diagnose.
  cbn [d_n_units d_n_periods d_n_obs d_balanced d_n_gaps d_n_unbalanced d_n_single d_n_missing d_n_early d_varying d_n_dups].
  split; [apply n_units_card|]. split; [apply n_periods_card|]. split; [reflexivity|]. split; [apply is_balanced_spec|].
  split; [apply enum_missing|]. split; [apply n_unbalanced_spec|]. split; [apply n_single_spec|]. split.
  { pose proof (filter_split_length (fun r => hn (r_val r)) df). lia. }
  split.
  { eexists. split; [reflexivity|]. intros NE. exists (first_period df).
    destruct (first_period_min df NE) as [h1 h2]. split; [exact h1|split; [exact h2|apply n_early_spec]]. }
  split.
  { eexists. split; [reflexivity|]. apply are_varying_spec, oqeqb_spec. }
  exists (n_pairs df). split; [apply n_pairs_card|]. pose proof (n_pairs_le_obs df). lia.
Qed.
Print Assumptions C44_diagnostics_counts.

(** The suggestions name a remedy exactly when the problem exists, with its size, and applying
    the remedy clears it. *)
Theorem C44_suggested_remedies_work : forall (A : Type) (treat : option (A -> option Qc)) (hn : A -> bool) (df : list (prow A)),
  let d := diagnose treat hn df in
  ((exists n, In (SDedup n) (d_suggestions d)) <-> ~ unique_pairs df) /\
  ((exists n, In (SFill n) (d_suggestions d)) <-> ~ balanced_panel df) /\
  ((exists n, In (SBalance n) (d_suggestions d)) <-> unique_pairs df /\ ~ balanced_panel df) /\
  (forall keys, enumerates keys (fun k => observed df (fst k) (snd k)) ->
     d_n_dups (diagnose treat hn (dedup_last keys df)) = 0 /\ d_n_dups (diagnose treat hn (dedup_first keys df)) = 0) /\
  (forall ids times treat' hn', enumerates ids (is_unit df) -> enumerates times (is_period df) ->
     d_n_gaps (diagnose treat' hn' (fill_gaps ids times df)) = 0) /\
  (forall n, In (SBalance n) (d_suggestions d) ->
     d_balanced (diagnose treat hn (make_balanced df)) = true /\
     has_card (fun i => is_unit df i /\ ~ is_unit (make_balanced df) i) n).
Proof.
  intros A treat hn df d. subst d. repeat split.
  - intros [n H]. apply sug_dedup in H as [E L]. intros U. apply (diag_dups0 treat hn) in U. lia.
  - intros U. exists (d_n_dups (diagnose treat hn df)). apply sug_dedup. split; [reflexivity|].
    pose proof (diag_dups0 treat hn df) as D. destruct (d_n_dups (diagnose treat hn df)); [|lia]. exfalso. apply U, D. reflexivity.
  - intros [n H]. apply sug_fill in H as [E L]. intros U. apply (diag_gaps0 treat hn) in U. lia.
  - intros U. exists (d_n_gaps (diagnose treat hn df)). apply sug_fill. split; [reflexivity|].
    pose proof (diag_gaps0 treat hn df) as D. destruct (d_n_gaps (diagnose treat hn df)); [|lia]. exfalso. apply U, D. reflexivity.
  - destruct H as [n H]. apply sug_balance in H as [E [L D]]. apply (diag_dups0 treat hn), D.
  - destruct H as [n H]. apply sug_balance in H as [E [L D]]. intros B. apply (diag_unb0 treat hn) in B. lia.
  - intros [U B]. exists (d_n_unbalanced (diagnose treat hn df)). apply sug_balance. split; [reflexivity|].
    pose proof (diag_unb0 treat hn df) as D. split; [|apply diag_dups0, U].
    destruct (d_n_unbalanced (diagnose treat hn df)); [|lia]. exfalso. apply B, D. reflexivity.
  - apply diag_dups0. exact (proj1 (keys_obs df keys _ H (dedup_last_keys keys df H))).
  - apply diag_dups0. exact (proj1 (keys_obs df keys _ H (dedup_first_keys keys df H))).
  - intros ids times treat' hn' Hi Ht. apply diag_gaps0, fill_balanced; assumption.
  - apply sug_balance in H as [E [L D]]. apply diag_dups0 in D. apply (C42_make_balanced_panel A df D).
  - apply sug_balance in H as [E [L D]]. apply diag_dups0 in D.
    destruct (n_unbalanced_spec df) as [l [[N Hl] El]]. exists l. split; [|rewrite El; symmetry; exact E].
    split; [exact N|]. intros i. rewrite Hl. pose proof (C42_make_balanced_panel A df D) as [_ [M _]]. split.
    + intros [Hi [t [Ht No]]]. split; [exact Hi|]. intros [u [r [Hr [Er _]]]]. apply M in Hr as [_ Hr]. subst i. apply No, Hr, Ht.
    + intros [Hi Nu]. split; [exact Hi|].
      destruct (existsb (fun t => negb (existsb (pair_eqb (i, t)) (map pkey df))) (zuniq (map r_t df))) eqn:X.
      * apply existsb_exists in X as [t [Ht X]]. rewrite zuniq_in, in_times in Ht. exists t. split; [exact Ht|].
        rewrite <- in_pkey, <- existsb_pair. destruct (existsb (pair_eqb (i, t)) (map pkey df)); cbn in X; congruence.
      * exfalso. destruct Hi as [u [r [Hr [Er Et]]]]. apply Nu. exists u, r. split; [|auto]. apply M. split; [exact Hr|].
        intros t Ht. subst i. destruct (existsb (pair_eqb (r_id r, t)) (map pkey df)) eqn:Y.
        -- apply existsb_pair, in_pkey in Y. exact Y.
        -- exfalso. assert (Z0 : existsb (fun t => negb (existsb (pair_eqb (r_id r, t)) (map pkey df))) (zuniq (map r_t df)) = true); [|congruence].
           apply existsb_exists. exists t. rewrite zuniq_in, in_times, Y. auto.
Qed.
Print Assumptions C44_suggested_remedies_work.

(** are_varying reports a column as varying exactly when some unit has two rows that differ in it. *)
Theorem C44_are_varying : forall (A V : Type) (veqb : V -> V -> bool) (col : A -> V) (df : list (prow A)),
  (forall x y, reflect (x = y) (veqb x y)) ->
  (are_varying veqb col df = true <->
   exists r q, In r df /\ In q df /\ r_id r = r_id q /\ col (r_val r) <> col (r_val q)).
Proof. intros A V veqb col df H. apply are_varying_spec, H. Qed.
Print Assumptions C44_are_varying.

(** n_duplicate_unit_time is documented as "number of rows that share a unit-time pair with
    another row"; it is the number of surplus rows. *)
Theorem C44_duplicate_rows_documented_refuted :
  ~ (forall (A : Type) treat hn (df : list (prow A)),
       d_n_dups (diagnose treat hn df) = length (filter (fun r => 1 <? length (rows_at df (pkey r))) df)).
Proof.
  intros H. specialize (H unit None (fun _ => false) [PRow 1 1 tt; PRow 1 1 tt; PRow 2 1 tt]%Z). discriminate H.
Qed.
Print Assumptions C44_duplicate_rows_documented_refuted.

(** "Call complete_data() or make_balanced_panel() to drop n units observed in only one period"
    is also issued for a one-period panel, where neither call drops anything. *)
Theorem C44_single_period_remedy_refuted :
  ~ (forall (A : Type) treat hn (df : list (prow A)) n, In (SSingle n) (d_suggestions (diagnose treat hn df)) ->
       forall i, is_unit (complete_data None df) i -> ~ exists t, forall u, observed df i u <-> u = t).
Proof.
  intros H. specialize (H unit None (fun _ => false) [PRow 1 1 tt; PRow 2 1 tt]%Z 2).
  apply (H (or_introl eq_refl) 1%Z).
  - exists 1%Z, (PRow 1 1 tt)%Z. cbn. auto.
  - exists 1%Z. intros u. rewrite <- in_pkey. cbn. unfold pkey; cbn. intuition congruence.
Qed.
Print Assumptions C44_single_period_remedy_refuted.
(** With at least two periods both calls do drop every single-period unit (make_balanced_panel
    on a panel without duplicates). *)
Theorem C44_single_period_remedy : forall (A : Type) (df : list (prow A)) i t t',
  is_period df t -> is_period df t' -> t <> t' ->
  (exists s, forall u, observed df i u <-> u = s) ->
  ~ is_unit (complete_data None df) i /\ (unique_pairs df -> ~ is_unit (make_balanced df) i).
Proof.
  intros A df i t t' Ht Ht' D [s S].
  assert (X : ~ is_unit (complete_data None df) i).
  { intros [u [r [Hr [<- _]]]]. apply complete_none_in in Hr as [_ Hr].
    pose proof (proj1 (S t) (Hr t Ht)). pose proof (proj1 (S t') (Hr t' Ht')). congruence. }
  split; [exact X|]. intros U. rewrite (make_balanced_complete df U). exact X.
Qed.
Print Assumptions C44_single_period_remedy.

Example C44_nonvacuous :
  let d := diagnose (Some (fun x : option Qc => x)) (fun x => match x with None => true | _ => false end) wit_df in
  d_n_units d = 3 /\ d_n_periods d = 3 /\ d_n_dups d = 1 /\ d_n_gaps d = 2 /\ d_n_unbalanced d = 2 /\
  d_n_missing d = 1 /\ d_n_early d = Some 0 /\ d_varying d = Some true /\
  d_suggestions d = [SDedup 1; SFill 2; SMissing 1; SVarying] /\
  (exists keys, enumerates keys (fun k => observed wit_df (fst k) (snd k))) /\
  d_suggestions (diagnose None (fun _ => false) wit_panel) = [SFill 1; SBalance 1; SSingle 1].
Proof.
  cbv zeta. repeat (split; [reflexivity|]). split; [|reflexivity].
  destruct (n_pairs_card wit_df) as [l [H _]]. exists l. exact H.
Qed.

(** * C45 *)
(** get_first_difference on a panel without duplicated pairs: rows are unchanged apart from being
    sorted, and dy is the outcome minus the outcome in the unit's previous observed period (null
    when either is null), null in the unit's first period. *)
Theorem C45_first_difference : forall (A : Type) (y : A -> option Qc) (sorted df : list (prow A)),
  sorted_version sorted df -> unique_pairs df ->
  map fst (first_difference y sorted) = sorted /\
  forall r v, In (r, v) (first_difference y sorted) ->
    (exists p, In p df /\ r_id p = r_id r /\ prev_period df (r_id r) (r_t r) (r_t p) /\
       match y (r_val r), y (r_val p) with
       | Some a, Some b => v = Some (a - b)%Qc
       | _, _ => v = None
       end)
    \/ ((forall u, observed df (r_id r) u -> (r_t r <= u)%Z) /\ v = None).
Proof.
  intros A y sorted df S U. split; [apply fd_rows_fst|]. intros r v H.
  destruct (first_difference_spec y sorted df r v S U H) as [_ [[p [h1 [h2 [h3 h4]]]]|h]]; [left|right; exact h].
  exists p. split; [exact h1|split; [exact h2|split; [exact h3|]]]. rewrite h4.
  destruct (y (r_val r)), (y (r_val p)); reflexivity.
Qed.
Print Assumptions C45_first_difference.

(** When unit [i] is observed in period t-1, dy in period t is Y_t - Y_(t-1), as documented. *)
Theorem C45_consecutive_periods : forall (A : Type) (y : A -> option Qc) (sorted df : list (prow A)) r v p,
  sorted_version sorted df -> unique_pairs df -> In (r, v) (first_difference y sorted) ->
  In p df -> r_id p = r_id r -> r_t p = (r_t r - 1)%Z ->
  v = match y (r_val r), y (r_val p) with Some a, Some b => Some (a - b)%Qc | _, _ => None end.
Proof.
  intros A y sorted df r v p S U H Hp Ei Et.
  assert (O : observed df (r_id r) (r_t p)) by (exists p; auto).
  destruct (first_difference_spec y sorted df r v S U H) as [_ [[q [h1 [h2 [[_ [h3 h5]] h4]]]]|[h _]]].
  - specialize (h5 (r_t p) O ltac:(lia)). assert (E : r_t q = r_t p) by lia.
    assert (q = p).
    { pose proof (rows_at_unique df q U h1) as R1. pose proof (rows_at_unique df p U Hp) as R2.
      replace (pkey q) with (pkey p) in R1 by (unfold pkey; congruence). congruence. }
    subst q. rewrite h4. reflexivity.
  - specialize (h (r_t p) O). lia.
Qed.
Print Assumptions C45_consecutive_periods.
(** The documented formula Y_t - Y_(t-1) fails across a gap: the difference spans it. *)
Theorem C45_gap_refuted :
  ~ (forall (A : Type) (y : A -> option Qc) (sorted df : list (prow A)) r v,
       sorted_version sorted df -> unique_pairs df -> In (r, v) (first_difference y sorted) ->
       ~ observed df (r_id r) (r_t r - 1) -> v = None).
Proof.
  intros H. pose (df := [PRow 1 1 (Some 1%Qc); PRow 1 5 (Some 1%Qc)]%Z).
  specialize (H _ (fun x => x) df df (PRow 1 5 (Some 1%Qc))%Z (Some 0%Qc)).
  assert (E : Some 0%Qc = None); [|discriminate]. apply H.
  - split; [reflexivity|]. repeat constructor; unfold row_le; cbn; lia.
  - unfold unique_pairs. cbn. by_nodup.
  - right. left. reflexivity.
  - intros h. apply in_pkey in h. cbn in h. unfold pkey in h; cbn in h. intuition congruence.
Qed.
Print Assumptions C45_gap_refuted.

Definition wit_fd : list (prow (option Qc)) :=
  [PRow 1 1 (Some 1%Qc); PRow 1 2 (Some (qz 4)); PRow 1 4 (Some (qz 9)); PRow 2 1 None; PRow 2 2 (Some (qz 7))]%Z.
Example C45_nonvacuous : sorted_version wit_fd wit_fd /\ unique_pairs wit_fd /\
  map (fun rv => option_map this (snd rv)) (first_difference (fun x => x) wit_fd)
  = [None; Some (3 # 1)%Q; Some (5 # 1)%Q; None; None].
Proof.
  split; [|split; [|reflexivity]].
  - split; [reflexivity|]. unfold wit_fd. repeat (constructor; [|repeat (constructor; [unfold row_le; cbn; lia|]); constructor]). constructor.
  - unfold unique_pairs. cbn. by_nodup.
Qed.
