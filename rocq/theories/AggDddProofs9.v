(** agg_ddd applied to the output of multi-period ddd (C69). *)
From Verif Require Import Base ListLib Calc PreprocessModel PreprocessProofs AttGtModel SeModel ReduceModel DrdidModel DrdidSpec DddModel DddSpec DddMpModel DddMpSpec DddMpProofs1 DddMpProofs2 DddMpProofs4 DddMpProofs5 AggteModel AggteSpec AggteProofs AggDddModel AggDddSpec AggDddProofs2 AggDddProofs4 AggDddProofs5 AggDddProofs8.

Lemma unit_group_of data r : time_constant data -> In r data -> unit_group data (l_id r) = l_g r.
Proof.
  intros TC Hr. unfold unit_group. destruct (isort by_time (filter (fun x => (l_id x =? l_id r)%Z) data)) as [|x l] eqn:E.
  - exfalso. assert (X : In r (isort by_time (filter (fun x => (l_id x =? l_id r)%Z) data))) by (apply isort_in, filter_In; split; [exact Hr|apply Z.eqb_refl]). rewrite E in X. destruct X.
  - assert (X : In x (isort by_time (filter (fun x => (l_id x =? l_id r)%Z) data))) by (rewrite E; left; reflexivity). rewrite isort_in, filter_In, Z.eqb_eq in X. destruct X as [X1 X2].
    exact (proj1 (TC x r X1 Hr X2)).
Qed.
Lemma table_ok_mp o q k m b never data rows cols ses : keyed data -> time_constant data -> ddd_mp o q k m b never data = MTable rows cols ses ->
  table_ok (mp_tlist data) (mp_glist data) (mp_unit_groups data) (mp_entries rows cols).
Proof.
  intros K TC E. split; [apply zuniq_sorted|]. split.
  - intros c Hc. unfold mp_entries in Hc. apply in_map_iff in Hc. destruct Hc as [[[[g t] a] col] [<- Hc]]. cbn. apply in_combine_l in Hc.
    assert (X := proj1 (cells_present o q k m b never data K rows cols ses g t E) (ex_intro _ a Hc)). rewrite glist_in, tlist_in. tauto.
  - intros g Hg. apply glist_in in Hg. destruct Hg as [_ [r [Hr Eg]]]. unfold mp_unit_groups. apply in_map_iff. exists (l_id r). split; [rewrite (unit_group_of data r TC Hr); exact Eg|].
    apply zuniq_in, in_map, Hr.
Qed.
Lemma shock_tlist f gam bet tau data : mp_tlist (map (shock_row f gam bet tau) data) = mp_tlist data. Proof. unfold mp_tlist. rewrite map_map. reflexivity. Qed.
Lemma shock_glist f gam bet tau data : mp_glist (map (shock_row f gam bet tau) data) = mp_glist data. Proof. unfold mp_glist. rewrite map_map. reflexivity. Qed.
Lemma shock_groups f gam bet tau data : mp_unit_groups (map (shock_row f gam bet tau) data) = mp_unit_groups data.
Proof.
  unfold mp_unit_groups, mp_ids. rewrite map_map. cbn [shock_row l_id]. apply map_ext. intros i. unfold unit_group. rewrite filter_map'. cbn [shock_row l_id].
  rewrite (isort_map (shock_row f gam bet tau) by_time by_time) by reflexivity. destruct (isort by_time _); reflexivity.
Qed.
Lemma shock_entries (d : Z -> Z -> Qc) rows cols : mp_entries (map (fun r => let '(g, t, att) := r in (g, t, att + d g t)) rows) cols = map (shift_cell d) (mp_entries rows cols).
Proof.
  unfold mp_entries. rewrite map_map. revert cols. induction rows as [|[[g t] a] rows IH]; intros [|c cols]; try reflexivity. cbn [map combine]. f_equal. apply IH.
Qed.
