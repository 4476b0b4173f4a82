(** C38: the distributed multi-period driver. *)
From Coq Require Import Permutation Sorted.
From Verif Require Import Base ListLib PreprocessModel ReduceModel AttGtModel DistDidModel DistDrvModel DistDrvSpec DistDrvProofs DistDrvProofs2.
Local Open Scope nat_scope.
Local Open Scope list_scope.

(** The cell table is the grid cohorts x periods (without the first period for the varying base), and every cell is skipped,
    normalised to zero or computed against the documented base period. *)
Theorem C38_cell_table :
  forall b ant times glist, (0 <= ant)%Z -> StronglySorted Z.lt times ->
  map (fun s => (cs_g s, cs_t s)) (cell_specs b ant times glist) = list_prod glist (skipn (time_factor b) times) /\
  Forall (cell_is_documented b ant times) (cell_specs b ant times glist).
Proof. exact specs_documented. Qed.
Print Assumptions C38_cell_table.
(** Same base period and same post flag as the local code, cell by cell; the driver skips exactly the cells for which the local code
    finds no base period. *)
Theorem C38_base_period_matches_local :
  forall ant d b gi ti, ti + time_factor b < length (d_times d) ->
  let s := cell_spec b ant (d_times d) (nth gi (d_groups d) 0%Z) ti in
  match base_index ant d b gi ti with
  | Base i => cs_pre s = Some (nth i (d_times d) 0%Z) /\ (cs_act s = AZero <-> b = Universal /\ nth i (d_times d) 0%Z = cs_t s) /\ cs_act s <> ASkip /\
              (cs_act s = ACompute -> cs_post s = is_post d b gi ti)
  | PreNone | NoPre => cs_act s = ASkip
  end.
Proof. exact spec_matches_local. Qed.
Print Assumptions C38_base_period_matches_local.
(** The order in which the cohorts finish is unobservable. *)
Theorem C38_schedule_independent :
  forall b ant times glist n outcome order order', NoDup glist -> Permutation order glist -> Permutation order' glist ->
  driver b ant times glist n outcome order = driver b ant times glist n outcome order'.
Proof. exact schedule_independent. Qed.
Print Assumptions C38_schedule_independent.
(** The rows are exactly the reported cells, in (cohort, period) order, each with its own estimate and post flag; one column per row. *)
Theorem C38_rows :
  forall b ant times glist n outcome order rows cols, NoDup glist -> Permutation order glist ->
  let cells := numbered (cell_specs b ant times glist) in
  driver b ant times glist n outcome order = DTable rows cols ->
  Forall2 (row_of outcome) (filter (reported outcome) cells) rows /\ length cols = length rows.
Proof. intros b ant times glist n outcome order rows cols N P cells H. rewrite driver_table in H by assumption. eapply rows_ok, H. Qed.
Print Assumptions C38_rows.
(** When no computed cell is dropped before a reported one, row and influence column belong to the same cell. *)
Theorem C38_columns_aligned :
  forall b ant times glist n outcome order rows cols, NoDup glist -> Permutation order glist ->
  let cells := numbered (cell_specs b ant times glist) in
  driver b ant times glist n outcome order = DTable rows cols ->
  (forall c d, In c cells -> In d cells -> reported outcome c = true -> dropped outcome d = true -> fst c < fst d) ->
  Forall2 (fun c rc => reports n outcome c (fst rc) (snd rc)) (filter (reported outcome) cells) (combine rows cols).
Proof. intros b ant times glist n outcome order rows cols N P cells H HB. rewrite driver_table in H by assumption. eapply aligned; eassumption. Qed.
Print Assumptions C38_columns_aligned.
(** Otherwise every cell reported after a dropped one carries the influence column of an earlier cell. *)
Theorem C38_columns_misaligned :
  forall b ant times glist n outcome order rows cols c d, NoDup glist -> Permutation order glist ->
  let specs := cell_specs b ant times glist in let cells := numbered specs in
  driver b ant times glist n outcome order = DTable rows cols -> In c cells -> In d cells ->
  reported outcome c = true -> dropped outcome d = true -> fst d < fst c ->
  exists j r k s, nth_error (filter (reported outcome) cells) j = Some c /\ nth_error rows j = Some r /\ row_of outcome c r /\
    In (k, s) cells /\ nth_error cols j = Some (mat_column n outcome specs k) /\ k < fst c.
Proof. intros b ant times glist n outcome order rows cols c d N P specs cells H. rewrite driver_table in H by assumption. exact (misaligned n outcome specs rows cols c d H). Qed.
Print Assumptions C38_columns_misaligned.
(** The run raises exactly when some computed cell raises, and reports "no valid cells" exactly when every cell to compute is dropped. *)
Theorem C38_failures :
  forall b ant times glist n outcome order, NoDup glist -> Permutation order glist ->
  let cells := numbered (cell_specs b ant times glist) in
  (driver b ant times glist n outcome order = DRaise <-> exists c, In c cells /\ cs_act (snd c) = ACompute /\ outcome (fst c) = CRaise) /\
  (driver b ant times glist n outcome order = DNoCells <->
     forall c, In c cells -> cs_act (snd c) <> ASkip -> cs_act (snd c) = ACompute /\ outcome (fst c) = CSkip).
Proof.
  intros b ant times glist n outcome order N P cells. rewrite driver_table by assumption. split; [apply table_raise|]. rewrite table_none.
  split; intros H c Hc K; specialize (H c Hc).
  - unfold nonskip, dropped in H. destruct (cs_act (snd c)); [congruence|discriminate (H eq_refl)|]. destruct (outcome (fst c)); try discriminate (H eq_refl). auto.
  - unfold nonskip in K. unfold dropped. destruct (cs_act (snd c)); [discriminate|destruct (H ltac:(discriminate)); discriminate|]. destruct (H ltac:(discriminate)) as [_ ->]. reflexivity.
Qed.
Print Assumptions C38_failures.
(** The chunked covariance is the plain one, for every chunk size and threshold. *)
Theorem C38_chunked_vcov :
  forall threshold chunk rows n i j, 1 <= chunk ->
  chunked_vcov threshold chunk rows n i j = (sumf (fun r => nth i r 0 * nth j r 0) rows / qn n)%Qc.
Proof. exact chunked_eq. Qed.
Print Assumptions C38_chunked_vcov.
(** The automatic partition count is the smallest one, not below the default, for which a partition's design fits the target. *)
Theorem C38_partition_count :
  forall n_default n_units k target, 1 <= target ->
  let m := auto_tune n_default n_units k target in
  n_default <= m /\ n_units * k * 8 <= target * Nat.max m 1 /\
  (forall m', n_default <= m' -> n_units * k * 8 <= target * Nat.max m' 1 -> m <= m').
Proof. exact auto_tune_ok. Qed.
Print Assumptions C38_partition_count.

(** Concrete cases. Periods 1, 2, 3, 4; cohorts 3 and 4; universal base: two base cells at zero; a dropped last cell is harmless. *)
Definition w_out (last : cell_result) (i : nat) : cell_result :=
  if i =? 7 then last else CDone (qn (10 + i)) [qn i; qn (i + 1)].
Example C38_case : exists rows cols,
  driver Universal 0 [1; 2; 3; 4]%Z [3; 4]%Z 2 (w_out CSkip) [4; 3]%Z = DTable rows cols /\ length rows = 7 /\
  map rp_att rows = [qn 10; 0%Qc; qn 12; qn 13; qn 14; qn 15; 0%Qc] /\
  map (hd 0%Qc) cols = [qn 0; 0%Qc; qn 2; qn 3; qn 4; qn 5; 0%Qc].
Proof. eexists. eexists. split; [vm_compute; reflexivity|]. vm_compute. auto. Qed.
Definition w_drop (i : nat) : cell_result := if i =? 1 then CSkip else CDone (qn (10 + i)) [qn i; qn (i + 1)].
(** One dropped cell in the middle (varying base, cells 0..5): the third row is cell 3 but its column, hence its standard error, is
    cell 2's. *)
Theorem C38_dropped_cell_refuted : exists rows cols,
  driver Varying 0 [1; 2; 3; 4]%Z [3; 4]%Z 2 w_drop [3; 4]%Z = DTable rows cols /\
  map (fun r => (rp_g r, rp_t r)) rows = [(3, 2); (3, 4); (4, 2); (4, 3); (4, 4)]%Z /\
  map rp_att rows = [qn 10; qn 12; qn 13; qn 14; qn 15] /\
  map (hd 0%Qc) cols = [qn 0; 0%Qc; qn 2; qn 3; qn 4].
Proof. eexists. eexists. split; [vm_compute; reflexivity|]. vm_compute. auto. Qed.
Print Assumptions C38_dropped_cell_refuted.
Example C38_aligned_case :
  forallb (fun c => forallb (fun d => implb (reported (w_out CSkip) c && dropped (w_out CSkip) d) (fst c <? fst d))
    (numbered (cell_specs Universal 0 [1; 2; 3; 4]%Z [3; 4]%Z))) (numbered (cell_specs Universal 0 [1; 2; 3; 4]%Z [3; 4]%Z)) = true.
Proof. vm_compute. reflexivity. Qed.
