(** Model of one (g, t) cell of the distributed multi-period triple-difference estimator, from the long data on: the row filters and the
    merge of the two periods (moderndid/dask/_ddd_streaming.py:137-158, 345-371, 911-945, 1150-1168) and the choice of the control cohorts
    (moderndid/dask/_ddd_mp.py:980-1045). Definitions only. Cells with a base period; CPU; panel data; not the wide-pivot path. *)
From Verif Require Import Base ListLib ReduceModel PreprocessModel DrdidModel DddModel DddMpModel DistDidModel DistDddModel.

(** one row of post_dask.merge(pre_dask, on=id_col, how="inner") (_ddd_streaming.py:931-941) *)
Definition merged_row (r1 r0 : lrow) : mrow :=
  {| m_id := l_id r1; m_g := l_g r1; m_p := l_p r1; m_y1 := l_y r1; m_y0 := l_y r0; m_w := l_w r1; m_x := l_x r1 |}.
(** filtered = dask_data.loc[group_filter]; post and pre rows; inner merge on the unit *)
Definition merge_rows (keep : grp -> bool) (t p : Z) (data : list lrow) : list mrow :=
  let filtered := filter (fun r => keep (l_g r)) data in
  let pre := filter (fun r => (l_t r =? p)%Z) filtered in
  flat_map (fun r1 => map (merged_row r1) (filter (fun r0 => (l_id r0 =? l_id r1)%Z) pre)) (filter (fun r => (l_t r =? t)%Z) filtered).
(** group_filter: never-treated (_ddd_streaming.py:920-921), one control cohort (1150), several (346) *)
Definition keep_never (g : Z) (c : grp) : bool := grp_eqb c (Fin 0) || grp_eqb c (Fin g).
Definition keep_one (g : Z) (ctrl : grp) (c : grp) : bool := grp_eqb c ctrl || grp_eqb c (Fin g).
Definition keep_later (g t p : Z) (c : grp) : bool := grp_eqb c (Fin 0) || grp_gtz c (Z.max t p) || grp_eqb c (Fin g).
(** available_controls = sorted([int(c) for c in glist_raw if c != g and (c == 0 or c > max_period) and np.isfinite(c)])
    (_ddd_mp.py:1015-1017) *)
Definition dist_controls (g t p : Z) (data : list lrow) : list grp :=
  map Fin (zuniq (flat_map (fun c => match c with
    | Fin z => if negb (z =? g)%Z && ((z =? 0) || (Z.max t p <? z))%Z then [z] else []
    | Inf => [] end) (map l_g data))).

(** One cell. [layout]: the rows of the merged frame in its partitions; [order]: the order in which the influence tasks of the
    partitions complete. *)
Definition dist_gt (o : dist_oracle) (q : gmm_oracle) (m : emethod) (k fan : nat) (tl : Qc) (never : bool) (data : list lrow) (g t p : Z)
    (layout : list mrow -> list (list mrow)) (order : list (list mrow) -> list (list mrow)) : multi_result :=
  let ids := mp_ids data in
  let run cs keep := let parts := layout (merge_rows keep t p data) in multi_cell o q m k fan tl ids g cs parts (order parts) in
  if never then run [Fin 0] (keep_never g)
  else match dist_controls g t p data with
       | [] => ZSkip
       | [c] => run [c] (keep_one g c)
       | cs => run cs (keep_later g t p)
       end.
