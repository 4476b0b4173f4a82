(** Model of one distributed triple-difference cell on panel data: moderndid/distributed/_ddd_partition.py:12-396 and
    moderndid/dask/_ddd_streaming.py:36-481, 849-1248 (CPU). Definitions only. A partition is the list of its rows after the merge of
    the post and pre periods; the numerical routines are the [dist_oracle] of DistDidModel; [None] is an exception they raise. One
    comparison (subgroup 4 against 3, 2 or 1) is computed by the same code as a distributed DiD cell, on the rows of the two subgroups. *)
From Verif Require Import Base ListLib ReduceModel PreprocessModel DrdidModel DddModel DddMpModel DistDidModel.

(** One merged row: unit, cohort, eligibility code, outcomes of the two periods, weight, covariates (_ddd_streaming.py:931-941). *)
Record mrow := { m_id : Z; m_g : grp; m_p : Z; m_y1 : Qc; m_y0 : Qc; m_w : Qc; m_x : list Qc }.
(** 4 treat part + 3 treat (1 - part) + 2 (1 - treat) part + (1 - treat) (1 - part) (_ddd_partition.py:23-25, 160-162) *)
Definition dist_subgroup (g : Z) (r : mrow) : Z :=
  let treat := (if grp_eqb (m_g r) (Fin g) then 1 else 0)%Z in let part := m_p r in
  (4 * treat * part + 3 * treat * (1 - part) + 2 * (1 - treat) * part + 1 * (1 - treat) * (1 - part))%Z.
(** _build_partition_arrays (_ddd_partition.py:12-49), one row; an empty partition is None in the code *)
Definition dist_unit (g : Z) (r : mrow) : tunit :=
  {| t_id := m_id r; t_sg := dist_subgroup g r; t_y1 := m_y1 r; t_y0 := m_y0 r; t_w := m_w r; t_x := 1 :: m_x r |}.

(** est_method as read by the distributed DiD code *)
Definition meth (m : emethod) : method := match m with Dr => MDr | Reg => MReg | Ipw => MIpw end.
(** the rows of one comparison in every partition: mask = (sg == 4) | (sg == comp_sg) (_ddd_partition.py:183, 207, 224, 323);
    a partition without such rows contributes None *)
Definition comp_parts (c : Z) (parts : list (list tunit)) : list (list punit) := map (pair_units c) parts.
(** _fit_one of streaming_nuisance_coefficients (_ddd_streaming.py:1006-1025) *)
Definition comp_fit (o : dist_oracle) (m : emethod) (k fan : nat) (parts : list (list punit)) : option (list Qc * list Qc) :=
  match (match m with Reg => Some (vec_of k (fun _ => 0)) | _ => d_irls o parts end),
        (match m with Ipw => Some (vec_of k (fun _ => 0)) | _ => dist_wls o k fan parts end) with
  | Some gamma, Some beta => Some (gamma, beta)
  | _, _ => None
  end.
(** _reduce_one of streaming_global_stats (_ddd_streaming.py:1094-1113). Outer None: an exception; inner None: no data. *)
Definition comp_stats (o : dist_oracle) (m : emethod) (k fan : nat) (tl : Qc) (parts : list (list punit)) (f : list Qc * list Qc)
  : option (option (gagg * nat)) :=
  match tree_reduce (length parts) sum_global_stats fan (map (partition_stats (meth m) (d_mu o) k tl (fst f) (snd f)) parts) with
  | TROk agg => match finalize o (meth m) k agg, agg with
                | Some (Some g), Some s => Some (Some (g, s_n s))
                | Some _, _ => Some None
                | None, _ => None end
  | _ => None
  end.
(** w3_val = n / n3 if n3 > 0 else 0 (_ddd_streaming.py:199-201, 423-425) *)
Definition comp_share (n nc : nat) : Qc := if (0 <? nc)%nat then qn n / qn nc else 0.
(** What one comparison contributes: the fit, the aggregates, its number of units. *)
Record comp := { c_fit : list Qc * list Qc; c_agg : gagg; c_n : nat }.
(** _partition_compute_ddd_if (_ddd_partition.py:292-396), one unit *)
Definition comp_if (o : dist_oracle) (m : emethod) (k : nat) (tl : Qc) (c : Z) (r : comp) (u : tunit) : Qc :=
  if in_pair c u then dist_if (meth m) (d_mu o) k tl (fst (c_fit r)) (snd (c_fit r)) (c_agg r) (as_pair u) else 0.
Definition ddd_if (o : dist_oracle) (m : emethod) (k : nat) (tl : Qc) (n : nat) (r3 r2 r1 : comp) (u : tunit) : Qc :=
  comp_share n (c_n r3) * comp_if o m k tl 3 r3 u + comp_share n (c_n r2) * comp_if o m k tl 2 r2 u
  + - comp_share n (c_n r1) * comp_if o m k tl 1 r1 u.

Inductive comps_result := KRaise | KNone | KDone (r3 r2 r1 : comp).
(** both stages for the three comparisons (_ddd_streaming.py:180-193, 404-417, 1195-1207): an exception of any thread is raised; then any
    comparison without data gives None *)
Definition comps (o : dist_oracle) (m : emethod) (k fan : nat) (tl : Qc) (parts : list (list tunit)) : comps_result :=
  let p3 := comp_parts 3 parts in let p2 := comp_parts 2 parts in let p1 := comp_parts 1 parts in
  match comp_fit o m k fan p3, comp_fit o m k fan p2, comp_fit o m k fan p1 with
  | Some f3, Some f2, Some f1 =>
      match comp_stats o m k fan tl p3 f3, comp_stats o m k fan tl p2 f2, comp_stats o m k fan tl p1 f1 with
      | Some (Some (g3, n3)), Some (Some (g2, n2)), Some (Some (g1, n1)) =>
          KDone {| c_fit := f3; c_agg := g3; c_n := n3 |} {| c_fit := f2; c_agg := g2; c_n := n2 |} {| c_fit := f1; c_agg := g1; c_n := n1 |}
      | None, _, _ | _, None, _ | _, _, None => KRaise
      | _, _, _ => KNone
      end
  | _, _, _ => KRaise
  end.
(** ddd_att (_ddd_streaming.py:203, 427, 1209) *)
Definition comps_att (r3 r2 r1 : comp) : Qc := g_att (c_agg r3) + g_att (c_agg r2) - g_att (c_agg r1).
(** inf[indices[valid]] = scale * if_part for every finished task: writes by unit identifier (_ddd_streaming.py:224-233, 452-461) *)
Definition ddd_writes (scale : Qc) (f : tunit -> Qc) (ids : list Z) (completed : list (list tunit)) : list Qc :=
  fold_left (write_id ids) (flat_map (map (fun u => (t_id u, scale * f u))) completed) (map (fun _ => 0) ids).

(** streaming_cell_single_control and _streaming_single_ctrl_for_multi (_ddd_streaming.py:159-235, 1190-1248). [parts]: the merged
    partitions; [completed]: the same partitions in the order their influence tasks complete; [ids]: the sorted distinct ids. *)
Definition ddd_cell (o : dist_oracle) (m : emethod) (k fan : nat) (tl : Qc) (ids : list Z) (parts completed : list (list tunit)) : cell_result :=
  if (length (concat parts) =? 0)%nat then CSkip else
  match parts with
  | [] | [] :: _ => CSkip                              (* part_futures[0].result() is None *)
  | _ =>
      match comps o m k fan tl parts with
      | KRaise => CRaise
      | KNone => CSkip
      | KDone r3 r2 r1 =>
          let n := length (concat parts) in
          CDone (comps_att r3 r2 r1) (ddd_writes (qn (length ids) / qn n) (ddd_if o m k tl n r3 r2 r1) ids completed)
      end
  end.

(** _filter_partition_for_ctrl (_ddd_partition.py:148-174) *)
Definition ctrl_part (g : Z) (c : grp) (l : list mrow) : list tunit :=
  map (dist_unit g) (filter (fun r => grp_eqb (m_g r) (Fin g) || grp_eqb (m_g r) c) l).
(** one control cohort of streaming_cell_multi_control (_ddd_streaming.py:396-463): estimate and influence column over the ids of the cell *)
Inductive ctrl_result := XRaise | XSkip | XDone (att : Qc) (col : list Qc).
Definition ctrl_cell (o : dist_oracle) (m : emethod) (k fan : nat) (tl : Qc) (cell_ids : list Z) (g : Z) (parts completed : list (list mrow)) (c : grp) : ctrl_result :=
  let cp := map (ctrl_part g c) parts in
  match cp with
  | [] | [] :: _ => XSkip                              (* ctrl_part_futures[0].result() is None: continue *)
  | _ =>
      match comps o m k fan tl cp with
      | KRaise => XRaise
      | KNone => XSkip
      | KDone r3 r2 r1 =>
          let n := length (concat cp) in
          XDone (comps_att r3 r2 r1)
            (ddd_writes (comp_share (length (concat parts)) n) (ddd_if o m k tl n r3 r2 r1) cell_ids (map (ctrl_part g c) completed))
      end
  end.
(** the loop over available_controls; None: an exception *)
Fixpoint ctrl_loop (f : grp -> ctrl_result) (cs : list grp) : option (list (Qc * list Qc)) :=
  match cs with
  | [] => Some []
  | c :: cs' => match f c, ctrl_loop f cs' with
                | XRaise, _ | _, None => None
                | XSkip, Some r => Some r
                | XDone a col, Some r => Some ((a, col) :: r) end
  end.
Inductive multi_result := ZRaise | ZSkip | ZDone (att : Qc) (column : list Qc) (se2 : option Qc).
(** streaming_cell_multi_control (_ddd_streaming.py:324-481). [parts]: the merged rows of cohort g and of the not-yet-treated and
    never-treated cohorts; one available control takes the single-control path, without a standard error of its own. *)
Definition multi_cell (o : dist_oracle) (q : gmm_oracle) (m : emethod) (k fan : nat) (tl : Qc) (ids : list Z) (g : Z) (controls : list grp)
    (parts completed : list (list mrow)) : multi_result :=
  match controls with
  | [_] => match ddd_cell o m k fan tl ids (map (map (dist_unit g)) parts) (map (map (dist_unit g)) completed) with
           | CDone a col => ZDone a col None | CSkip => ZSkip | CRaise => ZRaise end
  | _ =>
      if (length (concat parts) =? 0)%nat then ZSkip else
      let cell_ids := zuniq (map m_id (concat parts)) in
      match ctrl_loop (ctrl_cell o m k fan tl cell_ids g parts completed) controls with
      | None => ZRaise
      | Some [] => ZSkip
      | Some rs =>
          let '(att, inf, se2) := gmm_aggregate q (length ids) (map fst rs) (map snd rs) in
          ZDone att (fold_left (write_id ids) (combine cell_ids (map (fun v => qn (length ids) / qn (length (concat parts)) * v) inf)) (map (fun _ => 0) ids)) (Some se2)
      end
  end.
