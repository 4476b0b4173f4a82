(** Model of the aggregation of multi-period triple differences: moderndid/didtriple/agg_ddd.py and
    moderndid/didtriple/compute_agg_ddd.py with boot=False, cband=False (the estimates and influence functions do not depend on
    boot). Definitions only. Periods, groups, windows and balance_e are integers; [None] for min_e / max_e stands for -inf / +inf;
    NaN is [None]; squared standard errors instead of standard errors. The helpers shared with did/compute_aggte.py (same code,
    other file) are those of AggteModel.v: [index_of]/[orig2t]/[recode] = _orig2t (596-602), [t2orig] = _t2orig (605-611),
    [clean_cells] = lines 98-120. *)
From Verif Require Import Base ListLib PreprocessModel AttGtModel ReduceModel DrdidModel DddModel DddMpModel SeModel AggteModel.

(** orig_gtlist (126): all periods of the panel and all groups of glist *)
Definition gt_vals (tlist glist : list Z) : list Z := zuniq (tlist ++ glist).
(** glist after the dropna branch (101-120) *)
Definition used_glist (dropna : bool) (glist : list Z) (cells : list kcell) : list Z :=
  if dropna then zuniq (map k_g cells) else glist.
(** pgg (135): share of the units with that group; sampling weights are not used *)
Definition pgg (us : list grp) (g : Z) : Qc := mean (fun c => ind (grp_eqb c (Fin g))) us.
(** pg_obs (137-139): zeros, then one assignment per group *)
Definition pg_obs (u glist : list Z) (us : list grp) (k : kcell) : Qc :=
  fold_left (fun acc g => if (rg u k =? recode u g)%Z then pgg us g else acc) glist 0.
(** np.sum(a * p) / p.sum() over the cells [ks]: 0/0 is NaN. (A zero total with a non-empty [ks] is NaN as well, all shares
    being nonnegative.) *)
Definition ratio (a b : Qc) : option Qc := if Qceqb b 0 then None else Some (a / b).
Definition pg_average (p : kcell -> Qc) (ks : list kcell) : option Qc := ratio (sumf (fun k => k_att k * p k) ks) (sumf p ks).
(** _get_agg_inf_func (614-617) with weights p / sum(p): inf_func_mat[:, ks] @ weights, [n] rows *)
Definition pg_inf (n : nat) (p : kcell -> Qc) (ks : list kcell) : list Qc :=
  map (fun i => sumf (fun k => nth i (k_inf k) 0 * norm_weight p ks k) ks) (seq 0 n).
(** _compute_se with boot=False (500-506) and the analytical branch of _batched_bootstrap (517-521) *)
Definition agg_se2 (n : nat) (psi : list Qc) : option Qc := reported_se2 (variance n psi).

Record ddd_agg := { da_overall : option Qc; da_keys : list Z; da_by : list (option Qc); da_inf_by : list (list Qc); da_inf : list Qc;
                    da_se2 : option Qc; da_se2_by : list (option Qc) }.

(** _compute_simple (211-234); keepers (141) *)
Definition ddd_simple (u glist : list Z) (us : list grp) (max_e : option Z) (cells : list kcell) : ddd_agg :=
  let n := length us in let p := pg_obs u glist us in
  let ks := post_cells max_e u cells in
  let inf := pg_inf n p ks in
  {| da_overall := pg_average p ks; da_keys := []; da_by := []; da_inf_by := []; da_inf := inf; da_se2 := agg_se2 n inf; da_se2_by := [] |}.

(** _get_weight_influence (584-593), unit [x], entry of group [g] *)
Definition share_dev (us : list grp) (x : grp) (g : Z) : Qc := ind (grp_eqb x (Fin g)) - pgg us g.
Definition share_if (us : list grp) (gs : list Z) (x : grp) (g : Z) : Qc :=
  let s := sumf (pgg us) gs in
  share_dev us x g / s - sumf (share_dev us x) gs * (pgg us g / (s * s)).
(** _compute_group (237-311); [group_cells] is whichg (262) *)
Definition ddd_group (u glist : list Z) (us : list grp) (max_e : option Z) (cells : list kcell) : option ddd_agg :=
  let n := length us in let p := pg_obs u glist us in
  let ks g := group_cells max_e u cells (recode u g) in
  let by_ := map (fun g => mean_att (ks g)) glist in
  let infs := map (fun g => match ks g with [] => repeat 0 n | l => pg_inf n p l end) glist in
  let s := sumf (pgg us) glist in
  let rows := combine glist (combine by_ infs) in
  let inf := map (fun q => sumf (fun r => nth (fst q) (snd (snd r)) 0 * (pgg us (fst r) / s)) rows
                         + sumf (fun r => share_if us glist (snd q) (fst r) * nan0 (fst (snd r))) rows) (indexed us) in
  match glist with
  | [] => None
  | _ => Some {| da_overall := ratio (sumf (fun r => nan0 (fst (snd r)) * pgg us (fst r)) rows) s;
                 da_keys := glist; da_by := by_; da_inf_by := infs; da_inf := inf; da_se2 := agg_se2 n inf; da_se2_by := map (agg_se2 n) infs |}
  end.

(** _compute_calendar (314-390) *)
Definition ddd_calendar (u glist : list Z) (us : list grp) (cells : list kcell) : option ddd_agg :=
  let n := length us in let p := pg_obs u glist us in
  let ts := filter (fun t => (zmin (map (rg u) cells) <=? t)%Z) (zuniq (map (rt u) cells)) in
  let ks t := calendar_cells u cells t in
  let by_ := map (fun t => pg_average p (ks t)) ts in
  let infs := map (fun t => match ks t with [] => repeat 0 n | l => pg_inf n p l end) ts in
  let inf := mean_cols n infs in
  match ts with
  | [] => None
  | _ => Some {| da_overall := nanmean by_; da_keys := map (t2orig u) ts; da_by := by_; da_inf_by := infs; da_inf := inf;
                 da_se2 := agg_se2 n inf; da_se2_by := map (agg_se2 n) infs |}
  end.

(** _compute_eventstudy (393-492) *)
Definition ddd_event_list (u : list Z) (cells : list kcell) (balance_e min_e max_e : option Z) : list Z :=
  let evs := zuniq (map event (filter (include u cells balance_e) cells)) in
  let evs := match balance_e with
             | None => evs
             | Some b => filter (fun e => (e <=? b)%Z && (b - max_orig u cells + t2orig u 1 <=? e)%Z) evs
             end in
  filter (fun e => ge_min e min_e && le_max e max_e) evs.
Definition ddd_eventstudy (u glist : list Z) (us : list grp) (balance_e min_e max_e : option Z) (cells : list kcell) : ddd_agg :=
  let n := length us in let p := pg_obs u glist us in
  let evs := ddd_event_list u cells balance_e min_e max_e in
  let ks e := event_cells u cells balance_e e in
  let by_ := map (fun e => pg_average p (ks e)) evs in
  let infs := map (fun e => match ks e with [] => repeat 0 n | l => pg_inf n p l end) evs in
  let epos := filter (fun q => (0 <=? fst q)%Z) (combine evs (combine by_ infs)) in
  let inf := match epos with [] => repeat 0 n | _ => mean_cols n (map (fun q => snd (snd q)) epos) end in
  {| da_overall := match epos with [] => None | _ => nanmean (map (fun q => fst (snd q)) epos) end;
     da_keys := evs; da_by := by_; da_inf_by := infs; da_inf := inf;
     da_se2 := match epos with [] => None | _ => agg_se2 n inf end; da_se2_by := map (agg_se2 n) infs |}.

(** agg_ddd argument checks (agg_ddd.py:206-215) *)
Definition agg_args_ok (balance_e min_e max_e : option Z) : bool :=
  match balance_e with None => true | Some b => (0 <=? b)%Z end &&
  match min_e, max_e with Some a, Some b => (a <=? b)%Z | _, _ => true end.
(** agg_ddd / compute_agg_ddd (14-208). [None]: an exception reaches the user (missing effects without dropna, no cell left:
    t.max() of an empty array, invalid arguments). *)
Definition agg_ddd (ty : agg_type) (dropna : bool) (balance_e min_e max_e : option Z) (tlist glist : list Z) (us : list grp)
    (mp : list AggteModel.mp_cell) : option ddd_agg :=
  if negb (agg_args_ok balance_e min_e max_e) then None else
  match clean_cells dropna (is_tgroup ty) mp with
  | None | Some [] => None
  | Some cells =>
      let gl := used_glist dropna glist cells in
      let u := gt_vals tlist gl in
      match ty with
      | TSimple => Some (ddd_simple u gl us max_e cells)
      | TGroup => ddd_group u gl us max_e cells
      | TCalendar => ddd_calendar u gl us cells
      | TDynamic => Some (ddd_eventstudy u gl us balance_e min_e max_e cells)
      end
  end.

(** unit_groups (ddd_mp.py:285, 293): the cohort in the first row of each unit, units in increasing order *)
Definition by_time (a b : lrow) : bool := (l_t a <=? l_t b)%Z.
Definition unit_group (data : list lrow) (i : Z) : grp :=
  match isort by_time (filter (fun r => (l_id r =? i)%Z) data) with r :: _ => l_g r | [] => Inf end.
Definition mp_unit_groups (data : list lrow) : list grp := map (unit_group data) (mp_ids data).
(** agg_ddd applied to the result of ddd_mp (339-352) *)
Definition mp_entries (rows : list (Z * Z * Qc)) (cols : list (list Qc)) : list AggteModel.mp_cell :=
  map (fun p => {| m_g := fst (fst (fst p)); m_t := snd (fst (fst p)); m_att := Some (snd (fst p)); m_inf := snd p |}) (combine rows cols).
Definition agg_of_ddd (ty : agg_type) (dropna : bool) (balance_e min_e max_e : option Z) (data : list lrow) (r : mp_result) : option ddd_agg :=
  match r with
  | MRaise => None
  | MTable rows cols _ => agg_ddd ty dropna balance_e min_e max_e (mp_tlist data) (mp_glist data) (mp_unit_groups data) (mp_entries rows cols)
  end.
