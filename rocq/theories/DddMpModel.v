(** Model of the multi-period triple-difference estimator for panels: moderndid/didtriple/estimators/ddd_mp.py (n_jobs=1,
    boot=False, cluster=None). Definitions only. Rows are complete (no nulls); cohort codes are integers, with [Inf] for a non-finite
    code; covariate columns are resolved. Squared standard errors instead of standard errors. *)
From Verif Require Import Base ListLib PreprocessModel AttGtModel SeModel ReduceModel DrdidModel DddModel.

(** One row of the long panel: unit, period, cohort (group_col), eligibility (partition_col), outcome, sampling weight, covariates. *)
Record lrow := { l_id : Z; l_t : Z; l_g : grp; l_p : Z; l_y : Qc; l_w : Qc; l_x : list Qc }.

(** tlist = np.sort(unique times) (ddd_mp.py:223) *)
Definition mp_tlist (data : list lrow) : list Z := zuniq (map l_t data).
(** glist = np.sort([g for g in unique groups if g > 0 and isfinite(g)]) (224-225) *)
Definition fin_pos (g : grp) : list Z := match g with Fin z => if (0 <? z)%Z then [z] else [] | Inf => [] end.
Definition mp_glist (data : list lrow) : list Z := zuniq (flat_map fin_pos (map l_g data)).
(** unique_ids (237), n_units (227) *)
Definition mp_ids (data : list lrow) : list Z := zuniq (map l_id data).
(** tlist[tlist < g], its last element (386-390, 456-459) *)
Definition last_before (g : Z) (tlist : list Z) : option Z :=
  match filter (fun s => (s <? g)%Z) tlist with [] => None | p => Some (last p 0%Z) end.
(** tfac = 0 if universal else 1 (231) *)
Definition tfac (b : base_mode) : nat := match b with Universal => 0 | Varying => 1 end.
(** _get_base_period (453-460) *)
Definition mp_base (b : base_mode) (g : Z) (t_idx : nat) (tlist : list Z) : option Z :=
  match b with Universal => last_before g tlist | Varying => Some (nth t_idx tlist 0%Z) end.
(** base period of a cell, after the post-treatment override (380-390); [None] means the cell is skipped *)
Definition mp_pret (b : base_mode) (g t : Z) (t_idx : nat) (tlist : list Z) : option Z :=
  match mp_base b g t_idx tlist with
  | None => None
  | Some p => if (g <=? t)%Z then last_before g tlist else Some p
  end.
(** control_expr (465-472) *)
Definition is_control (never : bool) (g t pret : Z) (c : grp) : bool :=
  if never then grp_eqb c (Fin 0) || grp_is_inf c
  else (grp_eqb c (Fin 0) || grp_is_inf c || grp_gtz c (Z.max t pret)) && negb (grp_eqb c (Fin g)).
(** cell_data (474-477) *)
Definition cell_rows (never : bool) (g t pret : Z) (data : list lrow) : list lrow :=
  filter (fun r => (grp_eqb (l_g r) (Fin g) || is_control never g t pret (l_g r)) && ((l_t r =? t) || (l_t r =? pret))%Z) data.
(** available_controls: the distinct control cohorts of the cell (482-483). polars leaves the order of unique() unspecified; here the
    order of first appearance (C59 shows that the order is irrelevant). *)
Definition cell_controls (g : Z) (rows : list lrow) : list grp :=
  uniq grp_eqb (filter (fun c => negb (grp_eqb c (Fin g))) (map l_g rows)).

(** subgroup_expr (584-590): 4, 3, 2, 1, or 0 for an eligibility code other than 0 and 1 *)
Definition subgroup_code (treat : bool) (p : Z) : Z :=
  (if (p =? 1)%Z then (if treat then 4 else 2) else if (p =? 0)%Z then (if treat then 3 else 1) else 0)%Z.
(** rows of one period, sorted by unit (594-595) *)
Definition by_id (a b : lrow) : bool := (l_id a <=? l_id b)%Z.
Definition period_rows (s : Z) (rows : list lrow) : list lrow := isort by_id (filter (fun r => (l_t r =? s)%Z) rows).
Definition has_id (rows : list lrow) (r : lrow) : bool := existsb (fun q => (l_id q =? l_id r)%Z) rows.
(** one unit of the cell: post row and pre row paired by position after sorting (604-621). Weights are not passed to ddd_panel
    (624): all ones. *)
Definition cell_unit (g : Z) (q : lrow * lrow) : tunit :=
  {| t_id := l_id (fst q); t_sg := subgroup_code (grp_eqb (l_g (fst q)) (Fin g)) (l_p (fst q)); t_y1 := l_y (fst q); t_y0 := l_y (snd q);
     t_w := 1; t_x := 1 :: l_x (fst q) |}.
Definition cell_units (g t pret : Z) (rows : list lrow) : list tunit :=
  let post := period_rows t rows in let pre := period_rows pret rows in
  map (cell_unit g) (combine (filter (has_id pre) post) (filter (has_id post) pre)).
(** _compute_single_ddd (580-627): estimate, influence values, unit ids; ValueError and LinAlgError give None *)
Definition single_ddd (o : oracle) (k : nat) (m : emethod) (g t pret : Z) (rows : list lrow) : option (Qc * list (Z * Qc)) :=
  let u := cell_units g t pret rows in
  if negb (existsb (fun x => t_sg x =? 4)%Z u) then None
  else match ddd_panel o k m u with
       | TEst att _ _ _ inf => Some (att, combine (map t_id u) inf)
       | TRaise => None
       end.

(** value written for a unit: the last one wins, 0 if none; the ids of a cell are distinct *)
Definition lookup (l : list (Z * Qc)) (i : Z) : Qc := match find (fun p => (fst p =? i)%Z) l with Some p => snd p | None => 0 end.
(** inf_func_full (566-573, 488-492): influence values placed at the units of [ids], scaled by len(ids) / len(common_ids) *)
Definition place (ids : list Z) (l : list (Z * Qc)) : list Qc :=
  map (fun i => qn (length ids) / qn (length l) * lookup l i) ids.

(** np.cov(inf_mat, rowvar=False) (632): entry (a, b); for n = 1 the code gives NaN, here 0 *)
Definition cov (a b : list Qc) : Qc :=
  let ma := mean (fun x => x) a in let mb := mean (fun x => x) b in
  sumf (fun p => (fst p - ma) * (snd p - mb)) (combine a b) / (qn (length a) - 1).
Definition gmm_omega (cols : list (list Qc)) : matrix :=
  mat_of (length cols) (fun i j => cov (nth i cols []) (nth j cols [])).
(** np.linalg.inv, or np.linalg.pinv when it raises (636-639) *)
Record gmm_oracle := { gm_inv : matrix -> option matrix; gm_pinv : matrix -> matrix }.
Definition gmm_inverse (q : gmm_oracle) (M : matrix) : matrix := match gm_inv q M with Some V => V | None => gm_pinv q M end.
(** inv_omega @ ones / (ones @ inv_omega @ ones) (641-642) *)
Definition gmm_total (c : nat) (V : matrix) : Qc := sumf (fun i => sumf (fun j => mget V i j) (seq 0 c)) (seq 0 c).
Definition gmm_weight (c : nat) (V : matrix) (i : nat) : Qc := sumf (fun j => mget V i j) (seq 0 c) / gmm_total c V.
(** att_gmm, if_gmm, se_gmm^2 (644-646) *)
Definition gmm_aggregate (q : gmm_oracle) (n_total : nat) (atts : list Qc) (cols : list (list Qc)) : Qc * list Qc * Qc :=
  let c := length cols in let V := gmm_inverse q (gmm_omega cols) in
  (sumf (fun i => gmm_weight c V i * nth i atts 0) (seq 0 c),
   map (fun r => sumf (fun i => gmm_weight c V i * nth r (nth i cols []) 0) (seq 0 c)) (seq 0 (length (nth 0 cols []))),
   1 / (qn n_total * gmm_total c V)).

(** One finished cell: estimate, influence values by unit (None for the reference cell), squared SE override. *)
Record mp_cell := { mc_att : Qc; mc_g : Z; mc_t : Z; mc_post : bool; mc_inf : option (list (Z * Qc)); mc_se2 : option Qc }.
(** list of Some values in order *)
Fixpoint somes {A} (l : list (option A)) : list A :=
  match l with [] => [] | Some a :: l' => a :: somes l' | None :: l' => somes l' end.
(** _process_single_control (495-519), _process_multiple_controls (522-577) *)
Definition scale_inf (n_units : nat) (l : list (Z * Qc)) : list (Z * Qc) := map (fun p => (fst p, qn n_units / qn (length l) * snd p)) l.
Definition control_rows (g : Z) (c : grp) (rows : list lrow) : list lrow :=
  filter (fun r => grp_eqb (l_g r) (Fin g) || grp_eqb (l_g r) c) rows.
Definition multi_ddd (o : oracle) (q : gmm_oracle) (k : nat) (m : emethod) (n_units : nat) (g t pret : Z) (cs : list grp) (rows : list lrow)
  : option (Qc * list (Z * Qc) * Qc) :=
  match somes (map (fun c => single_ddd o k m g t pret (control_rows g c rows)) cs) with
  | [] => None
  | rs =>
      let ids := zuniq (flat_map (fun r => map fst (snd r)) rs) in
      let '(att, inf, se2) := gmm_aggregate q n_units (map fst rs) (map (fun r => place ids (snd r)) rs) in
      Some (att, scale_inf n_units (combine ids inf), se2)
  end.
(** _process_gt_cell (355-450) *)
Definition process_cell (o : oracle) (q : gmm_oracle) (k : nat) (m : emethod) (b : base_mode) (never : bool) (data : list lrow)
    (g : Z) (t_idx : nat) : option mp_cell :=
  let tlist := mp_tlist data in let n_units := length (mp_ids data) in
  let t := nth (t_idx + tfac b) tlist 0%Z in
  match mp_pret b g t t_idx tlist with
  | None => None
  | Some pret =>
      if match b with Universal => (pret =? t)%Z | Varying => false end
      then Some {| mc_att := 0; mc_g := g; mc_t := t; mc_post := false; mc_inf := None; mc_se2 := None |}
      else
        let rows := cell_rows never g t pret data in
        match cell_controls g rows with
        | [] => None
        | [_] => match single_ddd o k m g t pret rows with
                 | Some (att, inf) => Some {| mc_att := att; mc_g := g; mc_t := t; mc_post := (g <=? t)%Z; mc_inf := Some (scale_inf n_units inf); mc_se2 := None |}
                 | None => None end
        | cs => match multi_ddd o q k m n_units g t pret cs rows with
                | Some (att, inf, se2) => Some {| mc_att := att; mc_g := g; mc_t := t; mc_post := (g <=? t)%Z; mc_inf := Some inf; mc_se2 := Some se2 |}
                | None => None end
        end
  end.

(** args_list: for g in glist, for t_idx in range(tlist_length) (240-262) *)
Definition mp_jobs (b : base_mode) (data : list lrow) : list (Z * nat) :=
  list_prod (mp_glist data) (seq 0 (length (mp_tlist data) - tfac b)).
(** column [counter] of inf_func_mat (234, 274): zeros unless the cell wrote its influence values *)
Definition mp_column (ids : list Z) (r : option mp_cell) : list Qc :=
  map (fun i => match r with Some c => match mc_inf c with Some l => lookup l i | None => 0 end | None => 0 end) ids.
(** se_array[counter] (235, 275-276) *)
Definition mp_override (r : option mp_cell) : option Qc := match r with Some c => mc_se2 c | None => None end.
(** the result: MRaise for "No valid (g,t) cells found"; rows (group, time, att), influence columns, squared standard errors *)
Inductive mp_result := MRaise | MTable (rows : list (Z * Z * Qc)) (cols : list (list Qc)) (se2s : list (option Qc)).
(** squared standard error of the reported column [j]: the override at counter [j] if present, else diag(V)[j] / n (312-318);
    at most 10 sqrt(eps): NaN *)
Definition mp_se2 (n_units : nat) (over : option Qc) (col : list Qc) : option Qc :=
  reported_se2 (match over with Some v => v | None => se2 n_units col end).
Definition ddd_mp (o : oracle) (q : gmm_oracle) (k : nat) (m : emethod) (b : base_mode) (never : bool) (data : list lrow) : mp_result :=
  let ids := mp_ids data in
  let results := map (fun j => process_cell o q k m b never data (fst j) (snd j)) (mp_jobs b data) in
  let cells := somes results in
  match cells with
  | [] => MRaise
  | _ =>
      let n := length cells in
      let cols := firstn n (map (mp_column ids) results) in
      MTable (map (fun c => (mc_g c, mc_t c, mc_att c)) cells) cols
        (map (fun p => mp_se2 (length ids) (fst p) (snd p)) (combine (firstn n (map mp_override results)) cols))
  end.
