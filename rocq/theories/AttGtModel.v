(** Model of group-time estimation: moderndid/did/compute_att_gt.py. Definitions only. *)
From Verif Require Import Base ListLib PreprocessModel.

Inductive base_mode := Universal | Varying.

(** Estimators are inputs: [None] is a caught exception (compute_att_gt.py:188-197), the inner [None] a NaN
    estimate. Panel: y1, y0, treated?, covariates, weights. Repeated cross-section: y, post?, treated?,
    covariates, weights. *)
Definition est_result : Type := option (option Qc * list Qc).
Definition panel_estimator : Type := list Qc -> list Qc -> list bool -> list (list Qc) -> list Qc -> est_result.
Definition rc_estimator : Type := list Qc -> list bool -> list bool -> list (list Qc) -> list Qc -> est_result.

(** compute_att_gt.py:132, 79: time_factor *)
Definition time_factor (b : base_mode) : nat := match b with Universal => 0 | Varying => 1 end.

(** np.where(time_periods < bound)[0][-1], [None] if empty (compute_att_gt.py:135-138, 145-157) *)
Definition last_before (tps : list Z) (bound : Z) : option nat :=
  last (map Some (filter (fun i => (nth i tps 0 <? bound)%Z) (seq 0 (length tps)))) None.

(** compute_att_gt.py:142 *)
Definition is_post (d : did_data) (b : base_mode) (g_idx t_idx : nat) : bool :=
  (nth g_idx (d_groups d) 0 <=? nth (t_idx + time_factor b) (d_times d) 0)%Z.

(** Base period index, compute_att_gt.py:134-157. [NoPre] = the early [return None] with a warning;
    [PreNone] = pre_treatment_idx is None (universal). *)
Inductive base_choice := Base (i : nat) | PreNone | NoPre.
Definition base_index (ant : Z) (d : did_data) (b : base_mode) (g_idx t_idx : nat) : base_choice :=
  let bound := (nth g_idx (d_groups d) 0 - ant)%Z in
  match b with
  | Universal => match last_before (d_times d) bound with Some i => Base i | None => PreNone end
  | Varying =>
      if is_post d b g_idx t_idx
      then match last_before (d_times d) bound with Some i => Base i | None => NoPre end
      else Base t_idx
  end.

(** array slice assignment [arr[s:e] = v] *)
Definition set_range {A} (s e : nat) (v : A) (l : list A) : list A :=
  map (fun p => if ((s <=? fst p) && (fst p <? e))%nat then v else snd p) (combine (seq 0 (length l)) l).

Definition sum_nat (l : list nat) : nat := fold_right Nat.add 0%nat l.
(** cohort_sizes[:k].sum() *)
Definition block_start (sizes : list nat) (k : nat) : nat := sum_nat (firstn k sizes).

(** index of the first [true] (np.argmax on a boolean mask with .any()) *)
Fixpoint find_index {A} (p : A -> bool) (l : list A) : option nat :=
  match l with [] => None | a :: l' => if p a then Some 0%nat else option_map S (find_index p l') end.

(** get_did_cohort_index, panel branch (compute_att_gt.py:226-267). Entries: [Some true] = 1 (treated),
    [Some false] = 0 (comparison), [None] = NaN. [n] is n_units. *)
Definition min_control (c : pconfig) (d : did_data) (b : base_mode) (t_idx pre : nat) : grp :=
  if c_never c then Inf
  else
    let relevant := (nth (Nat.max t_idx pre + time_factor b) (d_times d) 0 + c_ant c)%Z in
    match filter (fun g => grp_gtz g relevant) (map fst (d_cohorts d)) with g :: _ => g | [] => Inf end.
Definition max_control (d : did_data) : grp :=
  let cohorts := map fst (d_cohorts d) in
  if existsb grp_is_inf cohorts then Inf else last cohorts Inf.
Definition cohort_index_panel (c : pconfig) (d : did_data) (b : base_mode) (g_idx t_idx pre : nat) : list (option bool) :=
  let cohorts := map fst (d_cohorts d) in
  let sizes := map snd (d_cohorts d) in
  let n := if c_unbal c then length (d_units d) else d_ids d in
  let lo := min_control c d b t_idx pre in
  let hi := max_control d in
  let ix := fold_left (fun ix k =>
                let g := nth k cohorts Inf in
                if grp_leb lo g && grp_leb g hi
                then set_range (block_start sizes k) (block_start sizes (S k)) (Some false) ix else ix)
              (seq 0 (length cohorts)) (repeat None n) in
  match find_index (fun g => grp_eqb g (Fin (nth g_idx (d_groups d) 0%Z))) cohorts with
  | Some k => set_range (block_start sizes k) (block_start sizes (S k)) (Some true) ix
  | None => ix
  end.

(** get_did_cohort_index, repeated cross-section branch (compute_att_gt.py:269-294). *)
Definition cohort_flag_rc (c : pconfig) (d : did_data) (b : base_mode) (g_idx t_idx pre : nat) (r : row) : option bool :=
  let g := Fin (nth g_idx (d_groups d) 0%Z) in
  let relevant := (nth (Nat.max t_idx pre + time_factor b) (d_times d) 0 + c_ant c)%Z in
  let treated_flag := grp_eqb (r_g r) g in
  let control_flag :=
    if c_never c then grp_is_inf (r_g r)
    else grp_is_inf (r_g r) || (grp_gtz (r_g r) relevant && negb (grp_eqb (r_g r) g)) in
  let keep := (r_t r =? nth (t_idx + time_factor b) (d_times d) 0)%Z || (r_t r =? nth pre (d_times d) 0)%Z in
  if keep && treated_flag then Some true else if keep && control_flag then Some false else None.
Definition cohort_index_rc c d b g_idx t_idx pre : list (option bool) :=
  map (cohort_flag_rc c d b g_idx t_idx pre) (d_rows d).

(** boolean-mask indexing [arr[valid]] and scatter [out = zeros(n); out[valid] = vals] *)
Fixpoint select {A} (ix : list (option bool)) (l : list A) : list A :=
  match ix, l with
  | None :: ix', _ :: l' => select ix' l'
  | Some _ :: ix', a :: l' => a :: select ix' l'
  | _, _ => []
  end.
Fixpoint flags (ix : list (option bool)) : list bool :=
  match ix with [] => [] | None :: ix' => flags ix' | Some b :: ix' => b :: flags ix' end.
Fixpoint scatter (ix : list (option bool)) (vals : list Qc) : list Qc :=
  match ix with
  | [] => []
  | None :: ix' => 0 :: scatter ix' vals
  | Some _ :: ix' => match vals with v :: vs => v :: scatter ix' vs | [] => 0 :: scatter ix' [] end
  end.

(** Result of run_att_gt_estimation: [CRaise] is an uncaught TypeError. *)
Inductive cell_est := CNone | CRaise | CEst (att : option Qc) (inf : list Qc).

Definition scale (k : Qc) (l : list Qc) : list Qc := map (fun v => k * v) l.

(** run_drdid, panel branch (compute_att_gt.py:297-363). *)
Definition run_drdid_panel (est : panel_estimator) (ix : list (option bool)) (y1 y0 : list Qc)
    (covs : list (list Qc)) (w : list Qc) : cell_est :=
  let n := length ix in
  let nv := length (flags ix) in
  match est (select ix y1) (select ix y0) (flags ix) (select ix covs) (select ix w) with
  | None => CNone
  | Some (att, psi) => CEst att (scatter ix (scale (qn n / qn nv) psi))
  end.

(** sum of the long influence values of the rows carrying id [u] (compute_att_gt.py:396-400) *)
Definition sum_by_id (ids : list Z) (long : list Qc) (u : Z) : Qc :=
  sumf snd (filter (fun p => (fst p =? u)%Z) (combine ids long)).

(** run_drdid, cross-section branch (compute_att_gt.py:365-405). [by_id] = config.allow_unbalanced_panel. *)
Definition run_drdid_rc (est : rc_estimator) (by_id : bool) (id_count : nat) (ids : list Z) (ix : list (option bool))
    (y : list Qc) (post : list bool) (covs : list (list Qc)) (w : list Qc) : cell_est :=
  let n := length ix in
  let nv := length (flags ix) in
  match est (select ix y) (select ix post) (flags ix) (select ix covs) (select ix w) with
  | None => CNone
  | Some (att, psi) =>
      if by_id then
        let long := scatter ix (scale (qn id_count / qn nv) psi) in
        CEst att (map (sum_by_id ids long) (zuniq ids))          (* np.unique: sorted *)
      else CEst att (scatter ix (scale (qn n / qn nv) psi))
  end.

Definition has_flag (v : bool) (ix : list (option bool)) : bool :=
  existsb (fun o => match o with Some b => Bool.eqb b v | None => false end) ix.

(** Which branch of the code runs: a panel estimator or a cross-section one. *)
Inductive estimator := EPanel (e : panel_estimator) | ERc (e : rc_estimator).

(** covariates_matrix for cross-sections (tensors.py:175-189): a constant plus the covariates, per row. *)
Definition rc_covs (d : did_data) : list (list Qc) := map (fun r => 1 :: r_x r) (d_rows d).

(** run_att_gt_estimation (compute_att_gt.py:110-197). A missing pre-period under 'universal'
    (pre_treatment_idx None) raises TypeError in [max(time_idx, None)] ('notyettreated') or when indexing the
    tensors with None. For cross-sections the covariate matrix of an unbalanced panel (one row per unit, indexed
    by a row mask) is not modelled: only intercept-only/RC matrices. *)
Definition run_att_gt (est : estimator) (c : pconfig) (d : did_data) (b : base_mode) (g_idx t_idx : nat) : cell_est :=
  match base_index (c_ant c) d b g_idx t_idx with
  | NoPre => CNone
  | PreNone =>
      if negb (c_never c) then CRaise
      else match est with
           | EPanel _ =>
               let ix := cohort_index_panel c d b g_idx t_idx 0 in
               if has_flag true ix && has_flag false ix then CRaise else CNone
           | ERc _ => CRaise
           end
  | Base pre =>
      let year := nth (t_idx + time_factor b) (d_times d) 0%Z in
      if match b with Universal => (nth pre (d_times d) 0 =? year)%Z | Varying => false end then CNone
      else
        match est with
        | EPanel e =>
            let ix := cohort_index_panel c d b g_idx t_idx pre in
            if negb (has_flag true ix && has_flag false ix) then CNone
            else match d_outcomes d, d_covs d with
                 | Some Y, Some X =>
                     run_drdid_panel e ix (nth (t_idx + time_factor b) Y []) (nth pre Y [])
                       (nth (Nat.min pre t_idx) X []) (d_weights d)
                 | _, _ => CRaise                      (* outcomes_tensor is None: not subscriptable *)
                 end
        | ERc e =>
            let ix := cohort_index_rc c d b g_idx t_idx pre in
            if negb (has_flag true ix && has_flag false ix) then CNone
            else run_drdid_rc e (c_unbal c) (d_ids d) (map r_id (d_rows d)) ix (map r_y (d_rows d))
                   (map (fun r => (r_t r =? year)%Z) (d_rows d)) (rc_covs d) (map r_w (d_rows d))
        end
  end.

(** ATTgtResult (compute_att_gt.py:21-43) together with its influence function. *)
Record att_cell := { ac_att : Qc; ac_group : Z; ac_year : Z; ac_post : bool; ac_inf : list Qc }.

(** _process_gt_cell_did (compute_att_gt.py:408-461). [None] = uncaught exception; [Some None] = cell dropped. *)
Definition process_cell (est : estimator) (c : pconfig) (d : did_data) (b : base_mode) (p : nat * nat) : option (option att_cell) :=
  let '(g_idx, t_idx) := p in
  let mk att inf := {| ac_att := att; ac_group := nth g_idx (d_groups d) 0%Z;
                       ac_year := nth (t_idx + time_factor b) (d_times d) 0%Z;
                       ac_post := is_post d b g_idx t_idx; ac_inf := inf |} in
  match run_att_gt est c d b g_idx t_idx with
  | CRaise => None
  | CNone => match b with
             | Universal => Some (Some (mk 0 (repeat 0 (d_ids d))))
             | Varying => Some None
             end
  | CEst None _ => Some (Some (mk 0 (repeat 0 (d_ids d))))
  | CEst (Some a) inf => Some (Some (mk a inf))
  end.

(** compute_att_gt (compute_att_gt.py:61-107); the parallel map is C01. *)
Definition cell_pairs (d : did_data) (b : base_mode) : list (nat * nat) :=
  let nt := match b with Universal => length (d_times d) | Varying => (length (d_times d) - 1)%nat end in
  list_prod (seq 0 (length (d_groups d))) (seq 0 nt).
Definition compute_att_gt (est : estimator) (c : pconfig) (d : did_data) (b : base_mode) : option (list att_cell) :=
  match sequence (map (process_cell est c d b) (cell_pairs d b)) with
  | None => None
  | Some l => Some (flat_map (fun o => match o with Some a => [a] | None => [] end) l)
  end.
