(** Model of the distributed DiD driver: moderndid/dask/_did_mp.py:50-435 and :437-600 (panel data, dask input).
    Definitions only. One cell's computation is an input here (it is [dist_cell] of DistDidModel). *)
From Verif Require Import Base ReduceModel AttGtModel DistDidModel.

(** one entry of cell_specs (_did_mp.py:206-235) *)
Inductive action := ASkip | AZero | ACompute.
Record cspec := { cs_g : Z; cs_t : Z; cs_pre : option Z; cs_post : bool; cs_act : action }.

(** pre_periods = tlist[tlist < bound]; pre_periods[-1] (_did_mp.py:212-216, 222-226) *)
Definition last_pre (times : list Z) (bound : Z) : option Z :=
  last (map Some (filter (fun p => (p <? bound)%Z) times)) None.

(** body of the double loop (_did_mp.py:209-235) *)
Definition cell_spec (b : base_mode) (ant : Z) (times : list Z) (g : Z) (t_idx : nat) : cspec :=
  let t := nth (t_idx + time_factor b) times 0%Z in
  let pre := last_pre times (g - ant) in
  let mk p post act := {| cs_g := g; cs_t := t; cs_pre := p; cs_post := post; cs_act := act |} in
  match b with
  | Universal =>
      match pre with
      | None => mk None false ASkip
      | Some p => if (p =? t)%Z then mk (Some p) false AZero else mk (Some p) (g <=? t)%Z ACompute
      end
  | Varying =>
      if (g <=? t)%Z
      then match pre with None => mk None true ASkip | Some p => mk (Some p) true ACompute end
      else mk (Some (nth t_idx times 0%Z)) false ACompute
  end.
(** cell_specs (_did_mp.py:206-235); range(tlist_length) with tlist_length = n_periods - tfac *)
Definition cell_specs (b : base_mode) (ant : Z) (times glist : list Z) : list cspec :=
  flat_map (fun g => map (cell_spec b ant times g) (seq 0 (length times - time_factor b))) glist.

(** enumerate(cell_specs) *)
Definition numbered (specs : list cspec) : list (nat * cspec) := combine (seq 0 (length specs)) specs.

(** One reported cell: ATTgtResult(att, group, time, post). *)
Record report := { rp_g : Z; rp_t : Z; rp_att : Qc; rp_post : bool }.
(** One cell of a cohort (_did_mp.py:508-570). [None]: the exception reaches future.result(). [Some []]: no result appended. *)
Definition process_one (outcome : nat -> cell_result) (c : nat * cspec) : option (list (nat * report)) :=
  let '(i, s) := c in
  match cs_act s with
  | ASkip => Some []
  | AZero => Some [(i, {| rp_g := cs_g s; rp_t := cs_t s; rp_att := 0; rp_post := false |})]
  | ACompute => match outcome i with
                | CSkip => Some []
                | CRaise => None
                | CDone a _ => Some [(i, {| rp_g := cs_g s; rp_t := cs_t s; rp_att := a; rp_post := cs_post s |})]
                end
  end.
Fixpoint process_cells (outcome : nat -> cell_result) (cs : list (nat * cspec)) : option (list (nat * report)) :=
  match cs with
  | [] => Some []
  | c :: cs' => match process_one outcome c, process_cells outcome cs' with Some a, Some b => Some (a ++ b) | _, _ => None end
  end.
(** cohort_cells[g] (_did_mp.py:239-241) *)
Definition cohort_cells (specs : list cspec) (g : Z) : list (nat * cspec) :=
  filter (fun c => (cs_g (snd c) =? g)%Z) (numbered specs).
(** attgt_list after the as_completed loop (_did_mp.py:281-283); [order]: cohorts in completion order *)
Fixpoint gather (outcome : nat -> cell_result) (specs : list cspec) (order : list Z) : option (list (nat * report)) :=
  match order with
  | [] => Some []
  | g :: rest => match process_cells outcome (cohort_cells specs g), gather outcome specs rest with
                 | Some a, Some b => Some (a ++ b) | _, _ => None end
  end.
(** attgt_list.sort(key = counter): stable (_did_mp.py:285) *)
Fixpoint insert_counter {A} (x : nat * A) (l : list (nat * A)) : list (nat * A) :=
  match l with [] => [x] | y :: l' => if (fst x <=? fst y)%nat then x :: l else y :: insert_counter x l' end.
Definition sort_counter {A} (l : list (nat * A)) : list (nat * A) := fold_right insert_counter [] l.
(** inf_func_mat[:, i]: zeros unless cell i wrote its column (_did_mp.py:188-200; _did_streaming.py:193-203) *)
Definition mat_column (n : nat) (outcome : nat -> cell_result) (specs : list cspec) (i : nat) : list Qc :=
  match option_map cs_act (nth_error specs i), outcome i with
  | Some ACompute, CDone _ col => col
  | _, _ => repeat 0 n
  end.
(** non_skip_counters (_did_mp.py:305) *)
Definition non_skip (specs : list cspec) : list nat :=
  map fst (filter (fun c => match cs_act (snd c) with ASkip => false | _ => true end) (numbered specs)).
Inductive drv_result := DRaise | DNoCells | DTable (rows : list report) (columns : list (list Qc)).
(** dask_att_gt_mp, from the cell table to the reported arrays (_did_mp.py:237-308, 420-435) *)
Definition driver (b : base_mode) (ant : Z) (times glist : list Z) (n : nat) (outcome : nat -> cell_result) (order : list Z) : drv_result :=
  let specs := cell_specs b ant times glist in
  match gather outcome specs order with
  | None => DRaise
  | Some found =>
      match map snd (sort_counter found) with
      | [] => DNoCells
      | rows => DTable rows (map (mat_column n outcome specs) (firstn (length rows) (non_skip specs)))
      end
  end.

(** chunked_vcov (distributed/_utils.py:67-90): entry (i, j) of the matrix, [rows] the rows of the influence matrix *)
Definition cross_sum (i j : nat) (rows : list (list Qc)) : Qc := sumf (fun r => nth i r 0 * nth j r 0) rows.
Definition chunked_vcov (threshold chunk : nat) (rows : list (list Qc)) (n : nat) (i j : nat) : Qc :=
  if (length rows <=? threshold)%nat then cross_sum i j rows / qn n
  else fold_left (fun v c => v + cross_sum i j c) (map (fun s => firstn chunk (skipn s rows)) (py_range (length rows) chunk)) 0 / qn n.

(** auto_tune_partitions (distributed/_utils.py:12-36) in integers: rows * k * 8 / max(n_default, 1) <= target, else
    max(n_default, ceil(rows * k * 8 / target)) *)
Definition auto_tune (n_default n_units k target : nat) : nat :=
  if (n_units * k * 8 <=? target * Nat.max n_default 1)%nat then n_default
  else Nat.max n_default ((n_units * k * 8 + target - 1) / target).
