(** Model of the DID preprocessing pipeline: moderndid/core/preprocess/{transformers,tensors,builders}.py.
    Definitions only. *)
From Verif Require Import Base ListLib.

(** A treatment-group code: the code uses floats with [float('inf')] for never treated
    (constants.py:54). Simplification: finite codes and periods are integers. *)
Inductive grp := Fin (z : Z) | Inf.
Definition grp_eqb (a b : grp) : bool :=
  match a, b with Fin x, Fin y => (x =? y)%Z | Inf, Inf => true | _, _ => false end.
Definition grp_leb (a b : grp) : bool :=
  match a, b with Fin x, Fin y => (x <=? y)%Z | _, Inf => true | Inf, Fin _ => false end.
(** [g > z] and [g <= z] for a number [z] *)
Definition grp_gtz (g : grp) (z : Z) : bool := match g with Fin x => (z <? x)%Z | Inf => true end.
Definition grp_lez (g : grp) (z : Z) : bool := match g with Fin x => (x <=? z)%Z | Inf => false end.
Definition grp_is_inf (g : grp) : bool := match g with Inf => true | _ => false end.

(** One row of the user's data frame; [None] is a null. [raw_x] are the covariates of the formula. *)
Record raw := { raw_id : option Z; raw_t : option Z; raw_g : option grp;
                raw_y : option Qc; raw_w : option Qc; raw_x : list (option Qc) }.
(** One row of the processed frame. *)
Record row := { r_id : Z; r_t : Z; r_g : grp; r_y : Qc; r_w : Qc; r_x : list Qc }.

(** The fields of DIDConfig the pipeline reads (config.py). *)
Record pconfig := { c_panel : bool; c_unbal : bool;   (* panel, allow_unbalanced_panel *)
                    c_has_id : bool; c_has_w : bool;  (* idname / weightsname given *)
                    c_never : bool;                   (* control_group == 'nevertreated' *)
                    c_ant : Z }.                      (* anticipation *)

Fixpoint sequence {A} (l : list (option A)) : option (list A) :=
  match l with
  | [] => Some []
  | None :: _ => None
  | Some a :: l' => match sequence l' with Some r => Some (a :: r) | None => None end
  end.

(** ColumnSelector (transformers.py:32-61) keeps y, t, g and, when named, id and weights, plus the
    formula variables; MissingDataHandler (64-98) then drops rows with a null in a kept column. An absent
    id column is represented by 0 and an absent weight column by 1 (WeightNormalizer's np.ones). *)
Definition clean_row (c : pconfig) (q : raw) : option row :=
  match (if c_has_id c then raw_id q else Some 0%Z), raw_t q, raw_g q, raw_y q,
        (if c_has_w c then raw_w q else Some 1), sequence (raw_x q) with
  | Some i, Some t, Some g, Some y, Some w, Some x =>
      Some {| r_id := i; r_t := t; r_g := g; r_y := y; r_w := w; r_x := x |}
  | _, _, _, _, _, _ => None
  end.
Definition clean (c : pconfig) (d : list raw) : list row :=
  flat_map (fun q => match clean_row c q with Some r => [r] | None => [] end) d.

(** WeightNormalizer (transformers.py:101-112): weights / weights.mean(). (Qc division by a
    zero mean is 0; the code would produce NaN/inf.) *)
Definition normalize_weights (l : list row) : list row :=
  let m := mean r_w l in
  map (fun r => {| r_id := r_id r; r_t := r_t r; r_g := r_g r; r_y := r_y r;
                   r_w := r_w r / m; r_x := r_x r |}) l.

(** sorted(df[tname].unique()) *)
Definition tlist (l : list row) : list Z := zuniq (map r_t l).
Definition set_g (r : row) (g : grp) : row :=
  {| r_id := r_id r; r_t := r_t r; r_g := g; r_y := r_y r; r_w := r_w r; r_x := r_x r |}.

(** TreatmentEncoder (transformers.py:131-157): 0 -> inf, then g > max period -> inf. *)
Definition encode (l : list row) : list row :=
  let max_t := last (tlist l) 0%Z in
  let l1 := map (fun r => set_g r (if grp_eqb (r_g r) (Fin 0) then Inf else r_g r)) l in
  map (fun r => set_g r (if grp_gtz (r_g r) max_t then Inf else r_g r)) l1.

(** EarlyTreatmentFilter (transformers.py:160-184). *)
Definition early_filter (c : pconfig) (l : list row) : list row :=
  let first_period := hd 0%Z (tlist l) in
  let mask r := grp_lez (r_g r) (first_period + c_ant c) in
  if c_has_id c then
    let early_units := map r_id (filter mask l) in
    filter (fun r => negb (zmem (r_id r) early_units)) l
  else filter (fun r => negb (mask r)) l.

(** finite elements of the sorted unique group list *)
Definition finite_groups (l : list row) : list Z :=
  zuniq (flat_map (fun r => match r_g r with Fin z => [z] | Inf => [] end) l).

(** ControlGroupCreator (transformers.py:187-227). *)
Definition control_creator (c : pconfig) (l : list row) : list row :=
  if existsb (fun r => grp_is_inf (r_g r)) l then l
  else match finite_groups l with
  | [] => l
  | g0 :: gs =>
      let latest_g := last (g0 :: gs) 0%Z in
      let cutoff_t := (latest_g - c_ant c)%Z in
      let l' := filter (fun r => (r_t r <? cutoff_t)%Z) l in
      if c_never c then map (fun r => set_g r (if grp_eqb (r_g r) (Fin latest_g) then Inf else r_g r)) l'
      else l'
  end.

Definition count_id (i : Z) (l : list row) : nat := length (filter (fun r => (r_id r =? i)%Z) l).

(** PanelBalancer (transformers.py:230-259); [None] is the ValueError for an empty result. *)
Definition balance (c : pconfig) (l : list row) : option (list row) :=
  if negb (c_panel c) || c_unbal c || negb (c_has_id c) then Some l
  else
    let n_periods := length (tlist l) in
    let complete_units := filter (fun i => (count_id i l =? n_periods)%nat) (zuniq (map r_id l)) in
    let l' := filter (fun r => zmem (r_id r) complete_units) l in
    match l' with [] => None | _ => Some l' end.

(** RepeatedCrossSectionHandler (transformers.py:262-282): without an id column every row becomes its own
    unit (row index); otherwise .rowid is a copy of the id. *)
Definition with_row_index (l : list row) : list row :=
  map (fun p => let '(i, r) := p in
        {| r_id := Z.of_nat i; r_t := r_t r; r_g := r_g r; r_y := r_y r; r_w := r_w r; r_x := r_x r |})
      (combine (seq 0 (length l)) l).
Definition rc_handler (c : pconfig) (l : list row) : list row :=
  if c_panel c then l else if c_has_id c then l else with_row_index l.

(** DataSorter (transformers.py:115-128): df.sort([tname, gname, idname]). Ties (possible only for duplicated
    (t,g,id) keys) are left in input order. *)
Definition row_leb (a b : row) : bool :=
  if (r_t a <? r_t b)%Z then true
  else if (r_t b <? r_t a)%Z then false
  else if negb (grp_leb (r_g b) (r_g a)) then true
  else if negb (grp_leb (r_g a) (r_g b)) then false
  else (r_id a <=? r_id b)%Z.
Definition data_sorter (l : list row) : list row := isort row_leb l.

(** DataTransformerPipeline.get_did_pipeline / transform (transformers.py:1121-1136, 1204-1217). [None] = an
    exception: max() of an empty list in TreatmentEncoder, min() of an empty list in
    EarlyTreatmentFilter, or the balancer's ValueError. *)
Definition did_stage_encoded (c : pconfig) (d : list raw) : list row := encode (normalize_weights (clean c d)).
Definition did_pipeline (c : pconfig) (d : list raw) : option (list row) :=
  match clean c d with
  | [] => None
  | _ =>
      match balance c (control_creator c (early_filter c (did_stage_encoded c d))) with
      | None => None
      | Some l => Some (data_sorter (rc_handler c l))
      end
  end.

(** ConfigUpdater (transformers.py:360-407), create_time_invariant_data and
    create_summary_tables (tensors.py:36-93), PanelTensorFactory (107-141). *)
Record did_data := {
  d_times : list Z;                       (* config.time_periods *)
  d_groups : list Z;                      (* config.treated_groups *)
  d_ids : nat;                            (* config.id_count *)
  d_rows : list row;                      (* data.data *)
  d_units : list row;                     (* data.time_invariant_data: id, group, weights columns *)
  d_cohorts : list (grp * nat);           (* cohort_counts *)
  d_outcomes : option (list (list Qc));   (* outcomes_tensor *)
  d_covs : option (list (list (list Qc)));(* covariates_tensor *)
  d_weights : list Qc }.                  (* weights *)

Definition slice {A} (i n : nat) (l : list A) : list A := firstn n (skipn (i * n) l).

Definition time_invariant (l : list row) : list row := firsts Z.eqb r_id l.
Definition cohort_counts (units : list row) : list (grp * nat) :=
  map (fun g => (g, length (filter (fun r => grp_eqb (r_g r) g) units))) (uniq grp_eqb (map r_g units)).
Definition is_balanced (l : list row) : bool :=
  forallb (fun i => (count_id i l =? length (tlist l))%nat) (zuniq (map r_id l)).

Definition build_did_data (c : pconfig) (l : list row) : did_data :=
  let times := tlist l in
  let n := length (zuniq (map r_id l)) in
  let units := time_invariant l in
  let panel_fmt := c_panel c && (negb (c_unbal c) || is_balanced l) in
  {| d_times := times;
     d_groups := finite_groups l;
     d_ids := n;
     d_rows := l;
     d_units := units;
     d_cohorts := cohort_counts units;
     d_outcomes := if panel_fmt then Some (map (fun i => map r_y (slice i n l)) (seq 0 (length times))) else None;
     d_covs := if panel_fmt then Some (map (fun i => map (fun r => 1 :: r_x r) (slice i n l)) (seq 0 (length times))) else None;
     d_weights := map r_w units |}.
