(** Continuous treatment: [cont_did] with [dose_est_method="parametric"] and [aggregation="dose"] (moderndid/didcont/cont_did.py,
    didcont/estimation/process_panel.py, process_aggte.py, process_dose.py, core/preprocess/transformers.py), up to and including the influence
    functions; the multiplier bootstrap that turns them into standard errors is modelled in MbootModel.v.
    Simplifications: exact rationals; rows carry no missing values (MissingDataHandler, transformers.py:60-92, has dropped them); (id, period) is a
    key of the data (validated before); sampling weights are those of the row's unit (WeightNormalizer divides them all by their mean, which cancels in
    [safe_normalize]); period labels are integers. *)
From Verif Require Import Base ReduceModel DrdidModel SplineModel.

Record crow := { c_id : Z; c_t : Z; c_g : option Z; c_d : Qc; c_y : Qc; c_w : Qc }.
(** [c_g = None]: infinity (never treated). *)
Record copts := { co_nyt : bool; co_ant : Z; co_univ : bool; co_deg : nat; co_nknots : nat; co_dvals : option (list Qc) }.

Definition set_t (t : Z) (r : crow) : crow := {| c_id := c_id r; c_t := t; c_g := c_g r; c_d := c_d r; c_y := c_y r; c_w := c_w r |}.
Definition set_g (g : option Z) (r : crow) : crow := {| c_id := c_id r; c_t := c_t r; c_g := g; c_d := c_d r; c_y := c_y r; c_w := c_w r |}.
Definition set_d (d : Qc) (r : crow) : crow := {| c_id := c_id r; c_t := c_t r; c_g := c_g r; c_d := d; c_y := c_y r; c_w := c_w r |}.

Definition periods (l : list crow) : list Z := zuniq (map c_t l).
Definition units (l : list crow) : list Z := zuniq (map c_id l).
Definition og_eqb (a : option Z) (g : Z) : bool := match a with Some x => (x =? g)%Z | None => false end.
Definition og_gt (a : option Z) (t : Z) : bool := match a with Some x => (t <? x)%Z | None => true end.
Definition og_fin (a : option Z) : bool := match a with Some _ => true | None => false end.

(** * Preprocessing (core/preprocess/transformers.py) *)
(** [TreatmentEncoder] (122-148): group 0, and groups after the last period, become infinity. *)
Definition encode_treatment (l : list crow) : list crow :=
  let last := fold_right Z.max (hd 0%Z (map c_t l)) (map c_t l) in
  map (fun r => set_g (match c_g r with Some g => if (g =? 0)%Z || (last <? g)%Z then None else Some g | None => None end) r) l.
(** [TimePeriodRecoder] (270-285): periods become 1, 2, ...; the group column is left as it is. *)
Fixpoint index_of (x : Z) (l : list Z) : Z := match l with [] => 0%Z | a :: r => if (a =? x)%Z then 0%Z else (1 + index_of x r)%Z end.
Definition recode_periods (l : list crow) : list crow :=
  let ps := periods l in map (fun r => set_t (1 + index_of (c_t r) ps)%Z r) l.
(** [EarlyTreatmentGroupFilter] (288-315), with [required_pre_periods = 1] (cont_did.py:463). *)
Definition drop_early (o : copts) (l : list crow) : list crow :=
  let first := fold_right Z.min (hd 0%Z (map c_t l)) (map c_t l) in
  filter (fun r => match c_g r with Some g => negb (g <? 1 + co_ant o + first)%Z | None => true end) l.
(** [DoseValidatorTransformer] (318-348): dose 0 for the never treated; post-treatment rows with dose 0 dropped. *)
Definition validate_dose (l : list crow) : list crow :=
  filter (fun r => match c_g r with Some g => negb ((g <=? c_t r)%Z && Qceqb (c_d r) 0) | None => true end)
    (map (fun r => match c_g r with None => set_d 0 r | _ => r end) l).
(** [PanelBalancer] (217-245): units observed in every period. *)
Definition balance (l : list crow) : list crow :=
  filter (fun r => (length (filter (fun s => (c_id s =? c_id r)%Z) l) =? length (periods l))%nat) l.
(** The pipeline (1139-1153). The final sort does not matter for what follows, which addresses rows by unit and period. *)
Definition preprocess (o : copts) (l : list crow) : list crow :=
  balance (validate_dose (drop_early o (recode_periods (encode_treatment l)))).

(** * Set-up ([_build_pte_params], process_panel.py:627-740) *)
Definition groups_of (l : list crow) : list Z := zuniq (flat_map (fun r => match c_g r with Some g => [g] | None => [] end) l).
Definition t_list (o : copts) (l : list crow) : list Z := if co_univ o then periods l else tl (periods l).
(** second period in both cases (683-687); with fewer than two periods no group qualifies *)
Definition g_list (o : copts) (l : list crow) : list Z :=
  match tl (periods l) with
  | [] => []
  | p2 :: _ => filter (fun g => zmem g (t_list o l) && (p2 + co_ant o <=? g)%Z) (groups_of l)
  end.
(** 692-693 *)
Definition pte_data (o : copts) (l : list crow) : list crow :=
  filter (fun r => match c_g r with Some g => negb ((1 <=? g)%Z && (g <=? 1 + co_ant o)%Z) | None => true end) l.
(** 695-699 *)
Definition positive_doses (l : list crow) : list Qc :=
  map c_d (filter (fun r => match c_g r with Some g => (g <=? c_t r)%Z && Qcltb 0 (c_d r) | None => false end) l).
(** [choose_knots_quantile] (core/preprocess/utils.py:206-217): np.quantile with linear interpolation at j/(m+1), j = 1..m. *)
Definition quantile (s : list Qc) (j m : nat) : Qc :=
  let h := ((length s - 1) * j)%nat in
  let i := (h / (m + 1))%nat in
  nth i s 0 + (nth (i + 1) s (nth i s 0) - nth i s 0) * (qn (h mod (m + 1)) / qn (m + 1)).
Definition choose_knots (x : list Qc) (m : nat) : list Qc :=
  match x with [] => [] | _ => let s := qsort x in map (fun j => quantile s j m) (seq 1 m) end.
(** dose grid (703-705): np.linspace(min, max, 50) by default *)
Definition dose_grid (o : copts) (pos : list Qc) : list Qc :=
  match co_dvals o with
  | Some d => d
  | None => match pos with [] => [] | _ => map (fun j => qmin_l pos + (qmax_l pos - qmin_l pos) * (qn j / qn 49)) (seq 0 50) end
  end.

(** * One cell *)
(** [cont_two_by_two_subset] (cont_did.py:667-703). *)
Definition base_of (o : copts) (g tp : Z) : Z :=
  if co_univ o then (g - co_ant o - 1)%Z else if (tp <? g - co_ant o)%Z then (tp - 1)%Z else (g - co_ant o - 1)%Z.
Definition in_cell (o : copts) (g tp : Z) (r : crow) : bool :=
  (og_eqb (c_g r) g || (if co_nyt o then og_gt (c_g r) tp else negb (og_fin (c_g r))))
  && ((c_t r =? tp)%Z || (c_t r =? base_of o g tp)%Z).
Definition subset (o : copts) (g tp : Z) (l : list crow) : list crow :=
  map (fun r => set_d (if og_eqb (c_g r) g then c_d r else 0) r) (filter (in_cell o g tp) l).
(** [get_first_difference] (core/preprocess/utils.py:61-82): outcome minus the unit's previous row of the subset, null if there is none. *)
Definition prev_y (s : list crow) (r : crow) : option Qc :=
  match filter (fun b => (c_id b =? c_id r)%Z && (c_t b <? c_t r)%Z) s with
  | [] => None
  | a :: q => Some (c_y (fold_right (fun b m => if (c_t m <? c_t b)%Z then b else m) a q))
  end.
(** post rows in the order of the unit identifiers (cont_did.py:590-594) *)
Record cu := { u_id : Z; u_d : Qc; u_dy : option Qc }.
Definition post_units (tp : Z) (s : list crow) : list cu :=
  flat_map (fun i => map (fun r => {| u_id := i; u_d := c_d r; u_dy := option_map (fun p => c_y r - p) (prev_y s r) |})
                       (filter (fun r => (c_id r =? i)%Z && (c_t r =? tp)%Z) s)) (units s).

(** Numerical routines: least squares (np.linalg.lstsq, [None]: LinAlgError) and matrix inverse ([None]: singular). *)
Record coracle := { co_lstsq : list (list Qc) -> list Qc -> option (list Qc); co_inv : matrix -> option matrix }.

(** What [cont_did_acrt] (cont_did.py:553-664) returns. [CFail]: (0.0, zeros, None). [CRaise]: an exception leaves the function.
    [CNull]: some outcome change is null (the base period comes after [tp]); what numpy's lstsq does with it depends on LAPACK and is not modelled.
    A missing comparison group makes its mean NaN: the [option]s. *)
Record cellres := { e_attd : option (list Qc); e_acrtd : list Qc; e_att : option Qc; e_acrt : Qc; e_inf : list (Z * Qc);
                    e_coef : list Qc; e_bread : matrix; e_score : list (list Qc) }.
Inductive cell := CFail | CRaise | CNull | CEst (r : cellres).

Fixpoint all_some (l : list cu) : option (list (Z * Qc * Qc)) :=
  match l with
  | [] => Some []
  | u :: r => match u_dy u, all_some r with Some y, Some q => Some ((u_id u, u_d u, y) :: q) | _, _ => None end
  end.
Definition id_of (u : Z * Qc * Qc) : Z := fst (fst u).
Definition dose_of (u : Z * Qc * Qc) : Qc := snd (fst u).
Definition dy_of (u : Z * Qc * Qc) : Qc := snd u.
Definition is_treated (u : Z * Qc * Qc) : bool := Qcltb 0 (dose_of u).
Definition is_zero_dose (u : Z * Qc * Qc) : bool := Qceqb (dose_of u) 0.
(** np.unique has at least two values *)
Definition two_doses (l : list Qc) : bool := negb (Qceqb (qmin_l l) (qmax_l l)).
(** [[1, basis without first column]] (613-617, 625-627) *)
Definition design (rows : list (list Qc)) : list (list Qc) := map (cons 1) rows.
Definition opt_sub (c : option Qc) (v : Qc) : option Qc := option_map (fun m => v - m) c.

Definition fit_cell (orc : coracle) (deg : nat) (knots dvals : list Qc) (us : list (Z * Qc * Qc)) : cell :=
  let tr := filter is_treated us in
  let doses := map dose_of tr in
  if negb (two_doses doses) then CFail else
  let bnd := Some (qmin_l doses, qmax_l doses) in
  let comp := filter is_zero_dose us in
  let cmean := match comp with [] => None | _ => Some (mean dy_of comp) end in
  match bspline_basis deg doses knots bnd false, bspline_basis deg dvals knots bnd false with
  | Some b_tr, Some b_gr =>
      let X := design b_tr in
      let y := map dy_of tr in
      match co_lstsq orc X y with
      | None => CFail
      | Some coef =>
          let k := length coef in
          let resid := map (fun p => snd p - dotk k (fst p) coef) (combine X y) in
          let attd := map (fun x => dotk k x coef) (design b_gr) in
          match bspline_derivative deg dvals knots bnd false, bspline_derivative deg doses knots bnd false with
          | Some d_gr, Some d_tr =>
              let slope := fun x => dotk (k - 1) x (tl coef) in
              let acrtd := map slope d_gr in
              let att := mean (fun x => dotk k x coef) X in
              let acrt := mean slope d_tr in
              let score := map (fun p => vscale (snd p) (fst p)) (combine X resid) in
              let n := qn (length X) in
              match co_inv orc (mat_of k (fun a b => sumf (fun x => nth a x 0 * nth b x 0) X / n)) with
              | None => CRaise
              | Some bread =>
                  let avg := 0 :: vec_of (k - 1) (fun j => mean (fun x => nth j x 0) d_tr) in
                  let infl := map (fun p => slope (fst p) - acrt + dotk k (vm k (snd p) bread) avg) (combine d_tr score) in
                  CEst {| e_attd := match cmean with Some m => Some (map (fun v => v - m) attd) | None => None end;
                          e_acrtd := acrtd; e_att := opt_sub cmean att; e_acrt := acrt;
                          e_inf := combine (map id_of tr) infl;
                          e_coef := coef; e_bread := bread; e_score := score |}
              end
          | _, _ => CRaise
          end
      end
  | _, _ => CRaise
  end.
(** 596-601: no dose grid or no treated unit; then the fit. Null changes are looked at only when they are used. *)
Definition cont_did_acrt (orc : coracle) (deg : nat) (knots dvals : list Qc) (us : list cu) : cell :=
  match dvals with
  | [] => CFail
  | _ =>
      let doses := map u_d (filter (fun u => Qcltb 0 (u_d u)) us) in
      match doses with
      | [] => CFail
      | _ => if negb (two_doses doses) then CFail
             else match all_some us with None => CNull | Some q => fit_cell orc deg knots dvals q end
      end
  end.

(** [_process_pte_cell] (process_panel.py:582-624): the base period of a universal base is a cell of zeros. *)
Record pcell := { pc_g : Z; pc_t : Z; pc_n1 : nat; pc_out : cell }.
Definition process_cell (orc : coracle) (o : copts) (knots dvals : list Qc) (l : list crow) (tp g : Z) : pcell :=
  let s := subset o g tp l in
  {| pc_g := g; pc_t := tp; pc_n1 := length (units s);
     pc_out := if co_univ o && (tp =? g - 1 - co_ant o)%Z then CFail
               else cont_did_acrt orc (co_deg o) knots dvals (post_units tp s) |}.
(** [compute_pte] (219-282): periods outer, groups inner. *)
Definition compute_pte (orc : coracle) (o : copts) (knots dvals : list Qc) (ts gs : list Z) (l : list crow) : list pcell :=
  flat_map (fun tp => map (process_cell orc o knots dvals l tp) gs) ts.

(** * Aggregation *)
(** [overall_weights] (process_aggte.py:343-421) with the default event window: cohort shares in the first period, normalised
    ([safe_normalize], 424-432), spread over the cohort's post-treatment cells. [None]: the weights sum to zero.
    The final renormalisation when the sum is not 1 (414-419) is kept. *)
Definition safe_normalize (l : list Qc) : list Qc :=
  if Qcleb (qsum l) 0 then map (fun _ => 1 / qn (length l)) l else map (fun x => x / qsum l) l.
Definition cohort_share (l : list crow) (g : Z) : Qc :=
  let first := filter (fun r => (c_t r =? 1)%Z) l in mean (fun r => c_w r * ind (og_eqb (c_g r) g)) first.
Definition overall_weights (l : list crow) (cells : list (Z * Z)) : option (list Qc) :=
  let gs := zuniq (map fst cells) in
  let pg := combine gs (safe_normalize (map (cohort_share l) gs)) in
  let w := map (fun c => if (fst c <=? snd c)%Z
                   then match find (fun p => (fst p =? fst c)%Z) pg with
                        | Some p => snd p / qn (length (filter (fun d => (fst d =? fst c)%Z && (fst d <=? snd d)%Z) cells))
                        | None => 0 end
                   else 0) cells in
  if Qceqb (qsum w) 1 then Some w else if Qcltb 0 (qsum w) then Some (map (fun x => x / qsum w) w) else None.

(** [_weighted_combine_arrays] (process_dose.py:291-315): cells without a dose curve are left out and the weights rescaled.
    [None]: NaN (a NaN curve, even with weight 0, or weights summing to 0). *)
Definition weighted_combine (nd : nat) (l : list (Qc * option (list Qc))) : option (list Qc) :=
  let tot := sumf fst l in
  if Qceqb tot 0 then None else
  if forallb (fun p => og_fin (option_map (fun _ => 0%Z) (snd p))) l
  then Some (map (fun j => sumf (fun p => fst p / tot * nth j (match snd p with Some a => a | None => [] end) 0) l) (seq 0 nd)) else None.

(** Influence column of a cell (process_panel.py:615-618, 267-280): scaled by n / n1, zero outside the cell. *)
Definition inf_column (n : nat) (ids : list Z) (c : pcell) : list Qc :=
  match pc_out c with
  | CEst r => map (fun i => match find (fun p => (fst p =? i)%Z) (e_inf r) with Some p => qn n / qn (pc_n1 c) * snd p | None => 0 end) ids
  | _ => map (fun _ => 0) ids
  end.

(** Dose-specific influence functions ([_compute_dose_influence_functions], process_dose.py:207-288): the rows of the cell's scores are
    assigned, in order, to the units whose influence value is not zero. [B]: basis matrix on the dose grid (with intercept).
    The comparison units' part (275-278) selects units with a nonzero value in one copy and zero value in the other copy of the same matrix
    (93, 85), so it is empty; it is kept in the model as [comp_part]. *)
Definition nonzero_pos (col : list Qc) : list nat := filter (fun i => negb (Qceqb (nth i col 0) 0)) (seq 0 (length col)).
Fixpoint pos_of (x : nat) (l : list nat) : option nat :=
  match l with [] => None | a :: r => if (a =? x)%nat then Some 0%nat else option_map S (pos_of x r) end.
Definition comp_part (acrt_col att_col : list Qc) (i : nat) : Qc :=
  if negb (Qceqb (nth i att_col 0) 0) && Qceqb (nth i acrt_col 0) 0 then nth i att_col 0 else 0.
Definition dose_influence (n : nat) (comparison : bool) (cells : list (Qc * (pcell * list Qc))) (brow : list Qc) (i : nat) : Qc :=
  sumf (fun c =>
    match pc_out (fst (snd c)) with
    | CEst r =>
        let col := snd (snd c) in
        let pos := nonzero_pos col in
        let k := length (e_coef r) in
        if Qceqb (fst c) 0 || (length pos =? 0)%nat then 0 else
        match pos_of i pos with
        | Some j => if (j <? length (e_score r))%nat
                    then fst c * (qn n / qn (length pos)) * dotk k (vm k (nth j (e_score r) []) (e_bread r)) brow else 0
        | None => 0
        end - (if comparison then fst c * comp_part col col i else 0)
    | _ => 0
    end) cells.

(** [process_dose_gt] (process_dose.py:21-204). *)
Record cont_result := {
  r_cells : list pcell; r_weights : list Qc; r_dose : list Qc;
  r_att : Qc; r_acrt : Qc; r_att_d : option (list Qc); r_acrt_d : option (list Qc);
  r_att_inf : list Qc; r_acrt_inf : list Qc;
  r_att_d_inf : list (list Qc); r_acrt_d_inf : list (list Qc) }.
Inductive cont_out := ContRaise | ContUnmodelled | ContOk (r : cont_result).

Definition is_raise (c : pcell) : bool := match pc_out c with CRaise => true | _ => false end.
Definition is_null (c : pcell) : bool := match pc_out c with CNull => true | _ => false end.
Definition ests (wc : list (Qc * pcell)) : list (Qc * cellres) :=
  flat_map (fun p => match pc_out (snd p) with CEst r => [(fst p, r)] | _ => [] end) wc.
Definition zero_of (o : option Qc) : Qc := match o with Some v => v | None => 0 end.

Definition process_dose (o : copts) (knots dvals : list Qc) (l : list crow) (cells : list pcell) : cont_out :=
  match overall_weights l (map (fun c => (pc_g c, pc_t c)) cells) with
  | None => ContRaise
  | Some w =>
      let ids := units l in
      let n := length ids in
      let wc := combine w cells in
      let es := ests wc in
      let cols := map (inf_column n ids) cells in
      let overall_inf := map (fun i => sumf (fun p => nth i (snd p) 0 * fst p) (combine w cols)) (seq 0 n) in
      let att := sumf (fun p => zero_of (e_att (snd p)) * fst p) es in
      let acrt := sumf (fun p => e_acrt (snd p) * fst p) es in
      (** 118-129: no dose grid, only the overall estimates *)
      match dvals with [] =>
          ContOk {| r_cells := cells; r_weights := w; r_dose := []; r_att := att; r_acrt := acrt; r_att_d := None; r_acrt_d := None;
                    r_att_inf := overall_inf; r_acrt_inf := overall_inf; r_att_d_inf := []; r_acrt_d_inf := [] |}
      | _ =>
      (** 131-146: the basis on the grid, with the grid's own range as boundary knots *)
      match bspline_basis (co_deg o) dvals knots None false, bspline_derivative (co_deg o) dvals knots None false with
      | Some B, Some B' =>
          let nd := length dvals in
          let wcc := combine w (combine cells cols) in
          ContOk {| r_cells := cells; r_weights := w; r_dose := dvals; r_att := att; r_acrt := acrt;
                    r_att_d := weighted_combine nd (map (fun p => (fst p, e_attd (snd p))) es);
                    r_acrt_d := weighted_combine nd (map (fun p => (fst p, Some (e_acrtd (snd p)))) es);
                    r_att_inf := overall_inf; r_acrt_inf := overall_inf;
                    r_att_d_inf := map (fun i => map (fun b => dose_influence n true wcc (1 :: b) i) B) (seq 0 n);
                    r_acrt_d_inf := map (fun i => map (fun b => dose_influence n false wcc (0 :: b) i) B') (seq 0 n) |}
      | _, _ => ContRaise
      end end
  end.

(** [cont_did] (cont_did.py:465-550) after its argument checks. No cell: [process_att_gt] fails on empty arrays. *)
Definition cont_run (orc : coracle) (o : copts) (l : list crow) : cont_out :=
  let d := pte_data o l in
  let pos := positive_doses d in
  let knots := choose_knots pos (co_nknots o) in
  let dvals := dose_grid o pos in
  let cells := compute_pte orc o knots dvals (t_list o l) (g_list o l) d in
  match cells with
  | [] => ContRaise
  | _ => if existsb is_raise cells then ContRaise else if existsb is_null cells then ContUnmodelled
         else process_dose o knots dvals d cells
  end.
Definition cont_did (orc : coracle) (o : copts) (l : list crow) : cont_out := cont_run orc o (preprocess o l).
