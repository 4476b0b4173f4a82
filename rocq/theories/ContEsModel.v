(** Continuous treatment, event-study aggregation: [cont_did] with [aggregation="eventstudy"] (moderndid/didcont/cont_did.py:502-520,
    didcont/estimation/process_panel.py:100-216, process_aggte.py, estimators.py), no covariates, multiplier bootstrap (which only turns
    the influence functions below into standard errors).
    Simplifications: those of ContModel.v; identifiers are numbers (polars' [unique] then sorts them). *)
From Verif Require Import Base ReduceModel DrdidModel SplineModel ContModel.

(** * Level effects: [pte_attgt] (didcont/estimation/estimators.py:59-223) *)
(** One unit of the cell in wide form (117-121): dose times cohort indicator, outcome change, sampling weight of the pre row.
    Units without both rows (nulls in the pivot) do not occur in balanced panels and are left out. *)
Record lunit := { l_id : Z; l_d : Qc; l_dy : Qc; l_w : Qc }.
Definition level_units (o : copts) (g tp : Z) (l : list crow) : list lunit :=
  let s := subset o g tp l in
  flat_map (fun i =>
    match filter (fun r => (c_id r =? i)%Z && (c_t r =? tp)%Z) s, filter (fun r => (c_id r =? i)%Z && (c_t r =? base_of o g tp)%Z) s with
    | p :: _, q :: _ => [{| l_id := i; l_d := c_d p; l_dy := c_y p - c_y q; l_w := c_w q |}]
    | _, _ => []
    end) (units s).
(** [LZero]: (0.0, zeros). [LRaise]: an exception. [LUnmodelled]: no comparison unit. *)
Inductive lcell := LZero | LRaise | LUnmodelled | LEst (att : Qc) (inf : list (Z * Qc)).
Definition l_zero (u : lunit) : bool := Qceqb (l_d u) 0.
(** Intercept-only weighted regression on the units with [d == 0] (reg_did_panel.py:278-325, wols.py:79-109). *)
Definition ctl_mean (us : list lunit) : Qc :=
  let c := filter l_zero us in sumf (fun u => l_w u * l_dy u) c / sumf l_w c.
(** [reg_did_panel] (reg_did_panel.py:113-200, 254-393) with a constant as the only covariate. The weights' normalisation to mean one cancels.
    A 1x1 Gram matrix has condition number 1 or infinity (347). *)
Definition level_reg (us : list lunit) : lcell :=
  let mu := ctl_mean us in
  let wt := fun u => l_w u * l_d u in
  let mt := mean wt us in
  let eta_t := mean (fun u => wt u * l_dy u) us / mt in
  let eta_c := mean (fun u => wt u * mu) us / mt in
  let gram := mean (fun u => l_w u * (1 - l_d u)) us in
  if Qceqb gram 0 then LRaise else
  let asy := fun u => l_w u * (1 - l_d u) * (l_dy u - mu) / gram in
  LEst (eta_t - eta_c)
    (map (fun u => (l_id u, (wt u * l_dy u - wt u * eta_t) / mt - ((wt u * mu - wt u * eta_c) + asy u * mt) / mt)) us).
(** [drdid_panel] (drdid_panel.py:107-149, 209-345) with a constant as the only covariate; the fractional logit's fit is the weighted mean of [d]. *)
Definition clip6 (p : Qc) : Qc :=
  let lo := Q2Qc (1 # 1000000) in if Qcltb p lo then lo else if Qcltb (1 - lo) p then 1 - lo else p.
Definition level_dr (us : list lunit) : lcell :=
  let ps := clip6 (sumf (fun u => l_w u * l_d u) us / sumf l_w us) in
  let trim := fun u => if l_zero u then ind (Qcltb ps (Q2Qc (995 # 1000))) else 1 in
  let mu := ctl_mean us in
  let wt := fun u => trim u * l_w u * l_d u in
  let wc := fun u => trim u * l_w u * ps * (1 - l_d u) / (1 - ps) in
  let mt := mean wt us in
  let mc := mean wc us in
  if Qceqb mt 0 || Qceqb mc 0 then LRaise else
  let at_ := fun u => wt u * (l_dy u - mu) in
  let ac := fun u => wc u * (l_dy u - mu) in
  let eta_t := mean at_ us / mt in
  let eta_c := mean ac us / mc in
  let gram := mean (fun u => l_w u * (1 - l_d u)) us in
  if Qceqb gram 0 then LRaise else
  let asy_ols := fun u => l_w u * (1 - l_d u) * (l_dy u - mu) / gram in
  let asy_ps := fun u => l_w u * (l_d u - ps) / mean (fun u => ps * (1 - ps) * l_w u) us in
  LEst (eta_t - eta_c)
    (map (fun u => (l_id u,
      (at_ u - wt u * eta_t - asy_ols u * mt) / mt
      - (ac u - wc u * eta_c + asy_ps u * mean (fun v => ac v - wc v * eta_c) us - asy_ols u * mc) / mc)) us).
(** 97-101: all doses equal. 147-172: the preliminary unweighted logit raises (caught) for outcomes outside [0, 1], and gives the mean of [d];
    above 0.99, or on an exception, regression adjustment. *)
Definition level_att (us : list lunit) : lcell :=
  if negb (two_doses (map l_d us)) then LZero else
  match filter l_zero us with
  | [] => LUnmodelled
  | _ =>
      if existsb (fun u => Qcltb 1 (l_d u) || Qcltb (l_d u) 0) us || Qcltb (Q2Qc (99 # 100)) (mean l_d us) then level_reg us
      else level_dr us
  end.

(** * The cells of either target parameter *)
(** group, period, estimate, influence column (process_panel.py:219-280, 582-624) *)
Record ecell := { ec_g : Z; ec_t : Z; ec_att : Qc; ec_inf : list Qc }.
Inductive ecells := ERaise | EUnmodelled | ECells (l : list ecell).
Definition spread (n n1 : nat) (ids : list Z) (inf : list (Z * Qc)) : list Qc :=
  map (fun i => match find (fun p => (fst p =? i)%Z) inf with Some p => qn n / qn n1 * snd p | None => 0 end) ids.
Definition level_cell (o : copts) (l : list crow) (tp g : Z) : lcell * nat :=
  (if co_univ o && (tp =? g - 1 - co_ant o)%Z then LZero else level_att (level_units o g tp l), length (units (subset o g tp l))).
Definition l_is_raise (c : lcell) : bool := match c with LRaise => true | _ => false end.
Definition l_is_unmod (c : lcell) : bool := match c with LUnmodelled => true | _ => false end.
Definition level_cells (o : copts) (ts gs : list Z) (l : list crow) : ecells :=
  let ids := units l in
  let cs := flat_map (fun tp => map (fun g => ((g, tp), level_cell o l tp g)) gs) ts in
  if existsb (fun c => l_is_unmod (fst (snd c))) cs then EUnmodelled
  else if existsb (fun c => l_is_raise (fst (snd c))) cs then ERaise
  else ECells (map (fun c => match fst (snd c) with
                     | LEst a inf => {| ec_g := fst (fst c); ec_t := snd (fst c); ec_att := a; ec_inf := spread (length ids) (snd (snd c)) ids inf |}
                     | _ => {| ec_g := fst (fst c); ec_t := snd (fst c); ec_att := 0; ec_inf := map (fun _ => 0) ids |} end) cs).
(** slope: the cells of [cont_did_acrt] (ContModel.v), whose estimate is the average slope (cont_did.py:664) *)
Definition slope_cells (orc : coracle) (o : copts) (knots dvals : list Qc) (ts gs : list Z) (l : list crow) : ecells :=
  let ids := units l in
  let cs := compute_pte orc o knots dvals ts gs l in
  if existsb is_null cs then EUnmodelled else if existsb is_raise cs then ERaise
  else ECells (map (fun c => {| ec_g := pc_g c; ec_t := pc_t c; ec_att := match pc_out c with CEst e => e_acrt e | _ => 0 end;
                                ec_inf := inf_column (length ids) ids c |}) cs).

(** * [aggregate_att_gt] with [aggregation_type="dynamic"] (process_aggte.py:41-88, 190-305) *)
Record eopts := { eo_balance : option Z; eo_min : option Z; eo_max : option Z }.
(** [map_to_idx] (core/preprocess/utils.py:13-31): position in the list of periods of the cells, or the value itself. *)
Definition to_idx (ts : list Z) (v : Z) : Z := if zmem v ts then (1 + index_of v ts)%Z else v.
(** First-period rows in the order of [DataSorter] (transformers.py:107-119): by group (never treated last), then by unit. *)
Definition first_rows (l : list crow) : list crow :=
  let f := filter (fun r => (c_t r =? 1)%Z) l in
  let by_id := fun m => flat_map (fun i => filter (fun r => (c_id r =? i)%Z) m) (units m) in
  flat_map (fun g => by_id (filter (fun r => og_eqb (c_g r) g) f)) (groups_of f) ++ by_id (filter (fun r => negb (og_fin (c_g r))) f).
(** [weight_influence_function_from_att_indices] (484-508), one entry. [sel]: the (group index, probability) pairs of the selected cells. *)
Definition wif (sel : list (Z * Qc)) (w : Qc) (gi : Z) (k : Z * Qc) : Qc :=
  let den := sumf snd sel in
  let part := fun c : Z * Qc => w * ind (gi =? fst c)%Z - snd c in
  part k / den - sumf part sel * (snd k / (den * den)).
Record es_result := { es_events : list Z; es_att : list Qc; es_inf : list (list Qc); es_overall : option Qc; es_overall_inf : option (list Qc) }.

Definition aggregate_dynamic (o : eopts) (l : list crow) (cs : list ecell) : es_result :=
  let ts := zuniq (map ec_t cs) in
  let ti := fun c => to_idx ts (ec_t c) in
  let gi := fun c => to_idx ts (ec_g c) in
  let max_t := fold_right Z.max 0%Z (map ti cs) in
  let gs := zuniq (map ec_g cs) in
  let rows1 := first_rows l in
  let pg := combine gs (safe_normalize (map (fun g => mean (fun r => c_w r * ind (og_eqb (c_g r) g)) rows1) gs)) in
  let pg_of := fun c => match find (fun p => (fst p =? ec_g c)%Z) pg with Some p => snd p | None => 0 end in
  let incl := fun c => match eo_balance o with Some b => (b <=? max_t - gi c)%Z | None => true end in
  let ev := fun c => (ti c - gi c)%Z in
  let e0 := zuniq (map ev (filter incl cs)) in
  let e1 := match eo_balance o with Some b => filter (fun e => (e <=? b)%Z && (b - max_t + 1 <=? e)%Z) e0 | None => e0 end in
  let e2 := match eo_min o with Some m => filter (fun e => (m <=? e)%Z) e1 | None => e1 end in
  let es := match eo_max o with Some m => filter (fun e => (e <=? m)%Z) e2 | None => e2 end in
  let n := length (units l) in
  let sel := fun e => filter (fun c => (ev c =? e)%Z && incl c) cs in
  let att := fun e => let s := sel e in sumf (fun p => ec_att (fst p) * snd p) (combine s (safe_normalize (map pg_of s))) in
  let unit_row := fun i => nth i (map (fun r => (c_w r, match c_g r with Some g => to_idx ts g | None => 0%Z end)) rows1) (0, 0%Z) in
  let inf := fun e => let s := sel e in
    let pairs := map (fun c => (gi c, pg_of c)) s in
    map (fun i => sumf (fun p => nth i (ec_inf (fst p)) 0 * snd p) (combine s (safe_normalize (map pg_of s)))
                  + sumf (fun c => wif pairs (fst (unit_row i)) (snd (unit_row i)) (gi c, pg_of c) * ec_att c) s) (seq 0 n) in
  let post := filter (fun e => (0 <=? e)%Z) es in
  {| es_events := es; es_att := map att es; es_inf := map inf es;
     es_overall := match post with [] => None | _ => Some (mean att post) end;
     es_overall_inf := match post with [] => None | _ => Some (map (fun i => mean (fun e => nth i (inf e) 0) post) (seq 0 n)) end |}.

(** [cont_did(aggregation="eventstudy")] after its argument checks. [slope]: target_parameter="slope". *)
Inductive es_out := EsRaise | EsUnmodelled | EsNone | EsOk (cells : list ecell) (r : es_result).
Definition event_run (orc : coracle) (o : copts) (eo : eopts) (slope : bool) (l : list crow) : es_out :=
  let d := pte_data o l in
  let pos := positive_doses d in
  let cs := if slope then slope_cells orc o (choose_knots pos (co_nknots o)) (dose_grid o pos) (t_list o l) (g_list o l) d
            else level_cells o (t_list o l) (g_list o l) d in
  match cs with
  | ERaise => EsRaise
  | EUnmodelled => EsUnmodelled
  | ECells [] => EsNone
  | ECells cells => EsOk cells (aggregate_dynamic eo d cells)
  end.
Definition cont_did_event (orc : coracle) (o : copts) (eo : eopts) (slope : bool) (l : list crow) : es_out := event_run orc o eo slope (preprocess o l).
