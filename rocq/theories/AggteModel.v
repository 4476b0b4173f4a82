(** Model of the aggregation step: moderndid/did/compute_aggte.py. Definitions only.
    Simplifications: periods, groups, event windows and balance_e are integers; [None] for min_e / max_e stands
    for -inf / +inf; NaN is [None]; numbers are rationals; variances stand for squared standard errors. The path
    without unit-level groups (lines 160-172, MPResult built by hand) is not modelled; att_gt always
    supplies them. *)
From Coq Require Import String.
From Verif Require Import Base ListLib PreprocessModel AttGtModel.
Local Open Scope list_scope.
Local Notation length := List.length.

(** One entry of an MPResult: group, time, att, influence column (multiperiod_obj.py). *)
Record mp_cell := { m_g : Z; m_t : Z; m_att : option Qc; m_inf : list Qc }.
(** The same after NaN handling. *)
Record kcell := { k_g : Z; k_t : Z; k_att : Qc; k_inf : list Qc }.
(** Unit-level group and weight: MPResult.G and weights_ind; weights default to 1 (line 157). *)
Definition unit_rec : Type := (grp * Qc)%type.

(** compute_aggte.py:116-138. [None] is the ValueError for missing values. *)
Definition keep_finite (l : list mp_cell) : list kcell :=
  flat_map (fun m => match m_att m with
                     | Some a => [{| k_g := m_g m; k_t := m_t m; k_att := a; k_inf := m_inf m |}]
                     | None => [] end) l.
Definition drop_na (is_group : bool) (l : list mp_cell) : list kcell :=
  let k := keep_finite l in
  if is_group then filter (fun a => existsb (fun b => (k_g b =? k_g a)%Z && (k_g b <=? k_t b)%Z) k) k else k.
Definition clean_cells (dropna is_group : bool) (l : list mp_cell) : option (list kcell) :=
  if dropna then Some (drop_na is_group l)
  else if existsb (fun m => match m_att m with None => true | _ => false end) l then None
  else Some (keep_finite l).

(** np.sort(np.unique(concatenate([times, groups]))), lines 143-150 *)
Definition all_vals (cells : list kcell) : list Z := zuniq (map k_t cells ++ map k_g cells).
(** _orig2t (lines 994-1000): position of the first match plus one, NaN if absent *)
Fixpoint index_of (x : Z) (u : list Z) : option nat :=
  match u with [] => None | y :: u' => if (y =? x)%Z then Some 0%nat else option_map S (index_of x u') end.
Definition orig2t (u : list Z) (x : Z) : option Z := option_map (fun i => (Z.of_nat i + 1)%Z) (index_of x u).
Definition recode (u : list Z) (x : Z) : Z := match orig2t u x with Some z => z | None => 0%Z end.
(** np.searchsorted(side='left') on a sorted array: number of smaller elements *)
Definition searchsorted (u : list Z) (x : grp) : nat :=
  length (filter (fun y => negb (grp_leb x (Fin y))) u).
(** _orig2t_array (lines 1003-1014), one element *)
Definition orig2t_vec (u : list Z) (x : grp) : option Z :=
  match u with
  | [] => None
  | _ => let i := Nat.min (searchsorted u x) (length u - 1) in
         if grp_eqb (Fin (nth i u 0%Z)) x then Some (Z.of_nat i + 1)%Z else None
  end.
(** _t2orig (lines 1017-1023) *)
Definition t2orig (u : list Z) (t : Z) : Z :=
  if ((1 <=? t) && (t <=? Z.of_nat (length u)))%Z then nth (Z.to_nat (t - 1)) u 0%Z else 0%Z.

(** group_probabilities (lines 176-183): mean(w * 1{G == g}) in recoded values *)
Definition in_group (u : list Z) (rg : Z) (x : unit_rec) : bool :=
  match orig2t_vec u (fst x) with Some c => (c =? rg)%Z | None => false end.
Definition group_prob (u : list Z) (units : list unit_rec) (rg : Z) : Qc :=
  mean (fun x => snd x * ind (in_group u rg x)) units.
Definition rg (u : list Z) (k : kcell) : Z := recode u (k_g k).
Definition rt (u : list Z) (k : kcell) : Z := recode u (k_t k).
(** observation_group_probabilities (lines 184-187) *)
Definition cell_prob (u : list Z) (units : list unit_rec) (k : kcell) : Qc := group_prob u units (rg u k).

Definition le_max (e : Z) (max_e : option Z) : bool := match max_e with None => true | Some m => (e <=? m)%Z end.
Definition ge_min (e : Z) (min_e : option Z) : bool := match min_e with None => true | Some m => (m <=? e)%Z end.

(** post_treatment mask (line 191); the comparison [times <= groups + max_e] is in recoded values *)
Definition post_cells (max_e : option Z) (u : list Z) (cells : list kcell) : list kcell :=
  filter (fun k => (rg u k <=? rt u k)%Z && le_max (rt u k - rg u k) max_e) cells.

(** pg[mask] / pg[mask].sum() and the weighted sum *)
Definition norm_weight (p : kcell -> Qc) (ks : list kcell) (k : kcell) : Qc := p k / sumf p ks.
Definition wsum (p : kcell -> Qc) (ks : list kcell) : Qc := sumf (fun k => k_att k * norm_weight p ks k) ks.

(** _compute_weight_inf_func (lines 720-793) for one unit and one kept cell *)
Definition wif_dev (u : list Z) (units : list unit_rec) (x : unit_rec) (k : kcell) : Qc :=
  snd x * ind (in_group u (rg u k) x) - cell_prob u units k.
Definition weight_if (u : list Z) (units : list unit_rec) (ks : list kcell) (x : unit_rec) (k : kcell) : Qc :=
  let s := sumf (cell_prob u units) ks in
  wif_dev u units x k / s - (sumf (wif_dev u units x) ks / (s * s)) * cell_prob u units k.

(** _get_agg_inf_func (lines 796-832), row [i] / unit [x]; [wt]: weights, [wif]: optional adjustment *)
Definition agg_inf_at (i : nat) (wt : kcell -> Qc) (adj : kcell -> Qc) (ks : list kcell) : Qc :=
  sumf (fun k => nth i (k_inf k) 0 * wt k) ks + sumf (fun k => adj k * k_att k) ks.
Definition indexed {A} (l : list A) : list (nat * A) := combine (seq 0 (length l)) l.
Definition weighted_inf (u : list Z) (units : list unit_rec) (ks : list kcell) : list Qc :=
  map (fun p => agg_inf_at (fst p) (norm_weight (cell_prob u units) ks) (weight_if u units ks (snd p)) ks) (indexed units).

(** analytical variance, _compute_se lines 885-887: se^2 = mean(psi^2) / n_units *)
Definition variance (n : nat) (psi : list Qc) : Qc := mean (fun v => v * v) psi / qn n.

Record agg_result := { a_overall : option Qc; a_keys : list Z; a_by : list (option Qc);
                       a_inf_by : list (list Qc); a_inf : list Qc }.

(** _compute_simple_att (lines 296-352) *)
Definition simple_att (units : list unit_rec) (max_e : option Z) (cells : list kcell) : agg_result :=
  let u := all_vals cells in
  let ks := post_cells max_e u cells in
  {| a_overall := Some (wsum (cell_prob u units) ks); a_keys := []; a_by := [];
     a_inf_by := []; a_inf := weighted_inf u units ks |}.

Definition mean_att (ks : list kcell) : option Qc := match ks with [] => None | _ => Some (mean k_att ks) end.
Definition mean_inf (n : nat) (ks : list kcell) : list Qc :=
  match ks with [] => repeat 0 n
  | _ => map (fun i => agg_inf_at i (fun _ => 1 / qn (length ks)) (fun _ => 0) ks) (seq 0 n) end.
Definition nan0 (o : option Qc) : Qc := match o with Some a => a | None => 0 end.

(** A list of aggregated effects seen as cells again (used for the overall influence functions). *)
Definition as_cells (keys : list Z) (by_ : list (option Qc)) (infs : list (list Qc)) : list kcell :=
  map (fun p => let '(g, (a, f)) := p in {| k_g := g; k_t := g; k_att := nan0 a; k_inf := f |})
      (combine keys (combine by_ infs)).

(** np.column_stack of an empty list raises ValueError (lines 400, 533, 660): no group, event time or calendar
    time to report is an uncaught exception, here [None]. *)
Definition guard {A} (keys : list A) (r : agg_result) : option agg_result :=
  match keys with [] => None | _ => Some r end.

(** _compute_group_att (lines 355-451). Keys are the recoded groups, reported in original units. *)
Definition group_cells (max_e : option Z) (u : list Z) (cells : list kcell) (g : Z) : list kcell :=
  filter (fun k => (rg u k =? g)%Z && (g <=? rt u k)%Z && le_max (rt u k - g) max_e) cells.
Definition group_att (units : list unit_rec) (max_e : option Z) (cells : list kcell) : option agg_result :=
  let u := all_vals cells in
  let gs := zuniq (map k_g cells) in
  let rgs := map (recode u) gs in
  let by_ := map (fun g => mean_att (group_cells max_e u cells g)) rgs in
  let infs := map (fun g => mean_inf (length units) (group_cells max_e u cells g)) rgs in
  let pg := group_prob u units in
  let s := sumf pg rgs in
  let gcells := as_cells gs by_ infs in
  guard gs {| a_overall := Some (sumf (fun p => nan0 (snd p) * pg (fst p)) (combine rgs by_) / s);
     a_keys := gs; a_by := by_; a_inf_by := infs;
     a_inf := weighted_inf u units gcells |}.

(** mean of the non-NaN entries: np.nanmean *)
Definition somes {A} (l : list (option A)) : list A := flat_map (fun o => match o with Some a => [a] | None => [] end) l.
Definition nanmean (l : list (option Qc)) : option Qc :=
  match somes l with [] => None | v => Some (mean (fun x => x) v) end.
(** average of influence columns with equal weights *)
Definition mean_cols (n : nat) (cols : list (list Qc)) : list Qc :=
  map (fun i => sumf (fun col => nth i col 0 * (1 / qn (length cols))) cols) (seq 0 n).

(** _compute_dynamic_att (lines 454-600) *)
Definition event (k : kcell) : Z := (k_t k - k_g k)%Z.
Definition zmax (l : list Z) : Z := last (zuniq l) 0%Z.
Definition zmin (l : list Z) : Z := hd 0%Z (zuniq l).
Definition max_orig (u : list Z) (cells : list kcell) : Z := t2orig u (zmax (map (rt u) cells)).
Definition min_orig (u : list Z) (cells : list kcell) : Z := t2orig u (zmin (map (rt u) cells)).
Definition include (u : list Z) (cells : list kcell) (balance_e : option Z) (k : kcell) : bool :=
  match balance_e with None => true | Some b => (b <=? max_orig u cells - k_g k)%Z end.
Definition event_list (u : list Z) (cells : list kcell) (balance_e min_e max_e : option Z) : list Z :=
  let evs := zuniq (map event (filter (include u cells balance_e) cells)) in
  let evs := match balance_e with
             | None => evs
             | Some b => filter (fun e => (b - max_orig u cells + min_orig u cells <=? e)%Z && (e <=? b)%Z) evs
             end in
  filter (fun e => ge_min e min_e && le_max e max_e) evs.
Definition event_cells (u : list Z) (cells : list kcell) (balance_e : option Z) (e : Z) : list kcell :=
  filter (fun k => (event k =? e)%Z && include u cells balance_e k) cells.
Definition cov_att (p : kcell -> Qc) (ks : list kcell) : option Qc := match ks with [] => None | _ => Some (wsum p ks) end.
Definition cov_inf (u : list Z) (units : list unit_rec) (ks : list kcell) : list Qc :=
  match ks with [] => repeat 0 (length units) | _ => weighted_inf u units ks end.
Definition dynamic_att (units : list unit_rec) (balance_e min_e max_e : option Z) (cells : list kcell) : option agg_result :=
  let u := all_vals cells in
  let evs := event_list u cells balance_e min_e max_e in
  let p := cell_prob u units in
  let by_ := map (fun e => cov_att p (event_cells u cells balance_e e)) evs in
  let infs := map (fun e => cov_inf u units (event_cells u cells balance_e e)) evs in
  let post := filter (fun q => (0 <=? fst q)%Z) (combine evs (combine by_ infs)) in
  guard evs {| a_overall := match post with [] => None | _ => nanmean (map (fun q => fst (snd q)) post) end;
     a_keys := evs; a_by := by_; a_inf_by := infs;
     a_inf := match post with [] => repeat 0 (length units) | _ => mean_cols (length units) (map (fun q => snd (snd q)) post) end |}.

(** _compute_calendar_att (lines 603-717) *)
Definition calendar_cells (u : list Z) (cells : list kcell) (t : Z) : list kcell :=
  filter (fun k => (rt u k =? t)%Z && (rg u k <=? t)%Z) cells.
Definition calendar_att (units : list unit_rec) (cells : list kcell) : option agg_result :=
  let u := all_vals cells in
  let ts := filter (fun t => (zmin (map (rg u) cells) <=? t)%Z) (zuniq (map (rt u) cells)) in
  let p := cell_prob u units in
  let by_ := map (fun t => cov_att p (calendar_cells u cells t)) ts in
  let infs := map (fun t => cov_inf u units (calendar_cells u cells t)) ts in
  let valid := filter (fun q => match fst q with Some _ => true | None => false end) (combine by_ infs) in
  guard ts {| a_overall := nanmean by_; a_keys := map (t2orig u) ts; a_by := by_; a_inf_by := infs;
     a_inf := match valid with [] => repeat 0 (length units) | _ => mean_cols (length units) (map snd valid) end |}.

(** compute_aggte (lines 14-280): cleaning, then dispatch on the type. [None]: an exception reaches the user.
    balance_e and min_e are used by 'dynamic' only; 'calendar' uses none of the windows. *)
Inductive agg_type := TSimple | TGroup | TDynamic | TCalendar.
Definition is_tgroup (ty : agg_type) : bool := match ty with TGroup => true | _ => false end.
Definition aggte (ty : agg_type) (dropna : bool) (balance_e min_e max_e : option Z) (units : list unit_rec)
    (mp : list mp_cell) : option agg_result :=
  match clean_cells dropna (is_tgroup ty) mp with
  | None => None
  | Some cells =>
      match ty with
      | TSimple => Some (simple_att units max_e cells)
      | TGroup => group_att units max_e cells
      | TDynamic => dynamic_att units balance_e min_e max_e cells
      | TCalendar => calendar_att units cells
      end
  end.

(** att_gt (did/att_gt.py:378-390, 514-540): the MPResult entries and the unit-level groups; no sampling weights. *)
Definition mp_of (a : att_cell) : mp_cell :=
  {| m_g := ac_group a; m_t := ac_year a; m_att := Some (ac_att a); m_inf := ac_inf a |}.
Definition units_of (D : did_data) : list unit_rec := map (fun r => (r_g r, 1)) (d_units D).

(** Which unit-level weights the MPResult carries: att_gt.py:514-521 looks weightsname up among the columns of
    time_invariant_data, which are (core/preprocess/tensors.py:36-60) the id, the group, the normalised
    "weights" column (WEIGHTS_COLUMN), the cluster variables and the time-constant covariates. [frame]: the values
    of a column. Without them aggte uses ones (compute_aggte.py:157-158). *)
Definition ti_columns (idname gname : String.string) (clustervars const_covs : list String.string) : list String.string :=
  idname :: gname :: "weights"%string :: clustervars ++ const_covs.
Definition weights_ind (frame : String.string -> list Qc) (cols : list String.string) (weightsname : option String.string) : option (list Qc) :=
  match weightsname with
  | None => None
  | Some w => if existsb (String.eqb w) cols then Some (frame w) else None
  end.
Definition unit_weights (w : option (list Qc)) (n : nat) : list Qc := match w with Some l => l | None => repeat 1 n end.
