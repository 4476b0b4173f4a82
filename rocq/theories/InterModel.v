(** Model of did_multiplegt (de Chaisemartin and D'Haultfoeuille estimators): the DIDInter pipeline of
    moderndid/core/preprocess/transformers.py and moderndid/didinter/{compute_did_multiplegt,variance,bootstrap}.py.
    Definitions only. xformla = "~1" (no covariates), continuous = 0, predict_het = None. Unit ids, periods, clusters are integers,
    outcomes and treatments rationals, [None] is a null / NaN, F_g is a [grp] ([Inf] = never switches). *)
From Verif Require Import Base ListLib PreprocessModel.

(** One row of the user's frame, after DIDInterColumnSelector (transformers.py:522-556). [i_w]: the weightsname column (ignored
    when no weights are named); [i_tr]: the tuple of the trends_nonparam columns, encoded as one value. *)
Record irow := { i_g : Z; i_t : Z; i_y : option Qc; i_d : option Qc; i_w : option Qc; i_cl : option Z; i_tr : option Z }.

(** switchers = "", "in", "out" *)
Inductive sw_dir := AnySw | InSw | OutSw.
(** DIDInterConfig (core/preprocess/config.py:150-200): the fields used *)
Record icfg := { ic_weighted : bool;            (* weightsname given *)
                 ic_dir : sw_dir;               (* switchers *)
                 ic_only_never : bool;          (* only_never_switchers *)
                 ic_same : bool;                (* same_switchers *)
                 ic_same_pl : bool;             (* same_switchers_pl *)
                 ic_norm : bool;                (* normalized *)
                 ic_keep_bi : bool;             (* keep_bidirectional_switchers *)
                 ic_drop_missing : bool;        (* drop_missing_preswitch *)
                 ic_trends_lin : bool;          (* trends_lin *)
                 ic_cluster : bool;             (* cluster given *)
                 ic_less : bool;                (* less_conservative_se *)
                 ic_effects : nat; ic_placebo : nat }.

Definition is_some {A} (o : option A) : bool := match o with Some _ => true | None => false end.
Definition oq_eqb (a b : option Qc) : bool := match a, b with Some x, Some y => Qceqb x y | None, None => true | _, _ => false end.
Definition oz_eqb (a b : option Z) : bool := match a, b with Some x, Some y => (x =? y)%Z | None, None => true | _, _ => false end.
(** polars arithmetic: null if an operand is null; polars [sum] skips nulls *)
Definition osub (a b : option Qc) : option Qc := match a, b with Some x, Some y => Some (x - y) | _, _ => None end.
Definition oz0 (a : option Qc) : Qc := match a with Some x => x | None => 0 end.
(** min / max of a column, null on an empty one *)
Definition zmin (l : list Z) : option Z := fold_right (fun x acc => match acc with None => Some x | Some m => Some (Z.min x m) end) None l.
Definition zmax (l : list Z) : option Z := fold_right (fun x acc => match acc with None => Some x | Some m => Some (Z.max x m) end) None l.

(** Each row with the rows of the same unit before it, the nearest first: [expr.shift(k).over(gname)] reads the k-th of them. *)
Fixpoint with_hist {A} (unit : A -> Z) (seen l : list A) : list (A * list A) :=
  match l with
  | [] => []
  | r :: rest => (r, filter (fun s => (unit s =? unit r)%Z) seen) :: with_hist unit (r :: seen) rest
  end.
(** the k-th previous row, k >= 1 *)
Definition lag_row {A} (k : nat) (hist : list A) : option A := nth_error hist (k - 1).
(** df.sort([gname, tname]); polars sorts stably enough for unique (unit, period) keys, which the validator enforces
    (validators.py:495-499) *)
Definition le_gt (ga ta gb tb : Z) : bool := (ga <? gb)%Z || ((ga =? gb)%Z && (ta <=? tb)%Z).
Definition sort_gt {A} (gk tk : A -> Z) (l : list A) : list A := isort (fun a b => le_gt (gk a) (tk a) (gk b) (tk b)) l.

(** ** Preprocessing *)
Definition of_unit (g : Z) (r : irow) : bool := (i_g r =? g)%Z.
(** DIDInterPanelValidator (validators.py:484-510): the only check that rejects *)
Definition keys_unique (rows : list irow) : Prop := NoDup (map (fun r => (i_g r, i_t r)) rows).

(** MissingDataHandler, DIDInter branch (transformers.py:70-78): units with some treatment and some outcome *)
Definition drop_missing_units (rows : list irow) : list irow :=
  filter (fun r => existsb (fun s => of_unit (i_g r) s && is_some (i_d s)) rows
                && existsb (fun s => of_unit (i_g r) s && is_some (i_y s)) rows) rows.

(** SwitcherIdentifier (transformers.py:559-685). A row with its history. *)
Definition arow : Type := irow * list irow.
(** _d_diff (571) *)
Definition d_diff (a : arow) : option Qc :=
  match lag_row 1 (snd a) with Some p => osub (i_d (fst a)) (i_d p) | None => None end.
Definition switches (a : arow) : bool := match d_diff a with Some q => negb (Qceqb q 0) | None => false end.
(** first_switch_pre / first_switch (580-584, 626-630) *)
Definition first_switch (l : list arow) (g : Z) : grp :=
  match zmin (map (fun a => i_t (fst a)) (filter (fun a => of_unit g (fst a) && switches a) l)) with
  | Some F => Fin F | None => Inf end.
(** base_treatment (573-577, 633-638): the treatment in the unit's first period *)
Definition base_treat (l : list irow) (g : Z) : option Qc :=
  match zmin (map i_t (filter (of_unit g) l)) with
  | Some m => match find (fun r => of_unit g r && (i_t r =? m)%Z) l with Some r => i_d r | None => None end
  | None => None
  end.
(** L_g (587-595), before the bidirectional rows are dropped *)
Definition horizon_len (l : list arow) (g : Z) : Z :=
  match first_switch l g, zmax (map (fun a => i_t (fst a)) (filter (fun a => of_unit g (fst a)) l)) with
  | Fin F, Some m => (m - F + 1)%Z
  | _, _ => 0%Z
  end.
(** _ever_strict_increase / _ever_strict_decrease (598-615): cumulative over the unit's rows so far *)
Definition above_base (b : option Qc) (r : irow) : bool := match osub (i_d r) b with Some q => Qcltb 0 q | None => false end.
Definition below_base (b : option Qc) (r : irow) : bool := match osub (i_d r) b with Some q => Qcltb q 0 | None => false end.
Definition ever (p : irow -> bool) (a : arow) : bool := existsb p (fst a :: snd a).
(** lines 617-618 *)
Definition drop_bidirectional (c : icfg) (l : list arow) : list arow :=
  if ic_keep_bi c then l
  else filter (fun a => let b := base_treat (map fst l) (i_g (fst a)) in negb (ever (above_base b) a && ever (below_base b) a)) l.
(** d_fg (640-645) *)
Definition switch_treat (l : list arow) (g : Z) : option Qc :=
  match first_switch l g with
  | Fin F => match find (fun r => of_unit g r && (i_t r =? F)%Z) (map fst l) with Some r => i_d r | None => None end
  | Inf => None
  end.
(** S_g (647-663): sign of the first non-zero change *)
Definition switch_sign (l : list arow) (g : Z) : Z :=
  match first_switch l g with
  | Inf => 0%Z
  | Fin _ => match find (fun a => of_unit g (fst a) && switches a) l with
             | Some a => match d_diff a with Some q => if Qcltb 0 q then 1 else if Qcltb q 0 then (-1) else 0 | None => 0 end%Z
             | None => 0%Z end
  end.
(** A row with the unit-level columns F_g, d_sq, d_fg, S_g, L_g *)
Record srow := { s_row : irow; s_F : grp; s_dsq : option Qc; s_dfg : option Qc; s_S : Z; s_L : Z }.
(** drop_missing_preswitch (665-681) *)
Definition missing_preswitch (l : list arow) (r : irow) : bool :=
  match zmin (map (fun a => i_t (fst a)) (filter (fun a => of_unit (i_g r) (fst a) && is_some (i_d (fst a))) l)) with
  | Some m => grp_gtz (first_switch l (i_g r)) m && (m <=? i_t r)%Z && grp_gtz (first_switch l (i_g r)) (i_t r) && negb (is_some (i_d r))
  | None => false
  end.
Definition identify (c : icfg) (rows : list irow) : list srow :=
  let l0 := with_hist i_g [] (sort_gt i_g i_t rows) in
  let l := drop_bidirectional c l0 in
  let out := map (fun a => let g := i_g (fst a) in
                    {| s_row := fst a; s_F := first_switch l g; s_dsq := base_treat (map fst l) g; s_dfg := switch_treat l g;
                       s_S := switch_sign l g; s_L := horizon_len l0 g |}) l in
  if ic_drop_missing c then filter (fun s => negb (missing_preswitch l (s_row s))) out else out.

Definition s_g (s : srow) : Z := i_g (s_row s).
Definition s_t (s : srow) : Z := i_t (s_row s).
(** SwitcherFilter (688-705) *)
Definition switcher_filter (c : icfg) (l : list srow) : list srow :=
  let keep v := filter (fun s => existsb (fun s' => (s_g s' =? s_g s)%Z && ((s_S s' =? v)%Z || (s_S s' =? 0)%Z)) l) l in
  match ic_dir c with AnySw => l | InSw => keep 1%Z | OutSw => keep (-1)%Z end.
(** the grouping ["d_sq"] + trends_nonparam *)
Definition same_base (a b : srow) : bool := oq_eqb (s_dsq a) (s_dsq b) && oz_eqb (i_tr (s_row a)) (i_tr (s_row b)).
(** FgVariationFilter (708-731): keep the groups whose std of F_g (never = 0), rounded to 3 digits, is positive, i.e. whose sample
    variance is at least 0.0005^2 (a single row has a null std) *)
Definition f_code (s : srow) : Qc := match s_F s with Fin F => qz F | Inf => 0 end.
Definition svar (l : list srow) : Qc :=
  sumf (fun s => (f_code s - mean f_code l) * (f_code s - mean f_code l)) l / qn (length l - 1).
Definition std_threshold2 : Qc := Q2Qc (25 # 100000000).
Definition fg_variation_filter (l : list srow) : list srow :=
  filter (fun s => let grp := filter (same_base s) l in Nat.leb 2 (length grp) && Qcleb std_threshold2 (svar grp)) l.
(** ControlsTimeFilter (734-755) *)
Definition same_cell (a b : srow) : bool := (s_t a =? s_t b)%Z && same_base a b.
Definition controls_time_filter (l : list srow) : list srow :=
  filter (fun s => existsb (fun s' => same_cell s s' && grp_is_inf (s_F s')) l) l.
(** DIDInterPanelBalancer (792-814): all units x all periods; the unit-level columns F_g, d_sq, S_g, L_g are filled in (the mean of a
    constant), everything else is null on an added row *)
Definition blank (g t : Z) : irow := {| i_g := g; i_t := t; i_y := None; i_d := None; i_w := None; i_cl := None; i_tr := None |}.
Definition balance (l : list srow) : list srow :=
  map (fun k => match find (fun s => (s_g s =? fst k)%Z && (s_t s =? snd k)%Z) l with
                | Some s => s
                | None => match find (fun s => (s_g s =? fst k)%Z) l with
                          | Some u => {| s_row := blank (fst k) (snd k); s_F := s_F u; s_dsq := s_dsq u; s_dfg := None; s_S := s_S u; s_L := s_L u |}
                          | None => {| s_row := blank (fst k) (snd k); s_F := Inf; s_dsq := None; s_dfg := None; s_S := 0; s_L := 0 |}
                          end
                end)
      (list_prod (zuniq (map s_g l)) (zuniq (map s_t l))).
(** TrendsLinTransformer (885-915) *)
Definition set_y (s : srow) (y : option Qc) : srow :=
  let r := s_row s in
  {| s_row := {| i_g := i_g r; i_t := i_t r; i_y := y; i_d := i_d r; i_w := i_w r; i_cl := i_cl r; i_tr := i_tr r |};
     s_F := s_F s; s_dsq := s_dsq s; s_dfg := s_dfg s; s_S := s_S s; s_L := s_L s |}.
Definition detrend (c : icfg) (l : list srow) : list srow :=
  if ic_trends_lin c then
    match zmin (map s_t l) with
    | None => l
    | Some m =>
        filter (fun s => negb (s_t s =? m)%Z)
          (map (fun a => set_y (fst a) (match lag_row 1 (snd a) with Some p => osub (i_y (s_row (fst a))) (i_y (s_row p)) | None => None end))
               (with_hist s_g [] (sort_gt s_g s_t (filter (fun s => negb (grp_eqb (s_F s) (Fin (m + 1)%Z))) l))))
    end
  else l.
(** DIDInterDataPreparer (918-966) *)
Record prow := { p_s : srow; p_w : Qc; p_first : bool; p_T : Z }.
Definition gt_weight (c : icfg) (r : irow) : Qc :=
  if is_some (i_y r) && is_some (i_d r) then (if ic_weighted c then oz0 (i_w r) else 1) else 0.
Definition f_trunc (l : list srow) (s : srow) : Z :=
  match s_F s with Fin F => F | Inf => match zmax (map s_t (filter (fun s' => (s_g s' =? s_g s)%Z) l)) with Some m => (m + 1)%Z | None => 0%Z end end.
Definition prepare (c : icfg) (l0 : list srow) : list prow :=
  let l := sort_gt s_g s_t l0 in
  map (fun s => {| p_s := s; p_w := gt_weight c (s_row s);
                   p_first := match zmin (map s_t (filter (fun s' => (s_g s' =? s_g s)%Z) l)) with Some m => (s_t s =? m)%Z | None => false end;
                   p_T := match zmax (map (f_trunc l) (filter (same_base s) l)) with Some m => (m - 1)%Z | None => 0%Z end |}) l.
(** get_didinter_pipeline (1170-1187); DataSorter only reorders, and _compute_did_effects sorts again *)
Definition pipeline (c : icfg) (rows : list irow) : list prow :=
  prepare c (detrend c (balance (controls_time_filter (fg_variation_filter (switcher_filter c (identify c (drop_missing_units rows))))))).

Definition p_g (p : prow) : Z := s_g (p_s p).
Definition p_t (p : prow) : Z := s_t (p_s p).
Definition p_y (p : prow) : option Qc := i_y (s_row (p_s p)).
Definition p_d (p : prow) : option Qc := i_d (s_row (p_s p)).
Definition p_cl (p : prow) : option Z := i_cl (s_row (p_s p)).
Definition p_F (p : prow) : grp := s_F (p_s p).
Definition p_S (p : prow) : Z := s_S (p_s p).
Definition p_L (p : prow) : Z := s_L (p_s p).
Definition p_dsq (p : prow) : option Qc := s_dsq (p_s p).

(** DIDInterConfigUpdater (817-882): the number of horizons that is kept *)
Definition max_effects (l : list prow) : Z :=
  match zmax (map p_t l), zmin (flat_map (fun p => match p_F p with Fin F => [F] | Inf => [] end) l) with
  | Some m, Some F => (m - F + 1)%Z | _, _ => 0%Z end.
Definition max_placebo (l : list prow) : Z :=
  match zmin (map p_t l), zmax (flat_map (fun p => match p_F p with Fin F => [F] | Inf => [] end) l) with
  | Some m, Some F => (F - m - 1)%Z | _, _ => 0%Z end.
Definition n_effects (c : icfg) (l : list prow) : nat := Z.to_nat (Z.min (Z.of_nat (ic_effects c)) (max_effects l)).
Definition n_placebo (c : icfg) (l : list prow) : nat := Z.to_nat (Z.min (Z.of_nat (ic_placebo c)) (max_placebo l)).

(** ** compute_did_multiplegt.py *)
(** One prepared row with its horizon-h outcome difference diff_y_h *)
Record cell := { c_p : prow; c_diff : option Qc }.
(** lines 266-272: effect = Y - Y.shift(h), placebo = Y.shift(2h) - Y.shift(h), over the unit's rows in period order (259) *)
Definition diff_of (placebo : bool) (h : nat) (a : prow * list prow) : option Qc :=
  if placebo then
    match lag_row (2 * h) (snd a), lag_row h (snd a) with Some p, Some q => osub (p_y p) (p_y q) | _, _ => None end
  else
    match lag_row h (snd a) with Some q => osub (p_y (fst a)) (p_y q) | None => None end.
Definition cells (placebo : bool) (h : nat) (l : list prow) : list cell :=
  map (fun a => {| c_p := fst a; c_diff := diff_of placebo h a |}) (with_hist p_g [] (sort_gt p_g p_t l)).

(** get_group_vars (876-883): [tname, d_sq] + trends_nonparam *)
Definition peer (a b : cell) : bool := same_cell (p_s (c_p a)) (p_s (c_p b)).
(** same-unit rows *)
Definition mate (a b : cell) : bool := (p_g (c_p a) =? p_g (c_p b))%Z.

Section Horizon.
  Context (c : icfg) (h : Z) (tmax : Z) (valid : prow -> bool) (cs : list cell).
  Definition c_w (x : cell) : Qc := p_w (c_p x).
  (** never_change_h (288-303) *)
  Definition never (x : cell) : option Qc :=
    match c_diff x with
    | None => None
    | Some _ => Some (if ic_only_never c && grp_gtz (p_F (c_p x)) (p_t (c_p x)) && grp_lez (p_F (c_p x)) tmax then 0
                      else ind (grp_gtz (p_F (c_p x)) (p_t (c_p x))))
    end.
  (** n_control_h (305-310) *)
  Definition n_control (x : cell) : Qc := sumf (fun y => oz0 (never y) * c_w y) (filter (peer x) cs).
  (** the S_g condition (312-338) *)
  Definition dir_ok (p : prow) : bool :=
    match ic_dir c with AnySw => negb (p_S p =? 0)%Z | InSw => (p_S p =? 1)%Z | OutSw => (p_S p =? -1)%Z end.
  Definition at_target (x : cell) : bool := match p_F (c_p x) with Fin F => (p_t (c_p x) =? F - 1 + h)%Z | Inf => false end.
  Definition sw_mask (p : prow) : bool := dir_ok p && (negb (ic_same c) || valid p).
  (** dist_to_switch_h (325-342) *)
  Definition dist (x : cell) : option Qc :=
    match c_diff x with
    | None => None
    | Some _ => Some (ind (at_target x && (h <=? p_L (c_p x))%Z && Qcltb 0 (n_control x) && sw_mask (c_p x)))
    end.
  (** dist_to_switch_w_h, n_treated_h (344-350) *)
  Definition dist_w (x : cell) : Qc := if sw_mask (c_p x) then oz0 (dist x) * c_w x else 0.
  Definition n_treated (x : cell) : Qc := sumf dist_w (filter (peer x) cs).
  (** n_switchers (352-357) *)
  Definition is_sw (x : cell) : bool := match dist x with Some q => Qceqb q 1 && sw_mask (c_p x) | None => false end.
  Definition n_sw : nat := length (zuniq (map (fun x => p_g (c_p x)) (filter is_sw cs))).
  Definition n_sw_weighted : Qc := sumf dist_w cs.
  Definition safe_nsw : Qc := let e := Q2Qc (1 # 10000000000) in if Qcltb n_sw_weighted e then e else n_sw_weighted.
  Definition safe_ncontrol (x : cell) : Qc := if Qceqb (n_control x) 0 then 1 else n_control x.
  Definition n_units : nat := length (zuniq (map (fun x => p_g (c_p x)) cs)).
  (** weight_gt * (dist - (n_treated / n_control) * never): null where dist is null *)
  Definition coef (x : cell) : option Qc :=
    match dist x with
    | None => None
    | Some d => Some (qn n_units / safe_nsw * c_w x * (d - n_treated x / safe_ncontrol x * oz0 (never x)))
    end.
  (** inf_func_h_temp (366-378) *)
  Definition inf_temp (x : cell) : option Qc := match coef x with Some k => Some (k * oz0 (c_diff x)) | None => None end.
  (** inf_func_h (380-381) and the estimate (383) *)
  Definition unit_sum (f : cell -> Qc) (x : cell) : Qc := sumf f (filter (mate x) cs) * ind (p_first (c_p x)).
  Definition raw_estimate : Qc := sumf (unit_sum (fun x => oz0 (inf_temp x))) cs / qn n_units.

  (** _compute_delta_d (518-571), continuous = 0: the treatment of the unit's rows with F_g <= t <= F_g - 1 + h minus the baseline;
      one (unit, weight) pair per row with dist = 1 *)
  Definition dose (x : cell) : Qc :=
    sumf (fun y => oz0 (osub (p_d (c_p y)) (p_dsq (c_p y))))
         (filter (fun y => mate x y && match p_F (c_p y) with Fin F => (F <=? p_t (c_p y))%Z && (p_t (c_p y) <=? F - 1 + h)%Z | Inf => false end) cs).
  Definition dist_one (x : cell) : bool := match dist x with Some q => Qceqb q 1 | None => false end.
  Definition signed_dose (x : cell) : Qc := if (p_S (c_p x) =? 1)%Z then dose x else - dose x.
  Definition delta_d : option Qc :=
    let v := filter dist_one cs in
    let tot := sumf c_w v in
    match v with [] => None | _ => if Qceqb tot 0 then None else Some (sumf (fun x => c_w x / tot * signed_dose x) v) end.
  (** lines 389-395 *)
  Definition norm_factor : Qc :=
    match delta_d with Some q => if ic_norm c && negb (Qceqb q 0) then q else 1 | None => 1 end.

  (** *** variance.py. [rt] stands for the square root of dof / (dof - 1); every statement below holds for any function *)
  Context (placebo : bool) (rt : Qc -> Qc).
  (** compute_cohort_dof (85-147): grouping d_sq, F_g, d_fg, trends (and dist, which is 1 for all the rows that count) *)
  Definition same_cohort (a b : cell) : bool :=
    same_base (p_s (c_p a)) (p_s (c_p b)) && grp_eqb (p_F (c_p a)) (p_F (c_p b)) && oq_eqb (s_dfg (p_s (c_p a))) (s_dfg (p_s (c_p b))).
  (** the group over which the cohort columns are computed: for effects the column dist_to_switch_h is a grouping variable, for placebos
      (whose column is dist_to_switch_pl_h) it is absent from the frame and filtered out (108, 112-114) *)
  Definition cohort_group (x : cell) : list cell := filter (fun y => same_cohort x y && (placebo || oq_eqb (dist x) (dist y))) cs.
  Definition cohort_rows (x : cell) : list cell := filter dist_one (cohort_group x).
  (** compute_control_dof (150-216) *)
  Definition is_control (x : cell) : bool := match never x with Some q => Qceqb q 1 | None => false end.
  Definition control_rows (x : cell) : list cell := filter is_control (filter (peer x) cs).
  (** compute_union_dof (219-289) *)
  Definition is_union (x : cell) : bool := dist_one x || is_control x.
  Definition union_rows (x : cell) : list cell := filter is_union (filter (peer x) cs).
  (** a dof column (127-140, 195-207, 268-280), null outside the class: the number of member rows of the group; with clusters,
      n_unique of the column that holds the cluster of a member and null elsewhere - polars counts a null as one more value *)
  Definition dof_col (member : cell -> bool) (group : cell -> list cell) (x : cell) : option nat :=
    if ic_cluster c then
      if member x && is_some (p_cl (c_p x))
      then Some (length (uniq oz_eqb (map (fun y => if member y then p_cl (c_p y) else None) (group x)))) else None
    else if member x then Some (length (filter member (group x))) else None.
  Definition dof_s := dof_col dist_one cohort_group.
  Definition dof_ns := dof_col is_control (fun x => filter (peer x) cs).
  Definition dof_un := dof_col is_union (fun x => filter (peer x) cs).
  Definition dof_safe (o : option nat) : nat := match o with Some n => n | None => Z.to_nat 9999 end.
  Definition wdiff (x : cell) : Qc := oz0 (c_diff x) * c_w x.
  Definition wmean (l : list cell) : Qc := sumf wdiff l / sumf c_w l.
  (** cohort_mean, control_mean, union_mean columns (142-145, 209-214, 282-287) *)
  Definition mean_s (x : cell) : Qc := if dist_one x then wmean (cohort_rows x) else 0.
  Definition mean_ns (x : cell) : Qc := if is_control x && Qcltb 0 (sumf c_w (control_rows x)) then wmean (control_rows x) else 0.
  Definition mean_un (x : cell) : Qc := if is_union x && Qcltb 0 (sumf c_w (union_rows x)) then wmean (union_rows x) else 0.
  Definition before_switch (x : cell) : bool := grp_gtz (p_F (c_p x)) (p_t (c_p x)).
  (** compute_e_hat (292-355), null read as 0 (437) *)
  Definition e_hat (x : cell) : Qc :=
    let s := dof_safe (dof_s x) in let ns := dof_safe (dof_ns x) in let un := dof_safe (dof_un x) in
    if negb (at_target x || before_switch x) then 0
    else if at_target x && Nat.leb 2 s then mean_s x
    else if before_switch x && Nat.leb 2 ns then mean_ns x
    else if Nat.leb 2 un && ((at_target x && Nat.eqb s 1) || (before_switch x && Nat.eqb ns 1)) then mean_un x
    else 0.
  (** compute_dof_scaling (358-419), null read as 1 (417): a null dof is 9999 in the conditions but null in the quotient *)
  Definition dof_factor (o : option nat) : Qc := match o with Some n => rt (qn n / qn (n - 1)) | None => 1 end.
  Definition dof_scale (x : cell) : Qc :=
    let s := dof_safe (dof_s x) in let ns := dof_safe (dof_ns x) in let un := dof_safe (dof_un x) in
    if ic_less c then 1
    else if at_target x && Nat.ltb 1 s then dof_factor (dof_s x)
    else if before_switch x && Nat.ltb 1 ns then dof_factor (dof_ns x)
    else if (at_target x && Nat.eqb s 1 && Nat.leb 2 un) || (before_switch x && Nat.eqb ns 1 && Nat.leb 2 un) then dof_factor (dof_un x)
    else 1.
  (** dummy_u_gg, time_constraint, inf_func_var_h (418-440) *)
  Definition in_window (x : cell) : bool :=
    (h <=? p_T (c_p x) - 1)%Z && (h + 1 <=? p_t (c_p x))%Z && (p_t (c_p x) <=? p_T (c_p x))%Z.
  Definition inf_var (x : cell) : Qc :=
    match coef x with Some k => ind (in_window x) * k * dof_scale x * (oz0 (c_diff x) - e_hat x) | None => 0 end.
  (** one entry per row with first_obs_by_gp = 1 (446), with its cluster *)
  Definition unit_infs : list (option Z * Qc) :=
    map (fun x => (p_cl (c_p x), unit_sum inf_var x)) (filter (fun x => p_first (c_p x)) cs).
  (** squared standard error before normalisation (455-468) and compute_clustered_variance (422-466) *)
  Definition sumsq {A} (f : A -> Qc) (l : list A) : Qc := sumf (fun a => f a * f a) l.
  Definition clustered_ss (l : list (option Z * Qc)) : Qc :=
    let v := flat_map (fun u => match fst u with Some k => [(k, snd u)] | None => [] end) l in
    let ks := zuniq (map fst v) in
    if Nat.leb (length ks) 1 then sumsq snd v
    else sumsq (fun k => sumf snd (filter (fun u => (fst u =? k)%Z) v)) ks.
  Definition se2_unnorm : Qc :=
    (if ic_cluster c then clustered_ss unit_infs else sumsq snd unit_infs) / (qn n_units * qn n_units).
End Horizon.

(** One reported horizon. The reported standard error is sqrt(h_se2) / h_norm. *)
Record hres := { h_est : Qc; h_unnorm : Qc; h_norm : Qc; h_delta : option Qc; h_se2 : Qc; h_nsw : nat; h_nsw_w : Qc; h_infs : list Qc }.
(** One pass of the loop of _compute_did_effects (261-490); [None]: no switcher, estimate and standard error NaN (359-364) *)
Definition horizon (c : icfg) (rt : Qc -> Qc) (tmax : Z) (valid : prow -> bool) (placebo : bool) (h : nat) (l : list prow) : option hres :=
  let cs := cells placebo h l in
  let hz := Z.of_nat h in
  match n_sw c hz tmax valid cs with
  | O => None
  | S _ => Some {| h_est := raw_estimate c hz tmax valid cs / norm_factor c hz tmax valid cs;
                   h_unnorm := raw_estimate c hz tmax valid cs; h_norm := norm_factor c hz tmax valid cs;
                   h_delta := delta_d c hz tmax valid cs; h_se2 := se2_unnorm c hz tmax valid cs placebo rt;
                   h_nsw := n_sw c hz tmax valid cs; h_nsw_w := safe_nsw c hz tmax valid cs;
                   h_infs := map snd (unit_infs c hz tmax valid cs placebo rt) |}
  end.
(** compute_same_switchers_mask (862-873) as called at 55-59: the placebo call overwrites the column of the effect call; without either
    call the column does not exist and the mask is not applied *)
Definition valid_mask (c : icfg) (neff npl : nat) (l : list prow) (p : prow) : bool :=
  let eff := (Z.of_nat neff <=? p_L p)%Z in
  let plc := match zmin (map p_t l), p_F p with
             | Some m, Fin F => (Z.of_nat npl + 1 <=? F - m)%Z | Some _, Inf => true | None, _ => false end in
  if ic_same_pl c && Nat.ltb 0 npl then plc else if ic_same c then eff else true.
Definition all_horizons (c : icfg) (rt : Qc -> Qc) (placebo : bool) (l : list prow) : list (option hres) :=
  let neff := n_effects c l in let npl := n_placebo c l in
  let tmax := match zmax (map p_t l) with Some m => m | None => 0%Z end in
  map (fun h => horizon c rt tmax (valid_mask c neff npl l) placebo h l) (seq 1 (if placebo then npl else neff)).
(** _apply_trends_lin (666-693): running sums of the (possibly normalised) estimates, when no horizon was skipped (492) *)
Definition cumulate (l : list Qc) : list Qc := map (fun k => qsum (firstn (S k) l)) (seq 0 (length l)).
Definition somes_all {A} (l : list (option A)) : option (list A) := sequence l.
Definition estimates (c : icfg) (rs : list (option hres)) : list (option Qc) :=
  match ic_trends_lin c, sequence rs with
  | true, Some l => map Some (cumulate (map h_est l))
  | _, _ => map (option_map h_est) rs
  end.
(** _compute_ate (574-633): the weights n_sw / sum, divided by delta_d of the first horizon (0 or missing: 1) *)
Definition ate_denominator (rs : list (option hres)) : Qc :=
  match rs with
  | Some r :: _ => match h_delta r with Some q => if Qceqb q 0 then 1 else q | None => 1 end
  | _ => 1
  end.
Definition present {A} (rs : list (option A)) : list A := flat_map (fun o => match o with Some a => [a] | None => [] end) rs.
Definition ate (rs : list (option hres)) : option Qc :=
  match present rs with
  | [] => None
  | l => Some (sumf (fun r => h_nsw_w r / sumf h_nsw_w l * h_unnorm r) l / ate_denominator rs)
  end.
(** its squared standard error when every horizon was estimated (592-602); clusters are not used *)
Definition ate_se2 (rs : list (option hres)) : option Qc :=
  match sequence rs with
  | Some (r :: rs' as l) =>
      let n := length (h_infs r) in
      let tot := sumf h_nsw_w l in
      Some (sumsq (fun i => sumf (fun r => h_nsw_w r / tot * nth i (h_infs r) 0) l / ate_denominator rs) (seq 0 n) / (qn n * qn n))
  | _ => None
  end.

(** did_multiplegt without covariates, bootstrap and heterogeneity: preprocessing, effects, placebos *)
Definition did_multiplegt (c : icfg) (rt : Qc -> Qc) (rows : list irow) : list (option Qc) * list (option Qc) :=
  let l := pipeline c rows in
  (estimates c (all_horizons c rt false l), estimates c (all_horizons c rt true l)).
