(** did_multiplegt: what a user reads in the documentation (docs/source/background/didinter.rst, the docstring of
    didinter/did_multiplegt.py), as functions of the user's rows. Independent of the pipeline of InterModel.v: only its data types
    ([irow], [icfg]) are used. *)
From Coq Require Import Qcabs.
From Verif Require Import Base ListLib PreprocessModel InterModel.

Section Panel.
  Context (rows : list irow).
  (** the row of unit [g] in period [t], its outcome and treatment *)
  Definition obs (g t : Z) : option irow := find (fun r => (i_g r =? g)%Z && (i_t r =? t)%Z) rows.
  Definition y_at (g t : Z) : option Qc := match obs g t with Some r => i_y r | None => None end.
  Definition d_at (g t : Z) : option Qc := match obs g t with Some r => i_d r | None => None end.
  Definition periods_of (g : Z) : list Z := map i_t (filter (fun r => (i_g r =? g)%Z) rows).
  Definition min_of (l : list Z) : option Z := match zuniq l with [] => None | x :: _ => Some x end.
  (** D_{g,1}: the treatment in the unit's first period *)
  Definition baseline (g : Z) : option Qc := match min_of (periods_of g) with Some t => d_at g t | None => None end.
  (** F_g: the first period in which the treatment differs from the baseline *)
  Definition changed (g t : Z) : bool :=
    match d_at g t, baseline g with Some x, Some b => negb (Qceqb x b) | _, _ => false end.
  Definition switch_date (g : Z) : grp := match min_of (filter (changed g) (periods_of g)) with Some F => Fin F | None => Inf end.
  (** D_{g,F_g} > D_{g,1}, D_{g,F_g} < D_{g,1} *)
  Definition switches_in (g : Z) : bool :=
    match switch_date g with Fin F => match d_at g F, baseline g with Some x, Some b => Qcltb b x | _, _ => false end | Inf => false end.
  Definition switches_out (g : Z) : bool :=
    match switch_date g with Fin F => match d_at g F, baseline g with Some x, Some b => Qcltb x b | _, _ => false end | Inf => false end.
  (** by period [t] the unit's treatment has been both above and below its baseline *)
  Definition crossed (g t : Z) : bool :=
    existsb (fun s => (s <=? t)%Z && match d_at g s, baseline g with Some x, Some b => Qcltb b x | _, _ => false end) (periods_of g)
    && existsb (fun s => (s <=? t)%Z && match d_at g s, baseline g with Some x, Some b => Qcltb x b | _, _ => false end) (periods_of g).
  Definition has_outcome (g : Z) : bool := existsb (fun r => (i_g r =? g)%Z && is_some (i_y r)) rows.
  Definition direction_ok (c : icfg) (g : Z) : bool :=
    match ic_dir c with AnySw => true | InSw => negb (switches_out g) | OutSw => negb (switches_in g) end.
  (** the observations in the sample: units with an outcome, the requested direction, rows not after a crossing of the baseline *)
  Definition in_sample (c : icfg) (r : irow) : bool :=
    has_outcome (i_g r) && direction_ok c (i_g r) && (ic_keep_bi c || negb (crossed (i_g r) (i_t r))).
  Definition sample (c : icfg) : list irow := filter (in_sample c) rows.
  Definition same_baseline (r r' : irow) : bool := oq_eqb (baseline (i_g r)) (baseline (i_g r')) && oz_eqb (i_tr r) (i_tr r').
  (** the observations used: some unit with the same baseline never switches and is in the sample in that period, and some
      unit with the same baseline has another switching date *)
  Definition usable (c : icfg) (r : irow) : bool :=
    existsb (fun r' => same_baseline r r' && negb (grp_eqb (switch_date (i_g r)) (switch_date (i_g r')))) (sample c)
    && existsb (fun r' => (i_t r =? i_t r')%Z && same_baseline r r' && grp_eqb (switch_date (i_g r')) Inf) (sample c).
  Definition used (c : icfg) : list irow := filter (usable c) (sample c).
End Panel.

(** Y_{g,b} - Y_{g,a} *)
Definition change (u : list irow) (g a b : Z) : option Qc :=
  match y_at u g b, y_at u g a with Some y1, Some y0 => Some (y1 - y0) | _, _ => None end.
(** the outcome change compared at horizon h for a row of period t = F_g - 1 + h: from F_g - 1 to F_g - 1 + h; for a placebo from
    F_g - 1 to F_g - 1 - h *)
Definition h_change (u : list irow) (placebo : bool) (h : Z) (r : irow) : option Qc :=
  if placebo then change u (i_g r) (i_t r - h) (i_t r - 2 * h) else change u (i_g r) (i_t r - h) (i_t r).
(** the weight of an observation *)
Definition obs_weight (c : icfg) (r : irow) : Qc :=
  if is_some (i_y r) && is_some (i_d r) then (if ic_weighted c then match i_w r with Some w => w | None => 0 end else 1) else 0.

Section Effect.
  Context (c : icfg) (rows : list irow) (placebo : bool) (h : Z).
  Let u := used rows c.
  Let F r := switch_date rows (i_g r).
  (** not switched at [t]; with only_never_switchers, not switching within the periods used *)
  Definition not_yet (r : irow) : bool :=
    match F r with
    | Inf => true
    | Fin f => (i_t r <? f)%Z && negb (ic_only_never c && existsb (fun r' => (f <=? i_t r')%Z) u)
    end.
  (** the comparison group of a row: same period, same baseline, not yet switched, outcome change observed *)
  Definition comparisons (r : irow) : list irow :=
    filter (fun r' => (i_t r' =? i_t r)%Z && same_baseline rows r r' && not_yet r' && is_some (h_change u placebo h r')) u.
  Definition val (o : option Qc) : Qc := match o with Some x => x | None => 0 end.
  (** DID_{g,l}: own change minus the weighted average change of the comparison group *)
  Definition unit_did (r : irow) : Qc :=
    val (h_change u placebo h r)
    - sumf (fun r' => obs_weight c r' * val (h_change u placebo h r')) (comparisons r) / sumf (obs_weight c) (comparisons r).
  (** the switchers of horizon h: the rows at F_g - 1 + h of switching units with an observed change and a comparison group *)
  Definition switcher (r : irow) : bool :=
    match F r with Fin f => (i_t r =? f - 1 + h)%Z | Inf => false end
    && is_some (h_change u placebo h r)
    && match ic_dir c with AnySw => true | InSw => switches_in rows (i_g r) | OutSw => switches_out rows (i_g r) end
    && Qcltb 0 (sumf (obs_weight c) (comparisons r)).
  Definition switchers : list irow := filter switcher u.
  (** the average over the switchers, with the weight of their row *)
  Definition average_did : Qc := sumf (fun r => obs_weight c r * unit_did r) switchers / sumf (obs_weight c) switchers.
  (** DID_l of the documentation: every unit's DID multiplied by S_g *)
  Definition sign (r : irow) : Qc := if switches_in rows (i_g r) then 1 else - (1).
  Definition documented_did : Qc := sumf (fun r => obs_weight c r * (sign r * unit_did r)) switchers / sumf (obs_weight c) switchers.
  (** delta^D_{g,l} = sum over F_g .. F_g - 1 + l of (D_{g,t} - D_{g,1}) *)
  Definition unit_dose (r : irow) : Qc :=
    match F r with
    | Fin f => sumf (fun r' => val (osub (i_d r') (baseline rows (i_g r')))) 
                    (filter (fun r' => (i_g r' =? i_g r)%Z && (f <=? i_t r')%Z && (i_t r' <=? f - 1 + h)%Z) u)
    | Inf => 0
    end.
  Definition average_dose : Qc := sumf (fun r => obs_weight c r * (sign r * unit_dose r)) switchers / sumf (obs_weight c) switchers.
End Effect.

(** the periods are consecutive integers *)
Definition gapless (u : list irow) : Prop :=
  forall r r' x, In r u -> In r' u -> (i_t r <= x <= i_t r')%Z -> exists r'', In r'' u /\ i_t r'' = x.
(** Treatment observed in every row, one row per unit and period *)
Definition complete_treatment (rows : list irow) : Prop := forall r, In r rows -> exists x, i_d r = Some x.
Definition one_row_per_period (rows : list irow) : Prop := NoDup (map (fun r => (i_g r, i_t r)) rows).
(** the same data with other outcome values: [phi] is applied to the observed outcomes *)
Definition with_y (phi : irow -> Qc -> Qc) (r : irow) : irow :=
  {| i_g := i_g r; i_t := i_t r; i_y := option_map (phi r) (i_y r); i_d := i_d r; i_w := i_w r; i_cl := i_cl r; i_tr := i_tr r |}.
(** the trends_nonparam columns do not vary within a unit *)
Definition unit_level_trends (rows : list irow) : Prop := forall r r', In r rows -> In r' rows -> i_g r = i_g r' -> i_tr r = i_tr r'.

(** the same data with the periods renumbered by a constant / the weight column multiplied by a constant *)
Definition shift_t (k : Z) (r : irow) : irow :=
  {| i_g := i_g r; i_t := (i_t r + k)%Z; i_y := i_y r; i_d := i_d r; i_w := i_w r; i_cl := i_cl r; i_tr := i_tr r |}.
Definition scale_w (k : Qc) (r : irow) : irow :=
  {| i_g := i_g r; i_t := i_t r; i_y := i_y r; i_d := i_d r; i_w := option_map (Qcmult k) (i_w r); i_cl := i_cl r; i_tr := i_tr r |}.
(** outcomes plus unit effects and period shocks common to the units with the same baseline treatment (and trends columns) *)
Definition shock (rows : list irow) (a : Z -> Qc) (b : Z -> option Qc -> option Z -> Qc) (r : irow) (y : Qc) : Qc :=
  y + (a (i_g r) + b (i_t r) (baseline rows (i_g r)) (i_tr r)).
(** every outcome is a unit effect, a period effect common to the baseline group, and from the switching date on the effect [tau] *)
Definition treated_at (rows : list irow) (g t : Z) : bool := match switch_date rows g with Fin F => (F <=? t)%Z | Inf => false end.
Definition truth (rows : list irow) (a : Z -> Qc) (b : Z -> option Qc -> option Z -> Qc) (tau : Z -> Z -> Qc) : Prop :=
  forall r y, In r rows -> i_y r = Some y ->
    y = a (i_g r) + b (i_t r) (baseline rows (i_g r)) (i_tr r) + (if treated_at rows (i_g r) (i_t r) then tau (i_g r) (i_t r) else 0).
(** the average absolute cumulative treatment change of the switchers *)
Definition mean_abs_dose (c : icfg) (rows : list irow) (placebo : bool) (h : Z) : Qc :=
  sumf (fun r => obs_weight c r * Qcabs (unit_dose c rows h r)) (switchers c rows placebo h) / sumf (obs_weight c) (switchers c rows placebo h).
(** D_{g,t} - D_{g,1} *)
Definition own_dose (rows : list irow) (r : irow) : Qc := val (osub (i_d r) (baseline rows (i_g r))).
(** delta of the documentation: the total of the unit effects over the total of the treatment changes *)
Definition total_effect (c : icfg) (rows : list irow) (n : nat) : Qc :=
  sumf (fun h => sumf (fun r => obs_weight c r * unit_did c rows false (Z.of_nat h) r) (switchers c rows false (Z.of_nat h))) (seq 1 n)
  / sumf (fun h => sumf (fun r => obs_weight c r * own_dose rows r) (switchers c rows false (Z.of_nat h))) (seq 1 n).
(** the estimate that is reported for an effect or placebo horizon; [None]: NaN, or no such horizon in the output *)
Definition reported (c : icfg) (rt : Qc -> Qc) (rows : list irow) (placebo : bool) (h : nat) : option Qc :=
  nth (h - 1) ((if placebo then snd else fst) (did_multiplegt c rt rows)) None.
(** the smallest total weight the estimator divides by *)
Definition tiny : Qc := Q2Qc (1 # 10000000000).
(** the panels the formulas are about: one row per unit and period, treatment observed, no first change in a period numbered 0,
    consecutive periods in the sample, and (rounding of a standard deviation to three digits) at most two million rows *)
Definition panel_ok (c : icfg) (rows : list irow) : Prop :=
  one_row_per_period rows /\ complete_treatment rows /\ (Z.of_nat (length rows) <= 2000000)%Z
  /\ (forall r, In r rows -> switch_date rows (i_g r) <> Fin 0%Z) /\ gapless (used rows c).

(** One experiment at horizon [h]: the units used share the baseline (and the trends columns), switch in period [f >= 2] to the same
    treatment or never, and every one of them is observed at f - 1 + h with its outcome change. *)
Definition one_experiment (c : icfg) (rows : list irow) (placebo : bool) (h f : Z) : Prop :=
  let u := used rows c in
  (2 <= f)%Z
  /\ (forall r r', In r u -> In r' u -> same_baseline rows r r' = true)
  /\ (forall r, In r u -> switch_date rows (i_g r) = Fin f \/ switch_date rows (i_g r) = Inf)
  /\ (forall r r', In r u -> In r' u -> switch_date rows (i_g r) = Fin f -> switch_date rows (i_g r') = Fin f -> d_at rows (i_g r) f = d_at rows (i_g r') f)
  /\ (forall r, In r u -> exists r', In r' u /\ i_g r' = i_g r /\ i_t r' = (f - 1 + h)%Z /\ is_some (i_y r') = true /\ is_some (h_change u placebo h r') = true).
(** the rows of period f - 1 + h of the units that switch in f / that never switch *)
Definition arm (c : icfg) (rows : list irow) (h f : Z) (g : grp) : list irow :=
  filter (fun r => (i_t r =? f - 1 + h)%Z && grp_eqb (switch_date rows (i_g r)) g) (used rows c).
(** the outcome changes of an arm, their mean and mean squared deviation *)
Definition arm_mean (c : icfg) (rows : list irow) (placebo : bool) (h : Z) (a : list irow) : Qc :=
  sumf (fun r => val (h_change (used rows c) placebo h r)) a / qn (length a).
Definition arm_msd (c : icfg) (rows : list irow) (placebo : bool) (h : Z) (a : list irow) : Qc :=
  let m := arm_mean c rows placebo h a in
  sumf (fun r => (val (h_change (used rows c) placebo h r) - m) * (val (h_change (used rows c) placebo h r) - m)) a / qn (length a).
(** the degrees-of-freedom correction n / (n - 1), computed as the square of its root; none with less_conservative_se *)
Definition dof_correction (c : icfg) (rt : Qc -> Qc) (n : nat) : Qc := if ic_less c then 1 else rt (qn n / qn (n - 1)) * rt (qn n / qn (n - 1)).
(** the contribution of a row of period f - 1 + h to the error of the difference in means *)
Definition arm_dev (c : icfg) (rows : list irow) (placebo : bool) (h f : Z) (r : irow) : Qc :=
  let A1 := arm c rows h f (Fin f) in let A0 := arm c rows h f Inf in
  let y := val (h_change (used rows c) placebo h r) in
  if grp_eqb (switch_date rows (i_g r)) Inf then - ((y - arm_mean c rows placebo h A0) / qn (length A0))
  else (y - arm_mean c rows placebo h A1) / qn (length A1).
(** the rows of period f - 1 + h, the clusters, and the clustered variance: the squared cluster sums of the contributions *)
Definition target_rows (c : icfg) (rows : list irow) (h f : Z) : list irow := filter (fun r => (i_t r =? f - 1 + h)%Z) (used rows c).
Definition cluster_in (k : Z) (r : irow) : bool := match i_cl r with Some k' => (k' =? k)%Z | None => false end.
Definition cluster_variance (c : icfg) (rows : list irow) (placebo : bool) (h f : Z) : Qc :=
  let T := target_rows c rows h f in
  sumf (fun k => let s := sumf (arm_dev c rows placebo h f) (filter (cluster_in k) T) in s * s)
       (zuniq (flat_map (fun r => match i_cl r with Some k => (k :: nil) | None => nil end) T)).
(** the cluster column is filled in and constant within units, every unit used is observed in the first period used, and both arms
    have units of at least two clusters *)
Definition clusters_ok (c : icfg) (rows : list irow) (h f : Z) : Prop :=
  let u := used rows c in
  (forall r, In r u -> is_some (i_cl r) = true)
  /\ (forall r r', In r u -> In r' u -> i_g r = i_g r' -> i_cl r = i_cl r')
  /\ (forall r r', In r u -> In r' u -> (forall x, In x u -> (i_t r' <= i_t x)%Z) -> exists r0, In r0 u /\ i_g r0 = i_g r /\ i_t r0 = i_t r')
  /\ (forall g, g = Fin f \/ g = Inf -> exists r r', In r (arm c rows h f g) /\ In r' (arm c rows h f g) /\ i_cl r <> i_cl r').
