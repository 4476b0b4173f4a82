(** Specification vocabulary for C57-C63 (multi-period triple differences). *)
From Verif Require Import Base PreprocessModel AttGtModel ReduceModel DrdidModel DddModel DddMpModel.

(** At most one row per unit and period. *)
Definition keyed (data : list lrow) : Prop := NoDup (map (fun r => (l_id r, l_t r)) data).
Definition is_period (data : list lrow) (s : Z) : Prop := exists r, In r data /\ l_t r = s.
Definition is_cohort (data : list lrow) (g : Z) : Prop := (0 < g)%Z /\ exists r, In r data /\ l_g r = Fin g.
(** [p] is the latest observed period strictly before [s]. *)
Definition latest_before (data : list lrow) (s p : Z) : Prop :=
  is_period data p /\ (p < s)%Z /\ forall q, is_period data q -> (q < s)%Z -> (q <= p)%Z.
(** Base period of cell (g, t): universal, the last period before treatment; varying, the previous period before treatment and the
    last pre-treatment period afterwards. *)
Definition base_for (b : base_mode) (data : list lrow) (g t p : Z) : Prop :=
  match b with Universal => latest_before data g p | Varying => latest_before data (Z.min g t) p end.
(** Cohorts that may serve as controls for (g, t) with base period p. *)
Definition may_control (never : bool) (g t p : Z) (c : grp) : Prop :=
  c = Fin 0 \/ c = Inf \/ (never = false /\ exists z, c = Fin z /\ (t < z)%Z /\ (p < z)%Z /\ z <> g).
Definition controls_of (never : bool) (data : list lrow) (g t p : Z) (c : grp) : Prop :=
  may_control never g t p c /\ exists r, In r data /\ l_g r = c /\ (l_t r = t \/ l_t r = p).
(** Subgroup of a row when cohort [g] is the treated one: 4 treated-eligible, 3 treated-ineligible, 2 eligible control, 1 ineligible control. *)
Definition subgroup_is (g : Z) (r : lrow) (s : Z) : Prop :=
  (l_g r = Fin g /\ l_p r = 1 /\ s = 4)%Z \/ (l_g r = Fin g /\ l_p r = 0 /\ s = 3)%Z \/
  (l_g r <> Fin g /\ l_p r = 1 /\ s = 2)%Z \/ (l_g r <> Fin g /\ l_p r = 0 /\ s = 1)%Z \/
  (l_p r <> 0 /\ l_p r <> 1 /\ s = 0)%Z.
(** The two-period sample comparing cohort [g] with cohort [c] between [p] and [t]: the units of the two cohorts observed in both
    periods, in increasing order of unit, with outcomes of the two periods, unit weight, subgroup and covariates of period [t]. *)
Definition is_sample (data : list lrow) (g : Z) (c : grp) (t p : Z) (u : list tunit) : Prop :=
  StronglySorted Z.lt (map t_id u) /\
  forall x, In x u <-> exists r1 r0, In r1 data /\ In r0 data /\ l_t r1 = t /\ l_t r0 = p /\ l_id r0 = l_id r1 /\
    (l_g r1 = Fin g \/ l_g r1 = c) /\ (l_g r0 = Fin g \/ l_g r0 = c) /\
    t_id x = l_id r1 /\ subgroup_is g r1 (t_sg x) /\ t_y1 x = l_y r1 /\ t_y0 x = l_y r0 /\ t_w x = 1 /\ t_x x = 1 :: l_x r1.
(** The triple difference of cohort [g] against the control cohort [c]: estimate and influence values by unit. *)
Definition against (o : oracle) (k : nat) (m : emethod) (data : list lrow) (g : Z) (c : grp) (t p : Z) (att : Qc) (inf : list (Z * Qc)) : Prop :=
  exists u a3 a2 a1 v, is_sample data g c t p u /\ ddd_panel o k m u = TEst att a3 a2 a1 v /\ inf = combine (map t_id u) v.

(** Column over the units [ids] of the influence values [inf] of a comparison: value of the unit times |ids| / |inf|; 0 for the others. *)
Definition is_column (ids : list Z) (inf : list (Z * Qc)) (col : list Qc) : Prop :=
  length col = length ids /\
  forall j, (j < length ids)%nat ->
    (forall v, In (nth j ids 0%Z, v) inf -> nth j col 0 = qn (length ids) / qn (length inf) * v) /\
    ((forall v, ~ In (nth j ids 0%Z, v) inf) -> nth j col 0 = 0).
(** Combination of columns (or of numbers) with weights [w]. *)
Definition comb_vals (w a : list Qc) : Qc := sumf (fun p => fst p * snd p) (combine w a).
Definition comb_cols (n : nat) (w : list Qc) (cols : list (list Qc)) : list Qc :=
  map (fun r => comb_vals w (map (fun col => nth r col 0) cols)) (seq 0 n).
(** Sample variance (n - 1). *)
Definition svar (col : list Qc) : Qc :=
  let m := mean (fun x => x) col in sumf (fun x => (x - m) * (x - m)) col / (qn (length col) - 1).
(** [w] are the minimum-variance weights for the columns. *)
Definition min_variance (n : nat) (cols : list (list Qc)) (w : list Qc) : Prop :=
  length w = length cols /\ qsum w = 1 /\
  forall w', length w' = length cols -> qsum w' = 1 ->
    svar (comb_cols n w cols) <= svar (comb_cols n w' cols) /\ (svar (comb_cols n w' cols) = svar (comb_cols n w cols) -> w' = w).
(** numpy.linalg.inv returns an inverse. *)
Definition gmm_inv_ok (q : gmm_oracle) : Prop := forall c (M V : matrix), length M = c -> gm_inv q M = Some V ->
  length V = c /\ forall i j, (i < c)%nat -> (j < c)%nat -> sumf (fun l => mget M i l * mget V l j) (seq 0 c) = ind (i =? j)%nat.
(** Pooling of the comparisons [rs] (control cohort, estimate, influence values by unit) over the units [ids] of all of them: when
    the covariance matrix of their columns is invertible, minimum-variance weights; the influence values are those of the weighted
    combination, rescaled to [n] units; [se2] is the reported squared standard error. *)
Definition pooled (q : gmm_oracle) (n : nat) (rs : list (grp * (Qc * list (Z * Qc)))) (att : Qc) (inf : list (Z * Qc)) (se2 : Qc) : Prop :=
  exists ids cols, StronglySorted Z.lt ids /\ (forall i, In i ids <-> exists r v, In r rs /\ In (i, v) (snd (snd r))) /\
    Forall2 (fun r col => is_column ids (snd (snd r)) col) rs cols /\
    (gm_inv q (gmm_omega cols) <> None ->
       exists w, min_variance (length ids) cols w /\ att = comb_vals w (map (fun r => fst (snd r)) rs) /\
         inf = combine ids (map (Qcmult (qn n / qn (length ids))) (comb_cols (length ids) w cols)) /\
         0 < svar (comb_cols (length ids) w cols) /\ se2 = svar (comb_cols (length ids) w cols) / qn n).
(** Cell (g', t') comes before (g, t) in the order of the output: by cohort, then by period. *)
Definition cell_before (a c : Z * Z) : Prop := (fst a < fst c)%Z \/ (fst a = fst c /\ (snd a < snd c)%Z).
(** The (cohort, period) pairs for which a cell is attempted. *)
Definition in_grid (b : base_mode) (data : list lrow) (g t : Z) : Prop :=
  is_cohort data g /\ is_period data t /\ (b = Varying -> exists s, is_period data s /\ (s < t)%Z).
(** All units, in increasing order. *)
Definition is_units (data : list lrow) (ids : list Z) : Prop := StronglySorted Z.lt ids /\ forall i, In i ids <-> exists r, In r data /\ l_id r = i.
Definition sum_squares (col : list Qc) : Qc := sumf (fun x => x * x) col.

(** Reordering rows and columns of a matrix by the index list [s]. *)
Definition mperm (s : list nat) (M : matrix) : matrix := map (fun i => map (fun j => mget M i j) s) s.
(** Inverse and pseudo-inverse commute with reordering. *)
Definition gmm_equivariant (q : gmm_oracle) : Prop := forall c s M, length M = c -> Permutation (seq 0 c) s ->
  gm_inv q (mperm s M) = option_map (mperm s) (gm_inv q M) /\ gm_pinv q (mperm s M) = mperm s (gm_pinv q M).
Definition set_weight (h : lrow -> Qc) (r : lrow) : lrow :=
  {| l_id := l_id r; l_t := l_t r; l_g := l_g r; l_p := l_p r; l_y := l_y r; l_w := h r; l_x := l_x r |}.

(** Outcomes shifted by a unit effect [f], cohort-by-period shocks [gam], eligibility-by-period shocks [bet], and an effect [tau g t]
    on the eligible units of cohort [g] from period [g] on. *)
Definition effect (tau : Z -> Z -> Qc) (g : grp) (p t : Z) : Qc :=
  match g with Fin z => if ((0 <? z) && (z <=? t) && (p =? 1))%Z then tau z t else 0 | Inf => 0 end.
Definition shock_row (f : Z -> Qc) (gam : grp -> Z -> Qc) (bet : Z -> Z -> Qc) (tau : Z -> Z -> Qc) (r : lrow) : lrow :=
  {| l_id := l_id r; l_t := l_t r; l_g := l_g r; l_p := l_p r;
     l_y := l_y r + f (l_id r) + gam (l_g r) (l_t r) + bet (l_p r) (l_t r) + effect tau (l_g r) (l_p r) (l_t r); l_w := l_w r; l_x := l_x r |}.
(** Cohort and eligibility do not change over time. *)
Definition time_constant (data : list lrow) : Prop :=
  forall r r', In r data -> In r' data -> l_id r = l_id r' -> l_g r = l_g r' /\ l_p r = l_p r'.
(** Whether the regression can be fitted depends on regressors and weights only. *)
Definition wls_existence_blind (o : oracle) : Prop :=
  forall l l', map (fun u => (p_d u, p_w u, p_x u)) l = map (fun u => (p_d u, p_w u, p_x u)) l' -> (o_wls o l = None <-> o_wls o l' = None).
(** [cols] are the influence columns of the comparisons pooled in the cell (g, t) with base period p. *)
Definition pool_columns (o : oracle) (k : nat) (m : emethod) (never : bool) (data : list lrow) (g t p : Z) (cols : list (list Qc)) : Prop :=
  (exists z z', z <> z' /\ controls_of never data g t p z /\ controls_of never data g t p z') /\
  exists rs ids, rs <> [] /\ NoDup (map fst rs) /\ (forall z a i, In (z, (a, i)) rs <-> controls_of never data g t p z /\ against o k m data g z t p a i) /\
    StronglySorted Z.lt ids /\ (forall i, In i ids <-> exists r v, In r rs /\ In (i, v) (snd (snd r))) /\
    Forall2 (fun r col => is_column ids (snd (snd r)) col) rs cols.
(** Column over the units [ids] holding the values of [inf] themselves, 0 for the other units. *)
Definition is_placed (ids : list Z) (inf : list (Z * Qc)) (col : list Qc) : Prop :=
  length col = length ids /\
  forall j, (j < length ids)%nat ->
    (forall v, In (nth j ids 0%Z, v) inf -> nth j col 0 = v) /\ ((forall v, ~ In (nth j ids 0%Z, v) inf) -> nth j col 0 = 0).
(** The control cohort [z] is the only one, or there are several. *)
Definition one_control (never : bool) (data : list lrow) (g t p : Z) (z : grp) : Prop := forall z', controls_of never data g t p z' <-> z' = z.
Definition several_controls (never : bool) (data : list lrow) (g t p : Z) : Prop :=
  exists z z', z <> z' /\ controls_of never data g t p z /\ controls_of never data g t p z'.
(** All the comparisons that can be made for the cell (g, t) with base period p. *)
Definition all_comparisons (o : oracle) (k : nat) (m : emethod) (never : bool) (data : list lrow) (g t p : Z) (rs : list (grp * (Qc * list (Z * Qc)))) : Prop :=
  rs <> [] /\ NoDup (map fst rs) /\ forall z a i, In (z, (a, i)) rs <-> controls_of never data g t p z /\ against o k m data g z t p a i.
(** Units used by the comparisons. *)
Definition units_of (rs : list (grp * (Qc * list (Z * Qc)))) (ids : list Z) : Prop :=
  StronglySorted Z.lt ids /\ forall i, In i ids <-> exists r v, In r rs /\ In (i, v) (snd (snd r)).
(** The cells reported before (g, t) leave no gap. *)
Definition no_gap_before (b : base_mode) (data : list lrow) (rows : list (Z * Z * Qc)) (g t : Z) : Prop :=
  forall g' t', in_grid b data g' t' -> cell_before (g', t') (g, t) -> exists att', In (g', t', att') rows.
