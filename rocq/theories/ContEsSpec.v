(** Specification vocabulary for the event-study aggregation of continuous treatments (C105, C106). *)
From Verif Require Import Base ReduceModel DrdidModel ContModel ContSpec ContEsModel.
From Coq Require Import Sorting.Sorted.

(** Weighted and dose-weighted means of a list of units. *)
Definition wmean (f : cunit -> Qc) (l : list cunit) : Qc := sumf (fun u => k_w u * f u) l / sumf k_w l.
Definition dose_mean (f : cunit -> Qc) (l : list cunit) : Qc := sumf (fun u => k_w u * k_dose u * f u) l / sumf (fun u => k_w u * k_dose u) l.
(** Mean with the weight of "one minus dose" (which is a negative weight for doses above one). *)
Definition rest_mean (f : cunit -> Qc) (l : list cunit) : Qc :=
  sumf (fun u => k_w u * (1 - k_dose u) * f u) l / sumf (fun u => k_w u * (1 - k_dose u)) l.
(** Units of a cell with their dose in that cell: comparison units that adopt later count with dose zero. *)
Definition without_dose (u : cunit) : cunit := {| k_id := k_id u; k_g := k_g u; k_dose := 0; k_w := k_w u; k_y := k_y u |}.
Definition members (nyt : bool) (us : list cunit) (g t : Z) : list cunit :=
  cohort us g ++ map without_dose (comparison nyt us g t).
(** Share of the cell's weight that dose units make up. *)
Definition dose_share (l : list cunit) : Qc := sumf (fun u => k_w u * k_dose u) l / sumf k_w l.

(** The estimate of a cell in a result. *)
Definition estimate (cells : list ecell) (g t : Z) : Qc :=
  match find (fun c => (ec_g c =? g)%Z && (ec_t c =? t)%Z) cells with Some c => ec_att c | None => 0 end.
Definition influence (cells : list ecell) (g t : Z) (i : nat) : Qc :=
  match find (fun c => (ec_g c =? g)%Z && (ec_t c =? t)%Z) cells with Some c => nth i (ec_inf c) 0 | None => 0 end.

(** Cohorts seen [e] periods after adoption (in one of the periods 2..T), and kept by the balancing rule: those seen [b] periods after adoption. *)
Definition kept (eo : eopts) (T : nat) (g : Z) : bool := match eo_balance eo with Some b => (g + b <=? Z.of_nat T)%Z | None => true end.
Definition event_cohorts (eo : eopts) (T : nat) (us : list cunit) (e : Z) : list Z :=
  filter (fun g => (2 <=? g + e)%Z && (g + e <=? Z.of_nat T)%Z && kept eo T g) (cohorts us).
(** The requested window of event times. *)
Definition in_window (eo : eopts) (T : nat) (e : Z) : Prop :=
  (match eo_min eo with Some m => m <= e | None => True end /\ match eo_max eo with Some m => e <= m | None => True end /\
   match eo_balance eo with Some b => b - (Z.of_nat T - 1) + 1 <= e <= b | None => True end)%Z.
(** Average over cohorts, weighted by the cohorts' sampling weight. *)
Definition cohort_weight (us : list cunit) (g : Z) : Qc := sumf k_w (cohort us g).
Definition cohort_mean (us : list cunit) (gs : list Z) (f : Z -> Qc) : Qc :=
  sumf (fun g => cohort_weight us g * f g) gs / sumf (cohort_weight us) gs.
(** The units listed cohort by cohort, the never treated last. *)
Definition by_cohort (us : list cunit) : list cunit := flat_map (cohort us) (cohorts us) ++ filter (fun u => negb (og_fin (k_g u))) us.
(** First-order effect of one unit's presence on a weighted mean of cohort effects [f] over [gs]. *)
Definition weight_effect (us : list cunit) (gs : list Z) (f : Z -> Qc) (u : cunit) : Qc :=
  match k_g u with
  | Some h => if zmem h gs then k_w u * (f h - cohort_mean us gs f) / (sumf (cohort_weight us) gs / qn (length us)) else 0
  | None => 0
  end.
