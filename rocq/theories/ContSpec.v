(** Specification vocabulary for the continuous-treatment estimators (C97-C103). *)
From Verif Require Import Base ReduceModel DrdidModel DrdidSpec SplineSpec ContModel.
From Coq Require Import Sorting.Sorted.

(** A unit of a balanced panel: cohort ([None]: never treated), dose, sampling weight, outcome in each period. *)
Record cunit := { k_id : Z; k_g : option Z; k_dose : Qc; k_w : Qc; k_y : Z -> Qc }.
(** The panel's periods [s+1, ..., s+T] and its rows, unit by unit. *)
Definition calendar (s : Z) (T : nat) : list Z := map (fun i => (s + Z.of_nat i)%Z) (seq 1 T).
Definition row_of (u : cunit) (t : Z) : crow :=
  {| c_id := k_id u; c_t := t; c_g := k_g u; c_d := k_dose u; c_y := k_y u t; c_w := k_w u |}.
Definition rows_in (cal : list Z) (us : list cunit) : list crow := flat_map (fun u => map (row_of u) cal) us.
(** Periods 1, ..., T. *)
Definition rows (T : nat) (us : list cunit) : list crow := rows_in (calendar 0 T) us.
(** A valid panel with periods 1..T: units listed by identifier, cohorts adopting after the first usable period, positive doses for adopters,
    dose zero for the never treated, positive weights. *)
Definition unit_ok (ant : Z) (T : nat) (u : cunit) : Prop :=
  match k_g u with
  | None => k_dose u = 0
  | Some g => (2 + ant <= g)%Z /\ (g <= Z.of_nat T)%Z /\ 0 < k_dose u
  end /\ 0 < k_w u.
Definition panel_ok (ant : Z) (T : nat) (us : list cunit) : Prop :=
  (2 <= T)%nat /\ (0 <= ant)%Z /\ us <> [] /\ StronglySorted Z.lt (map k_id us) /\ forall u, In u us -> unit_ok ant T u.

(** Cohort, comparison units and reference period of a comparison. *)
Definition cohort (us : list cunit) (g : Z) : list cunit :=
  filter (fun u => match k_g u with Some h => (h =? g)%Z | None => false end) us.
Definition comparison (nyt : bool) (us : list cunit) (g t : Z) : list cunit :=
  filter (fun u => match k_g u with None => true | Some h => nyt && (t <? h)%Z && negb (h =? g)%Z end) us.
Definition reference (ant g t : Z) : Z := if (t <? g - ant)%Z then (t - 1)%Z else (g - ant - 1)%Z.
Definition change (ant g t : Z) (u : cunit) : Qc := k_y u t - k_y u (reference ant g t).
(** The two-by-two difference in differences of cohort [g] in period [t]. *)
Definition did (nyt : bool) (ant : Z) (us : list cunit) (g t : Z) : Qc :=
  mean (change ant g t) (cohort us g) - mean (change ant g t) (comparison nyt us g t).

(** Least squares does what its name says: the residuals are orthogonal to the columns; whether it gives up depends on the regressors only. *)
Definition lstsq_ok (f : list (list Qc) -> list Qc -> option (list Qc)) : Prop :=
  (forall X y c k, f X y = Some c -> X <> [] -> length X = length y -> (forall x, In x X -> length x = k) ->
     length c = k /\ forall j, (j < k)%nat -> sumf (fun p => nth j (fst p) 0 * (snd p - dotl (fst p) c)) (combine X y) = 0) /\
  (forall X y y', length y = length y' -> f X y = None -> f X y' = None).
Definition cinv_ok (f : matrix -> option matrix) : Prop :=
  forall M N k, f M = Some N -> length M = k -> is_inverse k M N.

(** Weighted share of cohort [g] among the adopters. *)
Definition adopters (us : list cunit) : list cunit := filter (fun u => match k_g u with Some _ => true | None => false end) us.
Definition share (us : list cunit) (g : Z) : Qc := sumf k_w (cohort us g) / sumf k_w (adopters us).
Definition cohorts (us : list cunit) : list Z := zuniq (flat_map (fun u => match k_g u with Some g => [g] | None => [] end) us).
(** Periods [g, ..., T]. *)
Definition exposed (T : nat) (g : Z) : list Z := filter (fun t => (g <=? t)%Z) (calendar 0 T).
