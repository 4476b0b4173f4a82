(** Specification vocabulary for C64-C69 (aggregation of multi-period triple differences), in the user's own group and period values. *)
From Verif Require Import Base ListLib Calc PreprocessModel SeModel AggteModel AggteSpec AggDddModel.

(** Fraction of the units that belong to cohort [g]. *)
Definition frac (us : list grp) (g : Z) : Qc := qn (length (filter (fun c => grp_eqb c (Fin g)) us)) / qn (length us).
(** What multi-period ddd hands over (C69 proves it): cells of known cohorts and periods, cohorts that have units. *)
Definition table_ok (tlist glist : list Z) (us : list grp) (mp : list mp_cell) : Prop :=
  StronglySorted Z.lt glist /\ (forall m, In m mp -> In (m_g m) glist /\ In (m_t m) tlist) /\ (forall g, In g glist -> In (Fin g) us).
(** Periods of the panel and cohorts considered: all of them, with dropna those of the cells used. *)
Definition scale (dropna : bool) (tlist glist : list Z) (cells : list kcell) : list Z := tlist ++ if dropna then map k_g cells else glist.
(** Number of distinct values of [vals] in (g, t]. *)
Definition steps_over (vals : list Z) (g t : Z) : Z := Z.of_nat (length (filter (fun v => (g <? v)%Z && (v <=? t)%Z) (zuniq vals))).
Definition in_steps (vals : list Z) (max_e : option Z) (k : kcell) : bool :=
  match max_e with None => true | Some m => (steps_over vals (k_g k) (k_t k) <=? m)%Z end.
(** The cells covered. [key]: cohort, event time or period reported. *)
Definition dcovers (ty : agg_type) (vals : list Z) (cells : list kcell) (balance_e max_e : option Z) (key : Z) (k : kcell) : bool :=
  match ty with
  | TSimple => post k && in_steps vals max_e k
  | TGroup => (k_g k =? key)%Z && post k && in_steps vals max_e k
  | TDynamic => (k_t k - k_g k =? key)%Z && eligible cells balance_e k
  | TCalendar => (k_t k =? key)%Z && post k
  end.
(** Average of [a] over the cells [ks], weighted by the shares [sh] of their cohorts. *)
Definition wavg (sh : Z -> Qc) (a : kcell -> Qc) (ks : list kcell) : Qc := sumf (fun k => sh (k_g k) * a k) ks / sumf (fun k => sh (k_g k)) ks.
Definition wavg_opt (sh : Z -> Qc) (a : kcell -> Qc) (ks : list kcell) : option Qc := match ks with [] => None | _ => Some (wavg sh a ks) end.
(** Plain average of [a] over [ks]. *)
Definition avg_opt (a : kcell -> Qc) (ks : list kcell) : option Qc := match ks with [] => None | _ => Some (mean a ks) end.
Definition or0 (o : option Qc) : Qc := match o with Some a => a | None => 0 end.
(** Average of those of the values [v key] that exist. *)
Definition avg_existing (v : Z -> option Qc) (keys : list Z) : option Qc :=
  match existing (map v keys) with [] => None | l => Some (average l) end.

(** Average over cohorts of [v], weighted by shares, a missing value counting as 0. *)
Definition cohort_avg0 (sh : Z -> Qc) (v : Z -> option Qc) (keys : list Z) : Qc := sumf (fun g => sh g * or0 (v g)) keys / sumf sh keys.
(** The same over the cohorts that have a value. *)
Definition has_value (v : Z -> option Qc) (g : Z) : bool := match v g with Some _ => true | None => false end.
Definition cohort_avg (sh : Z -> Qc) (v : Z -> option Qc) (keys : list Z) : option Qc :=
  match filter (has_value v) keys with [] => None | gs => Some (cohort_avg0 sh v gs) end.

(** The same average taken over the influence columns of the cells, [n] units. *)
Definition winf (us : list grp) (n : nat) (ks : list kcell) : list Qc := map (fun i => wavg (frac us) (fun k => nth i (k_inf k) 0) ks) (seq 0 n).
(** Mean square divided by the number of units; missing when the standard error is at most 10 sqrt(eps). *)
Definition se2_of (psi : list Qc) : option Qc :=
  let v := sumf (fun x => x * x) psi / qn (length psi) / qn (length psi) in if Qcleb v se_floor2 then None else Some v.

(** Shares when the weight of unit number i is 1 + e * h_i. *)
Definition shares_along (us : list grp) (h : list Qc) (e : Qc) (g : Z) : Qc :=
  sumf (fun p => (1 + e * nth (fst p) h 0) * ind (grp_eqb (snd p) (Fin g))) (combine (seq 0 (length us)) us) / qn (length us).
(** [F] gives the estimates of the cells as unit weights move in direction [h]. *)
Definition kpaths (n : nat) (h : list Qc) (F : kcell -> Qc -> Qc) (cells : list kcell) : Prop :=
  forall k, In k cells -> F k 0 = k_att k /\ derivative_at_0 (F k) (havg n h (k_inf k)).
(** What estimating the shares adds to the influence value of a unit of cohort [c]. *)
Definition share_term (us : list grp) (ks : list kcell) (c : grp) : Qc :=
  sumf (fun k => ind (grp_eqb c (Fin (k_g k))) * (k_att k - wavg (frac us) k_att ks)) ks / sumf (fun k => frac us (k_g k)) ks.
(** Every effect increased by [d g t]. *)
Definition shift_cell (d : Z -> Z -> Qc) (m : mp_cell) : mp_cell :=
  {| m_g := m_g m; m_t := m_t m; m_att := option_map (fun a => a + d (m_g m) (m_t m)) (m_att m); m_inf := m_inf m |}.
Definition opt_plus (a b : option Qc) : option Qc := match a, b with Some x, Some y => Some (x + y) | _, _ => None end.
(** The effect of key [key], and the overall effect over the keys [keys], when cell k has effect [a k] and cohorts have shares [sh]. *)
Definition effect_of (ty : agg_type) (sh : Z -> Qc) (vals : list Z) (cells : list kcell) (balance_e max_e : option Z) (a : kcell -> Qc) (key : Z) : option Qc :=
  let ks := filter (dcovers ty vals cells balance_e max_e key) cells in
  match ty with TGroup => avg_opt a ks | _ => wavg_opt sh a ks end.
Definition overall_of (ty : agg_type) (sh : Z -> Qc) (vals : list Z) (cells : list kcell) (balance_e max_e : option Z) (a : kcell -> Qc) (keys : list Z) : option Qc :=
  let v := effect_of ty sh vals cells balance_e max_e a in
  match ty with
  | TSimple => v 0%Z
  | TGroup => Some (cohort_avg0 sh v keys)
  | TDynamic => avg_existing v (filter (fun e => (0 <=? e)%Z) keys)
  | TCalendar => avg_existing v keys
  end.
