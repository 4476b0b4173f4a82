(** Specification vocabulary for C17-C24: everything in the user's own group and time values. *)
From Verif Require Import Base ListLib Calc PreprocessModel AggteModel.

(** Weighted population share of cohort [g]. *)
Definition share (units : list unit_rec) (g : Z) : Qc :=
  mean (fun x => snd x * ind (grp_eqb (fst x) (Fin g))) units.
(** The share-weighted average of the effects of the cells [ks]. *)
Definition share_average (units : list unit_rec) (ks : list kcell) : Qc :=
  sumf (fun k => share units (k_g k) * k_att k) ks / sumf (fun k => share units (k_g k)) ks.
(** [v] is a convex combination of the effects of [ks]. *)
Definition convex_combination (ks : list kcell) (v : Qc) : Prop :=
  exists w : kcell -> Qc, (forall k, In k ks -> 0 <= w k) /\ sumf w ks = 1 /\ v = sumf (fun k => k_att k * w k) ks.
(** Positive share of some covered cohort, nonnegative sampling weights. *)
Definition weights_ok (units : list unit_rec) (ks : list kcell) : Prop :=
  (forall x, In x units -> 0 <= snd x) /\ exists k x, In k ks /\ In x units /\ fst x = Fin (k_g k) /\ 0 < snd x.

(** The cells an aggregation works on: those with an effect. *)
Definition with_effect (mp : list mp_cell) : list kcell :=
  flat_map (fun m => match m_att m with
                     | Some a => [{| k_g := m_g m; k_t := m_t m; k_att := a; k_inf := m_inf m |}]
                     | None => [] end) mp.

(** Number of distinct group/time values of the result lying in (g, t]. *)
Definition steps (cells : list kcell) (g t : Z) : Z :=
  Z.of_nat (length (filter (fun v => (g <? v)%Z && (v <=? t)%Z) (zuniq (map k_t cells ++ map k_g cells)))).
(** The window max_e as the code measures it: in [steps]; as documented: in event time. *)
Definition in_window_steps (cells : list kcell) (max_e : option Z) (k : kcell) : bool :=
  match max_e with None => true | Some m => (steps cells (k_g k) (k_t k) <=? m)%Z end.
Definition in_window (max_e : option Z) (k : kcell) : bool :=
  match max_e with None => true | Some m => (k_t k - k_g k <=? m)%Z end.
(** Post-treatment cells. *)
Definition post (k : kcell) : bool := (k_g k <=? k_t k)%Z.
(** Largest / smallest period among the cells. *)
Definition is_max (m : Z) (l : list Z) : Prop := In m l /\ forall x, In x l -> (x <= m)%Z.
Definition is_min (m : Z) (l : list Z) : Prop := In m l /\ forall x, In x l -> (m <= x)%Z.
(** The values are consecutive integers. *)
Definition consecutive (cells : list kcell) : Prop :=
  forall a b v, In a (map k_t cells ++ map k_g cells) -> In b (map k_t cells ++ map k_g cells) ->
                (a <= v <= b)%Z -> In v (map k_t cells ++ map k_g cells).

(** The cells an aggregation covers, in the user's terms. [key]: group, event time or period reported. *)
Definition eligible (cells : list kcell) (balance_e : option Z) (k : kcell) : bool :=
  match balance_e with None => true | Some b => existsb (fun c => (b <=? k_t c - k_g k)%Z) cells end.
Definition covers (ty : agg_type) (cells : list kcell) (balance_e max_e : option Z) (key : Z) (k : kcell) : bool :=
  match ty with
  | TSimple => post k && in_window_steps cells max_e k
  | TGroup => (k_g k =? key)%Z && post k && in_window_steps cells max_e k
  | TDynamic => (k_t k - k_g k =? key)%Z && eligible cells balance_e k
  | TCalendar => (k_t k =? key)%Z && post k
  end.
(** The cells used: those with an effect; type 'group' with dropna keeps only cohorts with a post-treatment effect. *)
Definition used_cells (ty : agg_type) (dropna : bool) (mp : list mp_cell) : list kcell :=
  let l := with_effect mp in
  match ty with
  | TGroup => if dropna then filter (fun a => existsb (fun b => (k_g b =? k_g a)%Z && post b) l) l else l
  | _ => l
  end.
(** Average of the effects that exist. *)
Definition average (l : list Qc) : Qc := mean (fun x => x) l.
Fixpoint existing (l : list (option Qc)) : list Qc :=
  match l with [] => [] | Some a :: l' => a :: existing l' | None :: l' => existing l' end.
(** Share-weighted average of the cohort effects that exist. *)
Definition cohort_average (units : list unit_rec) (keys : list Z) (by_ : list (option Qc)) : option Qc :=
  let p := flat_map (fun q => match snd q with Some a => [(fst q, a)] | None => [] end) (combine keys by_) in
  match p with [] => None | _ => Some (sumf (fun q => share units (fst q) * snd q) p / sumf (fun q => share units (fst q)) p) end.
(** Every group is observed at every period. *)
Definition complete_grid (cells : list kcell) : Prop :=
  forall a b, In a cells -> In b cells -> exists k, In k cells /\ k_g k = k_g a /\ k_t k = k_t b.
(** The periods of the cells have no gaps. *)
Definition no_gaps (ts : list Z) : Prop := forall a b v, In a ts -> In b ts -> (a <= v <= b)%Z -> In v ts.
(** The cohorts averaged at event time [e]. *)
Definition cohort_at (cells : list kcell) (balance_e : option Z) (e g : Z) : Prop :=
  exists k, In k cells /\ covers TDynamic cells balance_e None e k = true /\ k_g k = g.
(** Average over the [n] units of direction [h] times influence values. *)
Definition havg (n : nat) (h inf : list Qc) : Qc := sumf (fun i => nth i h 0 * nth i inf 0) (seq 0 n) / qn n.
(** The weight of unit number [i] multiplied by [1 + e * h i]. *)
Definition reweigh (e : Qc) (h : list Qc) (units : list unit_rec) : list unit_rec :=
  map (fun p => (fst (snd p), snd (snd p) * (1 + e * nth (fst p) h 0))) (combine (seq 0 (length units)) units).
(** The effect of each cell moved along the path [F]. *)
Definition move (F : mp_cell -> Qc -> Qc) (e : Qc) (m : mp_cell) : mp_cell :=
  {| m_g := m_g m; m_t := m_t m; m_att := option_map (fun _ => F m e) (m_att m); m_inf := m_inf m |}.
(** [F] gives the estimates of the cells as unit weights move in direction [h]: each starts at the reported effect and its
    derivative is what the cell's influence values say. *)
Definition paths_of (n : nat) (h : list Qc) (F : mp_cell -> Qc -> Qc) (mp : list mp_cell) : Prop :=
  forall m a, In m mp -> m_att m = Some a -> F m 0 = a /\ derivative_at_0 (F m) (havg n h (m_inf m)).
Definition overall_value (r : option agg_result) : Qc := match r with Some a => match a_overall a with Some v => v | None => 0 end | None => 0 end.
Definition by_value (i : nat) (r : option agg_result) : Qc :=
  match r with Some a => match nth i (a_by a) None with Some v => v | None => 0 end | None => 0 end.
