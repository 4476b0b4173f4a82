(** What the two-period calls are about, in terms of the user's rows. *)
From Verif Require Import Base DrdidModel RcModel TwoModel.

(** No null in a column the call uses. *)
Definition complete (panel wn : bool) (r : traw) : Prop :=
  (panel = true -> t_id r <> None) /\ t_t r <> None /\ t_d r <> None /\ t_y r <> None /\ (wn = true -> t_w r <> None) /\ t_x r <> None.
(** The sampling weight of a row: its weight column, or 1 if none is named. *)
Definition weight_of (wn : bool) (r : traw) : Qc := if wn then match t_w r with Some w => w | None => 0 end else 1.
(** The rows of unit [i]. *)
Definition rows_of (i : Z) (l : list traw) : list traw := filter (fun r => match t_id r with Some j => (j =? i)%Z | None => false end) l.
(** Unit [i] has exactly one row in period [lo], [a], and one in period [hi], [b], and no other. *)
Definition observed (lo hi : Z) (l : list traw) (i : Z) (a b : traw) : Prop :=
  Permutation (rows_of i l) (a :: b :: nil) /\ t_t a = Some lo /\ t_t b = Some hi.
(** The data have the two periods lo < hi. *)
Definition two_periods (lo hi : Z) (l : list traw) : Prop :=
  (lo < hi)%Z /\ (forall r, In r l -> t_t r = Some lo \/ t_t r = Some hi) /\
  (exists r, In r l /\ t_t r = Some lo) /\ (exists r, In r l /\ t_t r = Some hi).
(** Treatment is 0 or 1 and both occur. *)
Definition two_treatments (l : list traw) : Prop :=
  (forall r, In r l -> t_d r = Some 0 \/ t_d r = Some 1) /\ (exists r, In r l /\ t_d r = Some 0) /\ (exists r, In r l /\ t_d r = Some 1).
(** [u] is what the estimator is given for a unit observed with pre-period row [a] and post-period row [b]. *)
Definition reads (wn : bool) (m : Qc) (a b : traw) (u : punit) : Prop :=
  t_y a = Some (p_y0 u) /\ t_y b = Some (p_y1 u) /\ t_d b = Some (ind (p_d u)) /\ t_x b = Some (p_x u) /\ p_w u = weight_of wn b / m.
Definition rreads (wn : bool) (m : Qc) (hi : Z) (r : traw) (u : runit) : Prop :=
  r_id u = 0%Z /\ t_y r = Some (r_y u) /\ t_d r = Some (ind (r_d u)) /\ t_x r = Some (r_x u) /\ (r_post u = true <-> t_t r = Some hi) /\ r_w u = weight_of wn r / m.
(** Transformations of the data. *)
Definition relabel (f : Z -> Z) (r : traw) : traw :=
  {| t_id := t_id r; t_t := option_map f (t_t r); t_d := t_d r; t_y := t_y r; t_w := t_w r; t_x := t_x r |}.
Definition rescale (c : Qc) (r : traw) : traw :=
  {| t_id := t_id r; t_t := t_t r; t_d := t_d r; t_y := t_y r; t_w := option_map (Qcmult c) (t_w r); t_x := t_x r |}.
(** Other covariates, [f] of them, in period [lo]. *)
Definition recovariate (lo : Z) (f : traw -> list Qc) (r : traw) : traw :=
  {| t_id := t_id r; t_t := t_t r; t_d := t_d r; t_y := t_y r; t_w := t_w r;
     t_x := if match t_t r with Some t => (t =? lo)%Z | None => false end then option_map (fun _ => f r) (t_x r) else t_x r |}.
(** The units with exactly two rows, one per period. *)
Definition is_observed (lo hi : Z) (l : list traw) (r : traw) : bool :=
  match t_id r with
  | None => false
  | Some i => (length (rows_of i l) =? 2)%nat &&
              existsb (fun s => match t_t s with Some t => (t =? lo)%Z | None => false end) (rows_of i l) &&
              existsb (fun s => match t_t s with Some t => (t =? hi)%Z | None => false end) (rows_of i l)
  end.
(** A panel the call accepts up to its weights: no nulls, two periods, 0/1 treatment fixed within units, somebody observed more than once. *)
Definition well_formed (wn : bool) (l : list traw) : Prop :=
  (forall r, In r l -> complete true wn r) /\ (exists lo hi, two_periods lo hi l) /\ two_treatments l /\
  (forall a b, In a l -> In b l -> t_id a = t_id b -> t_d a = t_d b) /\
  (exists r i, In r l /\ t_id r = Some i /\ length (rows_of i l) <> 1%nat).
(** Units with two rows cover both periods, and the weights of units observed in both periods do not change. *)
Definition usable (wn : bool) (l : list traw) : Prop :=
  exists lo hi, two_periods lo hi l /\
    (exists r i, In r l /\ t_id r = Some i /\ length (rows_of i l) = 2%nat /\ t_t r = Some lo) /\
    (exists r i, In r l /\ t_id r = Some i /\ length (rows_of i l) = 2%nat /\ t_t r = Some hi) /\
    (forall i a b, observed lo hi l i a b -> weight_of wn a = weight_of wn b).
(** The estimator's units are, in order of their ids, exactly the units observed once in each period. *)
Definition units_of (wn : bool) (l : list traw) (us : list punit) : Prop :=
  exists lo hi, two_periods lo hi l /\ StronglySorted (fun u v => (p_id u < p_id v)%Z) us /\
    (forall u, In u us <-> exists a b, observed lo hi l (p_id u) a b /\ reads wn (mean (weight_of wn) l) a b u).

(** Repeated cross-sections: no null in a column the call uses (the id is not used). *)
Definition is_complete (wn : bool) (r : traw) : bool :=
  match t_t r, t_d r, t_y r, t_x r with Some _, Some _, Some _, Some _ => negb wn || match t_w r with Some _ => true | None => false end | _, _, _, _ => false end.
Definition complete_rows (wn : bool) (l : list traw) : list traw := filter (is_complete wn) l.
(** The five calls on a panel and the seven on repeated cross-sections. *)
Inductive pcall := DrdidImp | DrdidTrad | Ordid | Ipwdid | IpwdidStd.
Definition run (c : pcall) (o : oracle) (k : nat) (tl : Qc) (wn : bool) (l : list traw) : pan_result :=
  match c with
  | DrdidImp => drdid_call o k tl true wn l
  | DrdidTrad => drdid_call o k tl false wn l
  | Ordid => ordid_call o k wn l
  | Ipwdid => ipwdid_call o k tl false wn l
  | IpwdidStd => ipwdid_call o k tl true wn l
  end.
Inductive rcall := RDrdidImp | RDrdidImpLocal | RDrdidTrad | RDrdidTradLocal | ROrdid | RIpwdid | RIpwdidStd.
Definition rrun (c : rcall) (o : roracle) (k : nat) (tl : Qc) (wn : bool) (l : list traw) : pan_result :=
  match c with
  | RDrdidImp => drdid_rc_call o k tl MImp wn l
  | RDrdidImpLocal => drdid_rc_call o k tl MImpLocal wn l
  | RDrdidTrad => drdid_rc_call o k tl MTrad wn l
  | RDrdidTradLocal => drdid_rc_call o k tl MTradLocal wn l
  | ROrdid => ordid_rc_call o k wn l
  | RIpwdid => ipwdid_rc_call o k tl false wn l
  | RIpwdidStd => ipwdid_rc_call o k tl true wn l
  end.
(** Other ids. *)
Definition reid (f : traw -> option Z) (r : traw) : traw :=
  {| t_id := f r; t_t := t_t r; t_d := t_d r; t_y := t_y r; t_w := t_w r; t_x := t_x r |}.
(** The weighted mean outcome of the rows with treatment [d] in period [t], and the difference in differences of the four. *)
Definition in_rcell (d : Qc) (t : Z) (r : traw) : bool :=
  match t_d r, t_t r with Some e, Some s => Qceqb e d && (s =? t)%Z | _, _ => false end.
Definition raw_y (r : traw) : Qc := match t_y r with Some y => y | None => 0 end.
Definition raw_mean (wn : bool) (d : Qc) (t : Z) (l : list traw) : Qc :=
  sumf (fun r => weight_of wn r * raw_y r) (filter (in_rcell d t) l) / sumf (weight_of wn) (filter (in_rcell d t) l).
Definition raw_did (wn : bool) (lo hi : Z) (l : list traw) : Qc :=
  (raw_mean wn 1 hi l - raw_mean wn 1 lo l) - (raw_mean wn 0 hi l - raw_mean wn 0 lo l).
