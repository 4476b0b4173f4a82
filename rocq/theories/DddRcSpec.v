(** Specification vocabulary for C107-C109 (two-period triple differences, repeated cross-sections). *)
From Verif Require Import Base ReduceModel Calc DrdidModel DrdidSpec RcModel RcSpec DddModel DddRcModel.

(** Weighted mean outcome, and total weight, of the rows of subgroup [s] in period [t] (true: post). *)
Definition sg_rows (s : Z) (t : bool) (l : list qrow) : list qrow := filter (fun u => (q_sg u =? s)%Z && Bool.eqb (q_post u) t) l.
Definition sg_mean (s : Z) (t : bool) (l : list qrow) : Qc := sumf (fun u => q_w u * q_y u) (sg_rows s t l) / sumf q_w (sg_rows s t l).
Definition sg_weight (s : Z) (t : bool) (l : list qrow) : Qc := sumf q_w (sg_rows s t l).
(** Change of the weighted mean outcome of subgroup [s] from the pre to the post period. *)
Definition sg_change (s : Z) (l : list qrow) : Qc := sg_mean s true l - sg_mean s false l.

(** The two-group repeated cross-section estimator of drdid (C89-C93) belonging to each est_method. *)
Definition two_group_rc (o : roracle) (k : nat) (m : emethod) (tl : Qc) (l : list runit) : pan_result :=
  match m with
  | Dr => drdid_rc o k tl l
  | Reg => reg_did_rc o k l
  | Ipw => std_ipw_did_rc o k tl l
  end.
(** The fits do not depend on the scale of the weights, nor whether a matrix can be inverted on its scale. *)
Definition rfits_scale_free (o : roracle) : Prop := forall c, 0 < c ->
  (forall l, ro_logit o (map (rscale_w c) l) = ro_logit o l /\ ro_wls o (map (rscale_w c) l) = ro_wls o l) /\
  (forall M, ro_inv o (mscale c M) = None -> ro_inv o M = None).
(** The fitted propensity scores of the sample stay inside [1e-6, 1 - 1e-6] (not needed without propensity scores). *)
Definition rscores_interior (o : roracle) (k : nat) (m : emethod) (l : list runit) : Prop :=
  match m with Reg => True | _ =>
    forall gamma u, ro_logit o (rnormalise l) = Some gamma -> In u l ->
      eps6 <= ro_mu o (dotk k (r_x u) gamma) /\ ro_mu o (dotk k (r_x u) gamma) <= 1 - eps6 end.
(** Influence value that row number [i] gets from the comparison with subgroup [c]: if the row is in subgroup 4 or [c], the entry of [j]
    at its rank among those rows; otherwise 0. *)
Definition row_value (c : Z) (l : list qrow) (j : list Qc) (i : nat) : Qc :=
  match nth_error l i with
  | Some u => if ((q_sg u =? 4) || (q_sg u =? c))%Z
              then nth (length (filter (fun v => (q_sg v =? 4) || (q_sg v =? c))%Z (firstn i l))) j 0 else 0
  | None => 0
  end.
(** number of rows of the comparison *)
Definition n_pair (c : Z) (l : list qrow) : nat := length (filter (fun v => (q_sg v =? 4) || (q_sg v =? c))%Z l).

Definition q_intercept (k : nat) (l : list qrow) : Prop := (1 <= k)%nat /\ forall u, In u l -> nth 0 (q_x u) 0 = 1.
(** Outcomes multiplied by [c]; every subgroup has its own level shift [f]; in the post period everybody is shifted by [g], the treated
    (subgroups 4 and 3) by [a], the eligible (4 and 2) by [b], the treated-eligible (4) by [tau]. *)
Definition q_shocked (c g a b tau : Qc) (f : Z -> Qc) (u : qrow) : qrow :=
  {| q_id := q_id u; q_sg := q_sg u; q_post := q_post u;
     q_y := c * q_y u + f (q_sg u) + (if q_post u then g + (if (q_sg u =? 4)%Z || (q_sg u =? 3)%Z then a else 0)
              + (if (q_sg u =? 4)%Z || (q_sg u =? 2)%Z then b else 0) + (if (q_sg u =? 4)%Z then tau else 0) else 0);
     q_w := q_w u; q_x := q_x u |}.
Definition q_scale_w (c : Qc) (u : qrow) : qrow := q_set_w (c * q_w u) u.
Definition q_reweight (e : Qc) (h : qrow -> Qc) (u : qrow) : qrow := q_set_w (q_w u * (1 + e * h u)) u.
Definition dddrc_att_of (r : dddrc_result) : Qc := match r with QEst a _ _ _ _ => a | _ => 0 end.
Definition dddrc_has_est (r : dddrc_result) : Prop := exists a a3 a2 a1 i, r = QEst a a3 a2 a1 i.
Definition q_avg_with (h : qrow -> Qc) (l : list qrow) (inf : list Qc) : Qc :=
  sumf (fun p => h (fst p) * snd p) (combine l inf) / qn (length l).
Definition same_dddrc (l l' : list qrow) (r r' : dddrc_result) : Prop :=
  match r, r' with
  | QEst a a3 a2 a1 i, QEst b b3 b2 b1 j => a = b /\ a3 = b3 /\ a2 = b2 /\ a1 = b1 /\ Permutation (combine l i) (combine l' j)
  | QRaise, QRaise => True
  | QNaN, QNaN => True
  | _, _ => False
  end.
(** The row behind a member of the comparison with subgroup [c]. *)
Definition q_un_pair (c : Z) (p : runit) : qrow :=
  {| q_id := r_id p; q_sg := (if r_d p then 4 else c)%Z; q_post := r_post p; q_y := r_y p; q_w := r_w p; q_x := r_x p |}.
(** Covariates are not collinear in any subgroup and period. *)
Definition q_no_collinearity (k : nat) (l : list qrow) : Prop :=
  forall c d t, In c [3; 2; 1]%Z -> rno_collinearity k (cell d t (q_pair c l)).
(** Score equations of the logit in each comparison, at the fitted (capped) scores. *)
Definition q_scores (o : roracle) (k : nat) (l : list qrow) : Prop :=
  forall c gamma, In c [3; 2; 1]%Z -> ro_logit o (q_pair c (q_normalise l)) = Some gamma ->
    rscore_equations k (fun u => let p := ro_mu o (dotk k (r_x u) gamma) in if Qcltb (1 - eps6) p then 1 - eps6 else p) (q_pair c (q_normalise l)).
