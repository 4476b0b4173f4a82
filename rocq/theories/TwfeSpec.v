(** Specification vocabulary for C117-C118. *)
From Verif Require Import Base ReduceModel Calc DrdidModel DrdidSpec RcModel RcSpec.

(** The first covariate is not a column of ones. *)
Definition no_leading_ones (l : list punit) : Prop := exists u, In u l /\ x_at u 0 <> 1.
Definition rno_leading_ones (l : list runit) : Prop := exists u, In u l /\ rx_at u 0 <> 1.
(** A column of ones put before the covariates. *)
Definition with_ones (u : punit) : punit :=
  {| p_id := p_id u; p_d := p_d u; p_y1 := p_y1 u; p_y0 := p_y0 u; p_w := p_w u; p_x := 1 :: p_x u |}.
Definition rwith_ones (u : runit) : runit :=
  {| r_id := r_id u; r_d := r_d u; r_post := r_post u; r_y := r_y u; r_w := r_w u; r_x := 1 :: r_x u |}.
(** The unadjusted comparison of weighted mean changes, and the influence value of a unit on it. *)
Definition plain_did (l : list punit) : Qc := group_mean true p_dy l - group_mean false p_dy l.
Definition did_influence (l : list punit) (u : punit) : Qc :=
  qn (length l) * p_w u * (if p_d u then (p_dy u - group_mean true p_dy l) / sumf p_w (filter p_d l)
                           else - ((p_dy u - group_mean false p_dy l) / sumf p_w (filter (fun v => negb (p_d v)) l))).
(** Both outcomes of a unit moved by its own constant. *)
Definition add_level (a : Z -> Qc) (u : punit) : punit :=
  {| p_id := p_id u; p_d := p_d u; p_y1 := p_y1 u + a (p_id u); p_y0 := p_y0 u + a (p_id u); p_w := p_w u; p_x := p_x u |}.
(** The two-by-two comparison of weighted cell means of [v]. *)
Definition four_cells_of (v : runit -> Qc) (l : list runit) : Qc :=
  (cell_mean true true v l - cell_mean true false v l) - (cell_mean false true v l - cell_mean false false v l).
