(** Specification vocabulary for C39. *)
From Verif Require Import Base ListLib PreprocessModel PreprocessSpec AttGtSpec DrdidModel.

(** One row per unit and period, time-constant groups. *)
Definition panel_rows (data : list row) : Prop :=
  NoDup (map (fun r => (r_id r, r_t r)) data) /\
  forall r r', In r data -> In r' data -> r_id r = r_id r' -> r_g r = r_g r'.
(** The role the distributed code gives to group code [g'] in the cell (g, t) with base [pret]. *)
Definition dist_role (never : bool) (g t pret : Z) (g' : grp) : Prop :=
  g' = Fin g \/ g' = Fin 0 \/ never = false /\ match g' with Inf => True | Fin z => (Z.max t pret < z)%Z end.
(** Unit [u] of the cell: its treated flag, outcomes at [t] and [pret], weight and covariates of period [tx]. *)
Definition is_cell_unit (has_w : bool) (g t pret tx : Z) (data : list row) (u : punit) : Prop :=
  exists a b x, In a data /\ In b data /\ In x data /\ r_t a = t /\ r_t b = pret /\ r_t x = tx /\
    r_id a = p_id u /\ r_id b = p_id u /\ r_id x = p_id u /\
    (p_d u = true <-> r_g a = Fin g) /\ p_y1 u = r_y a /\ p_y0 u = r_y b /\
    p_w u = (if has_w then r_w x else 1) /\ p_x u = 1 :: r_x x.
Definition observed_at (data : list row) (i p : Z) : Prop := exists r, In r data /\ r_id r = i /\ r_t r = p.
(** covariates and weights of a unit do not vary over time *)
Definition time_constant (data : list row) : Prop :=
  forall r r', In r data -> In r' data -> r_id r = r_id r' -> r_w r = r_w r' /\ r_x r = r_x r'.
