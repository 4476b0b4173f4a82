(** Specification vocabulary for C112 (a distributed multi-period triple-difference cell against the local one). *)
From Verif Require Import Base ReduceModel PreprocessModel DrdidModel DddModel DddMpModel DddMpSpec DistDidModel DistDidSpec DistDddModel DistDddSpec DistDddSpec2 DistDddMpModel.

(** A panel on which the two programs read the same data: one row per unit and period, eligibility 0 or 1, unit weights (the local code
    ignores weights, C62), finite cohort codes (the distributed code drops non-finite ones), a cohort per unit. *)
Definition plain_panel (data : list lrow) : Prop :=
  keyed data /\ (forall r, In r data -> (l_p r = 0 \/ l_p r = 1)%Z /\ l_w r = 1 /\ l_g r <> Inf) /\
  (forall r r', In r data -> In r' data -> l_id r = l_id r' -> l_g r = l_g r').
(** Every cohort is observed in one of the two periods. *)
Definition cohorts_observed (data : list lrow) (t p : Z) : Prop :=
  forall r, In r data -> exists r', In r' data /\ l_g r' = l_g r /\ (l_t r' = t \/ l_t r' = p).
(** A layout deals the rows into partitions, in any order; tasks complete in any order. *)
Definition is_layout (layout : list mrow -> list (list mrow)) : Prop := forall l, Permutation l (concat (layout l)).
Definition is_order (order : list (list mrow) -> list (list mrow)) : Prop := forall l, Permutation l (order l).
(** The rows the cell works on. *)
Definition cell_keep (never : bool) (g t p : Z) (c : grp) : bool :=
  grp_eqb c (Fin g) || grp_eqb c (Fin 0) || negb never && grp_gtz c (Z.max t p).
(** Every control cohort is visible in the first partition and its logit fits agree with the local ones. *)
Definition cell_ready (o : oracle) (od : dist_oracle) (k : nat) (m : emethod) (never : bool) (data : list lrow) (g t p : Z) (parts : list (list mrow)) : Prop :=
  forall c, controls_of never data g t p c -> in_first g parts c = true /\ scores_ready o od k m g parts c.
