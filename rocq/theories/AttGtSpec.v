(** Specification vocabulary for C11-C16. *)
From Verif Require Import Base ListLib PreprocessModel PreprocessSpec.

(** The documented role of a unit of group [g] in the cell of cohort [g0] evaluated at period [year]
    with base period [base]. *)
Definition is_treated (g0 : Z) (g : grp) : Prop := g = Fin g0.
Definition not_treated_until (g : grp) (p ant : Z) : Prop :=
  match g with Inf => True | Fin z => (p + ant < z)%Z end.
Definition is_comparison (never : bool) (ant g0 year base : Z) (g : grp) : Prop :=
  g <> Fin g0 /\
  if never then g = Inf else not_treated_until g (Z.max year base) ant.

(** [i] is the position of the last period strictly before [bound]. *)
Definition is_last_before (tps : list Z) (bound : Z) (i : nat) : Prop :=
  (i < length tps)%nat /\ (nth i tps 0 < bound)%Z /\
  forall j, (i < j < length tps)%nat -> (bound <= nth j tps 0)%Z.
