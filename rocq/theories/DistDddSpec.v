(** Specification vocabulary for C110 and C111 (distributed triple-difference cells). *)
From Verif Require Import Base ReduceModel DrdidModel DrdidSpec DddModel DistDidModel DistDidSpec DistDddModel.

(** In every comparison the distributed logit fit on the partitions gives the coefficients of the local fit on the pooled rows. *)
Definition same_ddd_scores (o : oracle) (od : dist_oracle) (parts : list (list tunit)) : Prop :=
  d_mu od = o_mu o /\
  forall c, In c [3; 2; 1]%Z -> d_irls od (comp_parts c parts) = o_logit o (pair_units c (t_normalise (concat parts))).
(** The fitted scores of every comparison lie between 1e-10 and 1 - 1e-6, where neither code clips. *)
Definition unclipped (o : oracle) (k : nat) (l : list tunit) : Prop :=
  forall c gamma u, In c [3; 2; 1]%Z -> o_logit o (pair_units c (t_normalise l)) = Some gamma -> In u (pair_units c l) ->
    eps10 <= o_mu o (dotk k (p_x u) gamma) /\ o_mu o (dotk k (p_x u) gamma) <= 1 - eps6.
(** The influence column: the value of each unit of the panel, times n_units / n_cell; 0 for units outside the cell. *)
Definition ddd_column (ids : list Z) (l : list tunit) (inf : list Qc) : list Qc :=
  map (fun i => match find (fun p => (t_id (fst p) =? i)%Z) (combine l inf) with
                | Some p => qn (length ids) / qn (length l) * snd p
                | None => 0 end) ids.
