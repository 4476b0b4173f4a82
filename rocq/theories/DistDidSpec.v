(** Specification vocabulary for C05. *)
From Verif Require Import Base ReduceModel DrdidModel DrdidSpec DistDidModel.

(** Matrix equation M b = v. *)
Definition solves (k : nat) (M : matrix) (b v : list Qc) : Prop :=
  forall i, (i < k)%nat -> sumf (fun j => mget M i j * nth j b 0) (seq 0 k) = nth i v 0.
(** The driver's linear algebra is exact and succeeds on invertible matrices. *)
Definition linear_algebra_ok (o : dist_oracle) (k : nat) : Prop :=
  (forall M N, d_inv o M = Some N -> is_inverse k M N) /\
  (forall M N, is_inverse k M N -> d_inv o M <> None) /\
  (forall M v b, d_solve o M v = Some b -> solves k M b v) /\
  (forall M N v, is_inverse k M N -> d_solve o M v <> None).
(** The distributed logit fit on the partitions gives the coefficients of the local fit on the pooled data. *)
Definition same_scores (o : oracle) (od : dist_oracle) (parts : list (list punit)) : Prop :=
  d_mu od = o_mu o /\ d_irls od parts = o_logit o (normalise (concat parts)).
(** No fitted score below the local clipping bound 1e-6 (the distributed code clips at 1e-10). *)
Definition scores_above_floor (o : oracle) (k : nat) (l : list punit) : Prop :=
  forall g u, o_logit o (normalise l) = Some g -> In u l -> eps6 <= o_mu o (dotk k (p_x u) g).
(** The influence column: the value of each unit of the panel, times n_units / n_cell; 0 for units outside the cell. *)
Definition column_of (ids : list Z) (l : list punit) (inf : list Qc) : list Qc :=
  map (fun i => match find (fun p => (p_id (fst p) =? i)%Z) (combine l inf) with
                | Some p => qn (length ids) / qn (length l) * snd p
                | None => 0 end) ids.
