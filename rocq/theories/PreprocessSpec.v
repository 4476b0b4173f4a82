(** Specification vocabulary for C06-C10 (independent of the pipeline's helpers). *)
From Verif Require Import Base ListLib PreprocessModel.

(** [m] is the smallest / largest period of the rows. *)
Definition first_period_of (l : list row) (m : Z) : Prop :=
  (exists r, In r l /\ r_t r = m) /\ forall r, In r l -> (m <= r_t r)%Z.
Definition last_period_of (l : list row) (m : Z) : Prop :=
  (exists r, In r l /\ r_t r = m) /\ forall r, In r l -> (r_t r <= m)%Z.

(** The documented group code of a unit coded [g] when the last observed period is [m]. *)
Inductive group_code (m : Z) : grp -> grp -> Prop :=
| gc_zero : group_code m (Fin 0) Inf
| gc_inf : group_code m Inf Inf
| gc_after z : (m < z)%Z -> group_code m (Fin z) Inf
| gc_same z : z <> 0%Z -> (z <= m)%Z -> group_code m (Fin z) (Fin z).

(** A unit treated at or before [p]. *)
Definition treated_by (g : grp) (p : Z) : Prop := exists z, g = Fin z /\ (z <= p)%Z.

(** Unit [i] is observed in every period that occurs in [l]. *)
Definition observed_always (l : list row) (i : Z) : Prop :=
  forall r, In r l -> exists r', In r' l /\ r_id r' = i /\ r_t r' = r_t r.

(** What the validators guarantee for panel data (validators.py:97-128, 134-160). *)
Definition valid_panel (d : list raw) : Prop :=
  NoDup (map (fun q => (raw_id q, raw_t q)) d) /\
  forall q q', In q d -> In q' d -> raw_id q = raw_id q' -> raw_g q = raw_g q'.

(** A balanced panel with time-constant groups. *)
Definition balanced_panel (l : list row) : Prop :=
  NoDup (map (fun r => (r_id r, r_t r)) l) /\
  (forall r r', In r l -> In r' l -> r_id r = r_id r' -> r_g r = r_g r') /\
  (forall r, In r l -> observed_always l (r_id r)).
