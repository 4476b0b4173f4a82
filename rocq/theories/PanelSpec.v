(** Specification notions for the panel utilities, independent of how they are computed. *)
From Verif Require Import Base ListLib PanelModel.
Local Open Scope nat_scope.
Local Open Scope list_scope.

(** Unit [i] has a row in period [t]. *)
Definition observed {A} (df : list (prow A)) (i t : Z) : Prop :=
  exists r, In r df /\ r_id r = i /\ r_t r = t.
Definition is_unit {A} (df : list (prow A)) (i : Z) : Prop := exists t, observed df i t.
Definition is_period {A} (df : list (prow A)) (t : Z) : Prop := exists i, observed df i t.

(** Every unit is observed in every period. *)
Definition balanced_panel {A} (df : list (prow A)) : Prop :=
  forall i t, is_unit df i -> is_period df t -> observed df i t.
(** No two rows share a unit-period pair. *)
Definition unique_pairs {A} (df : list (prow A)) : Prop := NoDup (map pkey df).

(** [l] lists the elements satisfying [P], each once, in some order. *)
Definition enumerates {K} (l : list K) (P : K -> Prop) : Prop := NoDup l /\ forall x, In x l <-> P x.
(** The set [P] has exactly [n] elements. *)
Definition has_card {K} (P : K -> Prop) (n : nat) : Prop := exists l, enumerates l P /\ length l = n.

(** [s] is [df] sorted by unit and then period, rows with equal (unit, period) in any order. *)
Definition row_le {A} (a b : prow A) : Prop :=
  (r_id a < r_id b)%Z \/ (r_id a = r_id b /\ (r_t a <= r_t b)%Z).
Definition sorted_version {A} (s df : list (prow A)) : Prop :=
  Permutation s df /\ StronglySorted row_le s.

(** [i] is treated in period [t]: some row of that pair has a positive treatment value. *)
Definition treated_at {A} (treat : A -> option Qc) (df : list (prow A)) (i t : Z) : Prop :=
  exists r d, In r df /\ r_id r = i /\ r_t r = t /\ treat (r_val r) = Some d /\ (0 < d)%Qc.
Definition never_treated {A} (treat : A -> option Qc) (df : list (prow A)) (i : Z) : Prop :=
  forall t, ~ treated_at treat df i t.
(** [g] is the earliest treated period of unit [i], or 0 when it has none. *)
Definition is_group {A} (treat : A -> option Qc) (df : list (prow A)) (i g : Z) : Prop :=
  (treated_at treat df i g /\ forall t, treated_at treat df i t -> (g <= t)%Z)
  \/ (never_treated treat df i /\ g = 0%Z).

(** The last period before [t] in which unit [i] was observed. *)
Definition prev_period {A} (df : list (prow A)) (i t s : Z) : Prop :=
  observed df i s /\ (s < t)%Z /\ forall u, observed df i u -> (u < t)%Z -> (u <= s)%Z.
