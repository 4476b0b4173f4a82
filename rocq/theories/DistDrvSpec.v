(** Specification vocabulary for C38: the grid of group-time cells and what each one is. *)
From Verif Require Import Base AttGtModel AttGtSpec DistDidModel DistDrvModel.

(** [p] is the last observed period strictly before [bound]. *)
Definition last_period_before (times : list Z) (bound p : Z) : Prop :=
  In p times /\ (p < bound)%Z /\ forall q, In q times -> (q < bound)%Z -> (q <= p)%Z.
Definition no_period_before (times : list Z) (bound : Z) : Prop := forall q, In q times -> (bound <= q)%Z.
(** [p] is the observed period just before [t]. *)
Definition previous_period (times : list Z) (t p : Z) : Prop := last_period_before times t p.

(** What the documentation says about the cell (g, t). *)
Definition cell_is_documented (b : base_mode) (ant : Z) (times : list Z) (s : cspec) : Prop :=
  match cs_act s with
  | ASkip => no_period_before times (cs_g s - ant) /\ (b = Universal \/ (cs_g s <= cs_t s)%Z)
  | AZero => b = Universal /\ last_period_before times (cs_g s - ant) (cs_t s) /\ cs_post s = false
  | ACompute => exists p, cs_pre s = Some p /\ p <> cs_t s /\ (cs_post s = true <-> (cs_g s <= cs_t s)%Z) /\
      if match b with Universal => true | Varying => (cs_g s <=? cs_t s)%Z end
      then last_period_before times (cs_g s - ant) p else previous_period times (cs_t s) p
  end.

(** Row [r] with column [col] reports the cell number [i] described by [s]. *)
Definition reports (n : nat) (outcome : nat -> cell_result) (c : nat * cspec) (r : report) (col : list Qc) : Prop :=
  rp_g r = cs_g (snd c) /\ rp_t r = cs_t (snd c) /\
  match cs_act (snd c) with
  | ASkip => False
  | AZero => rp_att r = 0 /\ rp_post r = false /\ col = repeat 0 n
  | ACompute => outcome (fst c) = CDone (rp_att r) col /\ rp_post r = cs_post (snd c)
  end.
(** The row part of [reports]. *)
Definition row_of (outcome : nat -> cell_result) (c : nat * cspec) (r : report) : Prop :=
  rp_g r = cs_g (snd c) /\ rp_t r = cs_t (snd c) /\
  match cs_act (snd c) with
  | ASkip => False
  | AZero => rp_att r = 0 /\ rp_post r = false
  | ACompute => (exists col, outcome (fst c) = CDone (rp_att r) col) /\ rp_post r = cs_post (snd c)
  end.
(** The cells a run reports: base cells of the universal base and computed cells that produced an estimate. *)
Definition reported (outcome : nat -> cell_result) (c : nat * cspec) : bool :=
  match cs_act (snd c) with ASkip => false | AZero => true | ACompute => match outcome (fst c) with CDone _ _ => true | _ => false end end.
Definition dropped (outcome : nat -> cell_result) (c : nat * cspec) : bool :=
  match cs_act (snd c) with ACompute => match outcome (fst c) with CSkip => true | _ => false end | _ => false end.
