(** What the sets of didhonest mean, in terms of the trend itself.
    A vector [v] of length pre + post lists the differential trend at the periods
    -pre, ..., -1, 1, ..., post; the trend at period 0 is 0. *)
From Coq Require Import Qcabs.
From Verif Require Import Base HonestModel.
Local Open Scope Z_scope.

(** the trend at period [t] *)
Definition trend (pre : nat) (v : vec) (t : Z) : Qc :=
  if t <? 0 then nth (Z.to_nat (t + Z.of_nat pre)) v 0%Qc
  else if t =? 0 then 0%Qc
  else nth (Z.to_nat (t + Z.of_nat pre - 1)) v 0%Qc.

Definition path (pre post : nat) (v : vec) : Prop := length v = (pre + post)%nat.

(** change from t to t+1, and change of the change around t *)
Definition step (d : Z -> Qc) (t : Z) : Qc := (d (t + 1)%Z - d t)%Qc.
Definition curve (d : Z -> Qc) (t : Z) : Qc := (d (t + 1)%Z - d t - (d t - d (t - 1)%Z))%Qc.

(** Delta^SD(M) *)
Definition in_sd (pre post : nat) (M : Qc) (v : vec) : Prop :=
  forall t, - Z.of_nat pre < t < Z.of_nat post -> (Qcabs (curve (trend pre v) t) <= M)%Qc.

(** Delta^RM(Mbar): some pre-treatment step is the largest in absolute value, and every
    post-treatment step is at most Mbar times it. *)
Definition largest_step (pre : nat) (v : vec) (s : Z) : Prop :=
  - Z.of_nat pre <= s < 0 /\
  forall s', - Z.of_nat pre <= s' < 0 -> (Qcabs (step (trend pre v) s') <= Qcabs (step (trend pre v) s))%Qc.
Definition in_rm (pre post : nat) (Mbar : Qc) (v : vec) : Prop :=
  exists s, largest_step pre v s /\
    forall t, 0 <= t < Z.of_nat post -> (Qcabs (step (trend pre v) t) <= Mbar * Qcabs (step (trend pre v) s))%Qc.

(** Delta^SDRM(Mbar): the same with second differences (centred at -pre+1 .. -1 before treatment). *)
Definition largest_curve (pre : nat) (v : vec) (s : Z) : Prop :=
  - Z.of_nat pre < s < 0 /\
  forall s', - Z.of_nat pre < s' < 0 -> (Qcabs (curve (trend pre v) s') <= Qcabs (curve (trend pre v) s))%Qc.
Definition in_sdrm (pre post : nat) (Mbar : Qc) (v : vec) : Prop :=
  exists s, largest_curve pre v s /\
    forall t, 0 <= t < Z.of_nat post -> (Qcabs (curve (trend pre v) t) <= Mbar * Qcabs (curve (trend pre v) s))%Qc.

(** shape restrictions *)
Definition in_shape (pre post : nat) (sh : shape) (v : vec) : Prop :=
  match sh with
  | NoShape => True
  | Bias true => forall t, 0 < t <= Z.of_nat post -> (0 <= trend pre v t)%Qc
  | Bias false => forall t, 0 < t <= Z.of_nat post -> (trend pre v t <= 0)%Qc
  | Mono true => forall t, - Z.of_nat pre <= t < Z.of_nat post -> (trend pre v t <= trend pre v (t + 1))%Qc
  | Mono false => forall t, - Z.of_nat pre <= t < Z.of_nat post -> (trend pre v (t + 1) <= trend pre v t)%Qc
  end.

(** v satisfies A v <= d *)
Definition satisfies (sys : system) (v : vec) : Prop :=
  Forall2 (fun row d => (dot row v <= d)%Qc) (fst sys) (snd sys).

(** the parameter l'tau_post that the event-study coefficients [beta] and the trend [v] imply *)
Definition implied (pre : nat) (beta l v : vec) : Qc := (dot l (skipn pre beta) - dot l (skipn pre v))%Qc.

(** the identified set of l'tau_post: trends in [Delta] that reproduce the pre-treatment coefficients *)
Definition identified (pre post : nat) (Delta : vec -> Prop) (beta l : vec) (theta : Qc) : Prop :=
  exists v, path pre post v /\ Delta v /\ firstn pre v = firstn pre beta /\ theta = implied pre beta l v.

(** contract of the linear-programming solver on one problem: success reports an attained minimum;
    failure means there is no feasible point or the objective is unbounded below *)
Definition feasible (n : nat) (p : lp) (x : vec) : Prop :=
  length x = n /\ satisfies (lp_ub p) x /\ Forall2 (fun row b => dot row x = b) (fst (lp_eq p)) (snd (lp_eq p)).
Definition lp_contract (n : nat) (p : lp) (r : option Qc) : Prop :=
  match r with
  | Some f => (exists x, feasible n p x /\ dot (lp_c p) x = f) /\ forall x, feasible n p x -> (f <= dot (lp_c p) x)%Qc
  | None => (forall x, ~ feasible n p x) \/ forall B, exists x, feasible n p x /\ (dot (lp_c p) x < B)%Qc
  end.

(** the solver meets its contract on the two programs of one system *)
Definition solves (linprog : lp -> option Qc) (pre post : nat) (sys : system) (beta l : vec) : Prop :=
  forall c, c = (zeros pre ++ l)%list \/ c = vopp (zeros pre ++ l)%list ->
    let p := {| lp_c := c; lp_ub := sys; lp_eq := (eye_pre pre post, firstn pre beta) |} in
    lp_contract (pre + post) p (linprog p).
