(** Identified sets: what the pairs of linear programs compute. *)
From Coq Require Import Qcabs.
From Verif Require Import Base ListLib HonestModel HonestSpec HonestProofs HonestProofs2.
Local Open Scope nat_scope.
Local Open Scope list_scope.

Definition mix (t : Qc) (u v : vec) : vec := zip2 (fun a b => t * a + (1 - t) * b)%Qc u v.
Lemma mix_length t u v : length u = length v -> length (mix t u v) = length u.
Proof. apply zip2_length. Qed.
Lemma dot_mix row t u v : length u = length v -> dot row (mix t u v) = (t * dot row u + (1 - t) * dot row v)%Qc.
Proof.
  revert row v; induction u as [|a u IH]; intros row [|b v] H; cbn in H; try discriminate.
  - change (mix t [] []) with (@nil Qc). rewrite !dot_nil_r. ring.
  - destruct row as [|r row]; [rewrite !dot_nil_l; ring|].
    change (mix t (a :: u) (b :: v)) with ((t * a + (1 - t) * b)%Qc :: mix t u v). rewrite !dot_cons, IH by lia. ring.
Qed.
Lemma sat_mix sys t u v : length u = length v -> (0 <= t)%Qc -> (t <= 1)%Qc ->
  satisfies sys u -> satisfies sys v -> satisfies sys (mix t u v).
Proof.
  intros E H0 H1. destruct sys as [a d]. unfold satisfies; cbn [fst snd]. revert d.
  induction a as [|r a IH]; intros d Hu Hv.
  - inversion Hu; subst. constructor.
  - inversion Hu; subst. inversion Hv; subst. constructor; [|apply IH; assumption].
    rewrite dot_mix by assumption. revert H3 H6. generalize (dot r u) (dot r v). intros x z Hx Hz. qcnra.
Qed.
Lemma mix_firstn k t u v : length u = length v -> firstn k u = firstn k v -> firstn k (mix t u v) = firstn k u.
Proof.
  revert k v; induction u as [|a u IH]; intros k [|b v] H E; cbn in H; try discriminate; [reflexivity|].
  destruct k as [|k]; [reflexivity|]. cbn in E. injection E as -> E.
  change (mix t (b :: u) (b :: v)) with ((t * b + (1 - t) * b)%Qc :: mix t u v). cbn [firstn].
  rewrite IH by (assumption || lia). f_equal. ring.
Qed.
Lemma mix_skipn k t u v : skipn k (mix t u v) = mix t (skipn k u) (skipn k v).
Proof.
  revert k v; induction u as [|a u IH]; intros k v.
  - rewrite skipn_nil. destruct k; [reflexivity|]. change (mix t [] v) with (@nil Qc). reflexivity.
  - destruct v as [|b v].
    + destruct k; [reflexivity|]. cbn [skipn]. change (mix t (a :: u) []) with (@nil Qc). destruct (skipn k u); reflexivity.
    + destruct k as [|k]; [reflexivity|]. change (mix t (a :: u) (b :: v)) with ((t * a + (1 - t) * b)%Qc :: mix t u v).
      cbn [skipn]. apply IH.
Qed.

(** * feasible points of the programs *)
Lemma eq_rows (n : nat) (rows : list nat) (x : vec) (b : vec) : length x = n -> (forall i, In i rows -> i < n) ->
  (Forall2 (fun row b => dot row x = b) (map (fun i => put (zeros n) i [1%Qc]) rows) b <-> map (fun i => nth i x 0%Qc) rows = b).
Proof.
  intros Hx. revert b. induction rows as [|i rows IH]; intros b Hr; cbn [map].
  - split; [intros H; inversion H; reflexivity|intros <-; constructor].
  - assert (E : dot (put (zeros n) i [1%Qc]) x = nth i x 0%Qc).
    { rewrite dot_put1; [ring| |assumption]. apply Hr; left; reflexivity. }
    split.
    + intros H. inversion H; subst. rewrite E. f_equal. apply IH; [|assumption]. intros j Hj. apply Hr; right; exact Hj.
    + intros <-. constructor; [exact E|]. apply IH; [|reflexivity]. intros j Hj. apply Hr; right; exact Hj.
Qed.
Lemma map_nth_seq (x : vec) k : k <= length x -> map (fun i => nth i x 0%Qc) (seq 0 k) = firstn k x.
Proof.
  revert k; induction x as [|a x IH]; intros [|k] H; cbn in H; try reflexivity; [lia|].
  cbn [seq map firstn nth]. f_equal. rewrite <- seq_shift, map_map. apply IH. lia.
Qed.

Section Component.
Context (linprog : lp -> option Qc) (pre post : nat) (sys : system) (beta l : vec).
Context (Hl : length l = post) (Hsolve : solves linprog pre post sys beta l).
Let Sset (x : vec) : Prop := path pre post x /\ satisfies sys x /\ firstn pre x = firstn pre beta.

Lemma feasible_iff c x :
  feasible (pre + post) {| lp_c := c; lp_ub := sys; lp_eq := (eye_pre pre post, firstn pre beta) |} x <-> Sset x.
Proof.
  unfold feasible, Sset, path. cbn [lp_ub lp_eq fst snd]. split.
  - intros (H1 & H2 & H3). repeat split; try assumption.
    apply eq_rows in H3; [|assumption|intros i Hi; apply in_seq in Hi; lia].
    rewrite map_nth_seq in H3 by lia. exact H3.
  - intros (H1 & H2 & H3). repeat split; try assumption.
    apply eq_rows; [assumption|intros i Hi; apply in_seq in Hi; lia|].
    rewrite map_nth_seq by lia. exact H3.
Qed.
Lemma obj_dot x : path pre post x -> dot (zeros pre ++ l) x = dot l (skipn pre x).
Proof.
  intros H. unfold path in H. rewrite <- (firstn_skipn pre x) at 1.
  rewrite dot_app by (rewrite zeros_length, firstn_length; lia). rewrite dot_zeros. ring.
Qed.
Lemma dot_mix_r t u v : length u = length v -> dot l (skipn pre (mix t u v)) = (t * dot l (skipn pre u) + (1 - t) * dot l (skipn pre v))%Qc.
Proof. intros H. rewrite mix_skipn. apply dot_mix. rewrite !skipn_length. lia. Qed.

(** an objective value between two attained ones is attained *)
Lemma between u v z : Sset u -> Sset v -> (dot l (skipn pre u) <= z)%Qc -> (z <= dot l (skipn pre v))%Qc ->
  exists x, Sset x /\ dot l (skipn pre x) = z.
Proof.
  intros Hu Hv H1 H2. set (a := dot l (skipn pre u)) in *. set (b := dot l (skipn pre v)) in *.
  destruct (Qc_eq_dec a b) as [E|E].
  - exists u. split; [exact Hu|]. fold a. apply Qcle_antisym; [assumption|]. rewrite E. assumption.
  - assert (D : (0 < b - a)%Qc).
    { destruct (Qc_le_or_lt (b - a) 0) as [h|h]; [|exact h]. exfalso. apply E. apply Qcle_antisym; qclra. }
    set (t := ((b - z) / (b - a))%Qc).
    assert (Et : (t * (b - a) = b - z)%Qc) by (unfold t; field; intros X; rewrite X in D; apply (Qclt_not_eq _ _ D); reflexivity).
    assert (T0 : (0 <= t)%Qc) by (destruct (Qc_le_or_lt 0 t) as [h|h]; [exact h|exfalso; assert (t * (b - a) < 0)%Qc by qcnra; qclra]).
    assert (T1 : (t <= 1)%Qc) by (destruct (Qc_le_or_lt t 1) as [h|h]; [exact h|exfalso; assert ((b - a) < t * (b - a))%Qc by qcnra; qclra]).
    destruct Hu as (P1 & S1 & F1), Hv as (P2 & S2 & F2). unfold path in P1, P2.
    exists (mix t u v). split.
    + repeat split.
      * unfold path. rewrite mix_length; lia.
      * apply sat_mix; try assumption; lia.
      * rewrite mix_firstn; [assumption|lia|]. rewrite F1, F2. reflexivity.
    + rewrite dot_mix_r by lia. fold a b. replace (t * a + (1 - t) * b)%Qc with (b - t * (b - a))%Qc by ring. rewrite Et. ring.
Qed.

Lemma comp_empty : (forall x, ~ Sset x) -> id_component linprog pre post sys beta l = (observed pre beta l, observed pre beta l).
Proof.
  intros H. unfold id_component. set (f := zeros pre ++ l).
  pose proof (Hsolve (vopp f) ltac:(right; reflexivity)) as C. cbv zeta in C.
  destruct (linprog _) as [fm|]; [|reflexivity]. exfalso. destruct C as [(x & Hx & _) _]. apply feasible_iff in Hx. exact (H x Hx).
Qed.
Lemma comp_exact B : (exists x, Sset x) -> (forall x, Sset x -> (Qcabs (dot l (skipn pre x)) <= B)%Qc) ->
  forall theta, (fst (id_component linprog pre post sys beta l) <= theta /\ theta <= snd (id_component linprog pre post sys beta l))%Qc <->
    exists x, Sset x /\ theta = implied pre beta l x.
Proof.
  intros [x0 Hx0] HB theta. unfold id_component. set (f := zeros pre ++ l).
  pose proof (Hsolve (vopp f) ltac:(right; reflexivity)) as C1. cbv zeta in C1.
  pose proof (Hsolve f ltac:(left; reflexivity)) as C2. cbv zeta in C2.
  fold f in C1, C2.
  assert (O1 : forall x, Sset x -> dot (vopp f) x = (- dot l (skipn pre x))%Qc).
  { intros x Hx. rewrite dot_vopp. unfold f. rewrite obj_dot by apply Hx. reflexivity. }
  assert (O2 : forall x, Sset x -> dot f x = dot l (skipn pre x)) by (intros x Hx; unfold f; apply obj_dot, Hx).
  destruct (linprog {| lp_c := vopp f; lp_ub := sys; lp_eq := (eye_pre pre post, firstn pre beta) |}) as [fm|].
  2:{ exfalso. destruct C1 as [C|C]; [apply (C x0), feasible_iff, Hx0|].
      destruct (C (- B)%Qc) as (x & Hx & K). apply feasible_iff in Hx. cbn [lp_c] in K. rewrite O1 in K by assumption.
      pose proof (proj1 (abs_le_iff _ _) (HB x Hx)) as [K1 K2]. qclra. }
  destruct (linprog {| lp_c := f; lp_ub := sys; lp_eq := (eye_pre pre post, firstn pre beta) |}) as [fn|].
  2:{ exfalso. destruct C2 as [C|C]; [apply (C x0), feasible_iff, Hx0|].
      destruct (C (- B)%Qc) as (x & Hx & K). apply feasible_iff in Hx. cbn [lp_c] in K. rewrite O2 in K by assumption.
      pose proof (proj1 (abs_le_iff _ _) (HB x Hx)) as [K1 K2]. qclra. }
  destruct C1 as [(xm & Hm & Em) Om], C2 as [(xn & Hn & En) On]. cbn [lp_c] in *.
  apply feasible_iff in Hm, Hn. rewrite O1 in Em by assumption. rewrite O2 in En by assumption.
  cbn [fst snd]. unfold observed, implied. set (ob := dot l (skipn pre beta)). split.
  - intros [L U]. destruct (between xn xm (ob - theta)%Qc Hn Hm) as (x & Hx & Ex); [qclra|qclra|].
    exists x. split; [exact Hx|]. rewrite Ex. ring.
  - intros (x & Hx & ->). specialize (Om x (proj2 (feasible_iff _ _) Hx)). specialize (On x (proj2 (feasible_iff _ _) Hx)).
    rewrite O1 in Om by assumption. rewrite O2 in On by assumption. split; qclra.
Qed.
End Component.

(** * bounds *)
Lemma dot_bound (l y : vec) B : (0 <= B)%Qc -> (forall j, (Qcabs (nth j y 0) <= B)%Qc) ->
  (Qcabs (dot l y) <= B * qsum (map Qcabs l))%Qc.
Proof.
  intros HB. revert y; induction l as [|a l IH]; intros y H.
  - rewrite dot_nil_l. cbn [map qsum fold_right]. apply abs_le_iff. split; qclra.
  - destruct y as [|b y].
    + rewrite dot_nil_r. assert (0 <= qsum (map Qcabs (a :: l)))%Qc.
      { clear. induction (a :: l) as [|x r IH]; [apply Qcle_refl|]. cbn [map qsum fold_right]. unfold qsum in IH. pose proof (Qcabs_nonneg x). qclra. }
      apply abs_le_iff. split; qcnra.
    + rewrite dot_cons. specialize (IH y (fun j => H (S j))). pose proof (H 0) as H0. cbn [nth] in H0.
      eapply Qcle_trans; [apply Qcabs_triangle|]. rewrite Qcabs_Qcmult.
      cbn [map qsum fold_right]. unfold qsum in IH. pose proof (Qcabs_nonneg a). qcnra.
Qed.
Lemma bound_path (S0 : vec -> Prop) (f : vec -> Z -> Qc) (t0 : Z) (C0 C : Qc) (n : nat) :
  (forall x, S0 x -> (Qcabs (f x t0) <= C0)%Qc) ->
  (forall x t, S0 x -> (t0 <= t < t0 + Z.of_nat n)%Z -> (Qcabs (f x (t + 1)%Z - f x t) <= C)%Qc) ->
  exists B, (0 <= B)%Qc /\ forall x t, S0 x -> (t0 <= t <= t0 + Z.of_nat n)%Z -> (Qcabs (f x t) <= B)%Qc.
Proof.
  intros H0. induction n as [|n IH]; intros H.
  - exists (Qcabs C0). split; [apply Qcabs_nonneg|]. intros x t Hx Ht. replace t with t0 by lia.
    eapply Qcle_trans; [apply H0, Hx|]. apply Qcle_Qcabs.
  - destruct IH as (B & HB & K); [intros x t Hx Ht; apply H; [assumption|lia]|].
    exists (B + Qcabs C)%Qc. pose proof (Qcabs_nonneg C) as HC. pose proof (Qcle_Qcabs C) as HC2. split; [qclra|].
    intros x t Hx Ht. destruct (Z.eq_dec t (t0 + Z.of_nat (S n))) as [->|E].
    + specialize (K x (t0 + Z.of_nat n)%Z Hx ltac:(lia)). specialize (H x (t0 + Z.of_nat n)%Z Hx ltac:(lia)).
      replace (t0 + Z.of_nat n + 1)%Z with (t0 + Z.of_nat (S n))%Z in H by lia.
      apply abs_le_iff in K, H. apply abs_le_iff. split; qclra.
    + specialize (K x t Hx ltac:(lia)). qclra.
Qed.
Lemma bound_post pre post (S0 : vec -> Prop) (l : vec) C : (forall x, S0 x -> path pre post x) ->
  (forall x t, S0 x -> (0 <= t < Z.of_nat post)%Z -> (Qcabs (step (trend pre x) t) <= C)%Qc) ->
  exists B, forall x, S0 x -> (Qcabs (dot l (skipn pre x)) <= B)%Qc.
Proof.
  intros P H. destruct (bound_path S0 (trend pre) 0 0 C post) as (B & HB & K).
  - intros x _. rewrite trend_0. apply abs_le_iff. split; qclra.
  - intros x t Hx Ht. apply H; [assumption|lia].
  - exists (B * qsum (map Qcabs l))%Qc. intros x Hx. apply dot_bound; [exact HB|]. intros j.
    destruct (Nat.lt_ge_cases j post) as [h|h].
    + specialize (K x (Z.of_nat j + 1)%Z Hx ltac:(lia)). rewrite trend_nth_post in K by lia.
      replace (Z.to_nat _) with (pre + j) in K by lia.
      rewrite <- (firstn_skipn pre x) in K. specialize (P x Hx). unfold path in P. rewrite app_nth2 in K by (rewrite firstn_length; lia).
      rewrite firstn_length in K. replace (pre + j - Nat.min pre (length x)) with j in K by lia. exact K.
    + rewrite nth_overflow by (rewrite skipn_length; specialize (P x Hx); unfold path in P; lia). apply abs_le_iff. split; qclra.
Qed.
Lemma bound_post_curve pre post (S0 : vec -> Prop) (l : vec) C C0 : (forall x, S0 x -> path pre post x) ->
  (forall x, S0 x -> (Qcabs (step (trend pre x) (- 1)) <= C0)%Qc) ->
  (forall x t, S0 x -> (0 <= t < Z.of_nat post)%Z -> (Qcabs (curve (trend pre x) t) <= C)%Qc) ->
  exists B, forall x, S0 x -> (Qcabs (dot l (skipn pre x)) <= B)%Qc.
Proof.
  intros P H0 H. destruct (bound_path S0 (fun x => step (trend pre x)) (- 1) C0 C post) as (B & HB & K).
  - exact H0.
  - intros x t Hx Ht. specialize (H x (t + 1)%Z Hx ltac:(lia)). unfold curve in H. unfold step.
    replace (t + 1 - 1)%Z with t in H by lia. exact H.
  - apply (bound_post pre post S0 l B P). intros x t Hx Ht. apply K; [assumption|lia].
Qed.

(** * the pre-treatment part is fixed *)
Lemma trend_firstn pre u v t : firstn pre u = firstn pre v -> (- Z.of_nat pre <= t <= 0)%Z -> trend pre u t = trend pre v t.
Proof.
  intros E H. unfold trend. destruct (Z.ltb_spec t 0) as [h|h].
  - assert (forall w : vec, nth (Z.to_nat (t + Z.of_nat pre)) w 0%Qc = nth (Z.to_nat (t + Z.of_nat pre)) (firstn pre w) 0%Qc) as K.
    { intros w. destruct (Nat.lt_ge_cases (Z.to_nat (t + Z.of_nat pre)) (length (firstn pre w))) as [g|g].
      - rewrite <- (firstn_skipn pre w) at 1. apply app_nth1. exact g.
      - rewrite (nth_overflow (firstn pre w)) by lia. rewrite firstn_length in g. apply nth_overflow. lia. }
    rewrite (K u), (K v), E. reflexivity.
  - destruct (Z.eqb_spec t 0); [reflexivity|lia].
Qed.
Lemma step_firstn pre u v t : firstn pre u = firstn pre v -> (- Z.of_nat pre <= t < 0)%Z -> step (trend pre u) t = step (trend pre v) t.
Proof. intros E H. unfold step. rewrite !(trend_firstn pre u v) by (assumption || lia). reflexivity. Qed.
Lemma curve_firstn pre u v t : firstn pre u = firstn pre v -> (- Z.of_nat pre < t < 0)%Z -> curve (trend pre u) t = curve (trend pre v) t.
Proof. intros E H. unfold curve. rewrite !(trend_firstn pre u v) by (assumption || lia). reflexivity. Qed.

(** * the SD identified set *)
Lemma sd_exact linprog pre post m sh beta l : 1 <= pre -> length l = post ->
  solves linprog pre post (sd_system pre post m sh) beta l ->
  (exists theta, identified pre post (fun v => in_sd pre post m v /\ in_shape pre post sh v) beta l theta) ->
  forall theta,
    (fst (identified_sd linprog pre post m sh beta l) <= theta /\ theta <= snd (identified_sd linprog pre post m sh beta l))%Qc <->
    identified pre post (fun v => in_sd pre post m v /\ in_shape pre post sh v) beta l theta.
Proof.
  intros Hp Hl Hs (th0 & x0 & P0 & D0 & F0 & _) theta. unfold identified_sd.
  set (S0 := fun x => path pre post x /\ satisfies (sd_system pre post m sh) x /\ firstn pre x = firstn pre beta).
  assert (E : forall x, S0 x <-> path pre post x /\ (in_sd pre post m x /\ in_shape pre post sh x) /\ firstn pre x = firstn pre beta).
  { intros x. unfold S0. split; intros (A & B & C); repeat split; try assumption; try (apply sat_sd_system in B; tauto). }
  assert (BD : exists B, forall x, S0 x -> (Qcabs (dot l (skipn pre x)) <= B)%Qc).
  { apply (bound_post_curve pre post S0 l m (Qcabs (step (trend pre beta) (-1)))).
    - intros x Hx. apply Hx.
    - intros x (_ & _ & Hx). rewrite (step_firstn pre x beta) by (assumption || lia). apply Qcle_refl.
    - intros x t Hx Ht. apply E in Hx as (_ & [Hx _] & _). apply Hx. lia. }
  destruct BD as [B HB].
  rewrite (comp_exact linprog pre post (sd_system pre post m sh) beta l Hl Hs B); [|exists x0; apply E; tauto|exact HB].
  unfold identified. split.
  - intros (x & Hx & ->). apply (E x) in Hx. exists x. tauto.
  - intros (x & Px & Dx & Fx & ->). exists x. split; [apply (E x); tauto|reflexivity].
Qed.
Lemma sd_empty linprog pre post m sh beta l : 1 <= pre -> length l = post ->
  solves linprog pre post (sd_system pre post m sh) beta l ->
  (forall theta, ~ identified pre post (fun v => in_sd pre post m v /\ in_shape pre post sh v) beta l theta) ->
  identified_sd linprog pre post m sh beta l = (observed pre beta l, observed pre beta l).
Proof.
  intros Hp Hl Hs H. apply comp_empty; [exact Hl|exact Hs|]. intros x (P & S1 & F). apply (H (implied pre beta l x)).
  exists x. repeat split; try assumption; apply sat_sd_system in S1; tauto.
Qed.
