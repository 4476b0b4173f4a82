(** Identified sets under relative magnitudes: unions of components. *)
From Coq Require Import Qcabs.
From Verif Require Import Base ListLib HonestModel HonestSpec HonestProofs HonestProofs2 HonestProofs3.
Local Open Scope nat_scope.
Local Open Scope list_scope.

(** * hull *)
Lemma qcmin_spec a b : (qcmin a b <= a /\ qcmin a b <= b)%Qc /\ (qcmin a b = a \/ qcmin a b = b).
Proof.
  unfold qcmin. destruct (Qcleb_spec a b) as [h|h].
  - split; [split; [apply Qcle_refl|exact h]|left; reflexivity].
  - apply Qcnot_le_lt in h. split; [split; [apply Qclt_le_weak, h|apply Qcle_refl]|right; reflexivity].
Qed.
Lemma qcmax_spec a b : (a <= qcmax a b /\ b <= qcmax a b)%Qc /\ (qcmax a b = a \/ qcmax a b = b).
Proof.
  unfold qcmax. destruct (Qcleb_spec a b) as [h|h].
  - split; [split; [exact h|apply Qcle_refl]|right; reflexivity].
  - apply Qcnot_le_lt in h. split; [split; [apply Qcle_refl|apply Qclt_le_weak, h]|left; reflexivity].
Qed.
Lemma fold_hull bs : forall b0, exists lo hi,
  fold_left (fun acc b => (qcmin (fst acc) (fst b), qcmax (snd acc) (snd b))) bs b0 = (lo, hi) /\
  (forall b, In b (b0 :: bs) -> (lo <= fst b /\ snd b <= hi)%Qc) /\
  (exists b, In b (b0 :: bs) /\ fst b = lo) /\ (exists b, In b (b0 :: bs) /\ snd b = hi).
Proof.
  induction bs as [|b1 bs IH]; intros b0; cbn [fold_left].
  - exists (fst b0), (snd b0). destruct b0 as [x y]. cbn. split; [reflexivity|]. split.
    + intros b [<-|[]]. split; apply Qcle_refl.
    + split; exists (x, y); split; auto.
  - destruct (IH (qcmin (fst b0) (fst b1), qcmax (snd b0) (snd b1))) as (lo & hi & E & A & (bl & Bl & El) & (bh & Bh & Eh)).
    exists lo, hi. destruct (qcmin_spec (fst b0) (fst b1)) as [[m1 m2] m3], (qcmax_spec (snd b0) (snd b1)) as [[M1 M2] M3].
    split; [exact E|]. pose proof (A _ (or_introl eq_refl)) as [A1 A2]. cbn [fst snd] in A1, A2. split; [|split].
    + intros b [<-|[<-|H]]; [split; qclra|split; qclra|]. apply A. right; exact H.
    + destruct Bl as [<-|Bl]; [|exists bl; split; [right; right; exact Bl|exact El]]. cbn [fst] in El.
      destruct m3 as [m3|m3]; rewrite m3 in El; [exists b0|exists b1]; (split; [cbn; auto|exact El]).
    + destruct Bh as [<-|Bh]; [|exists bh; split; [right; right; exact Bh|exact Eh]]. cbn [snd] in Eh.
      destruct M3 as [M3|M3]; rewrite M3 in Eh; [exists b0|exists b1]; (split; [cbn; auto|exact Eh]).
Qed.
Lemma hull_spec bs : bs <> [] -> exists lo hi, hull bs = Some (lo, hi) /\
  (forall b, In b bs -> (lo <= fst b /\ snd b <= hi)%Qc) /\ (exists b, In b bs /\ fst b = lo) /\ (exists b, In b bs /\ snd b = hi).
Proof.
  destruct bs as [|b0 bs]; [intros X; congruence|]. intros _. cbn [hull]. destruct (fold_hull bs b0) as (lo & hi & E & H).
  exists lo, hi. rewrite E. split; [reflexivity|exact H].
Qed.

(** * extending the pre-treatment part *)
Lemma app_path pre post beta w : path pre post beta -> length w = post -> path pre post (firstn pre beta ++ w).
Proof. unfold path. intros H W. rewrite app_length, firstn_length. lia. Qed.
Lemma app_firstn pre post beta (w : vec) : path pre post beta -> firstn pre (firstn pre beta ++ w) = firstn pre beta.
Proof.
  unfold path. intros H. rewrite firstn_app, firstn_firstn, Nat.min_id. rewrite firstn_length.
  replace (pre - Nat.min pre (length beta)) with 0 by lia. cbn [firstn]. apply app_nil_r.
Qed.
Lemma app_trend_post pre post beta (w : vec) t : path pre post beta -> (0 < t)%Z ->
  trend pre (firstn pre beta ++ w) t = nth (Z.to_nat (t - 1)) w 0%Qc.
Proof.
  unfold path. intros H Ht. rewrite trend_nth_post by lia. rewrite app_nth2; rewrite firstn_length; [f_equal; lia|lia].
Qed.
Lemma zero_trend pre post beta t : path pre post beta -> (0 <= t)%Z -> trend pre (firstn pre beta ++ zeros post) t = 0%Qc.
Proof.
  intros H Ht. destruct (Z.eq_dec t 0) as [->|E]; [apply trend_0|]. rewrite (app_trend_post pre post) by (assumption || lia). apply nth_zeros.
Qed.
Definition linear_ext (pre post : nat) (beta : vec) : vec :=
  firstn pre beta ++ map (fun j => (qz (Z.of_nat j + 1) * step (trend pre beta) (- 1))%Qc) (seq 0 post).
Lemma qz_add1 t : qz (t + 1) = (qz t + 1)%Qc.
Proof. rewrite qz_add, qz_1. reflexivity. Qed.
Lemma linear_trend pre post beta t : path pre post beta -> 1 <= pre -> (- 1 <= t <= Z.of_nat post)%Z ->
  trend pre (linear_ext pre post beta) t = (qz t * step (trend pre beta) (- 1))%Qc.
Proof.
  intros H Hp Ht. unfold linear_ext. destruct (Z.eq_dec t 0) as [->|E].
  - rewrite trend_0. change (qz 0) with 0%Qc. ring.
  - destruct (Z.eq_dec t (-1)) as [->|E2].
    + rewrite (trend_firstn pre _ beta) by (try lia; eapply app_firstn; exact H).
      unfold step. change (-1 + 1)%Z with 0%Z. rewrite trend_0. change (qz (-1)) with (- (1))%Qc. ring.
    + rewrite (app_trend_post pre post) by (assumption || lia).
      rewrite (nth_indep _ 0%Qc (qz (Z.of_nat 0 + 1) * step (trend pre beta) (- 1))%Qc) by (rewrite map_length, seq_length; lia).
      rewrite (map_nth (fun j => (qz (Z.of_nat j + 1) * step (trend pre beta) (- 1))%Qc)). rewrite seq_nth by lia.
      f_equal. f_equal. lia.
Qed.
Lemma linear_curve pre post beta t : path pre post beta -> 1 <= pre -> (0 <= t < Z.of_nat post)%Z ->
  curve (trend pre (linear_ext pre post beta)) t = 0%Qc.
Proof.
  intros H Hp Ht. unfold curve. rewrite !(linear_trend pre post beta) by (assumption || lia).
  pose proof (qz_add1 t) as A. pose proof (qz_add1 (t - 1)) as B. replace (t - 1 + 1)%Z with t in B by lia.
  rewrite A, B. ring.
Qed.

(** * Delta^SD: when is the set non-empty? *)
Lemma sd_nonempty pre post m beta l : path pre post beta -> 1 <= pre -> (0 <= m)%Qc ->
  (exists theta, identified pre post (fun v => in_sd pre post m v /\ in_shape pre post NoShape v) beta l theta) <->
  forall t, (- Z.of_nat pre < t < 0)%Z -> (Qcabs (curve (trend pre beta) t) <= m)%Qc.
Proof.
  intros P Hp Hm. split.
  - intros (th & x & Px & [D _] & F & _) t Ht. rewrite <- (curve_firstn pre x beta) by (assumption || lia). apply D. lia.
  - intros H. exists (implied pre beta l (linear_ext pre post beta)), (linear_ext pre post beta).
    assert (F : firstn pre (linear_ext pre post beta) = firstn pre beta) by (eapply app_firstn; exact P).
    split; [apply app_path; [exact P|rewrite map_length, seq_length; reflexivity]|].
    split; [|split; [exact F|reflexivity]]. split; [|exact I]. intros t Ht. destruct (Z.lt_ge_cases t 0) as [h|h].
    + rewrite (curve_firstn pre _ beta) by (assumption || lia). apply H. lia.
    + rewrite linear_curve by (assumption || lia). apply abs_le_iff. split; qclra.
Qed.

(** * the union of the RM components *)
Lemma sgn_abs pos (x : Qc) : (Qcabs x <= sgn pos * x)%Qc -> (sgn pos * x = Qcabs x)%Qc.
Proof.
  intros H. apply abs_le_iff in H as H2. apply Qcle_antisym; [|exact H].
  pose proof (Qcle_Qcabs x). pose proof (Qcle_Qcabs (- x)) as K. rewrite Qcabs_opp in K. destruct pos; cbn [sgn] in *; qclra.
Qed.
Lemma abs_sgn (x : Qc) : exists pos, (sgn pos * x = Qcabs x)%Qc.
Proof.
  destruct (Qc_le_or_lt 0 x) as [h|h]; [exists true|exists false]; cbn [sgn].
  - rewrite Qcabs_pos by assumption. ring.
  - rewrite Qcabs_neg by (apply Qclt_le_weak; assumption). ring.
Qed.
(** the trends of Delta^RM whose largest pre-treatment step satisfies [R] *)
Definition in_rm_on (R : Z -> Prop) (pre post : nat) (Mbar : Qc) (v : vec) : Prop :=
  exists s, R s /\ largest_step pre v s /\
    forall t, (0 <= t < Z.of_nat post)%Z -> (Qcabs (step (trend pre v) t) <= Mbar * Qcabs (step (trend pre v) s))%Qc.
Lemma rm_union R pre post mbar v :
  (exists s pos, R s /\ (- Z.of_nat pre <= s < 0)%Z /\ rm_poly pre post mbar s pos v) <-> in_rm_on R pre post mbar v.
Proof.
  split.
  - intros (s & pos & HR & Hs & H1 & H2). exists s. pose proof (sgn_abs _ _ (H1 s Hs)) as E.
    split; [exact HR|]. split; [split; [exact Hs|]|].
    + intros s' Hs'. rewrite <- E. apply H1, Hs'.
    + intros t Ht. rewrite <- E. apply H2, Ht.
  - intros (s & HR & [Hs H1] & H2). destruct (abs_sgn (step (trend pre v) s)) as [pos E]. exists s, pos.
    split; [exact HR|]. split; [exact Hs|]. split; intros t Ht; rewrite E; [apply H1, Ht|apply H2, Ht].
Qed.

Lemma rm_list_in linprog pre post mbar sh beta l b :
  In b (flat_map (fun s => flat_map (fun pos =>
         match rm_system pre post mbar s pos sh with
         | Some sys => [id_component linprog pre post sys beta l]
         | None => []
         end) [true; false]) (rm_s_values pre sh)) <->
  exists s pos sys, In s (rm_s_values pre sh) /\ rm_system pre post mbar s pos sh = Some sys /\ b = id_component linprog pre post sys beta l.
Proof.
  split.
  - intros H. apply in_flat_map in H as (s & Hs & H). apply in_flat_map in H as (pos & _ & H).
    destruct (rm_system pre post mbar s pos sh) as [sys|] eqn:E; [|destruct H]. destruct H as [<-|[]].
    exists s, pos, sys. auto.
  - intros (s & pos & sys & Hs & E & ->). apply in_flat_map. exists s. split; [exact Hs|]. apply in_flat_map. exists pos.
    split; [destruct pos; cbn; auto|]. rewrite E. left; reflexivity.
Qed.
Lemma comp_cases linprog pre post sys beta l : length l = post -> solves linprog pre post sys beta l ->
  id_component linprog pre post sys beta l = (observed pre beta l, observed pre beta l) \/
  exists x, path pre post x /\ satisfies sys x /\ firstn pre x = firstn pre beta.
Proof.
  intros Hl Hs. unfold id_component. set (f := zeros pre ++ l).
  pose proof (Hs (vopp f) ltac:(right; reflexivity)) as C. cbv zeta in C.
  destruct (linprog _) as [fm|]; [|left; reflexivity]. right. destruct C as [(x & Hx & _) _].
  apply (feasible_iff pre post sys beta l Hl) in Hx. exists x. exact Hx.
Qed.

(** one RM component, reference period before treatment *)
Section RmComponent.
Context (linprog : lp -> option Qc) (pre post : nat) (mbar : Qc) (s : Z) (pos : bool) (sh : shape) (sys : system) (beta l : vec).
Context (Hp : 2 <= pre) (Hl : length l = post) (Hb : path pre post beta) (Hm : (0 <= mbar)%Qc)
  (Hs : (- (Z.of_nat pre - 1) <= s < 0)%Z) (Esys : rm_system pre post mbar s pos sh = Some sys)
  (Hsolve : solves linprog pre post sys beta l).
Let S0 x := path pre post x /\ satisfies sys x /\ firstn pre x = firstn pre beta.
Lemma rmc_set x : S0 x <-> path pre post x /\ (rm_poly pre post mbar s pos x /\ in_shape pre post sh x) /\ firstn pre x = firstn pre beta.
Proof.
  unfold S0. split; intros (A & B & C); (split; [exact A|split; [|exact C]]); revert B;
    apply (sat_rm_system pre post mbar s pos sh sys x A); try lia; try assumption; intros; lia.
Qed.
Lemma rmc_bounded : exists B, forall x, S0 x -> (Qcabs (dot l (skipn pre x)) <= B)%Qc.
Proof.
  apply (bound_post pre post S0 l (mbar * (sgn pos * step (trend pre beta) s))).
  - intros x Hx. apply Hx.
  - intros x t Hx Ht. apply rmc_set in Hx as (_ & [[_ Hx] _] & F). rewrite <- (step_firstn pre x beta) by (assumption || lia). apply Hx, Ht.
Qed.
Lemma rmc_exact : (exists x, S0 x) -> forall theta,
  (fst (id_component linprog pre post sys beta l) <= theta /\ theta <= snd (id_component linprog pre post sys beta l))%Qc <->
  exists x, S0 x /\ theta = implied pre beta l x.
Proof. intros H. destruct rmc_bounded as [B HB]. exact (comp_exact linprog pre post sys beta l Hl Hsolve B H HB). Qed.
Lemma shape_zero x : firstn pre x = firstn pre beta -> in_shape pre post sh x -> in_shape pre post sh (firstn pre beta ++ zeros post).
Proof.
  intros F H. assert (G : firstn pre (firstn pre beta ++ zeros post) = firstn pre x) by (rewrite F; eapply app_firstn; exact Hb).
  destruct sh as [|[]|[]]; cbn [in_shape] in *.
  - exact I.
  - intros t Ht. rewrite zero_trend by (assumption || lia). apply Qcle_refl.
  - intros t Ht. rewrite zero_trend by (assumption || lia). apply Qcle_refl.
  - intros t Ht. destruct (Z.lt_ge_cases t 0).
    + rewrite !(trend_firstn pre (firstn pre beta ++ zeros post) x) by (assumption || lia). apply H. lia.
    + rewrite !zero_trend by (assumption || lia). apply Qcle_refl.
  - intros t Ht. destruct (Z.lt_ge_cases t 0).
    + rewrite !(trend_firstn pre (firstn pre beta ++ zeros post) x) by (assumption || lia). apply H. lia.
    + rewrite !zero_trend by (assumption || lia). apply Qcle_refl.
Qed.
Lemma implied_zero : implied pre beta l (firstn pre beta ++ zeros post) = observed pre beta l.
Proof.
  unfold path in Hb. assert (L : length (firstn pre beta) = pre) by (rewrite firstn_length; lia).
  assert (E : skipn pre (firstn pre beta ++ zeros post) = zeros post).
  { rewrite skipn_app, L, Nat.sub_diag. rewrite (skipn_all2 (firstn pre beta)) by lia. reflexivity. }
  unfold implied, observed. rewrite E, dot_zeros_r. ring.
Qed.
Lemma rmc_zero : (exists x, S0 x) -> S0 (firstn pre beta ++ zeros post).
Proof.
  intros [x Hx]. apply rmc_set in Hx as (P & [[H1 H2] Hsh] & F). apply rmc_set.
  assert (G : firstn pre (firstn pre beta ++ zeros post) = firstn pre x) by (rewrite F; eapply app_firstn; exact Hb).
  split; [apply app_path; [exact Hb|apply zeros_length]|]. split; [|rewrite G; exact F]. split; [|eapply shape_zero; eassumption].
  assert (Es : step (trend pre (firstn pre beta ++ zeros post)) s = step (trend pre x) s) by (apply step_firstn; [exact G|lia]).
  split; intros t Ht; rewrite Es.
  - rewrite (step_firstn pre _ x) by (assumption || lia). apply H1, Ht.
  - unfold step at 1. rewrite !zero_trend by (assumption || lia). specialize (H1 s ltac:(lia)). pose proof (Qcabs_nonneg (step (trend pre x) s)).
    assert (0 <= sgn pos * step (trend pre x) s)%Qc by qclra. apply abs_le_iff. split; qcnra.
Qed.
(** the component is an interval around the observed value *)
Lemma rmc_observed : (fst (id_component linprog pre post sys beta l) <= observed pre beta l /\ observed pre beta l <= snd (id_component linprog pre post sys beta l))%Qc.
Proof.
  destruct (comp_cases linprog pre post sys beta l Hl Hsolve) as [E|E].
  - rewrite E. split; apply Qcle_refl.
  - apply rmc_exact; [exact E|]. exists (firstn pre beta ++ zeros post). split; [apply rmc_zero, E|symmetry; apply implied_zero].
Qed.
Lemma rmc_range theta : (fst (id_component linprog pre post sys beta l) <= theta /\ theta <= snd (id_component linprog pre post sys beta l))%Qc ->
  theta = observed pre beta l \/ exists x, S0 x /\ theta = implied pre beta l x.
Proof.
  intros H. destruct (comp_cases linprog pre post sys beta l Hl Hsolve) as [E|E].
  - rewrite E in H. left. apply Qcle_antisym; apply H.
  - right. apply rmc_exact; assumption.
Qed.
End RmComponent.

Definition rm_solved linprog pre post mbar sh beta l : Prop :=
  forall s pos sys, In s (rm_s_values pre sh) -> rm_system pre post mbar s pos sh = Some sys -> solves linprog pre post sys beta l.

Lemma rm_exact linprog pre post mbar beta l : 2 <= pre -> length l = post -> path pre post beta -> (0 <= mbar)%Qc ->
  rm_solved linprog pre post mbar NoShape beta l ->
  exists lb ub, identified_rm linprog pre post mbar NoShape beta l = Some (lb, ub) /\
  forall theta, (lb <= theta /\ theta <= ub)%Qc <->
    theta = observed pre beta l \/ identified pre post (in_rm_on (fun s => (- Z.of_nat pre < s)%Z) pre post mbar) beta l theta.
Proof.
  intros Hp Hl Hb Hm Hsol. unfold identified_rm. destruct (Nat.ltb_spec pre 2); [lia|].
  set (bs := flat_map _ _).
  assert (RS : forall s, In s (rm_s_values pre NoShape) <-> (- (Z.of_nat pre - 1) <= s < 0)%Z) by (intros s; apply zrange_in).
  assert (BI : forall b, In b bs <-> exists s pos sys, In s (rm_s_values pre NoShape) /\ rm_system pre post mbar s pos NoShape = Some sys /\ b = id_component linprog pre post sys beta l)
    by (intros b; apply rm_list_in).
  assert (SY : forall s pos, In s (rm_s_values pre NoShape) -> exists sys, rm_system pre post mbar s pos NoShape = Some sys).
  { intros s pos Hs. apply RS in Hs. destruct (rm_matrix_some pre post mbar s pos ltac:(lia)) as [a Ea]. unfold rm_system. rewrite Ea. eexists; reflexivity. }
  assert (NE : bs <> []).
  { assert (H1 : In (-1)%Z (rm_s_values pre NoShape)) by (apply RS; lia). destruct (SY (-1)%Z true H1) as [sys E].
    intros X. assert (In (id_component linprog pre post sys beta l) bs) by (apply BI; exists (-1)%Z, true, sys; auto). rewrite X in *. contradiction. }
  destruct (hull_spec bs NE) as (lb & ub & E & A & (bl & Bl & El) & (bh & Bh & Eh)). exists lb, ub. split; [exact E|].
  intros theta.
  assert (CI : forall s pos sys x, rm_system pre post mbar s pos NoShape = Some sys -> (- (Z.of_nat pre - 1) <= s < 0)%Z ->
     path pre post x /\ satisfies sys x /\ firstn pre x = firstn pre beta ->
     identified pre post (in_rm_on (fun s => (- Z.of_nat pre < s)%Z) pre post mbar) beta l (implied pre beta l x)).
  { intros s pos sys x Es Hs Hx. apply (rmc_set pre post mbar s pos NoShape sys beta l Hp Hl Hs Es) in Hx as (P & [Q _] & F).
    exists x. split; [exact P|]. split; [|auto]. apply rm_union. exists s, pos. repeat split; try lia; apply Q. }
  split.
  - intros [T1 T2]. destruct (Qc_le_or_lt theta (observed pre beta l)) as [h|h].
    + apply BI in Bl as (s & pos & sys & Hs & Es & ->). pose proof (Hsol s pos sys Hs Es) as Hso. apply RS in Hs.
      pose proof (rmc_observed linprog pre post mbar s pos NoShape sys beta l Hp Hl Hb Hm Hs Es Hso) as [_ O].
      destruct (rmc_range linprog pre post mbar s pos NoShape sys beta l Hp Hl Hs Es Hso theta) as [X|(x & Hx & ->)]; [split; qclra|left; exact X|right].
      eapply CI; eassumption.
    + apply BI in Bh as (s & pos & sys & Hs & Es & ->). pose proof (Hsol s pos sys Hs Es) as Hso. apply RS in Hs.
      pose proof (rmc_observed linprog pre post mbar s pos NoShape sys beta l Hp Hl Hb Hm Hs Es Hso) as [O _].
      destruct (rmc_range linprog pre post mbar s pos NoShape sys beta l Hp Hl Hs Es Hso theta) as [X|(x & Hx & ->)]; [split; qclra|left; exact X|right].
      eapply CI; eassumption.
  - intros [->|(x & P & D & F & ->)].
    + apply BI in Bl as (s & pos & sys & Hs & Es & ->). pose proof (Hsol s pos sys Hs Es) as Hso.
      assert (I : In (id_component linprog pre post sys beta l) bs) by (apply BI; exists s, pos, sys; auto). apply RS in Hs.
      pose proof (rmc_observed linprog pre post mbar s pos NoShape sys beta l Hp Hl Hb Hm Hs Es Hso) as [O1 O2].
      destruct (A _ I) as [A1 A2]. split; qclra.
    + apply rm_union in D as (s & pos & HR & Hs & Hpoly). assert (Hs' : In s (rm_s_values pre NoShape)) by (apply RS; lia).
      destruct (SY s pos Hs') as [sys Es]. pose proof (Hsol s pos sys Hs' Es) as Hso.
      assert (I : In (id_component linprog pre post sys beta l) bs) by (apply BI; exists s, pos, sys; auto).
      destruct (A _ I) as [A1 A2]. apply RS in Hs'.
      assert (HS : path pre post x /\ satisfies sys x /\ firstn pre x = firstn pre beta)
        by (apply (rmc_set pre post mbar s pos NoShape sys beta l Hp Hl Hs' Es); repeat split; try assumption; apply Hpoly).
      destruct (proj2 (rmc_exact linprog pre post mbar s pos NoShape sys beta l Hp Hl Hs' Es Hso (ex_intro _ x HS) (implied pre beta l x)) (ex_intro _ x (conj HS eq_refl))) as [R1 R2].
      split; qclra.
Qed.

(** * the union of the SDRM components *)
Lemma sdrm_union pre post mbar v :
  (exists s pos, (- (Z.of_nat pre - 2) <= s <= 0)%Z /\ sdrm_poly pre post mbar s pos v) <-> in_sdrm pre post mbar v.
Proof.
  split.
  - intros (s & pos & Hs & H1 & H2). exists (s - 1)%Z. pose proof (sgn_abs _ _ (H1 (s - 1)%Z ltac:(lia))) as E. split; [split; [lia|]|].
    + intros s' Hs'. rewrite <- E. apply H1, Hs'.
    + intros t Ht. rewrite <- E. apply H2, Ht.
  - intros (s & [Hs H1] & H2). destruct (abs_sgn (curve (trend pre v) s)) as [pos E]. exists (s + 1)%Z, pos.
    split; [lia|]. unfold sdrm_poly. replace (s + 1 - 1)%Z with s by lia. split; intros t Ht; rewrite E; [apply H1, Ht|apply H2, Ht].
Qed.
Lemma sdrm_list_in linprog pre post mbar sh beta l b :
  In b (flat_map (fun s => map (fun pos => id_component linprog pre post (sdrm_system pre post mbar s pos sh) beta l) [true; false]) (sdrm_s_values pre)) <->
  exists s pos, (- (Z.of_nat pre - 2) <= s <= 0)%Z /\ b = id_component linprog pre post (sdrm_system pre post mbar s pos sh) beta l.
Proof.
  unfold sdrm_s_values. split.
  - intros H. apply in_flat_map in H as (s & Hs & H). apply in_map_iff in H as (pos & <- & _). apply zrange_in in Hs. exists s, pos. split; [lia|reflexivity].
  - intros (s & pos & Hs & ->). apply in_flat_map. exists s. split; [apply zrange_in; lia|]. apply in_map_iff. exists pos. split; [reflexivity|destruct pos; cbn; auto].
Qed.
Definition sdrm_solved linprog pre post mbar sh beta l : Prop :=
  forall s pos, In s (sdrm_s_values pre) -> solves linprog pre post (sdrm_system pre post mbar s pos sh) beta l.

Section SdrmComponent.
Context (linprog : lp -> option Qc) (pre post : nat) (mbar : Qc) (s : Z) (pos : bool) (sh : shape) (beta l : vec).
Let sys := sdrm_system pre post mbar s pos sh.
Context (Hp : 2 <= pre) (Hl : length l = post) (Hs : (- (Z.of_nat pre - 2) <= s <= 0)%Z)
  (Hsolve : solves linprog pre post sys beta l).
Let S0 x := path pre post x /\ satisfies sys x /\ firstn pre x = firstn pre beta.
Lemma sdc_set x : S0 x <-> path pre post x /\ (sdrm_poly pre post mbar s pos x /\ in_shape pre post sh x) /\ firstn pre x = firstn pre beta.
Proof.
  unfold S0. split; intros (A & B & C); (split; [exact A|split; [|exact C]]); revert B;
    apply (sat_sdrm_system pre post mbar s pos sh x A); lia.
Qed.
Lemma sdc_bounded : exists B, forall x, S0 x -> (Qcabs (dot l (skipn pre x)) <= B)%Qc.
Proof.
  apply (bound_post_curve pre post S0 l (mbar * (sgn pos * curve (trend pre beta) (s - 1))) (Qcabs (step (trend pre beta) (-1)))).
  - intros x Hx. apply Hx.
  - intros x (_ & _ & Hx). rewrite (step_firstn pre x beta) by (assumption || lia). apply Qcle_refl.
  - intros x t Hx Ht. apply sdc_set in Hx as (_ & [[_ Hx] _] & F). rewrite <- (curve_firstn pre x beta) by (assumption || lia). apply Hx, Ht.
Qed.
Lemma sdc_exact : (exists x, S0 x) -> forall theta,
  (fst (id_component linprog pre post sys beta l) <= theta /\ theta <= snd (id_component linprog pre post sys beta l))%Qc <->
  exists x, S0 x /\ theta = implied pre beta l x.
Proof. intros H. destruct sdc_bounded as [B HB]. exact (comp_exact linprog pre post sys beta l Hl Hsolve B H HB). Qed.
Lemma sdc_le : (fst (id_component linprog pre post sys beta l) <= snd (id_component linprog pre post sys beta l))%Qc.
Proof.
  destruct (comp_cases linprog pre post sys beta l Hl Hsolve) as [E|[x E]].
  - rewrite E. apply Qcle_refl.
  - destruct (proj2 (sdc_exact (ex_intro _ x E) (implied pre beta l x)) (ex_intro _ x (conj E eq_refl))) as [A B]. eapply Qcle_trans; eassumption.
Qed.
Lemma sdc_range theta : (fst (id_component linprog pre post sys beta l) <= theta /\ theta <= snd (id_component linprog pre post sys beta l))%Qc ->
  theta = observed pre beta l \/ exists x, S0 x /\ theta = implied pre beta l x.
Proof.
  intros H. destruct (comp_cases linprog pre post sys beta l Hl Hsolve) as [E|E].
  - rewrite E in H. left. apply Qcle_antisym; apply H.
  - right. apply sdc_exact; assumption.
Qed.
Lemma sdc_identified x : S0 x -> identified pre post (fun v => in_sdrm pre post mbar v /\ in_shape pre post sh v) beta l (implied pre beta l x).
Proof.
  intros Hx. apply sdc_set in Hx as (P & [Q Hsh] & F). exists x. split; [exact P|]. split; [|auto]. split; [|exact Hsh].
  apply sdrm_union. exists s, pos. split; [lia|exact Q].
Qed.
End SdrmComponent.

Lemma sdrm_hull linprog pre post mbar sh beta l : 2 <= pre -> length l = post ->
  sdrm_solved linprog pre post mbar sh beta l ->
  let I := identified pre post (fun v => in_sdrm pre post mbar v /\ in_shape pre post sh v) beta l in
  exists lb ub, identified_sdrm linprog pre post mbar sh beta l = Some (lb, ub) /\ (lb <= ub)%Qc /\
  (forall theta, I theta -> (lb <= theta /\ theta <= ub)%Qc) /\
  (I lb \/ lb = observed pre beta l) /\ (I ub \/ ub = observed pre beta l) /\
  ((exists t, (- Z.of_nat pre < t < 0)%Z /\ curve (trend pre beta) t <> 0%Qc) -> (lb <= observed pre beta l /\ observed pre beta l <= ub)%Qc) /\
  (path pre post beta -> (0 <= mbar)%Qc -> sh = NoShape ->
    (forall t, (- Z.of_nat pre < t < 0)%Z -> curve (trend pre beta) t = 0%Qc) -> I lb /\ I ub).
Proof.
  intros Hp Hl Hsol I. unfold identified_sdrm. set (bs := flat_map _ _).
  assert (BI : forall b, In b bs <-> exists s pos, (- (Z.of_nat pre - 2) <= s <= 0)%Z /\ b = id_component linprog pre post (sdrm_system pre post mbar s pos sh) beta l)
    by (intros b; apply sdrm_list_in).
  assert (SO : forall s pos, (- (Z.of_nat pre - 2) <= s <= 0)%Z -> solves linprog pre post (sdrm_system pre post mbar s pos sh) beta l).
  { intros s pos Hs. apply Hsol. unfold sdrm_s_values. apply zrange_in. lia. }
  assert (NE : bs <> []).
  { intros X. assert (In (id_component linprog pre post (sdrm_system pre post mbar 0 true sh) beta l) bs) by (apply BI; exists 0%Z, true; split; [lia|reflexivity]). rewrite X in *. contradiction. }
  destruct (hull_spec bs NE) as (lb & ub & E & A & (bl & Bl & El) & (bh & Bh & Eh)). exists lb, ub. split; [exact E|].
  pose proof Bl as Bl'. pose proof Bh as Bh'.
  apply BI in Bl as (s1 & p1 & Hs1 & ->). apply BI in Bh as (s2 & p2 & Hs2 & ->).
  pose proof (sdc_le linprog pre post mbar s1 p1 sh beta l Hp Hl Hs1 (SO _ _ Hs1)) as L1.
  pose proof (sdc_le linprog pre post mbar s2 p2 sh beta l Hp Hl Hs2 (SO _ _ Hs2)) as L2.
  assert (EX : forall s pos x, (- (Z.of_nat pre - 2) <= s <= 0)%Z -> path pre post x /\ satisfies (sdrm_system pre post mbar s pos sh) x /\ firstn pre x = firstn pre beta ->
     I (implied pre beta l x)) by (intros s pos x Hs Hx; apply (sdc_identified pre post mbar s pos sh beta l Hp Hl Hs x Hx)).
  split; [rewrite <- El; destruct (A _ Bl'); qclra|]. split; [|split; [|split; [|split]]].
  - intros theta (x & P & [D Hsh] & F & ->). apply sdrm_union in D as (s & pos & Hs & Hpoly).
    assert (HS : path pre post x /\ satisfies (sdrm_system pre post mbar s pos sh) x /\ firstn pre x = firstn pre beta)
      by (apply (sdc_set pre post mbar s pos sh beta l Hp Hl Hs); repeat split; try assumption; apply Hpoly).
    destruct (A (id_component linprog pre post (sdrm_system pre post mbar s pos sh) beta l)) as [A1 A2]; [apply BI; exists s, pos; auto|].
    destruct (proj2 (sdc_exact linprog pre post mbar s pos sh beta l Hp Hl Hs (SO _ _ Hs) (ex_intro _ x HS) (implied pre beta l x)) (ex_intro _ x (conj HS eq_refl))) as [R1 R2].
    split; qclra.
  - destruct (sdc_range linprog pre post mbar s1 p1 sh beta l Hp Hl Hs1 (SO _ _ Hs1) lb) as [X|(x & Hx & ->)].
    + rewrite <- El. split; [apply Qcle_refl|exact L1].
    + right; exact X.
    + left. exact (EX s1 p1 x Hs1 Hx).
  - destruct (sdc_range linprog pre post mbar s2 p2 sh beta l Hp Hl Hs2 (SO _ _ Hs2) ub) as [X|(x & Hx & ->)].
    + rewrite <- Eh. split; [exact L2|apply Qcle_refl].
    + right; exact X.
    + left. exact (EX s2 p2 x Hs2 Hx).
  - intros (t & Ht & Nz). destruct (abs_sgn (curve (trend pre beta) t)) as [pos Ep].
    assert (Hs : (- (Z.of_nat pre - 2) <= t + 1 <= 0)%Z) by lia.
    destruct (A (id_component linprog pre post (sdrm_system pre post mbar (t + 1) (negb pos) sh) beta l)) as [A1 A2]; [apply BI; exists (t + 1)%Z, (negb pos); split; [exact Hs|reflexivity]|].
    assert (CE : id_component linprog pre post (sdrm_system pre post mbar (t + 1) (negb pos) sh) beta l = (observed pre beta l, observed pre beta l)); [|rewrite CE in A1, A2; cbn [fst snd] in *; split; assumption].
    apply (comp_empty linprog pre post _ beta l Hl (SO (t + 1)%Z (negb pos) Hs)).
    intros x Hx. apply (sdc_set pre post mbar (t + 1) (negb pos) sh beta l Hp Hl Hs) in Hx as (P & [[Q _] _] & F).
    specialize (Q t Ht). replace (t + 1 - 1)%Z with t in Q by lia. rewrite (curve_firstn pre x beta) in Q by (assumption || lia).
    apply sgn_abs in Q. apply Nz. destruct pos; cbn [sgn negb] in *; qclra.
  - intros Hb Hm -> Z0.
    assert (Sx : forall s pos, (- (Z.of_nat pre - 2) <= s <= 0)%Z -> exists x, path pre post x /\ satisfies (sdrm_system pre post mbar s pos NoShape) x /\ firstn pre x = firstn pre beta).
    { intros s pos Hs. exists (linear_ext pre post beta). apply (sdc_set pre post mbar s pos NoShape beta l Hp Hl Hs).
      assert (F : firstn pre (linear_ext pre post beta) = firstn pre beta) by (eapply app_firstn; exact Hb).
      split; [apply app_path; [exact Hb|rewrite map_length, seq_length; reflexivity]|]. split; [|exact F]. split; [|exact Logic.I].
      assert (Z1 : forall t, (- Z.of_nat pre < t < 0)%Z -> curve (trend pre (linear_ext pre post beta)) t = 0%Qc)
        by (intros t Ht; rewrite (curve_firstn pre _ beta) by (assumption || lia); apply Z0, Ht).
      split; intros t Ht; rewrite (Z1 (s - 1)%Z) by lia.
      - rewrite Z1 by lia. apply abs_le_iff. split; qclra.
      - rewrite linear_curve by (assumption || lia). apply abs_le_iff. split; qclra. }
    split.
    + destruct (proj1 (sdc_exact linprog pre post mbar s1 p1 NoShape beta l Hp Hl Hs1 (SO _ _ Hs1) (Sx s1 p1 Hs1) lb)) as (x & Hx & Ex).
      * rewrite <- El. split; [apply Qcle_refl|exact L1].
      * rewrite Ex. exact (EX s1 p1 x Hs1 Hx).
    + destruct (proj1 (sdc_exact linprog pre post mbar s2 p2 NoShape beta l Hp Hl Hs2 (SO _ _ Hs2) (Sx s2 p2 Hs2) ub)) as (x & Hx & Ex).
      * rewrite <- Eh. split; [exact L2|apply Qcle_refl].
      * rewrite Ex. exact (EX s2 p2 x Hs2 Hx).
Qed.

(** * statements in the vocabulary of the properties *)
Lemma rm_union_exact pre post mbar v : 2 <= pre -> path pre post v ->
  (exists s pos sys, In s (rm_s_values pre NoShape) /\ rm_system pre post mbar s pos NoShape = Some sys /\ satisfies sys v) <->
  exists s, s <> (- Z.of_nat pre)%Z /\ largest_step pre v s /\
    forall t, (0 <= t < Z.of_nat post)%Z -> (Qcabs (step (trend pre v) t) <= mbar * Qcabs (step (trend pre v) s))%Qc.
Proof.
  intros Hp P.
  assert (RS : forall s, In s (rm_s_values pre NoShape) <-> (- (Z.of_nat pre - 1) <= s < 0)%Z) by (intros s; apply zrange_in).
  change (exists s, s <> (- Z.of_nat pre)%Z /\ _) with (in_rm_on (fun s => s <> (- Z.of_nat pre)%Z) pre post mbar v).
  rewrite <- rm_union. split.
  - intros (s & pos & sys & Hs & E & H). apply RS in Hs.
    apply (sat_rm_system pre post mbar s pos NoShape sys v P) in E; try lia; try (intros; lia).
    exists s, pos. split; [lia|]. split; [lia|]. apply E. exact H.
  - intros (s & pos & N & Hs & H). destruct (rm_matrix_some pre post mbar s pos ltac:(lia)) as [a Ea].
    exists s, pos. eexists. split; [apply RS; lia|]. assert (E : rm_system pre post mbar s pos NoShape = option_map (fun a => let a := a ++ shape_rows pre post NoShape in (a, zeros (length a))) (Some a)) by (unfold rm_system; rewrite Ea; reflexivity).
    split; [exact E|]. apply (sat_rm_system pre post mbar s pos NoShape _ v P) in E; try lia; try (intros; lia). apply E. split; [exact H|exact I].
Qed.
Lemma sdrm_union_exact pre post mbar sh v : 2 <= pre -> path pre post v ->
  (exists s pos, In s (sdrm_s_values pre) /\ satisfies (sdrm_system pre post mbar s pos sh) v) <->
  in_sdrm pre post mbar v /\ in_shape pre post sh v.
Proof.
  intros Hp P. rewrite <- sdrm_union.
  assert (RS : forall s, In s (sdrm_s_values pre) <-> (- (Z.of_nat pre - 2) <= s <= 0)%Z) by (intros s; unfold sdrm_s_values; rewrite zrange_in; lia).
  split.
  - intros (s & pos & Hs & H). apply RS in Hs. apply sat_sdrm_system in H as [H Hsh]; [|assumption..]. split; [exists s, pos; split; assumption|exact Hsh].
  - intros [(s & pos & Hs & H) Hsh]. exists s, pos. split; [apply RS, Hs|]. apply sat_sdrm_system; [assumption..|]. split; assumption.
Qed.

Lemma has_post_row pre post r : 1 <= pre -> r + 1 < pre + post ->
  has_post pre (del pre (put (zeros (pre + post + 1)) r [1%Qc; (- (1 + 1))%Qc; 1%Qc])) = (pre <=? r + 1).
Proof.
  intros Hp Hr. set (row := put _ _ _). assert (L : length row = pre + post + 1) by (unfold row; rewrite put_length; rewrite zeros_length; cbn; lia).
  assert (SK : skipn pre (del pre row) = skipn (S pre) row).
  { unfold del. assert (L1 : length (firstn pre row) = pre) by (rewrite firstn_length; lia).
    rewrite skipn_app, L1, Nat.sub_diag. rewrite (skipn_all2 (firstn pre row)) by lia. reflexivity. }
  unfold has_post. rewrite SK. destruct (Nat.leb_spec pre (r + 1)) as [h|h].
  - apply existsb_exists. exists 1%Qc. split; [|reflexivity].
    assert (N : nth (r + 2) row 0%Qc = 1%Qc).
    { unfold row. rewrite nth_put by (cbn; lia). cbn [length]. replace ((r <=? r + 2) && (r + 2 <? r + 3)) with true by (symmetry; apply andb_true_iff; split; [apply Nat.leb_le|apply Nat.ltb_lt]; lia).
      replace (r + 2 - r) with 2 by lia. reflexivity. }
    rewrite <- N. rewrite <- (firstn_skipn (S pre) row) at 1. rewrite app_nth2; rewrite firstn_length; [|lia].
    apply nth_In. rewrite skipn_length. lia.
  - apply not_true_is_false. intros X. apply existsb_exists in X as (x & Hx & Nx).
    apply (In_nth _ _ 0%Qc) in Hx as (j & Hj & Ej).
    assert (N : nth (S pre + j) row 0%Qc = x).
    { rewrite <- (firstn_skipn (S pre) row). rewrite app_nth2; rewrite firstn_length; [|lia]. replace (S pre + j - Nat.min (S pre) (length row)) with j by lia. exact Ej. }
    unfold row in N. rewrite nth_put in N by (cbn; lia). cbn [length] in N.
    replace ((r <=? S pre + j) && (S pre + j <? r + 3)) with false in N by (symmetry; apply andb_false_iff; right; apply Nat.ltb_ge; lia).
    rewrite <- N in Nx. vm_compute in Nx. discriminate Nx.
Qed.
Lemma sd_post_exact pre post M v : 1 <= pre -> 2 <= post -> path pre post v ->
  let a := sd_matrix pre post true in
  satisfies (a, sd_vector a M) v <-> forall t, (0 <= t < Z.of_nat post)%Z -> (Qcabs (curve (trend pre v) t) <= M)%Qc.
Proof.
  intros Hp Hpost P a. unfold a, sd_matrix, sd_vector. destruct (Nat.ltb_spec 1 post); [|lia]. cbn [andb]. rewrite sat_pm. split.
  - intros K t Ht. specialize (K (del pre (put (zeros (pre + post + 1)) (Z.to_nat (t - 1 + Z.of_nat pre)) [1%Qc; (-(1 + 1))%Qc; 1%Qc]))).
    rewrite sd_row_dot in K by (assumption || lia).
    replace (Z.of_nat (Z.to_nat (t - 1 + Z.of_nat pre)) - Z.of_nat pre + 1)%Z with t in K by lia.
    apply K, filter_In. split; [apply sd_rows_in; eexists; split; [|reflexivity]; lia|]. rewrite has_post_row by lia. apply Nat.leb_le. lia.
  - intros K row H0. apply filter_In in H0 as [H0 F]. apply sd_rows_in in H0 as (r & Hr & ->). rewrite has_post_row in F by lia. apply Nat.leb_le in F.
    rewrite sd_row_dot by assumption. apply K. lia.
Qed.
Lemma rm_exact_late linprog pre post mbar beta l : 2 <= pre -> length l = post -> path pre post beta -> (0 <= mbar)%Qc ->
  rm_solved linprog pre post mbar NoShape beta l ->
  (exists s, s <> (- Z.of_nat pre)%Z /\ largest_step pre beta s) ->
  exists lb ub, identified_rm linprog pre post mbar NoShape beta l = Some (lb, ub) /\
  forall theta, (lb <= theta /\ theta <= ub)%Qc <-> identified pre post (in_rm pre post mbar) beta l theta.
Proof.
  intros Hp Hl Hb Hm Hs (s0 & N0 & B0 & L0). destruct (rm_exact linprog pre post mbar beta l Hp Hl Hb Hm Hs) as (lb & ub & E & H).
  exists lb, ub. split; [exact E|]. intros theta. rewrite H. split.
  - intros [->|(x & P & (s & HR & LS & D) & F & ->)].
    + exists (firstn pre beta ++ zeros post). assert (F : firstn pre (firstn pre beta ++ zeros post) = firstn pre beta) by (eapply app_firstn; exact Hb).
      split; [apply app_path; [exact Hb|apply zeros_length]|]. split; [|split; [exact F|symmetry; eapply implied_zero; eassumption]].
      exists s0. split; [split; [exact B0|]|].
      * intros s' Hs'. rewrite !(step_firstn pre (firstn pre beta ++ zeros post) beta) by (assumption || lia). apply L0, Hs'.
      * intros t Ht. unfold step at 1. rewrite !zero_trend by (assumption || lia).
        pose proof (Qcabs_nonneg (step (trend pre (firstn pre beta ++ zeros post)) s0)). apply abs_le_iff. split; qcnra.
    + exists x. split; [exact P|]. split; [exists s; split; [exact LS|exact D]|split; [exact F|reflexivity]].
  - intros (x & P & (s & [B L] & D) & F & ->). right. exists x. split; [exact P|]. split; [|split; [exact F|reflexivity]].
    exists s0. split; [lia|].
    assert (Ex : forall s, (- Z.of_nat pre <= s < 0)%Z -> step (trend pre x) s = step (trend pre beta) s) by (intros; apply step_firstn; assumption).
    split; [split; [exact B0|]|].
    + intros s' Hs'. rewrite !Ex by lia. apply L0, Hs'.
    + intros t Ht. eapply Qcle_trans; [apply D, Ht|]. rewrite !Ex by lia. specialize (L0 s B). qcnra.
Qed.
Lemma rm_collapse linprog pre post mbar beta l : 2 <= pre -> length l = post -> path pre post beta -> (0 <= mbar)%Qc ->
  rm_solved linprog pre post mbar NoShape beta l ->
  (forall s, (- Z.of_nat pre < s < 0)%Z -> (Qcabs (step (trend pre beta) s) < Qcabs (step (trend pre beta) (- Z.of_nat pre)))%Qc) ->
  identified_rm linprog pre post mbar NoShape beta l = Some (dot l (skipn pre beta), dot l (skipn pre beta)).
Proof.
  intros Hp Hl Hb Hm Hs Hlt. destruct (rm_exact linprog pre post mbar beta l Hp Hl Hb Hm Hs) as (lb & ub & E & H).
  assert (K : forall theta, (lb <= theta /\ theta <= ub)%Qc <-> theta = dot l (skipn pre beta)).
  { intros theta. rewrite H. split; [|intros ->; left; reflexivity]. intros [->|(x & P & (s & HR & [B L] & D) & F & ->)]; [reflexivity|exfalso].
    specialize (L (- Z.of_nat pre)%Z ltac:(lia)). rewrite !(step_firstn pre x beta) in L by (assumption || lia).
    specialize (Hlt s ltac:(lia)). exact (Qclt_not_le _ _ Hlt L). }
  pose proof (proj2 (K _) eq_refl) as [A B]. rewrite E. f_equal. f_equal; apply (proj1 (K _)); split; qclra.
Qed.

(** * the system of the lower bound on M *)
Lemma vscale_ones M k : vscale M (repeat 1%Qc k) = repeat M k.
Proof. induction k as [|k IH]; [reflexivity|]. cbn [repeat vscale map]. unfold vscale in IH. rewrite IH. f_equal. ring. Qed.
Lemma put_put n : 3 <= n -> put (put (zeros n) (n - 2) [1%Qc; (-(1))%Qc]) (n - 3) [1%Qc; (-(1 + 1))%Qc; 1%Qc] = put (zeros n) (n - 3) [1%Qc; (-(1 + 1))%Qc; 1%Qc].
Proof.
  intros H. set (xs := [1%Qc; (-(1 + 1))%Qc; 1%Qc]). unfold put at 1 3. f_equal; [|f_equal].
  - unfold put. rewrite firstn_app, firstn_firstn. replace (Nat.min (n - 3) (n - 2)) with (n - 3) by lia.
    rewrite firstn_length, zeros_length. replace (n - 3 - Nat.min (n - 2) n) with 0 by lia. cbn [firstn]. apply app_nil_r.
  - rewrite !skipn_all2; [reflexivity| |]; [rewrite zeros_length|rewrite put_length; rewrite zeros_length]; unfold xs; cbn [length]; lia.
Qed.
Lemma pre_curve n v k : length v = n -> k + 3 <= n ->
  dot (put (zeros n) k [1%Qc; (-(1 + 1))%Qc; 1%Qc]) v = curve (trend n v) (Z.of_nat k - Z.of_nat n + 1).
Proof.
  intros L H. rewrite dot_put3 by lia. unfold curve. rewrite !trend_nth_pre by lia.
  replace (Z.to_nat (Z.of_nat k - Z.of_nat n + 1 + 1 + Z.of_nat n)) with (k + 2) by lia.
  replace (Z.to_nat (Z.of_nat k - Z.of_nat n + 1 + Z.of_nat n)) with (k + 1) by lia.
  replace (Z.to_nat (Z.of_nat k - Z.of_nat n + 1 - 1 + Z.of_nat n)) with k by lia. ring.
Qed.
Lemma pre_system_exact n A d M v : 3 <= n -> length v = n -> pre_second_diff_system n = Some (A, d) ->
  satisfies (A, vscale M d) v <-> (0 <= M)%Qc /\ forall t, (- Z.of_nat n < t < - 1)%Z -> (Qcabs (curve (trend n v) t) <= M)%Qc.
Proof.
  intros Hn L E. unfold pre_second_diff_system in E. destruct (Nat.ltb_spec n 2); [lia|]. injection E as <- <-.
  rewrite vscale_ones, sat_pm.
  assert (D : forall r, r < n - 1 -> exists row, In row (pre_second_diff_rows n) /\
     (dot row v = if r =? n - 3 then 0%Qc else curve (trend n v) (Z.of_nat (if r =? n - 2 then n - 3 else r) - Z.of_nat n + 1))).
  { intros r Hr. eexists. split; [apply in_map, in_seq; split; [|exact Hr]; lia|]. cbv beta.
    destruct (Nat.eqb_spec r (n - 2)) as [h|h].
    - destruct (Nat.leb_spec n 2); [lia|]. destruct (Nat.eqb_spec r (n - 3)); [lia|]. rewrite put_put by exact Hn. apply pre_curve; [exact L|lia].
    - destruct (Nat.ltb_spec r (n - 3)).
      + destruct (Nat.eqb_spec r (n - 3)); [lia|]. apply pre_curve; [exact L|lia].
      + destruct (Nat.eqb_spec r (n - 3)); [|lia]. apply dot_zeros. }
  split.
  - intros K. split.
    + destruct (D (n - 3) ltac:(lia)) as (row & Hr & Er). rewrite Nat.eqb_refl in Er. specialize (K row Hr). rewrite Er in K. apply abs_le_iff in K as [K _]. exact K.
    + intros t Ht. set (k := Z.to_nat (t - 1 + Z.of_nat n)). assert (Hk : k <= n - 3) by (unfold k; lia).
      destruct (D (if k =? n - 3 then n - 2 else k)) as (row & Hr & Er); [destruct (Nat.eqb_spec k (n - 3)); lia|].
      specialize (K row Hr). rewrite Er in K.
      replace ((if k =? n - 3 then n - 2 else k) =? n - 3) with false in K by (destruct (Nat.eqb_spec k (n - 3)); symmetry; apply Nat.eqb_neq; lia).
      replace (if (if k =? n - 3 then n - 2 else k) =? n - 2 then n - 3 else (if k =? n - 3 then n - 2 else k)) with k in K.
      * replace (Z.of_nat k - Z.of_nat n + 1)%Z with t in K by (unfold k; lia). exact K.
      * destruct (Nat.eqb_spec k (n - 3)); [rewrite Nat.eqb_refl; assumption|]. destruct (Nat.eqb_spec k (n - 2)); lia.
  - intros [HM K] row Hr. apply in_map_iff in Hr as (r & <- & Hr). apply in_seq in Hr.
    destruct (Nat.eqb_spec r (n - 2)) as [h|h].
    + destruct (Nat.leb_spec n 2); [lia|]. rewrite put_put by exact Hn. rewrite pre_curve by lia. apply K. lia.
    + destruct (Nat.ltb_spec r (n - 3)).
      * rewrite pre_curve by lia. apply K. lia.
      * rewrite dot_zeros. apply abs_le_iff. split; qclra.
Qed.
