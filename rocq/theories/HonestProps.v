(** C46-C52: restriction sets and identified sets of the sensitivity analysis (moderndid.didhonest). *)
From Coq Require Import Qcabs.
From Verif Require Import Base ListLib HonestModel HonestSpec HonestProofs HonestProofs2 HonestProofs3 HonestProofs4.
Local Open Scope nat_scope.
Local Open Scope list_scope.
Local Notation length := List.length.

(** * C46. Smoothness: the constraint system of Delta^SD(M), with a sign or monotonicity restriction or none, holds of a vector
    exactly when all second differences of the trend it lists (with 0 at the reference period) are at most M in absolute value
    and the shape restriction holds. *)
Theorem C46_smoothness_system_exact :
  forall pre post M sh v, 1 <= pre -> path pre post v ->
  satisfies (sd_system pre post M sh) v <-> in_sd pre post M v /\ in_shape pre post sh v.
Proof. intros. apply sat_sd_system; assumption. Qed.
Print Assumptions C46_smoothness_system_exact.
(** dropping the rows about pre-treatment periods only (the moments used by the post-treatment tests) keeps exactly the second
    differences that involve a post-treatment period *)
Theorem C46_post_moments_exact :
  forall pre post M v, 1 <= pre -> 2 <= post -> path pre post v ->
  let a := sd_matrix pre post true in
  satisfies (a, sd_vector a M) v <-> forall t, (0 <= t < Z.of_nat post)%Z -> (Qcabs (curve (trend pre v) t) <= M)%Qc.
Proof. exact sd_post_exact. Qed.
Print Assumptions C46_post_moments_exact.
Example C46_case : path 2 2 [qz 1; qz 1; qz 1; qz 1] /\ in_sd 2 2 (qz 2) [qz 1; qz 1; qz 1; qz 1] /\ ~ in_sd 2 2 (qz 1) [qz 1; qz 1; qz 1; qz 1].
Proof.
  split; [reflexivity|]. split.
  - intros t Ht. assert (T : (t = -1 \/ t = 0 \/ t = 1)%Z) by lia. destruct T as [->|[->| ->]]; vm_compute; intros X; discriminate X.
  - intros H. specialize (H 0%Z ltac:(lia)). apply H. vm_compute. reflexivity.
Qed.

(** * C47. Relative magnitudes: the components.
    For every reference period and sign used without shape restriction, the component's system holds exactly when the
    signed reference step dominates all pre-treatment steps and, times Mbar, all post-treatment steps. *)
Theorem C47_component_exact :
  forall pre post Mbar s (pos : bool) sh sys v, 1 <= pre -> path pre post v -> (- Z.of_nat pre < s < 0)%Z ->
  rm_system pre post Mbar s pos sh = Some sys ->
  let d := trend pre v in let ref := (if pos then step d s else - step d s)%Qc in
  satisfies sys v <->
    ((forall t, (- Z.of_nat pre <= t < 0)%Z -> (Qcabs (step d t) <= ref)%Qc) /\
     (forall t, (0 <= t < Z.of_nat post)%Z -> (Qcabs (step d t) <= Mbar * ref)%Qc)) /\ in_shape pre post sh v.
Proof.
  intros pre post Mbar s pos sh sys v Hp P Hs E d ref.
  assert (R : ref = (sgn pos * step d s)%Qc) by (unfold ref; destruct pos; cbn [sgn]; ring). rewrite R.
  apply (sat_rm_system pre post Mbar s pos sh sys v P Hp); try lia; try assumption; intros; lia.
Qed.
Print Assumptions C47_component_exact.
(** the components together: exactly the trends of Delta^RM(Mbar) that have a largest pre-treatment step other than the earliest *)
Theorem C47_union_partial :
  forall pre post Mbar v, 2 <= pre -> path pre post v ->
  (exists s pos sys, In s (rm_s_values pre NoShape) /\ rm_system pre post Mbar s pos NoShape = Some sys /\ satisfies sys v) <->
  exists s, s <> (- Z.of_nat pre)%Z /\ largest_step pre v s /\
    forall t, (0 <= t < Z.of_nat post)%Z -> (Qcabs (step (trend pre v) t) <= Mbar * Qcabs (step (trend pre v) s))%Qc.
Proof. exact rm_union_exact. Qed.
Print Assumptions C47_union_partial.
(** so Delta^RM(Mbar) is not covered: a trend whose largest pre-treatment step is the earliest one *)
Theorem C47_union_is_delta_rm_refuted :
  exists pre post Mbar v, 2 <= pre /\ path pre post v /\ (0 <= Mbar)%Qc /\ in_rm pre post Mbar v /\
  forall s pos sys, In s (rm_s_values pre NoShape) -> rm_system pre post Mbar s pos NoShape = Some sys -> ~ satisfies sys v.
Proof.
  exists 2, 1, 1%Qc, [qz (-5); qz (-2); qz 3]. split; [lia|]. split; [reflexivity|]. split; [intros X; discriminate X|]. split.
  - exists (-2)%Z. split; [split; [lia|]|].
    + intros s Hs. assert (T : (s = -2 \/ s = -1)%Z) by lia. destruct T as [->| ->]; vm_compute; intros X; discriminate X.
    + intros t Ht. assert (t = 0)%Z by lia. subst. vm_compute. intros X; discriminate X.
  - intros s pos sys Hs E H. assert (U := proj1 (rm_union_exact 2 1 1%Qc [qz (-5); qz (-2); qz 3] ltac:(lia) eq_refl) (ex_intro _ s (ex_intro _ pos (ex_intro _ sys (conj Hs (conj E H)))))).
    destruct U as (s' & N & [B L] & _). assert (s' = -1)%Z by lia. subst. specialize (L (-2)%Z ltac:(lia)). apply L. vm_compute. reflexivity.
Qed.
Print Assumptions C47_union_is_delta_rm_refuted.
(** with a sign or monotonicity restriction the first post-treatment step is used as a reference as well: such a component contains
    trends outside Delta^RM(Mbar) *)
Theorem C47_shaped_component_refuted :
  exists pre post Mbar s pos sys v, 2 <= pre /\ path pre post v /\ In s (rm_s_values pre (Bias true)) /\
  rm_system pre post Mbar s pos (Bias true) = Some sys /\ satisfies sys v /\ ~ in_rm pre post Mbar v.
Proof.
  exists 2, 1, 1%Qc, 0%Z, true. destruct (rm_matrix_some 2 1 1%Qc 0 true ltac:(lia)) as [a Ea].
  exists (a ++ shape_rows 2 1 (Bias true), zeros (length (a ++ shape_rows 2 1 (Bias true)))), [qz 2; qz 1; qz 9].
  split; [lia|]. split; [reflexivity|]. split; [apply zrange_in; lia|]. split; [unfold rm_system; rewrite Ea; reflexivity|]. split.
  - assert (E : rm_system 2 1 1%Qc 0 true (Bias true) = Some (a ++ shape_rows 2 1 (Bias true), zeros (length (a ++ shape_rows 2 1 (Bias true))))) by (unfold rm_system; rewrite Ea; reflexivity).
    apply (sat_rm_system 2 1 1%Qc 0 true (Bias true) _ [qz 2; qz 1; qz 9] eq_refl ltac:(lia) ltac:(lia) ltac:(intros; lia)) in E.
    + apply E. split; [split|].
      * intros t Ht. assert (T : (t = -2 \/ t = -1)%Z) by lia. destruct T as [->| ->]; vm_compute; intros X; discriminate X.
      * intros t Ht. assert (t = 0)%Z by lia. subst. vm_compute. intros X; discriminate X.
      * intros t Ht. assert (t = 1)%Z by lia. subst. vm_compute. intros X; discriminate X.
    + intros _. cbn [sgn]. split; intros X; [ring|]. exfalso. apply X. vm_compute. reflexivity.
  - intros (s & [B L] & H). specialize (H 0%Z ltac:(lia)). assert (T : (s = -2 \/ s = -1)%Z) by lia.
    destruct T as [->| ->]; apply H; vm_compute; reflexivity.
Qed.
Print Assumptions C47_shaped_component_refuted.

(** * C48. Second differences with relative magnitudes: the components are exactly Delta^SDRM(Mbar) with the shape restriction. *)
Theorem C48_union_exact :
  forall pre post Mbar sh v, 2 <= pre -> path pre post v ->
  (exists s pos, In s (sdrm_s_values pre) /\ satisfies (sdrm_system pre post Mbar s pos sh) v) <->
  in_sdrm pre post Mbar v /\ in_shape pre post sh v.
Proof. exact sdrm_union_exact. Qed.
Print Assumptions C48_union_exact.
Example C48_case : in_sdrm 2 1 (qz 2) [qz (-5); qz (-2); qz 4] /\ in_shape 2 1 (Mono true) [qz (-5); qz (-2); qz 4] /\ ~ in_sdrm 2 1 (qz 1) [qz (-5); qz (-2); qz 4].
Proof.
  split; [|split].
  - exists (-1)%Z. split; [split; [lia|]|].
    + intros s Hs. assert (s = -1)%Z by lia. subst. apply Qcle_refl.
    + intros t Ht. assert (t = 0)%Z by lia. subst. vm_compute. intros X; discriminate X.
  - intros t Ht. assert (T : (t = -2 \/ t = -1 \/ t = 0)%Z) by lia. destruct T as [->|[->| ->]]; vm_compute; intros X; discriminate X.
  - intros (s & [B L] & H). assert (s = -1)%Z by lia. subst. specialize (H 0%Z ltac:(lia)). apply H. vm_compute. reflexivity.
Qed.

(** * C49. Identified set under smoothness. If the solver meets its contract on the two programs and some trend of Delta^SD(M) (with
    the shape restriction) reproduces the pre-treatment coefficients, the reported interval is exactly the identified set of l'tau. *)
Theorem C49_smoothness_identified_set :
  forall linprog pre post M sh beta l, 1 <= pre -> length l = post ->
  solves linprog pre post (sd_system pre post M sh) beta l ->
  let I := identified pre post (fun v => in_sd pre post M v /\ in_shape pre post sh v) beta l in
  let r := identified_sd linprog pre post M sh beta l in
  (exists theta, I theta) -> forall theta, (fst r <= theta /\ theta <= snd r)%Qc <-> I theta.
Proof. exact sd_exact. Qed.
Print Assumptions C49_smoothness_identified_set.
(** without shape restriction the identified set is non-empty exactly when the pre-treatment second differences are at most M *)
Theorem C49_nonempty_iff :
  forall pre post M beta l, path pre post beta -> 1 <= pre -> (0 <= M)%Qc ->
  (exists theta, identified pre post (fun v => in_sd pre post M v /\ in_shape pre post NoShape v) beta l theta) <->
  forall t, (- Z.of_nat pre < t < 0)%Z -> (Qcabs (curve (trend pre beta) t) <= M)%Qc.
Proof. exact sd_nonempty. Qed.
Print Assumptions C49_nonempty_iff.
(** an empty identified set is reported as the single point l'beta_post *)
Theorem C49_empty_reported_as_point_refuted :
  forall linprog pre post M sh beta l, 1 <= pre -> length l = post ->
  solves linprog pre post (sd_system pre post M sh) beta l ->
  (forall theta, ~ identified pre post (fun v => in_sd pre post M v /\ in_shape pre post sh v) beta l theta) ->
  identified_sd linprog pre post M sh beta l = (dot l (skipn pre beta), dot l (skipn pre beta)).
Proof. exact sd_empty. Qed.
Print Assumptions C49_empty_reported_as_point_refuted.

(** concrete solver for two pre-periods and one post-period: second difference -1 before treatment, slope 2 into it *)
Definition wit_beta : vec := [qz (-5); qz (-2); qz 0].
Definition wit_lp (M : Qc) (p : lp) : option Qc :=
  if Qcltb M 1 then None else if Qceqb (nth 2 (lp_c p) 0%Qc) 1 then Some (qz 2 - M)%Qc else Some (- (qz 2 + M))%Qc.
Lemma wit_curve c : curve (trend 2 [qz (-5); qz (-2); c]) 0 = (c - qz 2)%Qc.
Proof.
  unfold curve. change (trend 2 [qz (-5); qz (-2); c] (0 + 1)) with c. rewrite trend_0.
  change (trend 2 [qz (-5); qz (-2); c] (0 - 1)) with (qz (-2)). replace (qz (-2)) with (- qz 2)%Qc by (apply Qc_is_canon; reflexivity). ring.
Qed.
Lemma wit_curve1 c : Qcabs (curve (trend 2 [qz (-5); qz (-2); c]) (-1)) = 1%Qc.
Proof. apply Qc_is_canon. reflexivity. Qed.
Lemma wit_set M x : (0 <= M)%Qc -> (path 2 1 x /\ satisfies (sd_system 2 1 M NoShape) x /\ firstn 2 x = firstn 2 wit_beta) <->
  (1 <= M)%Qc /\ exists c, x = [qz (-5); qz (-2); c] /\ (qz 2 - M <= c)%Qc /\ (c <= qz 2 + M)%Qc.
Proof.
  intros HM. split.
  - intros (P & S & F). apply (sat_sd_system 2 1 M NoShape x P ltac:(lia)) in S as [S _].
    destruct x as [|a [|b [|c [|? ?]]]]; try discriminate P. cbn in F. injection F as -> ->.
    split.
    + specialize (S (-1)%Z ltac:(lia)). rewrite wit_curve1 in S. exact S.
    + exists c. split; [reflexivity|]. specialize (S 0%Z ltac:(lia)). rewrite wit_curve in S. apply abs_le_iff in S. destruct S. split; qclra.
  - intros (H1 & c & -> & A & B). split; [reflexivity|]. split; [|reflexivity]. apply sat_sd_system; [reflexivity|lia|]. split; [|exact I].
    intros t Ht. assert (T : (t = -1 \/ t = 0)%Z) by lia. destruct T as [->| ->].
    + rewrite wit_curve1. exact H1.
    + rewrite wit_curve. apply abs_le_iff. split; qclra.
Qed.
Lemma wit_solves M : (0 <= M)%Qc -> solves (wit_lp M) 2 1 (sd_system 2 1 M NoShape) wit_beta [1%Qc].
Proof.
  intros HM c Hc p. unfold p. clear p. pose proof (fun x => feasible_iff 2 1 (sd_system 2 1 M NoShape) wit_beta [1%Qc] eq_refl c x) as FI.
  unfold lp_contract, wit_lp. cbn [lp_c]. destruct (Qcltb_spec M 1) as [h|h].
  { left. intros x Hx. apply FI, (wit_set M x HM) in Hx as [X _]. exact (Qclt_not_le _ _ h X). }
  apply Qcnot_lt_le in h. destruct Hc as [-> | ->].
  - change (nth 2 (zeros 2 ++ [1%Qc]) 0%Qc) with 1%Qc. destruct (Qceqb_spec 1 1) as [_|X]; [|congruence]. split.
    + exists [qz (-5); qz (-2); (qz 2 - M)%Qc]. split.
      * apply FI, (wit_set M _ HM). split; [exact h|]. eexists. split; [reflexivity|]. split; qclra.
      * change (zeros 2 ++ [1%Qc]) with [0%Qc; 0%Qc; 1%Qc]. rewrite !dot_cons, dot_nil_l. ring.
    + intros x Hx. apply FI, (wit_set M x HM) in Hx as (_ & c & -> & A & B). change (zeros 2 ++ [1%Qc]) with [0%Qc; 0%Qc; 1%Qc]. rewrite !dot_cons, dot_nil_l. qclra.
  - change (nth 2 (vopp (zeros 2 ++ [1%Qc])) 0%Qc) with (- (1))%Qc. destruct (Qceqb_spec (- (1)) 1) as [X|_]; [discriminate X|]. split.
    + exists [qz (-5); qz (-2); (qz 2 + M)%Qc]. split.
      * apply FI, (wit_set M _ HM). split; [exact h|]. eexists. split; [reflexivity|]. split; qclra.
      * rewrite dot_vopp. change (zeros 2 ++ [1%Qc]) with [0%Qc; 0%Qc; 1%Qc]. rewrite !dot_cons, dot_nil_l. ring.
    + intros x Hx. apply FI, (wit_set M x HM) in Hx as (_ & c & -> & A & B). rewrite dot_vopp. change (zeros 2 ++ [1%Qc]) with [0%Qc; 0%Qc; 1%Qc]. rewrite !dot_cons, dot_nil_l. qclra.
Qed.
Example C49_case : solves (wit_lp (qz 3)) 2 1 (sd_system 2 1 (qz 3) NoShape) wit_beta [1%Qc] /\
  (exists theta, identified 2 1 (fun v => in_sd 2 1 (qz 3) v /\ in_shape 2 1 NoShape v) wit_beta [1%Qc] theta) /\
  let r := identified_sd (wit_lp (qz 3)) 2 1 (qz 3) NoShape wit_beta [1%Qc] in fst r = qz (-5) /\ snd r = qz 1.
Proof.
  split; [apply wit_solves; intros X; discriminate X|]. split; [|split; apply Qc_is_canon; vm_compute; reflexivity].
  apply sd_nonempty; [reflexivity|lia|intros X; discriminate X|]. intros t Ht. assert (t = -1)%Z by lia. subst. vm_compute. intros X; discriminate X.
Qed.

(** * C50. The interval grows with M: a larger M gives an interval that contains the smaller one, provided the identified set for
    the smaller M is not empty. *)
Theorem C50_nested_in_M :
  forall lp1 lp2 pre post M1 M2 sh beta l, 1 <= pre -> length l = post -> (M1 <= M2)%Qc ->
  solves lp1 pre post (sd_system pre post M1 sh) beta l -> solves lp2 pre post (sd_system pre post M2 sh) beta l ->
  (exists theta, identified pre post (fun v => in_sd pre post M1 v /\ in_shape pre post sh v) beta l theta) ->
  let r1 := identified_sd lp1 pre post M1 sh beta l in let r2 := identified_sd lp2 pre post M2 sh beta l in
  (fst r2 <= fst r1 /\ fst r1 <= snd r1 /\ snd r1 <= snd r2)%Qc.
Proof.
  intros lp1 lp2 pre post M1 M2 sh beta l Hp Hl HM S1 S2 NE r1 r2.
  pose proof (sd_exact lp1 pre post M1 sh beta l Hp Hl S1 NE) as E1. fold r1 in E1.
  assert (Mono : forall th, identified pre post (fun v => in_sd pre post M1 v /\ in_shape pre post sh v) beta l th -> identified pre post (fun v => in_sd pre post M2 v /\ in_shape pre post sh v) beta l th).
  { intros th (v & P & [D Hs] & F & E). exists v. split; [exact P|]. split; [|split; assumption]. split; [|exact Hs]. intros t Ht. eapply Qcle_trans; [apply D, Ht|exact HM]. }
  destruct NE as [th0 H0]. pose proof (sd_exact lp2 pre post M2 sh beta l Hp Hl S2 (ex_intro _ th0 (Mono th0 H0))) as E2. fold r2 in E2.
  pose proof (proj2 (E1 th0) H0) as [A B]. assert (L : (fst r1 <= snd r1)%Qc) by (eapply Qcle_trans; eassumption).
  pose proof (proj2 (E2 _) (Mono _ (proj1 (E1 (fst r1)) (conj (Qcle_refl _) L)))) as [C _].
  pose proof (proj2 (E2 _) (Mono _ (proj1 (E1 (snd r1)) (conj L (Qcle_refl _))))) as [_ D].
  repeat split; assumption.
Qed.
Print Assumptions C50_nested_in_M.
(** for an M below the pre-treatment second differences nestedness fails: M = 1/2 reports {0}, M = 1 reports [-3, -1] *)
Theorem C50_nested_when_empty_refuted :
  exists linprog1 linprog2 M1 M2 beta l, (0 <= M1)%Qc /\ (M1 <= M2)%Qc /\
  solves linprog1 2 1 (sd_system 2 1 M1 NoShape) beta l /\ solves linprog2 2 1 (sd_system 2 1 M2 NoShape) beta l /\
  let r1 := identified_sd linprog1 2 1 M1 NoShape beta l in let r2 := identified_sd linprog2 2 1 M2 NoShape beta l in
  (snd r2 < fst r1)%Qc.
Proof.
  exists (wit_lp half), (wit_lp 1%Qc), half, 1%Qc, wit_beta, [1%Qc].
  split; [intros X; discriminate X|]. split; [intros X; discriminate X|].
  split; [apply wit_solves; intros X; discriminate X|]. split; [apply wit_solves; intros X; discriminate X|]. vm_compute. reflexivity.
Qed.
Print Assumptions C50_nested_when_empty_refuted.

(** * C51. Identified sets under relative magnitudes. [rm_solved]/[sdrm_solved]: the solver meets its contract on every program posed.
    When some largest pre-treatment step is not the earliest one, the reported interval is the identified set under Delta^RM(Mbar). *)
Theorem C51_rm_identified_set_partial :
  forall linprog pre post Mbar beta l, 2 <= pre -> length l = post -> path pre post beta -> (0 <= Mbar)%Qc ->
  rm_solved linprog pre post Mbar NoShape beta l ->
  (exists s, s <> (- Z.of_nat pre)%Z /\ largest_step pre beta s) ->
  exists lb ub, identified_rm linprog pre post Mbar NoShape beta l = Some (lb, ub) /\
  forall theta, (lb <= theta /\ theta <= ub)%Qc <-> identified pre post (in_rm pre post Mbar) beta l theta.
Proof. exact rm_exact_late. Qed.
Print Assumptions C51_rm_identified_set_partial.
(** otherwise it collapses to a point, for every Mbar *)
Theorem C51_rm_collapses :
  forall linprog pre post Mbar beta l, 2 <= pre -> length l = post -> path pre post beta -> (0 <= Mbar)%Qc ->
  rm_solved linprog pre post Mbar NoShape beta l ->
  (forall s, (- Z.of_nat pre < s < 0)%Z -> (Qcabs (step (trend pre beta) s) < Qcabs (step (trend pre beta) (- Z.of_nat pre)))%Qc) ->
  identified_rm linprog pre post Mbar NoShape beta l = Some (dot l (skipn pre beta), dot l (skipn pre beta)).
Proof. exact rm_collapse. Qed.
Print Assumptions C51_rm_collapses.

(** a solver for the two-pre-period, one-post-period examples: minimises +-x_3 over |x_3| <= bound when [ok] is feasible *)
Definition satb (sys : system) (v : vec) : bool := forallb (fun p => Qcleb (dot (fst p) v) (snd p)) (combine (fst sys) (snd sys)).
Definition rm_lp (ok : vec) (bound : Qc) (p : lp) : option Qc := if satb (lp_ub p) ok then Some (- bound)%Qc else None.
Lemma satb_true a d v : length a = length d -> satb (a, d) v = true <-> satisfies (a, d) v.
Proof.
  unfold satb, satisfies. cbn [fst snd]. revert d. induction a as [|r a IH]; intros [|x d] H; cbn in H; try discriminate.
  - split; [constructor|reflexivity].
  - cbn [combine forallb fst snd]. split.
    + intros K. apply andb_true_iff in K as [K1 K2]. constructor; [|apply IH; [lia|exact K2]]. destruct (Qcleb_spec (dot r v) x); [assumption|discriminate].
    + intros K. inversion K; subst. apply andb_true_iff. split; [|apply IH; [lia|assumption]]. destruct (Qcleb_spec (dot r v) x); [reflexivity|contradiction].
Qed.
(** steps a (earliest) and b (latest), coefficient vector [-(a+b); -b; 0] *)
Lemma rm_wit_steps (a b c : Qc) : let d := trend 2 [(- (a + b))%Qc; (- b)%Qc; c] in step d (-2) = a /\ step d (-1) = b /\ step d 0 = c.
Proof.
  cbv zeta. unfold step.
  change (trend 2 [(- (a + b))%Qc; (- b)%Qc; c] (-2 + 1)) with (- b)%Qc. change (trend 2 [(- (a + b))%Qc; (- b)%Qc; c] (-2)) with (- (a + b))%Qc.
  change (trend 2 [(- (a + b))%Qc; (- b)%Qc; c] (-1 + 1)) with 0%Qc. change (trend 2 [(- (a + b))%Qc; (- b)%Qc; c] (-1)) with (- b)%Qc.
  change (trend 2 [(- (a + b))%Qc; (- b)%Qc; c] (0 + 1)) with c. rewrite trend_0. repeat split; ring.
Qed.
Lemma rm_wit_poly (a b c mbar : Qc) pos : rm_poly 2 1 mbar (-1) pos [(- (a + b))%Qc; (- b)%Qc; c] <->
  ((Qcabs a <= sgn pos * b) /\ (Qcabs b <= sgn pos * b) /\ Qcabs c <= mbar * (sgn pos * b))%Qc.
Proof.
  destruct (rm_wit_steps a b c) as (E1 & E2 & E3). unfold rm_poly. rewrite E2. split.
  - intros [A B]. pose proof (A (-2)%Z ltac:(lia)) as A1. pose proof (A (-1)%Z ltac:(lia)) as A2. pose proof (B 0%Z ltac:(lia)) as B1.
    rewrite E1 in A1. rewrite E2 in A2. rewrite E3 in B1. tauto.
  - intros (A1 & A2 & B1). split; intros t Ht.
    + assert (T : (t = -2 \/ t = -1)%Z) by lia. destruct T as [->| ->]; [rewrite E1|rewrite E2]; assumption.
    + assert (t = 0)%Z by lia. subst. rewrite E3. assumption.
Qed.
Lemma rm_wit_solved (a b mbar : Qc) : (0 <= mbar)%Qc -> (0 <= b)%Qc ->
  rm_solved (rm_lp [(- (a + b))%Qc; (- b)%Qc; 0%Qc] (mbar * b)) 2 1 mbar NoShape [(- (a + b))%Qc; (- b)%Qc; 0%Qc] [1%Qc].
Proof.
  intros Hm Hb s pos sys Hs E c Hc p. unfold p; clear p. cbn [rm_s_values] in Hs. apply zrange_in in Hs. assert (s = -1)%Z by lia. subst s.
  set (beta := [(- (a + b))%Qc; (- b)%Qc; 0%Qc]) in *.
  pose proof (fun x => feasible_iff 2 1 sys beta [1%Qc] eq_refl c x) as FI.
  pose proof (fun x => rmc_set 2 1 mbar (-1) pos NoShape sys beta [1%Qc] ltac:(lia) eq_refl ltac:(lia) E x) as RC.
  assert (Pb : path 2 1 beta) by reflexivity.
  assert (SB : satb sys beta = true <-> rm_poly 2 1 mbar (-1) pos beta).
  { assert (Es := E). unfold rm_system in Es. destruct (rm_matrix 2 1 mbar (-1) pos) as [m|]; [|discriminate Es]. cbn in Es. injection Es as Es. subst sys.
    rewrite satb_true by (unfold zeros; rewrite repeat_length; reflexivity).
    split; intros K.
    - assert (K2 : path 2 1 beta /\ satisfies (m ++ [], zeros (length (m ++ []))) beta /\ firstn 2 beta = firstn 2 beta) by (repeat split; assumption).
      apply RC in K2. apply K2.
    - apply RC. repeat split; try reflexivity; apply K. }
  assert (FX : forall x, feasible (2 + 1) {| lp_c := c; lp_ub := sys; lp_eq := (eye_pre 2 1, firstn 2 beta) |} x <->
     satb sys beta = true /\ exists z, x = [(- (a + b))%Qc; (- b)%Qc; z] /\ (Qcabs z <= mbar * b)%Qc).
  { intros x. rewrite FI, RC, SB. unfold beta. rewrite rm_wit_poly. split.
    - intros (P & [K _] & F). destruct x as [|x1 [|x2 [|z [|? ?]]]]; try discriminate P. cbn in F. injection F as -> ->. apply rm_wit_poly in K as (K1 & K2 & K3).
      pose proof (sgn_abs _ _ K2) as E2. rewrite Qcabs_pos in E2 by assumption. rewrite E2 in *.
      split; [|exists z; split; [reflexivity|exact K3]]. split; [exact K1|]. split; [exact K2|].
      replace (Qcabs 0) with 0%Qc by (apply Qc_is_canon; reflexivity). qcnra.
    - intros ((K1 & K2 & K3) & z & -> & Hz). split; [reflexivity|]. split; [|reflexivity]. split; [|exact I].
      pose proof (sgn_abs _ _ K2) as E2. rewrite Qcabs_pos in E2 by assumption. apply rm_wit_poly. rewrite E2 in *. repeat split; assumption. }
  unfold lp_contract, rm_lp. cbn [lp_ub lp_c]. destruct (satb sys beta) eqn:Sb.
  - assert (M0 : (0 <= mbar * b)%Qc) by qcnra. split.
    + destruct Hc as [-> | ->]; [exists [(- (a + b))%Qc; (- b)%Qc; (- (mbar * b))%Qc]|exists [(- (a + b))%Qc; (- b)%Qc; (mbar * b)%Qc]].
      * split; [|change (zeros 2 ++ [1%Qc]) with [0%Qc; 0%Qc; 1%Qc]; rewrite !dot_cons, dot_nil_l; ring]. apply FX. split; [reflexivity|]. eexists. split; [reflexivity|]. apply abs_le_iff. split; qclra.
      * split; [|rewrite dot_vopp; change (zeros 2 ++ [1%Qc]) with [0%Qc; 0%Qc; 1%Qc]; rewrite !dot_cons, dot_nil_l; ring]. apply FX. split; [reflexivity|]. eexists. split; [reflexivity|]. apply abs_le_iff. split; qclra.
    + intros x Hx. apply FX in Hx as (_ & z & -> & Hz). apply abs_le_iff in Hz as [Z1 Z2].
      destruct Hc as [-> | ->]; rewrite ?dot_vopp; change (zeros 2 ++ [1%Qc]) with [0%Qc; 0%Qc; 1%Qc]; rewrite !dot_cons, dot_nil_l; qclra.
  - left. intros x Hx. apply FX in Hx as [X _]. discriminate X.
Qed.
(** earliest step 3, latest step 2, Mbar = 1: theta = 3 is in the identified set, the report is {0} *)
Theorem C51_rm_identified_set_refuted :
  exists linprog pre post Mbar beta l theta, 2 <= pre /\ length l = post /\ path pre post beta /\ (0 <= Mbar)%Qc /\
  rm_solved linprog pre post Mbar NoShape beta l /\ identified pre post (in_rm pre post Mbar) beta l theta /\
  exists lb ub, identified_rm linprog pre post Mbar NoShape beta l = Some (lb, ub) /\ ~ (lb <= theta /\ theta <= ub)%Qc.
Proof.
  set (beta := [(- (qz 3 + qz 2))%Qc; (- qz 2)%Qc; 0%Qc]).
  exists (rm_lp beta (1 * qz 2)), 2, 1, 1%Qc, beta, [1%Qc], (qz 3).
  split; [lia|]. split; [reflexivity|]. split; [reflexivity|]. split; [intros X; discriminate X|].
  assert (SV : rm_solved (rm_lp beta (1 * qz 2)) 2 1 1 NoShape beta [1%Qc]) by (apply rm_wit_solved; intros X; discriminate X).
  split; [exact SV|]. destruct (rm_wit_steps (qz 3) (qz 2) (qz (-3))) as (E1 & E2 & E3). split.
  - exists [(- (qz 3 + qz 2))%Qc; (- qz 2)%Qc; qz (-3)]. split; [reflexivity|]. split; [|split; [reflexivity|apply Qc_is_canon; vm_compute; reflexivity]].
    exists (-2)%Z. split; [split; [lia|]|].
    + intros s Hs. assert (T : (s = -2 \/ s = -1)%Z) by lia. rewrite E1. destruct T as [->| ->]; [rewrite E1|rewrite E2]; vm_compute; intros X; discriminate X.
    + intros t Ht. assert (t = 0)%Z by lia. subst. rewrite E1, E3. vm_compute. intros X; discriminate X.
  - exists 0%Qc, 0%Qc. split.
    + rewrite (rm_collapse (rm_lp beta (1 * qz 2)) 2 1 1%Qc beta [1%Qc] ltac:(lia) eq_refl eq_refl ltac:(intros X; discriminate X) SV).
      * do 2 f_equal; apply Qc_is_canon; vm_compute; reflexivity.
      * intros s Hs. assert (s = -1)%Z by lia. subst. vm_compute. reflexivity.
    + intros [_ X]. apply X. vm_compute. reflexivity.
Qed.
Print Assumptions C51_rm_identified_set_refuted.
(** a case that meets the hypotheses of the partial theorem: earliest step 1, latest 2 *)
Example C51_case : rm_solved (rm_lp [(- (1 + qz 2))%Qc; (- qz 2)%Qc; 0%Qc] (qz 3 * qz 2)) 2 1 (qz 3) NoShape [(- (1 + qz 2))%Qc; (- qz 2)%Qc; 0%Qc] [1%Qc] /\
  largest_step 2 [(- (1 + qz 2))%Qc; (- qz 2)%Qc; 0%Qc] (-1).
Proof.
  split; [apply rm_wit_solved; intros X; discriminate X|]. split; [lia|]. intros s Hs. assert (T : (s = -2 \/ s = -1)%Z) by lia.
  destruct T as [->| ->]; vm_compute; intros X; discriminate X.
Qed.

(** Second differences with relative magnitudes: the interval covers the identified set, and each end is in the identified set or is
    l'beta_post; the latter is always covered as soon as some pre-treatment second difference is not zero. *)
Theorem C51_sdrm_identified_set_partial :
  forall linprog pre post Mbar sh beta l, 2 <= pre -> length l = post ->
  sdrm_solved linprog pre post Mbar sh beta l ->
  let I := identified pre post (fun v => in_sdrm pre post Mbar v /\ in_shape pre post sh v) beta l in
  exists lb ub, identified_sdrm linprog pre post Mbar sh beta l = Some (lb, ub) /\ (lb <= ub)%Qc /\
  (forall theta, I theta -> (lb <= theta /\ theta <= ub)%Qc) /\
  (I lb \/ lb = dot l (skipn pre beta)) /\ (I ub \/ ub = dot l (skipn pre beta)) /\
  ((exists t, (- Z.of_nat pre < t < 0)%Z /\ curve (trend pre beta) t <> 0%Qc) ->
     (lb <= dot l (skipn pre beta) /\ dot l (skipn pre beta) <= ub)%Qc) /\
  (path pre post beta -> (0 <= Mbar)%Qc -> sh = NoShape ->
    (forall t, (- Z.of_nat pre < t < 0)%Z -> curve (trend pre beta) t = 0%Qc) -> I lb /\ I ub).
Proof. exact sdrm_hull. Qed.
Print Assumptions C51_sdrm_identified_set_partial.
(** two pre-periods with second difference -1 and slope 2, Mbar = 0: the identified set is the single point -2 of the linear
    extrapolation, the report is [-2, 0] *)
Definition sdrm_lp (p : lp) : option Qc :=
  if satb (lp_ub p) [qz (-5); qz (-2); qz 2] then (if Qceqb (nth 2 (lp_c p) 0%Qc) 1 then Some (qz 2) else Some (- qz 2)%Qc) else None.
Lemma sdrm_wit_poly c pos : sdrm_poly 2 1 0%Qc 0 pos [qz (-5); qz (-2); c] <-> pos = false /\ c = qz 2.
Proof.
  assert (C1 : curve (trend 2 [qz (-5); qz (-2); c]) (-1) = (- (1))%Qc) by (apply Qc_is_canon; reflexivity).
  unfold sdrm_poly. change (0 - 1)%Z with (-1)%Z. rewrite C1. split.
  - intros [A B]. specialize (A (-1)%Z ltac:(lia)). specialize (B 0%Z ltac:(lia)). rewrite C1 in A. rewrite wit_curve in B. destruct pos.
    + exfalso. apply A. vm_compute. reflexivity.
    + split; [reflexivity|]. apply abs_le_iff in B as [B1 B2]. cbn [sgn] in *. apply Qcle_antisym; qclra.
  - intros [-> ->]. cbn [sgn]. split; intros t Ht.
    + assert (t = -1)%Z by lia. subst. rewrite C1. vm_compute. intros X; discriminate X.
    + assert (t = 0)%Z by lia. subst. rewrite wit_curve. replace (qz 2 - qz 2)%Qc with 0%Qc by ring. vm_compute. intros X; discriminate X.
Qed.
Lemma sdrm_wit_solved : sdrm_solved sdrm_lp 2 1 0%Qc NoShape wit_beta [1%Qc].
Proof.
  intros s pos Hs c Hc p. unfold p; clear p. unfold sdrm_s_values in Hs. apply zrange_in in Hs. assert (s = 0)%Z by lia. subst s.
  pose proof (fun x => feasible_iff 2 1 (sdrm_system 2 1 0%Qc 0 pos NoShape) wit_beta [1%Qc] eq_refl c x) as FI.
  pose proof (fun x => sdc_set 2 1 0%Qc 0 pos NoShape wit_beta [1%Qc] ltac:(lia) eq_refl ltac:(lia) x) as RC.
  assert (FX : forall x, feasible (2 + 1) {| lp_c := c; lp_ub := sdrm_system 2 1 0%Qc 0 pos NoShape; lp_eq := (eye_pre 2 1, firstn 2 wit_beta) |} x <-> pos = false /\ x = [qz (-5); qz (-2); qz 2]).
  { intros x. rewrite FI, RC. split.
    - intros (P & [K _] & F). destruct x as [|x1 [|x2 [|z [|? ?]]]]; try discriminate P. cbn in F. injection F as -> ->. apply sdrm_wit_poly in K as [-> ->]. split; reflexivity.
    - intros [-> ->]. split; [reflexivity|]. split; [|reflexivity]. split; [apply sdrm_wit_poly; split; reflexivity|exact I]. }
  assert (SB : satb (sdrm_system 2 1 0%Qc 0 pos NoShape) [qz (-5); qz (-2); qz 2] = negb pos) by (destruct pos; vm_compute; reflexivity).
  unfold lp_contract, sdrm_lp. cbn [lp_ub lp_c]. rewrite SB. destruct pos; cbn [negb].
  - left. intros x Hx. apply FX in Hx as [X _]. discriminate X.
  - destruct Hc as [-> | ->].
    + change (nth 2 (zeros 2 ++ [1%Qc]) 0%Qc) with 1%Qc. destruct (Qceqb_spec 1 1) as [_|X]; [|congruence].
      assert (V : dot (zeros 2 ++ [1%Qc]) [qz (-5); qz (-2); qz 2] = qz 2) by (apply Qc_is_canon; reflexivity). split.
      * eexists. split; [apply FX; split; reflexivity|exact V].
      * intros x Hx. apply FX in Hx as [_ ->]. rewrite V. apply Qcle_refl.
    + change (nth 2 (vopp (zeros 2 ++ [1%Qc])) 0%Qc) with (- (1))%Qc. destruct (Qceqb_spec (- (1)) 1) as [X|_]; [discriminate X|].
      assert (V : dot (vopp (zeros 2 ++ [1%Qc])) [qz (-5); qz (-2); qz 2] = (- qz 2)%Qc) by (apply Qc_is_canon; reflexivity). split.
      * eexists. split; [apply FX; split; reflexivity|exact V].
      * intros x Hx. apply FX in Hx as [_ ->]. rewrite V. apply Qcle_refl.
Qed.
Theorem C51_sdrm_exact_refuted :
  exists linprog pre post Mbar beta l theta lb ub, 2 <= pre /\ length l = post /\ path pre post beta /\ (0 <= Mbar)%Qc /\
  sdrm_solved linprog pre post Mbar NoShape beta l /\ identified_sdrm linprog pre post Mbar NoShape beta l = Some (lb, ub) /\
  (lb < theta /\ theta < ub)%Qc /\ (forall th, identified pre post (in_sdrm pre post Mbar) beta l th -> th = lb).
Proof.
  destruct (identified_sdrm sdrm_lp 2 1 0%Qc NoShape wit_beta [1%Qc]) as [[lb ub]|] eqn:E; [|vm_compute in E; discriminate E].
  assert (EV : lb = qz (-2) /\ ub = qz 0).
  { assert (V : match identified_sdrm sdrm_lp 2 1 0%Qc NoShape wit_beta [1%Qc] with Some (a, b) => Qceqb a (qz (-2)) && Qceqb b (qz 0) | None => false end = true) by (vm_compute; reflexivity).
    rewrite E in V. apply andb_true_iff in V as [V1 V2]. destruct (Qceqb_spec lb (qz (-2))); [|discriminate V1]. destruct (Qceqb_spec ub (qz 0)); [|discriminate V2]. auto. }
  destruct EV as [-> ->]. exists sdrm_lp, 2, 1, 0%Qc, wit_beta, [1%Qc], (qz (-1)), (qz (-2)), (qz 0).
  split; [lia|]. split; [reflexivity|]. split; [reflexivity|]. split; [apply Qcle_refl|]. split; [exact sdrm_wit_solved|]. split; [exact E|].
  split; [split; vm_compute; reflexivity|]. intros th (x & P & D & F & ->).
  apply sdrm_union in D as (s & pos & Hs & K). assert (s = 0)%Z by lia. subst s.
  destruct x as [|x1 [|x2 [|z [|? ?]]]]; try discriminate P. cbn in F. injection F as -> ->. apply sdrm_wit_poly in K as [_ ->]. apply Qc_is_canon; vm_compute; reflexivity.
Qed.
Print Assumptions C51_sdrm_exact_refuted.

(** * C52. The constraints used for the lower bound on M. With at least three pre-treatment coefficients the system at a given M holds
    exactly when M >= 0 and all second differences among the coefficients themselves are at most M. *)
Theorem C52_lower_bound_system_partial :
  forall n A d M v, 3 <= n -> length v = n -> pre_second_diff_system n = Some (A, d) ->
  satisfies (A, vscale M d) v <-> (0 <= M)%Qc /\ forall t, (- Z.of_nat n < t < - 1)%Z -> (Qcabs (curve (trend n v) t) <= M)%Qc.
Proof. exact pre_system_exact. Qed.
Print Assumptions C52_lower_bound_system_partial.
(** the second difference at period -1, between the last two coefficients and the reference period, is not among them: a vector outside
    Delta^SD(M), already by its pre-treatment part, satisfies the system *)
Theorem C52_lower_bound_system_refuted :
  exists n A d M v, 3 <= n /\ path n 0 v /\ pre_second_diff_system n = Some (A, d) /\ satisfies (A, vscale M d) v /\ ~ in_sd n 0 M v.
Proof.
  destruct (pre_second_diff_system 3) as [[A d]|] eqn:E; [|discriminate E].
  exists 3, A, d, 0%Qc, [qz 4; qz 3; qz 2]. split; [lia|]. split; [reflexivity|]. split; [exact E|]. split.
  - apply (pre_system_exact 3 A d 0%Qc [qz 4; qz 3; qz 2] ltac:(lia) eq_refl E). split; [apply Qcle_refl|].
    intros t Ht. assert (t = -2)%Z by lia. subst. vm_compute. intros X; discriminate X.
  - intros H. specialize (H (-1)%Z ltac:(lia)). apply H. vm_compute. reflexivity.
Qed.
Print Assumptions C52_lower_bound_system_refuted.
(** with exactly two coefficients it is their first difference that is bounded *)
Theorem C52_two_periods_refuted :
  forall A d M v, length v = 2 -> pre_second_diff_system 2 = Some (A, d) ->
  satisfies (A, vscale M d) v <-> (Qcabs (nth 0 v 0 - nth 1 v 0) <= M)%Qc.
Proof.
  intros A d M v L E. unfold pre_second_diff_system in E. cbn [Nat.ltb Nat.leb] in E. remember (pre_second_diff_rows 2) as R eqn:ER.
  injection E as <- <-. rewrite vscale_ones, sat_pm, ER. clear R ER.
  assert (D : dot (put (zeros 2) 0 [1%Qc; (-(1))%Qc]) v = (nth 0 v 0 - nth 1 v 0)%Qc) by (rewrite dot_put2 by lia; cbn [Nat.add]; ring).
  change (pre_second_diff_rows 2) with [put (zeros 2) 0 [1%Qc; (-(1))%Qc]]. split.
  - intros K. rewrite <- D. apply K. left; reflexivity.
  - intros K row [<-|[]]. rewrite D. exact K.
Qed.
Print Assumptions C52_two_periods_refuted.
