(** Proofs for C116: the objective functions of calculate_pscore_ipt. *)
From Coq Require Import Qcabs.
From Verif Require Import Base ListLib ReduceModel ReduceProofs2 Calc DrdidModel DrdidSpec DrdidProofs DrdidProofs2 DrdidProofs4 DrdidProofs5 ImpModel ImpSpec ImpProofs ImpProofs2 ImpProofs3.

(** ** calculus *)
Lemma near0_pos p : near0 p -> exists s, 0 < s /\ p s /\ p (- s).
Proof.
  intros [r [Hr Hp]]. exists r. split; [exact Hr|]. assert (A : Qcabs r = r) by (apply Qcabs_pos, Qclt_le_weak, Hr).
  split; apply Hp; [rewrite A; apply Qcle_refl|rewrite Qcabs_opp, A; apply Qcle_refl].
Qed.
Lemma D_min f a : derivative_at_0 f a -> near0 (fun e => f 0 <= f e) -> a = 0.
Proof.
  intros D M. apply deriv_elim in D. destruct D as [rho [B E]].
  assert (Q : forall e q, f e = f 0 + e * a + e * e * q -> f e - f 0 = e * (a + e * q)) by (intros e q ->; ring).
  destruct (Qc_dec a 0) as [[L|L]|Z0]; [exfalso|exfalso|exact Z0].
  - assert (N := lip_lt (fun e => a + e * rho e) rho 0 B). cbn beta in N.
    assert (H0 : near0 (fun e => a + e * rho e = a + 0 * rho 0 + e * rho e)) by (apply near0_all; intros; ring).
    assert (H1 : a + 0 * rho 0 < 0) by (replace (a + 0 * rho 0) with a by ring; exact L). specialize (N H0 H1).
    destruct (near0_pos _ (near0_and _ _ N (near0_and _ _ E M))) as [s [Hs [[N1 [E1 M1]] _]]]. apply Q in E1.
    assert (X : f s - f 0 < 0) by (rewrite E1; qcnra). revert M1. apply Qclt_not_le. qclra.
  - assert (N := lip_lt (fun e => - a + e * (- rho e)) (fun e => - rho e) 0 (bnd_opp _ B)). cbn beta in N.
    assert (H0 : near0 (fun e => - a + e * - rho e = - a + 0 * - rho 0 + e * - rho e)) by (apply near0_all; intros; ring).
    assert (H1 : - a + 0 * - rho 0 < 0) by (replace (- a + 0 * - rho 0) with (- a) by ring; qclra). specialize (N H0 H1).
    destruct (near0_pos _ (near0_and _ _ N (near0_and _ _ E M))) as [s [Hs [_ [N1 [E1 M1]]]]]. apply Q in E1.
    assert (X : f (- s) - f 0 < 0) by (rewrite E1; qcnra). revert M1. apply Qclt_not_le. qclra.
Qed.
Lemma D_piece f f1 f2 a : derivative_at_0 f1 a -> derivative_at_0 f2 a -> f1 0 = f2 0 -> near0 (fun e => f e = f1 e \/ f e = f2 e) -> derivative_at_0 f a.
Proof.
  intros D1 D2 E0 H. apply deriv_elim in D1. apply deriv_elim in D2. destruct D1 as [r1 [B1 E1]], D2 as [r2 [B2 E2]].
  destruct B1 as [b1 B1], B2 as [b2 B2].
  assert (F0 : f 0 = f1 0) by (destruct (near0_at0 _ H) as [F|F]; rewrite F; [|rewrite E0]; reflexivity).
  apply (deriv_intro f a (fun e => if Qceqb (f e) (f1 e) then r1 e else r2 e)).
  - exists (Qcabs b1 + Qcabs b2). eapply near0_impl; [|apply (near0_and _ _ B1 B2)]. cbn beta. intros e [L1 L2].
    assert (P1 := Qcabs_nonneg b1). assert (P2 := Qcabs_nonneg b2). assert (Q1 := Qcle_Qcabs b1). assert (Q2 := Qcle_Qcabs b2).
    destruct (Qceqb (f e) (f1 e)); [apply (Qcle_trans _ _ _ L1)|apply (Qcle_trans _ _ _ L2)]; qclra.
  - eapply near0_impl; [|apply (near0_and _ _ H (near0_and _ _ E1 E2))]. cbn beta. intros e [F [G1 G2]].
    destruct (Qceqb_spec (f e) (f1 e)) as [X|X].
    + rewrite X, F0. exact G1.
    + destruct F as [F|F]; [contradiction|]. rewrite F, F0, E0. exact G2.
Qed.
(** ** indices along a line *)
Lemma dotk_along k x gamma v t : dotk k x (along k gamma v t) = dotk k x gamma + t * dotk k x v.
Proof.
  unfold dotk. rewrite <- sumf_mul_l, <- sumf_add. apply sumf_ext. intros j Hj. apply in_seq in Hj.
  change (along k gamma v t) with (vec_of k (fun j => nth j gamma 0 + t * nth j v 0)). rewrite nth_vec_of by lia. ring.
Qed.
Lemma D_index k x gamma v : derivative_at_0 (fun t => dotk k x (along k gamma v t)) (dotk k x v).
Proof.
  apply (D_ext (fun t => dotk k x gamma + t * dotk k x v)); [apply near0_all; intros; symmetry; apply dotk_along|].
  eapply D_eq; [|apply (D_add (fun _ => dotk k x gamma) (fun t => t * dotk k x v) 0 (1 * dotk k x v + 0 * 0)); [apply D_const|apply (D_mul (fun t => t) (fun _ => dotk k x v)); [apply D_id|apply D_const]]]. ring.
Qed.
Lemma index0 k x gamma v : dotk k x (along k gamma v 0) = dotk k x gamma.
Proof. rewrite dotk_along. ring. Qed.
Lemma clip_id z : - qz 500 <= z -> z <= qz 500 -> clip500 z = z.
Proof.
  intros A B. unfold clip500, clip. change q500 with (qz 500). destruct (Qcltb_spec z (- qz 500)) as [L|_]; [exfalso; revert L; apply Qcle_not_lt; exact A|].
  destruct (Qcltb_spec (qz 500) z) as [L|_]; [exfalso; revert L; apply Qcle_not_lt; exact B|]. reflexivity.
Qed.
Lemma D_exp ex k x gamma v : - qz 500 < dotk k x gamma -> dotk k x gamma < qz 500 -> exp_like_at ex (dotk k x gamma) ->
  derivative_at_0 (fun t => ex (clip500 (dotk k x (along k gamma v t)))) (ex (clip500 (dotk k x gamma)) * dotk k x v).
Proof.
  intros A B [_ [D _]]. assert (DI := D_index k x gamma v).
  assert (A' := A). assert (B' := B). rewrite <- (index0 k x gamma v) in A', B'.
  assert (N1 := D_gt _ _ _ DI A'). assert (N2 := D_lt _ _ _ DI B').
  apply (D_ext (fun t => ex (dotk k x (along k gamma v t)))).
  - eapply near0_impl; [|apply (near0_and _ _ N1 N2)]. cbn beta. intros e [L1 L2]. rewrite clip_id by (apply Qclt_le_weak; assumption). reflexivity.
  - rewrite clip_id by (apply Qclt_le_weak; assumption). apply (D_comp ex (fun t => dotk k x (along k gamma v t))); [|exact DI].
    cbn beta. rewrite index0. exact D.
Qed.
Lemma grad_dir k (f : punit -> Qc) v l : sumf (fun u => f u * dotk k (p_x u) v) l = sumf (fun j => sumf (fun u => f u * x_at u j) l * nth j v 0) (seq 0 k).
Proof.
  rewrite (sumf_ext (fun j => _ * nth j v 0) (fun j => sumf (fun u => f u * x_at u j * nth j v 0) l)) by (intros; symmetry; apply sumf_mul_r).
  rewrite <- sumf_swap. apply sumf_ext. intros u _. unfold dotk. rewrite <- sumf_mul_l. apply sumf_ext. intros j _. unfold x_at. ring.
Qed.
(** ** the calibration objective *)
Notation Ex_ok ex k l gamma := (forall u, In u l -> p_d u = false -> exp_like_at ex (dotk k (p_x u) gamma)).
Lemma cal_gradient ex k l gamma v : moderate k l gamma -> Ex_ok ex k l gamma ->
  derivative_at_0 (fun t => cal_value ex k l (along k gamma v t)) (sumf (fun j => cal_grad ex k l gamma j * nth j v 0) (seq 0 k)).
Proof.
  intros M X. unfold cal_value.
  eapply D_eq; [|apply D_opp; unfold mean, Qcdiv; apply (D_mul (fun t => sumf _ l) (fun _ => / qn (length l))); [|apply D_const];
    apply (D_sum l (fun u t => (if p_d u then dotk k (p_x u) (along k gamma v t) else - ex (clip500 (dotk k (p_x u) (along k gamma v t)))) * p_w u)
      (fun u => (if p_d u then 1 else - ex (clip500 (dotk k (p_x u) gamma))) * p_w u * dotk k (p_x u) v))].
  - cbn beta. rewrite (grad_dir k (fun u => (if p_d u then 1 else - ex (clip500 (dotk k (p_x u) gamma))) * p_w u)).
    unfold cal_grad, mean, Qcdiv. rewrite (sumf_ext (fun j => - (_ * _) * nth j v 0) (fun j => sumf (fun u => (if p_d u then 1 else - ex (clip500 (dotk k (p_x u) gamma))) * p_w u * x_at u j) l * nth j v 0 * (- / qn (length l)))) by (intros; ring).
    rewrite sumf_mul_r. ring.
  - intros u Hu. destruct (p_d u) eqn:D.
    + eapply D_eq; [|apply (D_mul (fun t => dotk k (p_x u) (along k gamma v t)) (fun _ => p_w u)); [apply D_index|apply D_const]]. ring.
    + destruct (M u Hu) as [A B]. eapply D_eq; [|apply (D_mul (fun t => - ex (clip500 (dotk k (p_x u) (along k gamma v t)))) (fun _ => p_w u)); [apply D_opp, D_exp; [exact A|exact B|apply X; assumption]|apply D_const]]. ring.
Qed.
Lemma cal_hessian ex k l gamma v i : (i < k)%nat -> moderate k l gamma -> Ex_ok ex k l gamma ->
  derivative_at_0 (fun t => cal_grad ex k l (along k gamma v t) i) (sumf (fun j => cal_hess ex k l gamma i j * nth j v 0) (seq 0 k)).
Proof.
  intros Hi M X. unfold cal_grad.
  eapply D_eq; [|apply D_opp; unfold mean, Qcdiv; apply (D_mul (fun t => sumf _ l) (fun _ => / qn (length l))); [|apply D_const];
    apply (D_sum l (fun u t => (if p_d u then 1 else - ex (clip500 (dotk k (p_x u) (along k gamma v t)))) * p_w u * x_at u i)
      (fun u => x_at u i * (if p_d u then 0 else - ex (clip500 (dotk k (p_x u) gamma))) * p_w u * dotk k (p_x u) v))].
  - cbn beta. rewrite (grad_dir k (fun u => x_at u i * (if p_d u then 0 else - ex (clip500 (dotk k (p_x u) gamma))) * p_w u)).
    unfold cal_hess, Qcdiv. rewrite (sumf_ext (fun j => - (sumf _ _ * _) * nth j v 0) (fun j => sumf (fun u => x_at u i * (if p_d u then 0 else - ex (clip500 (dotk k (p_x u) gamma))) * p_w u * x_at u j) l * nth j v 0 * (- / qn (length l)))).
    + rewrite sumf_mul_r. ring.
    + intros j _. rewrite (sumf_ext (fun u => x_at u i * (x_at u j * _)) (fun u => x_at u i * (if p_d u then 0 else - ex (clip500 (dotk k (p_x u) gamma))) * p_w u * x_at u j)) by (intros; ring). ring.
  - intros u Hu. destruct (p_d u) eqn:D.
    + eapply D_eq; [|apply D_const]. ring.
    + destruct (M u Hu) as [A B]. eapply D_eq; [|apply (D_mul (fun t => - ex (clip500 (dotk k (p_x u) (along k gamma v t))) * p_w u) (fun _ => x_at u i)); [|apply D_const];
        apply (D_mul (fun t => - ex (clip500 (dotk k (p_x u) (along k gamma v t)))) (fun _ => p_w u)); [apply D_opp, D_exp; [exact A|exact B|apply X; assumption]|apply D_const]]. ring.
Qed.
(** the stationary equations are the calibration equations *)
Lemma cal_grad_value ex k l gamma j : moderate k l gamma ->
  cal_grad ex k l gamma j = - ((sumf (fun u => p_w u * x_at u j) (filter p_d l) - sumf (fun u => p_w u * ex (dotk k (p_x u) gamma) * x_at u j) (filter (fun u => negb (p_d u)) l)) / qn (length l)).
Proof.
  intros M. unfold cal_grad, mean. f_equal. f_equal. rewrite !sumf_filter, <- sumf_sub. apply sumf_ext. intros u Hu. destruct (M u Hu) as [A B]. rewrite clip_id by (apply Qclt_le_weak; assumption).
  destruct (p_d u); cbn [ind negb]; ring.
Qed.
Lemma cal_stationary ex k l gamma : moderate k l gamma -> l <> [] ->
  (forall j, (j < k)%nat -> cal_grad ex k l gamma j = 0) <-> ex_calibrated ex k l gamma.
Proof.
  intros M Hl. assert (Hn : qn (length l) <> 0) by (apply qn_neq0; destruct l; [congruence|cbn; lia]). split; intros H j Hj; specialize (H j Hj).
  - rewrite cal_grad_value in H by exact M. apply Qc_sub_0_eq. set (s := _ - _) in *. transitivity (- (- (s / qn (length l))) * qn (length l)); [field; exact Hn|]. rewrite H. ring.
  - rewrite cal_grad_value by exact M. rewrite H. unfold Qcdiv. ring.
Qed.
Lemma e_dir k j : (j < k)%nat -> forall f : nat -> Qc, sumf (fun i => f i * nth i (map (fun m => ind (m =? j)%nat) (seq 0 k)) 0) (seq 0 k) = f j.
Proof.
  intros Hj f. rewrite (sumf_ext _ (fun i => ind (j =? i)%nat * f i)).
  - apply DrdidProofs7.ind_eqb_sum. exact Hj.
  - intros i Hi. apply in_seq in Hi. change (map (fun m => ind (m =? j)%nat) (seq 0 k)) with (vec_of k (fun m => ind (m =? j)%nat)). rewrite nth_vec_of by lia. rewrite Nat.eqb_sym. ring.
Qed.
Lemma cal_minimum ex k l gamma : moderate k l gamma -> Ex_ok ex k l gamma -> l <> [] ->
  (forall v, near0 (fun t => cal_value ex k l gamma <= cal_value ex k l (along k gamma v t))) -> ex_calibrated ex k l gamma.
Proof.
  intros M X Hl H. apply cal_stationary; [exact M|exact Hl|]. intros j Hj. rewrite <- (e_dir k j Hj (fun i => cal_grad ex k l gamma i)).
  apply (D_min _ _ (cal_gradient ex k l gamma _ M X)). eapply near0_impl; [|apply H]. cbn beta. intros e He.
  replace (cal_value ex k l (along k gamma _ 0)) with (cal_value ex k l gamma); [exact He|].
  unfold cal_value. f_equal. apply mean_ext. intros u _. rewrite index0. reflexivity.
Qed.
(** convexity: calibrated coefficients minimise the objective *)
Lemma cal_value_le ex k l g g' : (forall u, In u l -> 0 <= p_w u) -> moderate k l g -> moderate k l g' -> Ex_ok ex k l g -> ex_calibrated ex k l g -> l <> [] ->
  cal_value ex k l g <= cal_value ex k l g'.
Proof.
  intros W M M' X C Hl. assert (Hn : 0 < / qn (length l)).
  { assert (P : 0 < qn (length l)) by (apply qn_pos; destruct l; [congruence|cbn; lia]). apply Qcinv_pos. exact P. }
  assert (S1 : sumf (fun u => (if p_d u then dotk k (p_x u) g' else - ex (clip500 (dotk k (p_x u) g'))) * p_w u) l <= sumf (fun u => (if p_d u then dotk k (p_x u) g else - ex (clip500 (dotk k (p_x u) g))) * p_w u) l).
  { set (v := vec_of k (fun j => nth j g' 0 - nth j g 0)).
    assert (Z0 : sumf (fun u => (if p_d u then 1 else - ex (dotk k (p_x u) g)) * p_w u * dotk k (p_x u) v) l = 0).
    { rewrite grad_dir. apply sumf_zero. intros j Hj. apply in_seq in Hj. specialize (C j ltac:(lia)). rewrite !sumf_filter in C.
      replace (sumf _ l) with 0; [ring|]. symmetry. rewrite (sumf_ext _ (fun u => ind (p_d u) * (p_w u * x_at u j) - ind (negb (p_d u)) * (p_w u * ex (dotk k (p_x u) g) * x_at u j))) by (intros u _; destruct (p_d u); cbn [ind negb]; ring).
      rewrite sumf_sub. apply Qc_eq_sub_0. exact C. }
    rewrite <- (Qcplus_0_r (sumf (fun u => (if p_d u then dotk k (p_x u) g else _) * p_w u) l)), <- Z0, <- sumf_add.
    apply sumf_le. intros u Hu. unfold v. rewrite dotk_sub_r. destruct (M u Hu) as [A B], (M' u Hu) as [A' B']. rewrite !clip_id by (apply Qclt_le_weak; assumption).
    destruct (p_d u) eqn:D; [apply Qc_eq_le_; ring|]. destruct (X u Hu D) as [_ [_ SL]]. specialize (SL (dotk k (p_x u) g')). assert (Wu := W u Hu).
    set (z := dotk k (p_x u) g) in *. set (z' := dotk k (p_x u) g') in *.
    assert (P : 0 <= p_w u * (ex z' - (ex z + ex z * (z' - z)))) by (apply Qcmult_nonneg; [exact Wu|qclra]).
    apply (Qcle_trans _ (- ex z' * p_w u + p_w u * (ex z' - (ex z + ex z * (z' - z))))); [|apply Qc_eq_le_; ring].
    rewrite <- (Qcplus_0_r (- ex z' * p_w u)) at 1. apply Qcplus_le_compat; [apply Qcle_refl|exact P]. }
  unfold cal_value, mean, Qcdiv. apply Qcopp_le_compat. rewrite (Qcmult_comm (sumf _ l) (/ _)). rewrite (Qcmult_comm (sumf (fun u => (if p_d u then dotk k (p_x u) g else _) * p_w u) l) (/ _)).
  apply DrdidProofs6.Qcmult_le_l; [apply Qclt_le_weak; exact Hn|exact S1].
Qed.
(** ** the fallback objective *)
Lemma phi_deriv ex lg nm1 k x gamma v : let z := dotk k x gamma in - qz 500 < lg -> lg < qz 500 -> ex lg = nm1 -> - qz 500 < z -> (z <= lg -> exp_like_at ex z) ->
  derivative_at_0 (fun t => ipt_phi ex lg nm1 (dotk k x (along k gamma v t))) (ipt_phi1 ex lg nm1 z * dotk k x v).
Proof.
  intros z L1 L2 EL A X. assert (DI := D_index k x gamma v).
  set (I := fun t => dotk k x (along k gamma v t)) in *. assert (I0 : I 0 = z) by apply index0.
  set (Q := fun y => - nm1 * (1 - lg + Q2Qc (1 # 2) * (lg * lg)) + (- (nm1 + 1) + nm1 * lg) * y + Q2Qc (1 # 2) * (- nm1) * (y * y)).
  assert (half2 : Q2Qc (1 # 2) + Q2Qc (1 # 2) = 1) by (apply Qc_is_canon; reflexivity).
  assert (DQ : derivative_at_0 (fun t => Q (I t)) ((- (nm1 + 1) + nm1 * lg + (- nm1) * z) * dotk k x v)).
  { unfold Q. eapply D_eq; [|apply D_add; [apply D_add; [apply D_const|apply D_scale; exact DI]|apply D_scale; apply D_mul; exact DI]].
    rewrite I0. transitivity ((- (nm1 + 1) + nm1 * lg) * dotk k x v + (Q2Qc (1 # 2) + Q2Qc (1 # 2)) * (- nm1) * (dotk k x v * z)); [ring|]. rewrite half2. ring. }
  assert (DE : z <= lg -> derivative_at_0 (fun t => - I t - ex (clip500 (I t))) ((- (1) - ex (clip500 z)) * dotk k x v)).
  { intros L. assert (B : z < qz 500) by (apply (Qcle_lt_trans _ lg); assumption).
    eapply D_eq; [|apply D_sub; [apply D_opp; exact DI|apply D_exp; [exact A|exact B|apply X; exact L]]]. fold z. ring. }
  change (derivative_at_0 (fun t => ipt_phi ex lg nm1 (I t)) (ipt_phi1 ex lg nm1 z * dotk k x v)).
  destruct (Qc_dec z lg) as [[L|L]|L].
  - assert (N := D_lt _ _ lg DI ltac:(rewrite I0; exact L)).
    apply (D_ext (fun t => - I t - ex (clip500 (I t)))).
    + eapply near0_impl; [|exact N]. cbn beta. intros e He. unfold ipt_phi. destruct (Qcltb_spec (I e) lg) as [_|C]; [reflexivity|contradiction].
    + unfold ipt_phi1. destruct (Qcltb_spec z lg) as [_|C]; [|contradiction]. apply DE. apply Qclt_le_weak. exact L.
  - assert (N := D_gt _ _ lg DI ltac:(rewrite I0; exact L)).
    apply (D_ext (fun t => Q (I t))).
    + eapply near0_impl; [|exact N]. cbn beta. intros e He. unfold ipt_phi. destruct (Qcltb_spec (I e) lg) as [C|_]; [exfalso; revert C; apply Qcle_not_lt, Qclt_le_weak; exact He|reflexivity].
    + unfold ipt_phi1. destruct (Qcltb_spec z lg) as [C|_]; [exfalso; revert C; apply Qcle_not_lt, Qclt_le_weak; exact L|]. exact DQ.
  - assert (EZ : ex (clip500 z) = nm1) by (rewrite L, clip_id by (apply Qclt_le_weak; assumption); exact EL).
    assert (DE' := DE (Qc_eq_le_ _ _ L)). rewrite EZ in DE'.
    assert (SL : - (nm1 + 1) + nm1 * lg + - nm1 * z = - (1) - nm1) by (rewrite L; ring).
    assert (P1 : ipt_phi1 ex lg nm1 z = - (1) - nm1).
    { unfold ipt_phi1. destruct (Qcltb_spec z lg) as [C|_]; [exfalso; revert C; rewrite L; apply Qcle_not_lt, Qcle_refl|]. exact SL. }
    rewrite P1. rewrite SL in DQ. apply (D_piece _ _ _ _ DE' DQ).
    + rewrite I0, EZ, L. unfold Q. transitivity (- lg - nm1 + ((Q2Qc (1#2) + Q2Qc (1#2)) - 1) * (nm1 * (lg * lg)) * (- (1))); [rewrite half2; ring|]. ring.
    + apply near0_all. intros e. unfold ipt_phi. destruct (Qcltb (I e) lg); [left|right]; reflexivity.
Qed.
Lemma ipt_gradient ex lg k l gamma v : - qz 500 < lg -> lg < qz 500 -> ex lg = qn (length l) - 1 ->
  (forall u, In u l -> p_d u = false -> - qz 500 < dotk k (p_x u) gamma /\ (dotk k (p_x u) gamma <= lg -> exp_like_at ex (dotk k (p_x u) gamma))) ->
  derivative_at_0 (fun t => ipt_value ex lg k l (along k gamma v t)) (sumf (fun j => ipt_grad ex lg k l gamma j * nth j v 0) (seq 0 k)).
Proof.
  intros L1 L2 EL X. unfold ipt_value. cbn zeta. set (nm1 := qn (length l) - 1) in *.
  eapply D_eq; [|apply D_opp; apply (D_sum l (fun u t => p_w u * (1 - p_D u) * ipt_phi ex lg nm1 (dotk k (p_x u) (along k gamma v t)) + dotk k (p_x u) (along k gamma v t))
      (fun u => (p_w u * (1 - p_D u) * ipt_phi1 ex lg nm1 (dotk k (p_x u) gamma) + 1) * dotk k (p_x u) v))].
  - cbn beta. rewrite (grad_dir k (fun u => p_w u * (1 - p_D u) * ipt_phi1 ex lg nm1 (dotk k (p_x u) gamma) + 1)). rewrite <- sumf_opp. apply sumf_ext. intros j _. unfold ipt_grad. cbn zeta. fold nm1.
    rewrite (sumf_ext (fun u => x_at u j * _) (fun u => (p_w u * (1 - p_D u) * ipt_phi1 ex lg nm1 (dotk k (p_x u) gamma) + 1) * x_at u j)) by (intros; ring). ring.
  - intros u Hu. unfold p_D. destruct (p_d u) eqn:D; cbn [ind].
    + apply (D_ext (fun t => dotk k (p_x u) (along k gamma v t))); [apply near0_all; intros; ring|]. eapply D_eq; [|apply D_index]. ring.
    + destruct (X u Hu D) as [A B]. eapply D_eq; [|apply D_add; [apply D_scale, phi_deriv; [exact L1|exact L2|exact EL|exact A|exact B]|apply D_index]]. ring.
Qed.
Lemma ipt_stationary ex lg k l gamma : moderate k l gamma -> (forall u, In u l -> p_d u = false -> dotk k (p_x u) gamma < lg) ->
  (forall j, (j < k)%nat -> ipt_grad ex lg k l gamma j = 0) <->
  (forall j, (j < k)%nat -> sumf (fun u => p_w u * (1 + ex (dotk k (p_x u) gamma)) * x_at u j) (filter (fun u => negb (p_d u)) l) = sumf (fun u => x_at u j) l).
Proof.
  intros M L.
  assert (V : forall j, ipt_grad ex lg k l gamma j = sumf (fun u => p_w u * (1 + ex (dotk k (p_x u) gamma)) * x_at u j) (filter (fun u => negb (p_d u)) l) - sumf (fun u => x_at u j) l).
  { intros j. unfold ipt_grad. cbn zeta. rewrite sumf_filter, <- sumf_sub, <- sumf_opp. apply sumf_ext. intros u Hu. unfold p_D. destruct (p_d u) eqn:D; cbn [ind negb]; [ring|].
    destruct (M u Hu) as [A B]. unfold ipt_phi1. destruct (Qcltb_spec (dotk k (p_x u) gamma) lg) as [_|N]; [|exfalso; apply N; apply L; assumption].
    rewrite clip_id by (apply Qclt_le_weak; assumption). ring. }
  split; intros H j Hj; specialize (H j Hj); rewrite V in *; [apply Qc_sub_0_eq; exact H|apply Qc_eq_sub_0; exact H].
Qed.
Lemma ipt_unit_weights ex lg k l gamma : moderate k l gamma -> (forall u, In u l -> p_d u = false -> dotk k (p_x u) gamma < lg) ->
  (forall u, In u l -> p_w u = 1) -> (forall j, (j < k)%nat -> ipt_grad ex lg k l gamma j = 0) -> ex_calibrated ex k l gamma.
Proof.
  intros M L W H j Hj. apply ipt_stationary with (j := j) in H; [|exact M|exact L|exact Hj]. rewrite sumf_filter in *. rewrite sumf_filter.
  apply Qc_eq_sub_0 in H. apply Qc_sub_0_eq. transitivity (- (sumf (fun a => ind (negb (p_d a)) * (p_w a * (1 + ex (dotk k (p_x a) gamma)) * x_at a j)) l - sumf (fun u => x_at u j) l)); [|rewrite H; ring].
  rewrite <- !sumf_sub, <- sumf_opp. apply sumf_ext. intros u Hu. rewrite (W u Hu). destruct (p_d u); cbn [ind negb]; ring.
Qed.
(** from exp to scores *)
Lemma ex_calibrated_score ex mu k l gamma : (forall u, In u l -> p_d u = false -> let z := dotk k (p_x u) gamma in 0 < ex z /\ mu z = ex z / (1 + ex z) /\ eps6 <= mu z /\ mu z <= 1 - eps6) ->
  ex_calibrated ex k l gamma <-> calibrated k (ps_fit mu k gamma) l.
Proof.
  intros H. assert (O : forall u, In u (filter (fun u => negb (p_d u)) l) -> ps_fit mu k gamma u / (1 - ps_fit mu k gamma u) = ex (dotk k (p_x u) gamma)).
  { intros u Hu. apply filter_In in Hu. destruct Hu as [Hu D]. apply negb_true_iff in D. destruct (H u Hu D) as [P [E [B1 B2]]]. unfold ps_fit, clip.
    destruct (Qcltb_spec (mu (dotk k (p_x u) gamma)) eps6) as [L|_]; [exfalso; revert L; apply Qcle_not_lt; exact B1|].
    destruct (Qcltb_spec (1 - eps6) (mu (dotk k (p_x u) gamma))) as [L|_]; [exfalso; revert L; apply Qcle_not_lt; exact B2|]. rewrite E.
    set (y := ex _) in *. assert (1 + y <> 0) by (apply Qc_pos_neq0; qclra). assert (H1 : 1 + y - y <> 0) by (replace (1 + y - y) with 1 by ring; intros EE; discriminate EE). field. split; [exact H0|exact H1]. }
  split; intros C j Hj; rewrite (C j Hj); apply sumf_ext; intros u Hu; rewrite (O u Hu); reflexivity.
Qed.
