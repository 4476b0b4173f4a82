(** Proofs for C27, continued: derivatives of the three estimates. *)
From Verif Require Import Base ListLib ReduceModel ReduceProofs2 Calc DrdidModel DrdidSpec DrdidProofs DrdidProofs2 DrdidProofs3 DrdidProofs4 DrdidProofs5 DrdidProofs6.

Lemma has_est_inv r : has_est r -> exists i, r = PEst (att_of r) i.
Proof. intros [a [i ->]]. exists i. reflexivity. Qed.

(** ** the fitted regression coefficients *)
Lemma normal_raw k l b : mean p_w l <> 0 -> normal_equations k (normalise l) b -> normal_equations k l b.
Proof.
  intros Hm N j Hj. specialize (N j Hj). unfold normalise in N. rewrite sumf_map in N.
  assert (E : / mean p_w l * sumf (fun u => p_w u * (1 - p_D u) * (p_dy u - dotk k (p_x u) b) * x_at u j) l = 0).
  { refine (eq_trans _ N). rewrite <- sumf_mul_l. apply sumf_ext. intros u _. unfold p_D, p_dy, x_at. cbn [set_w p_d p_y1 p_y0 p_w p_x]. unfold Qcdiv. ring. }
  apply Qcmult_integral in E. destruct E as [E|E]; [|exact E]. exfalso. apply Hm. transitivity (mean p_w l * mean p_w l * / mean p_w l); [field; exact Hm|rewrite E; ring].
Qed.
Lemma ind_eqb_sum k (i : nat) (f : nat -> Qc) : (i < k)%nat -> sumf (fun m => ind (i =? m)%nat * f m) (seq 0 k) = f i.
Proof.
  intros Hi. transitivity (sumf (fun m => ind (i =? m)%nat * f i) (seq 0 k)).
  - apply sumf_ext. intros m _. destruct (Nat.eqb_spec i m) as [->|]; cbn [ind]; ring.
  - rewrite sumf_mul_r, sumf_ind. rewrite (filter_ext_in' (fun m => (i =? m)%nat) (fun m => if Nat.eq_dec i m then true else false)) by (intros m _; destruct (Nat.eqb_spec i m), (Nat.eq_dec i m); congruence).
    assert (L : length (filter (fun m => if Nat.eq_dec i m then true else false) (seq 0 k)) = 1%nat).
    { assert (ND := seq_NoDup k 0). assert (HI : In i (seq 0 k)) by (apply in_seq; lia). revert ND HI. generalize (seq 0 k). intros s ND HI.
      induction s as [|m s IH]; [destruct HI|]. inversion ND; subst. cbn. destruct (Nat.eq_dec i m) as [->|N].
      - cbn. f_equal. rewrite filter_none; [reflexivity|]. intros a Ha. destruct (Nat.eq_dec m a); [subst; contradiction|reflexivity].
      - apply IH; [assumption|]. destruct HI; [congruence|assumption]. }
    rewrite L. change (qn 1) with (qz 1). rewrite qz_1. ring.
Qed.

Section Weights.
  Context (k : nat) (l : list punit) (h : punit -> Qc).
  Notation le e := (map (reweight e h) l).
  Notation we e u := (p_w u * (1 + e * h u)).
  Lemma D_we u : derivative_at_0 (fun e => we e u) (p_w u * h u).
  Proof.
    apply (D_eq _ (p_w u * (0 + 1 * h u))); [ring|]. apply D_scale. apply (D_add (fun _ => 1)); [apply D_const|].
    apply (D_eq _ (1 * h u + 0 * 0)); [ring|]. apply (D_ext (fun e => h u * e)); [apply near0_all; intros; ring|].
    apply (D_eq _ (h u * 1)); [ring|]. apply D_scale, D_id.
  Qed.
  Lemma we0 u : we 0 u = p_w u. Proof. ring. Qed.
  (** derivative of sum_u w_u (1 + e h_u) f_u(e) *)
  Lemma D_wsum (f : punit -> Qc -> Qc) (d : punit -> Qc) : (forall u, In u l -> derivative_at_0 (f u) (d u)) ->
    derivative_at_0 (fun e => sumf (fun u => we e u * f u e) l) (sumf (fun u => p_w u * h u * f u 0) l + sumf (fun u => p_w u * d u) l).
  Proof.
    intros H. rewrite <- sumf_add. apply (D_sum l (fun u e => we e u * f u e)). intros u Hu.
    apply (D_eq _ (p_w u * h u * f u 0 + we 0 u * d u)); [rewrite we0; reflexivity|].
    apply (D_mul (fun e => we e u) (f u) _ _ (D_we u) (H u Hu)).
  Qed.
  Lemma D_dotk x (b : Qc -> list Qc) (d : nat -> Qc) : (forall j, (j < k)%nat -> derivative_at_0 (fun e => nth j (b e) 0) (d j)) ->
    derivative_at_0 (fun e => dotk k x (b e)) (sumf (fun j => nth j x 0 * d j) (seq 0 k)).
  Proof.
    intros H. unfold dotk. apply (D_sum (seq 0 k) (fun j e => nth j x 0 * nth j (b e) 0)). intros j Hj. apply in_seq in Hj. apply D_scale, H. lia.
  Qed.
  Lemma normal_reweight e b : normal_equations k (le e) b ->
    forall j, (j < k)%nat -> sumf (fun u => we e u * ((1 - p_D u) * (p_dy u - dotk k (p_x u) b) * x_at u j)) l = 0.
  Proof.
    intros N j Hj. specialize (N j Hj). rewrite sumf_map in N. refine (eq_trans _ N). apply sumf_ext. intros u _.
    unfold p_D, p_dy, x_at. cbn [reweight set_w p_d p_y1 p_y0 p_w p_x]. ring.
  Qed.
  (** score vector of the perturbation, and the raw Gram matrix *)
  Definition s_reg (b : list Qc) (j : nat) : Qc := sumf (fun u => p_w u * h u * ((1 - p_D u) * (p_dy u - dotk k (p_x u) b) * x_at u j)) l.
  Definition G_reg (i j : nat) : Qc := sumf (fun u => p_w u * (1 - p_D u) * x_at u i * x_at u j) l.
  Lemma beta_derivative (beta : Qc -> list Qc) (N : nat -> nat -> Qc) :
    near0 (fun e => normal_equations k (le e) (beta e)) ->
    (forall i m, (i < k)%nat -> (m < k)%nat -> sumf (fun j => N i j * G_reg j m) (seq 0 k) = ind (i =? m)%nat) ->
    forall i, (i < k)%nat -> derivative_at_0 (fun e => nth i (beta e) 0) (sumf (fun j => N i j * s_reg (beta 0) j) (seq 0 k)).
  Proof.
    intros H HN i Hi.
    set (Gh := fun j m => sumf (fun u => p_w u * h u * (1 - p_D u) * x_at u j * x_at u m) l).
    set (dl := fun i e => nth i (beta e) 0 - nth i (beta 0) 0).
    assert (N0 := near0_at0 _ H). cbn beta in N0.
    assert (S : near0 (fun e => forall i, In i (seq 0 k) -> dl i e = e * (sumf (fun j => N i j * s_reg (beta 0) j) (seq 0 k)
                  + sumf (fun m => (- sumf (fun j => N i j * Gh j m) (seq 0 k)) * dl m e) (seq 0 k)))).
    { eapply near0_impl; [|exact H]. cbn beta. intros e He.
      assert (EJ : forall j, (j < k)%nat -> sumf (fun m => G_reg j m * dl m e) (seq 0 k) = e * (s_reg (beta 0) j - sumf (fun m => Gh j m * dl m e) (seq 0 k))).
      { intros j Hj. assert (A1 := normal_reweight _ _ He j Hj). assert (A0 := normal_reweight _ _ N0 j Hj).
        assert (X1 : sumf (fun m => G_reg j m * dl m e) (seq 0 k) = sumf (fun u => p_w u * (1 - p_D u) * x_at u j * (dotk k (p_x u) (beta e) - dotk k (p_x u) (beta 0))) l).
        { unfold G_reg. rewrite (sumf_ext (fun m => sumf _ l * dl m e) (fun m => sumf (fun u => p_w u * (1 - p_D u) * x_at u j * (x_at u m * dl m e)) l)) by (intros m _; rewrite <- sumf_mul_r; apply sumf_ext; intros; ring).
          rewrite sumf_swap. apply sumf_ext. intros u _. rewrite sumf_mul_l. f_equal. unfold dotk. rewrite <- sumf_sub. apply sumf_ext. intros m _. unfold dl, x_at. ring. }
        assert (X2 : sumf (fun m => Gh j m * dl m e) (seq 0 k) = sumf (fun u => p_w u * h u * (1 - p_D u) * x_at u j * (dotk k (p_x u) (beta e) - dotk k (p_x u) (beta 0))) l).
        { unfold Gh. rewrite (sumf_ext (fun m => sumf _ l * dl m e) (fun m => sumf (fun u => p_w u * h u * (1 - p_D u) * x_at u j * (x_at u m * dl m e)) l)) by (intros m _; rewrite <- sumf_mul_r; apply sumf_ext; intros; ring).
          rewrite sumf_swap. apply sumf_ext. intros u _. rewrite sumf_mul_l. f_equal. unfold dotk. rewrite <- sumf_sub. apply sumf_ext. intros m _. unfold dl, x_at. ring. }
        rewrite X1, X2. unfold s_reg. rewrite <- sumf_sub, <- sumf_mul_l.
        apply Qc_sub_0_eq. rewrite <- sumf_sub. 
        transitivity (sumf (fun u => we 0 u * ((1 - p_D u) * (p_dy u - dotk k (p_x u) (beta 0)) * x_at u j) - we e u * ((1 - p_D u) * (p_dy u - dotk k (p_x u) (beta e)) * x_at u j)) l).
        - apply sumf_ext. intros u _. ring.
        - rewrite sumf_sub, A0, A1. ring. }
      intros a Ha. apply in_seq in Ha.
      transitivity (sumf (fun j => N a j * sumf (fun m => G_reg j m * dl m e) (seq 0 k)) (seq 0 k)).
      - rewrite (sumf_ext (fun j => N a j * _) (fun j => sumf (fun m => N a j * G_reg j m * dl m e) (seq 0 k))) by (intros j _; rewrite <- sumf_mul_l; apply sumf_ext; intros; ring).
        rewrite sumf_swap. rewrite (sumf_ext _ (fun m => ind (a =? m)%nat * dl m e)).
        + symmetry. apply ind_eqb_sum. lia.
        + intros m Hm. apply in_seq in Hm. rewrite sumf_mul_r, HN by lia. reflexivity.
      - rewrite (sumf_ext (fun j => N a j * _) (fun j => e * (N a j * s_reg (beta 0) j - sumf (fun m => N a j * Gh j m * dl m e) (seq 0 k)))).
        2:{ intros j Hj. apply in_seq in Hj. rewrite EJ by lia. rewrite (sumf_ext (fun m => N a j * Gh j m * dl m e) (fun m => N a j * (Gh j m * dl m e))) by (intros; ring). rewrite sumf_mul_l. ring. }
        rewrite sumf_mul_l, sumf_sub. f_equal. unfold Qcminus. f_equal. rewrite sumf_swap, <- sumf_opp. apply sumf_ext. intros m _.
        rewrite sumf_mul_r. ring. }
    assert (R := perturbed_solution (seq 0 k) dl _ _ S i ltac:(apply in_seq; lia)).
    apply (D_ext (fun e => dl i e + nth i (beta 0) 0)); [apply near0_all; intros; unfold dl; ring|].
    apply (D_eq _ (sumf (fun j => N i j * s_reg (beta 0) j) (seq 0 k) + 0)); [ring|]. apply (D_add (dl i)); [exact R|apply D_const].
  Qed.
End Weights.
