(** Derivatives with respect to perturbed weights, for rows of any type: fitted linear and logit coefficients, weighted means. Used
    for C93. No code is modelled here. *)
From Verif Require Import Base ListLib ReduceModel ReduceProofs2 Calc DrdidModel DrdidSpec DrdidProofs DrdidProofs2 DrdidProofs3 DrdidProofs4 DrdidProofs5 DrdidProofs6 DrdidProofs7.

Section Gen.
  Context {A : Type} (k : nat) (l : list A) (w h : A -> Qc) (x : A -> list Qc).
  Notation we e u := (w u * (1 + e * h u)).
  Notation X u j := (nth j (x u) 0).
  Definition gxdot (d : nat -> Qc) (u : A) : Qc := sumf (fun j => X u j * d j) (seq 0 k).
  Definition gmean_col (f : A -> Qc) : list Qc := vec_of k (fun j => mean (fun u => f u * X u j) l).

  Lemma gD_we u : derivative_at_0 (fun e => we e u) (w u * h u).
  Proof.
    apply (D_eq _ (w u * (0 + 1 * h u))); [ring|]. apply D_scale. apply (D_add (fun _ => 1)); [apply D_const|].
    apply (D_eq _ (1 * h u + 0 * 0)); [ring|]. apply (D_ext (fun e => h u * e)); [apply near0_all; intros; ring|].
    apply (D_eq _ (h u * 1)); [ring|]. apply D_scale, D_id.
  Qed.
  Lemma gwe0 u : we 0 u = w u. Proof. ring. Qed.
  Lemma gD_wsum (f : A -> Qc -> Qc) (d : A -> Qc) : (forall u, In u l -> derivative_at_0 (f u) (d u)) ->
    derivative_at_0 (fun e => sumf (fun u => we e u * f u e) l) (sumf (fun u => w u * h u * f u 0) l + sumf (fun u => w u * d u) l).
  Proof.
    intros H. rewrite <- sumf_add. apply (D_sum l (fun u e => we e u * f u e)). intros u Hu.
    apply (D_eq _ (w u * h u * f u 0 + we 0 u * d u)); [rewrite gwe0; reflexivity|].
    apply (D_mul (fun e => we e u) (f u) _ _ (gD_we u) (H u Hu)).
  Qed.

  (** weighted means of a moving variable under moving coefficients *)
  Lemma gD_wmean (c v : A -> Qc -> Qc) (dc dv : A -> Qc) :
    (forall u, In u l -> derivative_at_0 (c u) (dc u)) -> (forall u, In u l -> derivative_at_0 (v u) (dv u)) ->
    sumf (fun u => w u * c u 0) l <> 0 ->
    let eta := sumf (fun u => w u * c u 0 * v u 0) l / sumf (fun u => w u * c u 0) l in
    derivative_at_0 (fun e => sumf (fun u => we e u * (c u e * v u e)) l / sumf (fun u => we e u * c u e) l)
      ((sumf (fun u => h u * (w u * c u 0 * (v u 0 - eta))) l + sumf (fun u => w u * dc u * (v u 0 - eta)) l
        + sumf (fun u => w u * c u 0 * dv u) l) / sumf (fun u => w u * c u 0) l).
  Proof.
    intros Hc Hv N eta.
    assert (T0 : sumf (fun u => we 0 u * c u 0) l = sumf (fun u => w u * c u 0) l) by (apply sumf_ext; intros; ring).
    eapply D_eq; [|apply D_div].
    3:{ apply (gD_wsum c dc Hc). }
    2:{ apply (gD_wsum (fun u e => c u e * v u e) (fun u => dc u * v u 0 + c u 0 * dv u)). intros u Hu. apply (D_mul (c u) (v u)); [apply Hc, Hu|apply Hv, Hu]. }
    2:{ cbn beta. rewrite T0. exact N. }
    cbn beta. rewrite T0. f_equal.
    rewrite (sumf_ext (fun u => we 0 u * (c u 0 * v u 0)) (fun u => w u * c u 0 * v u 0)) by (intros; ring). fold eta.
    rewrite (sumf_ext (fun u => h u * (w u * c u 0 * (v u 0 - eta))) (fun u => w u * h u * (c u 0 * v u 0) - w u * h u * c u 0 * eta)) by (intros; ring).
    rewrite (sumf_ext (fun u => w u * dc u * (v u 0 - eta)) (fun u => w u * (dc u * v u 0) - w u * dc u * eta)) by (intros; ring).
    rewrite (sumf_ext (fun u => w u * (dc u * v u 0 + c u 0 * dv u)) (fun u => w u * (dc u * v u 0) + w u * c u 0 * dv u)) by (intros; ring).
    rewrite !sumf_sub, !sumf_mul_r, sumf_add. ring.
  Qed.

  (** ** regression coefficients among the rows selected by the coefficient [c] *)
  Section Wls.
    Context (c y : A -> Qc).
    Definition gs (b : list Qc) (j : nat) : Qc := sumf (fun u => w u * h u * (c u * (y u - dotk k (x u) b) * X u j)) l.
    Definition gG (i j : nat) : Qc := sumf (fun u => w u * c u * X u i * X u j) l.
    Lemma gbeta_derivative (beta : Qc -> list Qc) (N : nat -> nat -> Qc) :
      near0 (fun e => forall j, (j < k)%nat -> sumf (fun u => we e u * (c u * (y u - dotk k (x u) (beta e)) * X u j)) l = 0) ->
      (forall i m, (i < k)%nat -> (m < k)%nat -> sumf (fun j => N i j * gG j m) (seq 0 k) = ind (i =? m)%nat) ->
      forall i, (i < k)%nat -> derivative_at_0 (fun e => nth i (beta e) 0) (sumf (fun j => N i j * gs (beta 0) j) (seq 0 k)).
    Proof.
      intros H HN i Hi.
      set (Gh := fun j m => sumf (fun u => w u * h u * c u * X u j * X u m) l).
      set (dl := fun i e => nth i (beta e) 0 - nth i (beta 0) 0).
      assert (N0 := near0_at0 _ H). cbn beta in N0.
      assert (S : near0 (fun e => forall i, In i (seq 0 k) -> dl i e = e * (sumf (fun j => N i j * gs (beta 0) j) (seq 0 k)
                    + sumf (fun m => (- sumf (fun j => N i j * Gh j m) (seq 0 k)) * dl m e) (seq 0 k)))).
      { eapply near0_impl; [|exact H]. cbn beta. intros e He.
        assert (EJ : forall j, (j < k)%nat -> sumf (fun m => gG j m * dl m e) (seq 0 k) = e * (gs (beta 0) j - sumf (fun m => Gh j m * dl m e) (seq 0 k))).
        { intros j Hj. assert (A1 := He j Hj). assert (A0 := N0 j Hj).
          assert (X1 : sumf (fun m => gG j m * dl m e) (seq 0 k) = sumf (fun u => w u * c u * X u j * (dotk k (x u) (beta e) - dotk k (x u) (beta 0))) l).
          { unfold gG. rewrite (sumf_ext (fun m => sumf _ l * dl m e) (fun m => sumf (fun u => w u * c u * X u j * (X u m * dl m e)) l)) by (intros m _; rewrite <- sumf_mul_r; apply sumf_ext; intros; ring).
            rewrite sumf_swap. apply sumf_ext. intros u _. rewrite sumf_mul_l. f_equal. unfold dotk. rewrite <- sumf_sub. apply sumf_ext. intros m _. unfold dl. ring. }
          assert (X2 : sumf (fun m => Gh j m * dl m e) (seq 0 k) = sumf (fun u => w u * h u * c u * X u j * (dotk k (x u) (beta e) - dotk k (x u) (beta 0))) l).
          { unfold Gh. rewrite (sumf_ext (fun m => sumf _ l * dl m e) (fun m => sumf (fun u => w u * h u * c u * X u j * (X u m * dl m e)) l)) by (intros m _; rewrite <- sumf_mul_r; apply sumf_ext; intros; ring).
            rewrite sumf_swap. apply sumf_ext. intros u _. rewrite sumf_mul_l. f_equal. unfold dotk. rewrite <- sumf_sub. apply sumf_ext. intros m _. unfold dl. ring. }
          rewrite X1, X2. unfold gs. rewrite <- sumf_sub, <- sumf_mul_l.
          apply Qc_sub_0_eq. rewrite <- sumf_sub.
          transitivity (sumf (fun u => we 0 u * (c u * (y u - dotk k (x u) (beta 0)) * X u j) - we e u * (c u * (y u - dotk k (x u) (beta e)) * X u j)) l).
          - apply sumf_ext. intros u _. ring.
          - rewrite sumf_sub, A0, A1. ring. }
        intros a Ha. apply in_seq in Ha.
        transitivity (sumf (fun j => N a j * sumf (fun m => gG j m * dl m e) (seq 0 k)) (seq 0 k)).
        - rewrite (sumf_ext (fun j => N a j * _) (fun j => sumf (fun m => N a j * gG j m * dl m e) (seq 0 k))) by (intros j _; rewrite <- sumf_mul_l; apply sumf_ext; intros; ring).
          rewrite sumf_swap. rewrite (sumf_ext _ (fun m => ind (a =? m)%nat * dl m e)).
          + symmetry. apply ind_eqb_sum. lia.
          + intros m Hm. apply in_seq in Hm. rewrite sumf_mul_r, HN by lia. reflexivity.
        - rewrite (sumf_ext (fun j => N a j * _) (fun j => e * (N a j * gs (beta 0) j - sumf (fun m => N a j * Gh j m * dl m e) (seq 0 k)))).
          2:{ intros j Hj. apply in_seq in Hj. rewrite EJ by lia. rewrite (sumf_ext (fun m => N a j * Gh j m * dl m e) (fun m => N a j * (Gh j m * dl m e))) by (intros; ring). rewrite sumf_mul_l. ring. }
          rewrite sumf_mul_l, sumf_sub. f_equal. unfold Qcminus. f_equal. rewrite sumf_swap, <- sumf_opp. apply sumf_ext. intros m _.
          rewrite sumf_mul_r. ring. }
      assert (R := perturbed_solution (seq 0 k) dl _ _ S i ltac:(apply in_seq; lia)).
      apply (D_ext (fun e => dl i e + nth i (beta 0) 0)); [apply near0_all; intros; unfold dl; ring|].
      apply (D_eq _ (sumf (fun j => N i j * gs (beta 0) j) (seq 0 k) + 0)); [ring|]. apply (D_add (dl i)); [exact R|apply D_const].
    Qed.
  End Wls.

  (** an average of [f u * x u . d] with [d = M' s / n] as an average of [s]-rows *)
  Lemma gcross (M : matrix) (r f : A -> Qc) (d : nat -> Qc) : l <> nil ->
    (forall i, (i < k)%nat -> d i = sumf (fun j => mget M j i / qn (length l) * sumf (fun u => h u * (r u * X u j)) l) (seq 0 k)) ->
    sumf (fun u => f u * gxdot d u) l = sumf (fun u => h u * dotk k (vm k (vscale (r u) (x u)) M) (gmean_col f)) l.
  Proof.
    intros Hl Hd. assert (Hn : qn (length l) <> 0) by (apply qn_neq0; destruct l; [congruence|cbn; lia]).
    set (s := fun j => sumf (fun u => h u * (r u * X u j)) l) in *.
    transitivity (sumf (fun j => s j * nth j (mv k M (gmean_col f)) 0) (seq 0 k)).
    - transitivity (sumf (fun i => (sumf (fun u => f u * X u i) l) * sumf (fun j => mget M j i / qn (length l) * s j) (seq 0 k)) (seq 0 k)).
      + unfold gxdot. rewrite (sumf_ext (fun u => f u * _) (fun u => sumf (fun i => f u * X u i * d i) (seq 0 k))) by (intros u _; rewrite <- sumf_mul_l; apply sumf_ext; intros; ring).
        rewrite sumf_swap. apply sumf_ext. intros i Hi. apply in_seq in Hi. rewrite sumf_mul_r, (Hd i) by lia. reflexivity.
      + rewrite (sumf_ext _ (fun i => sumf (fun j => s j * (mget M j i * nth i (gmean_col f) 0)) (seq 0 k))).
        * rewrite sumf_swap. apply sumf_ext. intros j Hj. apply in_seq in Hj. unfold mv. rewrite nth_map_seq by lia. apply sumf_mul_l.
        * intros i Hi. apply in_seq in Hi. rewrite <- sumf_mul_l. apply sumf_ext. intros j _. unfold gmean_col. rewrite nth_vec_of by lia. unfold mean. field. exact Hn.
    - symmetry. rewrite (sumf_ext _ (fun u => sumf (fun j => h u * (r u * X u j) * nth j (mv k M (gmean_col f)) 0) (seq 0 k))).
      + rewrite sumf_swap. apply sumf_ext. intros j _. unfold s. apply sumf_mul_r.
      + intros u Hu. rewrite dotk_vm, dotk_scale_l. unfold dotk. rewrite <- !sumf_mul_l. apply sumf_ext. intros j _. ring.
  Qed.

  (** ** logit coefficients *)
  Section Logit.
    Context (D : A -> Qc) (p : A -> Qc -> Qc) (d : nat -> Qc).
    Context (Hp : forall u, In u l -> derivative_at_0 (p u) (p u 0 * (1 - p u 0) * gxdot d u)).
    Context (SC : near0 (fun e => forall j, (j < k)%nat -> sumf (fun u => we e u * ((D u - p u e) * X u j)) l = 0)).
    Lemma ggamma_derivative H :
      is_inverse k (mat_of k (fun i j => sumf (fun u => X u i * (p u 0 * (1 - p u 0) * w u * X u j)) l)) H ->
      forall i, (i < k)%nat -> d i = sumf (fun j => mget H j i * sumf (fun u => h u * (w u * (D u - p u 0) * X u j)) l) (seq 0 k).
    Proof.
      intros HI i Hi.
      assert (EJ : forall j, (j < k)%nat -> sumf (fun u => w u * (p u 0 * (1 - p u 0)) * gxdot d u * X u j) l = sumf (fun u => h u * (w u * (D u - p u 0) * X u j)) l).
      { intros j Hj.
        assert (Z0 : near0 (fun e => sumf (fun u => we e u * ((D u - p u e) * X u j)) l = 0)) by (eapply near0_impl; [|exact SC]; cbn beta; intros e He; apply He, Hj).
        assert (D1 := gD_wsum (fun u e => (D u - p u e) * X u j) (fun u => (0 - p u 0 * (1 - p u 0) * gxdot d u) * X u j + (D u - p u 0) * 0)
          (fun u Hu => D_mul (fun e => D u - p u e) (fun _ => X u j) _ _ (D_sub (fun _ => D u) (p u) 0 _ (D_const _) (Hp u Hu)) (D_const _))).
        assert (D0 := D_ext _ _ _ (near0_impl _ _ (fun e E => eq_sym E) Z0) (D_const 0)).
        assert (U := D_unique _ _ _ D1 D0). cbn beta in U.
        rewrite (sumf_ext (fun u => w u * ((0 - p u 0 * (1 - p u 0) * gxdot d u) * X u j + (D u - p u 0) * 0)) (fun u => - (w u * (p u 0 * (1 - p u 0)) * gxdot d u * X u j))) in U by (intros; ring).
        rewrite sumf_opp in U. symmetry. rewrite (sumf_ext (fun u => h u * _) (fun u => w u * h u * ((D u - p u 0) * X u j))) by (intros; ring). apply Qc_sub_0_eq. exact U. }
      set (G := mat_of k (fun i j => sumf (fun u => X u i * (p u 0 * (1 - p u 0) * w u * X u j)) l)) in *.
      transitivity (sumf (fun m => ind (i =? m)%nat * d m) (seq 0 k)); [symmetry; apply ind_eqb_sum; exact Hi|].
      transitivity (sumf (fun j => mget H j i * sumf (fun m => mget G m j * d m) (seq 0 k)) (seq 0 k)).
      - rewrite (sumf_ext (fun j => mget H j i * _) (fun j => sumf (fun m => mget G m j * mget H j i * d m) (seq 0 k))) by (intros j _; rewrite <- sumf_mul_l; apply sumf_ext; intros; ring).
        rewrite sumf_swap. apply sumf_ext. intros m Hm. apply in_seq in Hm. rewrite sumf_mul_r. f_equal. rewrite Nat.eqb_sym. symmetry. apply (HI m i); [lia|exact Hi].
      - apply sumf_ext. intros j Hj. apply in_seq in Hj. f_equal. rewrite <- EJ by lia.
        rewrite (sumf_ext (fun m => mget _ m j * d m) (fun m => sumf (fun u => w u * (p u 0 * (1 - p u 0)) * X u j * (X u m * d m)) l)).
        + rewrite sumf_swap. apply sumf_ext. intros u _. rewrite sumf_mul_l. unfold gxdot. ring.
        + intros m Hm. apply in_seq in Hm. unfold G. rewrite mget_mat_of by lia. rewrite <- sumf_mul_r. apply sumf_ext. intros. ring.
    Qed.
  End Logit.

  (** ** uniqueness of least squares *)
  Lemma grank_zero (c : A -> Qc) v : (forall u, In u l -> 0 <= w u * c u) ->
    (forall v, (forall u, In u l -> 0 < w u * c u -> dotk k (x u) v = 0) -> forall j, (j < k)%nat -> nth j v 0 = 0) ->
    (forall j, (j < k)%nat -> sumf (fun u => w u * c u * dotk k (x u) v * X u j) l = 0) ->
    forall j, (j < k)%nat -> nth j v 0 = 0.
  Proof.
    intros W NC H. apply NC. intros u Hu Hw.
    assert (Q : sumf (fun u => w u * c u * (dotk k (x u) v * dotk k (x u) v)) l = 0).
    { rewrite (sumf_ext _ (fun u => sumf (fun j => nth j v 0 * (w u * c u * dotk k (x u) v * X u j)) (seq 0 k))).
      - rewrite sumf_swap. apply sumf_zero. intros j Hj. apply in_seq in Hj. rewrite sumf_mul_l, H by lia. ring.
      - intros a _. unfold dotk at 2. rewrite <- !sumf_mul_l. apply sumf_ext. intros j _. ring. }
    assert (Z0 : w u * c u * (dotk k (x u) v * dotk k (x u) v) = 0).
    { apply (nonneg_sum_zero (fun u => w u * c u * (dotk k (x u) v * dotk k (x u) v)) l); [|exact Q|exact Hu].
      intros a Ha. apply Qcmult_nonneg; [apply W; exact Ha|apply Qc_sq_nonneg]. }
    apply Qcmult_integral in Z0. destruct Z0 as [Z0|Z0].
    - exfalso. revert Z0. apply Qc_pos_neq0. exact Hw.
    - apply Qcmult_integral in Z0. destruct Z0; assumption.
  Qed.
End Gen.
