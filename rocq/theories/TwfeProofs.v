(** Proofs for C117: the stacked panel regression. *)
From Verif Require Import Base ListLib ReduceModel ReduceProofs2 DrdidModel DrdidSpec DrdidProofs DrdidProofs2 DrdidProofs3 DrdidProofs4 DrdidProofs5 RcModel TwfeModel.

Lemma dot_tail (a b c d : Qc) (x beta : list Qc) p :
  dotk (4 + p) (a :: b :: c :: d :: x) beta
  = a * nth 0 beta 0 + b * nth 1 beta 0 + c * nth 2 beta 0 + d * nth 3 beta 0 + sumf (fun j => nth j x 0 * nth (4 + j) beta 0) (seq 0 p).
Proof.
  assert (T : sumf (fun j => nth j (a :: b :: c :: d :: x) 0 * nth j beta 0) (seq 4 p) = sumf (fun j => nth j x 0 * nth (4 + j) beta 0) (seq 0 p)).
  { rewrite <- (seq_shift p 3), <- (seq_shift p 2), <- (seq_shift p 1), <- (seq_shift p 0), !map_map, sumf_map. reflexivity. }
  unfold dotk. change (seq 0 (4 + p)) with (0 :: 1 :: 2 :: 3 :: seq 4 p)%nat. rewrite !sumf_cons, T. cbn [nth]. ring.
Qed.
Lemma sumf_stack f l : sumf f (stack l) = sumf (fun u => f (stack_row false u)) l + sumf (fun u => f (stack_row true u)) l.
Proof. unfold stack. rewrite sumf_app, !sumf_map. reflexivity. Qed.
Lemma stack_length l : length (stack l) = (length l + length l)%nat.
Proof. unfold stack. rewrite app_length, !map_length. reflexivity. Qed.

(** residuals of the stacked regression *)
Definition resid (k : nat) (beta : list Qc) (r : punit) : Qc := p_dy r - dotk k (p_x r) beta.
Lemma resid_row p beta t u : resid (4 + p) beta (stack_row t u)
  = (if t then p_y1 u else p_y0 u) - (nth 0 beta 0 + p_D u * nth 1 beta 0 + ind t * nth 2 beta 0 + p_D u * ind t * nth 3 beta 0 + sumf (fun j => nth j (p_x u) 0 * nth (4 + j) beta 0) (seq 0 p)).
Proof. unfold resid, p_dy. cbn [stack_row p_y1 p_y0 p_x]. rewrite dot_tail. ring. Qed.
Lemma resid_diff p beta u : resid (4 + p) beta (stack_row true u) - resid (4 + p) beta (stack_row false u) = p_dy u - (nth 2 beta 0 + p_D u * nth 3 beta 0).
Proof. rewrite !resid_row. unfold p_dy. cbn [ind]. ring. Qed.

Section Panel.
  Context (p : nat) (l : list punit) (beta : list Qc) (NE : normal_equations (4 + p) (stack l) beta).
  Notation e t u := (resid (4 + p) beta (stack_row t u)).
  Lemma ne_row j : (j < 4 + p)%nat -> sumf (fun u => p_w u * e false u * x_at (stack_row false u) j) l + sumf (fun u => p_w u * e true u * x_at (stack_row true u) j) l = 0.
  Proof.
    intros Hj. rewrite <- (NE j Hj), sumf_stack. unfold resid. f_equal; apply sumf_ext; intros u _; unfold p_D at 1; cbn [stack_row p_d p_w ind]; unfold x_at; ring.
  Qed.
  Lemma sums : sumf (fun u => p_w u * e false u) l = 0 /\ sumf (fun u => p_w u * e true u) l = 0 /\
               sumf (fun u => p_w u * p_D u * e false u) l = 0 /\ sumf (fun u => p_w u * p_D u * e true u) l = 0.
  Proof.
    assert (H0 := ne_row 0 ltac:(lia)). assert (H1 := ne_row 1 ltac:(lia)). assert (H2 := ne_row 2 ltac:(lia)). assert (H3 := ne_row 3 ltac:(lia)).
    unfold x_at in *. cbn [stack_row p_x nth ind] in *.
    rewrite (sumf_zero (fun u => p_w u * e false u * 0)) in H2 by (intros; ring). rewrite (sumf_zero (fun u => p_w u * e false u * (p_D u * 0))) in H3 by (intros; ring).
    rewrite (sumf_ext (fun u => p_w u * e true u * 1) (fun u => p_w u * e true u)) in H0, H2 by (intros; ring). rewrite (sumf_ext (fun u => p_w u * e false u * 1) (fun u => p_w u * e false u)) in H0 by (intros; ring).
    rewrite (sumf_ext (fun u => p_w u * e true u * p_D u) (fun u => p_w u * p_D u * e true u)) in H1 by (intros; ring). rewrite (sumf_ext (fun u => p_w u * e false u * p_D u) (fun u => p_w u * p_D u * e false u)) in H1 by (intros; ring).
    rewrite (sumf_ext (fun u => p_w u * e true u * (p_D u * 1)) (fun u => p_w u * p_D u * e true u)) in H3 by (intros; ring).
    rewrite Qcplus_0_l in H2, H3. rewrite H2, Qcplus_0_r in H0. rewrite H3, Qcplus_0_r in H1. auto.
  Qed.
  Lemma gsum_true v : sumf (fun u => p_w u * v u) (filter (fun u => Bool.eqb (p_d u) true) l) = sumf (fun u => p_w u * p_D u * v u) l.
  Proof. rewrite sumf_filter. apply sumf_ext. intros u _. unfold p_D. destruct (p_d u); cbn [Bool.eqb ind]; ring. Qed.
  Lemma gsum_false v : sumf (fun u => p_w u * v u) (filter (fun u => Bool.eqb (p_d u) false) l) = sumf (fun u => p_w u * (1 - p_D u) * v u) l.
  Proof. rewrite sumf_filter. apply sumf_ext. intros u _. unfold p_D. destruct (p_d u); cbn [Bool.eqb ind]; ring. Qed.
  Lemma gtot_true : sumf p_w (filter (fun u => Bool.eqb (p_d u) true) l) = sumf (fun u => p_w u * p_D u) l.
  Proof. rewrite sumf_filter. apply sumf_ext. intros u _. unfold p_D. destruct (p_d u); cbn [Bool.eqb ind]; ring. Qed.
  Lemma gtot_false : sumf p_w (filter (fun u => Bool.eqb (p_d u) false) l) = sumf (fun u => p_w u * (1 - p_D u)) l.
  Proof. rewrite sumf_filter. apply sumf_ext. intros u _. unfold p_D. destruct (p_d u); cbn [Bool.eqb ind]; ring. Qed.

  Lemma mean_true : sumf (fun u => p_w u * p_D u) l <> 0 -> group_mean true p_dy l = nth 2 beta 0 + nth 3 beta 0.
  Proof.
    intros N. unfold group_mean. rewrite gsum_true, gtot_true. destruct sums as [_ [_ [A B]]].
    assert (C : sumf (fun u => p_w u * p_D u * p_dy u) l = sumf (fun u => p_w u * p_D u) l * (nth 2 beta 0 + nth 3 beta 0)).
    { apply Qc_sub_0_eq. rewrite <- sumf_mul_r, <- sumf_sub. transitivity (sumf (fun u => p_w u * p_D u * e true u) l - sumf (fun u => p_w u * p_D u * e false u) l); [|rewrite A, B; ring].
      rewrite <- sumf_sub. apply sumf_ext. intros u _. transitivity (p_w u * p_D u * (e true u - e false u)); [|ring]. rewrite resid_diff. unfold p_D. destruct (p_d u); cbn [ind]; ring. }
    rewrite C. field. exact N.
  Qed.
  Lemma mean_false : sumf (fun u => p_w u * (1 - p_D u)) l <> 0 -> group_mean false p_dy l = nth 2 beta 0.
  Proof.
    intros N. unfold group_mean. rewrite gsum_false, gtot_false. destruct sums as [A1 [B1 [A B]]].
    assert (C : sumf (fun u => p_w u * (1 - p_D u) * p_dy u) l = sumf (fun u => p_w u * (1 - p_D u)) l * nth 2 beta 0).
    { apply Qc_sub_0_eq. rewrite <- sumf_mul_r, <- sumf_sub.
      transitivity (sumf (fun u => p_w u * e true u) l - sumf (fun u => p_w u * p_D u * e true u) l - (sumf (fun u => p_w u * e false u) l - sumf (fun u => p_w u * p_D u * e false u) l)); [|rewrite A, B, A1, B1; ring].
      rewrite <- !sumf_sub. apply sumf_ext. intros u _. transitivity (p_w u * (1 - p_D u) * (e true u - e false u)); [|ring]. rewrite resid_diff. unfold p_D. destruct (p_d u); cbn [ind]; ring. }
    rewrite C. field. exact N.
  Qed.
End Panel.

Section Inverse.
  Context (p : nat) (l : list punit) (M : matrix) (HM : is_inverse (4 + p) (ols_gram (4 + p) (stack l)) M) (W : forall u, In u l -> 0 <= p_w u).
  Notation k := (4 + p)%nat.
  Notation N := (qn (length (stack l))).
  Lemma gram_at i j : (i < k)%nat -> (j < k)%nat -> mget (ols_gram k (stack l)) i j
    = (sumf (fun u => p_w u * x_at (stack_row false u) i * x_at (stack_row false u) j) l + sumf (fun u => p_w u * x_at (stack_row true u) i * x_at (stack_row true u) j) l) / N.
  Proof.
    intros Hi Hj. unfold ols_gram. rewrite mget_mat_of by assumption. unfold mean. f_equal. rewrite sumf_stack. f_equal; apply sumf_ext; intros u _; unfold p_D at 1; cbn [stack_row p_d p_w ind]; ring.
  Qed.
  Lemma ne0 : l <> [].
  Proof.
    intros ->. destruct (HM 0%nat 0%nat ltac:(lia) ltac:(lia)) as [E _]. revert E. unfold mat_mul. rewrite sumf_zero; [discriminate|].
    intros j Hj. apply in_seq in Hj. unfold ols_gram. rewrite mget_mat_of by lia. rewrite mean_0 by reflexivity. ring.
  Qed.
  Lemma treated_weight : sumf (fun u => p_w u * p_D u) l <> 0.
  Proof.
    intros Z0. assert (A := nonneg_sum_zero (fun u => p_w u * p_D u) l). cbv beta in A.
    assert (Hz : forall u, In u l -> p_w u * p_D u = 0). { apply A; [|exact Z0]. intros u Hu. unfold p_D. destruct (p_d u); cbn [ind]; [rewrite Qcmult_1_r; apply W; exact Hu|rewrite Qcmult_0_r; discriminate]. }
    destruct (HM 3%nat 3%nat ltac:(lia) ltac:(lia)) as [E _]. revert E. unfold mat_mul. rewrite sumf_zero; [discriminate|].
    intros j Hj. apply in_seq in Hj. rewrite gram_at by lia.
    rewrite !sumf_zero.
    - unfold Qcdiv. ring.
    - intros u Hu. change (x_at (stack_row true u) 3) with (p_D u * 1). rewrite Qcmult_1_r, (Hz u Hu). ring.
    - intros u Hu. change (x_at (stack_row false u) 3) with (p_D u * 0). ring.
  Qed.
  Lemma control_weight : sumf (fun u => p_w u * (1 - p_D u)) l <> 0.
  Proof.
    intros Z0. assert (A := nonneg_sum_zero (fun u => p_w u * (1 - p_D u)) l). cbv beta in A.
    assert (Hz : forall u, In u l -> p_w u * (1 - p_D u) = 0). { apply A; [|exact Z0]. intros u Hu. unfold p_D. destruct (p_d u); cbn [ind]; [replace (p_w u * (1 - 1)) with 0 by ring; discriminate|replace (p_w u * (1 - 0)) with (p_w u) by ring; apply W; exact Hu]. }
    destruct (HM 2%nat 2%nat ltac:(lia) ltac:(lia)) as [E _]. destruct (HM 3%nat 2%nat ltac:(lia) ltac:(lia)) as [E3 _].
    assert (D : mat_mul k (ols_gram k (stack l)) M 2 2 - mat_mul k (ols_gram k (stack l)) M 3 2 = 0).
    { unfold mat_mul. rewrite <- sumf_sub. apply sumf_zero. intros j Hj. apply in_seq in Hj. rewrite !gram_at by lia.
      transitivity (sumf (fun u => p_w u * (1 - p_D u) * x_at (stack_row true u) j) l / N * mget M j 2).
      - rewrite (sumf_ext (fun u => p_w u * (1 - p_D u) * x_at (stack_row true u) j) (fun u => p_w u * x_at (stack_row true u) 2 * x_at (stack_row true u) j - p_w u * x_at (stack_row true u) 3 * x_at (stack_row true u) j))
          by (intros u _; change (x_at (stack_row true u) 3) with (p_D u * 1); change (x_at (stack_row true u) 2) with 1; ring).
        rewrite sumf_sub. rewrite (sumf_zero (fun u => p_w u * x_at (stack_row false u) 2 * _)) by (intros u _; change (x_at (stack_row false u) 2) with 0; ring). rewrite (sumf_zero (fun u => p_w u * x_at (stack_row false u) 3 * _)) by (intros u _; change (x_at (stack_row false u) 3) with (p_D u * 0); ring). unfold Qcdiv. ring.
      - rewrite sumf_zero; [unfold Qcdiv; ring|]. intros u Hu. rewrite (Hz u Hu). ring. }
    rewrite E, E3 in D. discriminate D.
  Qed.
  (** the solution of gram c = e3 *)
  Notation PT := (sumf (fun u => p_w u * p_D u) l / N).
  Notation PC := (sumf (fun u => p_w u * (1 - p_D u)) l / N).
  Definition q2 : Qc := - (1) / PC - 1 / PC.
  Definition q3 : Qc := 1 / PT + 1 / PT - q2.
  Definition cc : list Qc := [- (q2 / (1 + 1)); - (q3 / (1 + 1)); q2; q3].
  Lemma N_neq : N <> 0.
  Proof. apply qn_neq0. rewrite stack_length. assert (H := ne0). destruct l; [congruence|cbn; lia]. Qed.
  Lemma nth_cc_tail j : nth (4 + j) cc 0 = 0.
  Proof. unfold cc. cbn [nth Nat.add]. destruct j; reflexivity. Qed.
  Lemma cc_row t u : dotk k (p_x (stack_row t u)) cc = (if t then 1 else - (1)) * ((q2 + p_D u * q3) / (1 + 1)).
  Proof.
    cbn [stack_row p_x]. rewrite dot_tail. rewrite sumf_zero by (intros j _; rewrite nth_cc_tail; ring). unfold cc. cbn [nth]. destruct t; cbn [ind]; field; discriminate.
  Qed.
  Lemma cc_solves i : (i < k)%nat -> sumf (fun j => mget (ols_gram k (stack l)) i j * nth j cc 0) (seq 0 k) = ind (i =? 3)%nat.
  Proof.
    intros Hi. assert (HN := N_neq). assert (HT := treated_weight). assert (HC := control_weight).
    transitivity ((sumf (fun u => p_w u * x_at (stack_row false u) i * dotk k (p_x (stack_row false u)) cc) l + sumf (fun u => p_w u * x_at (stack_row true u) i * dotk k (p_x (stack_row true u)) cc) l) / N).
    { rewrite (sumf_ext _ (fun j => (sumf (fun u => p_w u * x_at (stack_row false u) i * (x_at (stack_row false u) j * nth j cc 0)) l + sumf (fun u => p_w u * x_at (stack_row true u) i * (x_at (stack_row true u) j * nth j cc 0)) l) / N)).
      - rewrite sumf_div, sumf_add. f_equal. unfold dotk. f_equal; rewrite sumf_swap; apply sumf_ext; intros u _; rewrite sumf_mul_l; reflexivity.
      - intros j Hj. apply in_seq in Hj. rewrite gram_at by lia.
        rewrite (sumf_ext (fun u => p_w u * x_at (stack_row false u) i * (x_at (stack_row false u) j * nth j cc 0)) (fun u => p_w u * x_at (stack_row false u) i * x_at (stack_row false u) j * nth j cc 0)) by (intros; ring).
        rewrite (sumf_ext (fun u => p_w u * x_at (stack_row true u) i * (x_at (stack_row true u) j * nth j cc 0)) (fun u => p_w u * x_at (stack_row true u) i * x_at (stack_row true u) j * nth j cc 0)) by (intros; ring).
        rewrite !sumf_mul_r. unfold Qcdiv. ring. }
    rewrite <- sumf_add.
    transitivity (sumf (fun u => p_w u * (x_at (stack_row true u) i - x_at (stack_row false u) i) * ((q2 + p_D u * q3) / (1 + 1))) l / N).
    { f_equal. apply sumf_ext. intros u _. rewrite !cc_row. ring. }
    destruct i as [|[|[|[|i]]]]; unfold x_at; cbn [stack_row p_x nth ind Nat.eqb].
    - rewrite sumf_zero; [unfold Qcdiv; ring|]. intros; ring.
    - rewrite sumf_zero; [unfold Qcdiv; ring|]. intros; ring.
    - rewrite (sumf_ext _ (fun u => (p_w u * (1 - p_D u)) * (q2 / (1 + 1)) + (p_w u * p_D u) * ((q2 + q3) / (1 + 1)))).
      + rewrite sumf_add, !sumf_mul_r. unfold q3, q2. field. repeat split; try assumption; discriminate.
      + intros u _. unfold p_D. destruct (p_d u); cbn [ind]; field; discriminate.
    - rewrite (sumf_ext _ (fun u => (p_w u * p_D u) * ((q2 + q3) / (1 + 1)))).
      + rewrite !sumf_mul_r. unfold q3, q2. field. repeat split; try assumption; discriminate.
      + intros u _. unfold p_D. destruct (p_d u); cbn [ind]; field; discriminate.
    - rewrite sumf_zero; [unfold Qcdiv; ring|]. intros; ring.
  Qed.
  Lemma col3 j : (j < k)%nat -> mget M j 3 = nth j cc 0.
  Proof.
    intros Hj. transitivity (sumf (fun i => mget M j i * sumf (fun m => mget (ols_gram k (stack l)) i m * nth m cc 0) (seq 0 k)) (seq 0 k)).
    - rewrite (sumf_ext _ (fun i => ind (i =? 3)%nat * mget M j i)) by (intros i Hi; apply in_seq in Hi; rewrite cc_solves by lia; ring).
      assert (G : forall n, (3 < n)%nat -> sumf (fun i => ind (i =? 3)%nat * mget M j i) (seq 0 n) = mget M j 3).
      { intros n Hn. destruct n as [|[|[|[|n]]]]; try lia. change (seq 0 (S (S (S (S n))))) with (0 :: 1 :: 2 :: 3 :: seq 4 n)%nat. rewrite !sumf_cons. cbn [Nat.eqb ind].
        rewrite sumf_zero; [ring|]. intros i Hi. apply in_seq in Hi. destruct (Nat.eqb_spec i 3); [lia|]. cbn [ind]. ring. }
      symmetry. apply G. lia.
    - transitivity (sumf (fun m => mat_mul k M (ols_gram k (stack l)) j m * nth m cc 0) (seq 0 k)).
      + rewrite (sumf_ext _ (fun i => sumf (fun m => mget M j i * (mget (ols_gram k (stack l)) i m * nth m cc 0)) (seq 0 k))) by (intros; rewrite <- sumf_mul_l; reflexivity).
        rewrite sumf_swap. apply sumf_ext. intros m _. unfold mat_mul. rewrite <- sumf_mul_r. apply sumf_ext. intros; ring.
      + rewrite (sumf_ext _ (fun m => ind (m =? j)%nat * nth m cc 0)).
        * assert (G : forall n s, (s <= j < s + n)%nat -> sumf (fun m => ind (m =? j)%nat * nth m cc 0) (seq s n) = nth j cc 0).
          { induction n; intros s Hs; [lia|]. cbn [seq]. rewrite sumf_cons. destruct (Nat.eqb_spec s j).
            - subst. rewrite sumf_zero; [cbn [ind]; ring|]. intros i Hi. apply in_seq in Hi. destruct (Nat.eqb_spec i j); [lia|]. cbn [ind]. ring.
            - rewrite IHn by lia. cbn [ind]. ring. }
          apply G. lia.
        * intros m Hm. apply in_seq in Hm. destruct (HM j m ltac:(lia) ltac:(lia)) as [_ E]. rewrite E, Nat.eqb_sym. reflexivity.
  Qed.
  Lemma inf_row beta t u : nth 3 (alr_wols k (fun r => dotk k (p_x r) beta) M (stack_row t u)) 0
    = (if t then 1 else - (1)) * (p_w u * (p_D u / PT - (1 - p_D u) / PC)) * resid k beta (stack_row t u).
  Proof.
    unfold alr_wols, vm. rewrite nth_map_seq by lia.
    rewrite (sumf_ext _ (fun i => p_w u * resid k beta (stack_row t u) * (nth i (p_x (stack_row t u)) 0 * nth i cc 0))).
    - rewrite sumf_mul_l. fold (dotk k (p_x (stack_row t u)) cc). rewrite cc_row.
      assert (A : (q2 + p_D u * q3) / (1 + 1) = p_D u / PT - (1 - p_D u) / PC).
      { assert (HN := N_neq). assert (HT := treated_weight). assert (HC := control_weight). unfold q3, q2. revert HN HT HC. generalize N (sumf (fun u => p_w u * p_D u) l) (sumf (fun u => p_w u * (1 - p_D u)) l). intros n0 t0 c0 HN HT HC. unfold p_D. destruct (p_d u); cbn [ind]; field; repeat split; try assumption; discriminate. }
      rewrite A. ring.
    - intros i Hi. apply in_seq in Hi. rewrite col3 by lia. rewrite nth_vscale. unfold p_D at 1. cbn [stack_row p_d p_w ind]. unfold resid. ring.
  Qed.
End Inverse.
