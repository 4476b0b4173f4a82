(** Proofs for C25-C27, continued. *)
From Verif Require Import Base ListLib ReduceModel ReduceProofs2 DrdidModel DrdidSpec DrdidProofs.

Lemma Qcdiv_0_r a : a / 0 = 0.
Proof. apply Qc_eq_this. rewrite this_div. unfold Qdiv. cbn. ring. Qed.
Lemma nonneg_sum_zero {A} (f : A -> Qc) l : (forall a, In a l -> 0 <= f a) -> sumf f l = 0 -> forall a, In a l -> f a = 0.
Proof.
  intros H E a Ha. destruct (Qc_le_or_lt (f a) 0) as [L|L]; [apply Qcle_antisym; [exact L|apply H; exact Ha]|].
  exfalso. assert (0 < sumf f l) by (apply sumf_pos; [exact H|exists a; auto]). rewrite E in H0. revert H0. apply Qcle_not_lt. apply Qcle_refl.
Qed.
Lemma Qcmult_integral_ a b : a * b = 0 -> a = 0 \/ b = 0. Proof. apply Qcmult_integral. Qed.
Lemma Qc_sq_nonneg (a : Qc) : 0 <= a * a.
Proof.
  destruct (Qc_le_or_lt 0 a) as [L|L]; [apply Qcmult_nonneg; exact L|].
  replace (a * a) with ((- a) * (- a)) by ring. assert (0 <= - a). { apply Qcopp_le_compat in L || (apply Qclt_le_weak in L; apply Qcopp_le_compat in L). replace (- 0) with 0 in L by ring. exact L. }
  apply Qcmult_nonneg; assumption.
Qed.

(** normalised weights *)
Lemma normalise_length l : length (normalise l) = length l. Proof. apply map_length. Qed.
Lemma in_normalise u l : In u (normalise l) -> exists v, In v l /\ u = set_w (p_w v / mean p_w l) v.
Proof. unfold normalise. rewrite in_map_iff. intros [v [<- H]]. eauto. Qed.
Lemma any_neg_false l : any_neg l = false <-> forall u, In u l -> 0 <= p_w u.
Proof.
  unfold any_neg. split.
  - intros H u Hu. destruct (Qcltb_spec (p_w u) 0) as [L|L].
    + assert (existsb (fun u => Qcltb (p_w u) 0) l = true) by (apply existsb_exists; exists u; split; [exact Hu|]; destruct (Qcltb_spec (p_w u) 0); congruence). congruence.
    + apply Qcnot_lt_le. exact L.
  - intros H. destruct (existsb _ l) eqn:E; [|reflexivity]. apply existsb_exists in E. destruct E as [u [Hu L]].
    destruct (Qcltb_spec (p_w u) 0) as [L'|]; [|discriminate]. exfalso. apply (Qcle_not_lt _ _ (H u Hu)). exact L'.
Qed.
Lemma mean_nonneg {A} (f : A -> Qc) l : (forall a, In a l -> 0 <= f a) -> 0 <= mean f l.
Proof.
  intros H. unfold mean. destruct l as [|a l]; [unfold sumf; cbn; rewrite Qcdiv_0_l; apply Qcle_refl|].
  apply Qcdiv_nonneg; [apply sumf_nonneg; exact H|apply qn_pos; cbn; lia].
Qed.
Lemma mean_map {A B} (h : A -> B) (f : B -> Qc) l : mean f (map h l) = mean (fun a => f (h a)) l.
Proof. unfold mean. rewrite sumf_map, map_length. reflexivity. Qed.
(** a zero total weight makes every normalised weight zero *)
Lemma normalise_zero l : mean p_w l = 0 -> forall u, In u (normalise l) -> p_w u = 0.
Proof. intros E u Hu. apply in_normalise in Hu. destruct Hu as [v [_ ->]]. cbn. rewrite E. apply Qcdiv_0_r. Qed.
Lemma mean_wt_pos_weights tl ps l : mean (w_treat tl ps) (normalise l) <> 0 -> mean p_w l <> 0.
Proof.
  intros H E. apply H. apply mean_0, sumf_zero. intros u Hu. unfold w_treat. rewrite (normalise_zero l E u Hu). ring.
Qed.
Lemma mean_wreg_pos_weights l : mean w_reg (normalise l) <> 0 -> mean p_w l <> 0.
Proof.
  intros H E. apply H. apply mean_0, sumf_zero. intros u Hu. unfold w_reg. rewrite (normalise_zero l E u Hu). ring.
Qed.

Lemma filter_map {A B} (h : A -> B) (p : B -> bool) l : filter p (map h l) = map h (filter (fun a => p (h a)) l).
Proof. induction l as [|a l IH]; [reflexivity|]. cbn. destruct (p (h a)); cbn; rewrite IH; reflexivity. Qed.

(** normal equations of the comparison sample are normal equations of the whole sample *)
Lemma normal_of_controls k l beta : normal_equations k (filter (fun u => negb (p_d u)) l) beta -> normal_equations k l beta.
Proof.
  intros H j Hj. rewrite <- (H j Hj), sumf_filter. apply sumf_ext. intros u _. unfold p_D. destruct (p_d u); cbn; ring.
Qed.

Lemma dotk_0 k x : dotk k x [] = 0.
Proof. unfold dotk. apply sumf_zero. intros j _. destruct j; cbn; ring. Qed.

(** the regression coefficients are determined up to the fitted values *)
Definition e0 (a : Qc) : list Qc := [a].
Lemma dotk_e0 k a x : nth 0 x 0 = 1 -> (1 <= k)%nat -> dotk k x (e0 a) = a.
Proof.
  intros Hx Hk. unfold dotk, e0. destruct k as [|k]; [lia|]. rewrite <- cons_seq, sumf_cons, Hx. cbn [nth].
  rewrite sumf_zero; [ring|]. intros j Hj. apply in_seq in Hj. destruct j as [|[|j]]; [lia|cbn; ring|cbn; ring].
Qed.

Lemma one_minus_D u : 0 <= 1 - p_D u.
Proof. unfold p_D. destruct (p_d u); discriminate. Qed.
Lemma rank_zero k l v : (forall u, In u l -> 0 <= p_w u) -> no_collinearity k l ->
  (forall j, (j < k)%nat -> sumf (fun u => p_w u * (1 - p_D u) * dotk k (p_x u) v * x_at u j) l = 0) ->
  forall j, (j < k)%nat -> nth j v 0 = 0.
Proof.
  intros W NC H. apply NC. intros u Hu Hd Hw.
  assert (Q : sumf (fun u => p_w u * (1 - p_D u) * (dotk k (p_x u) v * dotk k (p_x u) v)) l = 0).
  { rewrite (sumf_ext _ (fun u => sumf (fun j => nth j v 0 * (p_w u * (1 - p_D u) * dotk k (p_x u) v * x_at u j)) (seq 0 k))).
    - rewrite sumf_swap. apply sumf_zero. intros j Hj. apply in_seq in Hj. rewrite sumf_mul_l, H by lia. ring.
    - intros a _. unfold dotk at 2. rewrite <- !sumf_mul_l. apply sumf_ext. intros j _. unfold x_at. ring. }
  assert (Z : p_w u * (1 - p_D u) * (dotk k (p_x u) v * dotk k (p_x u) v) = 0).
  { apply (nonneg_sum_zero (fun u => p_w u * (1 - p_D u) * (dotk k (p_x u) v * dotk k (p_x u) v)) l); [|exact Q|exact Hu].
    intros a Ha. apply Qcmult_nonneg; [|apply Qc_sq_nonneg]. apply Qcmult_nonneg; [apply W; exact Ha|apply one_minus_D]. }
  unfold p_D in Z. rewrite Hd in Z. cbn [ind] in Z. replace (p_w u * (1 - 0)) with (p_w u) in Z by ring.
  apply Qcmult_integral in Z. destruct Z as [Z|Z].
  - exfalso. revert Z. apply Qc_pos_neq0. exact Hw.
  - apply Qcmult_integral in Z. destruct Z; assumption.
Qed.

Lemma fit_affine k l c s beta beta' (dy' : punit -> Qc) :
  (forall u, In u l -> 0 <= p_w u) -> no_collinearity k l -> (s = 0 \/ has_intercept l /\ (1 <= k)%nat) ->
  normal_equations k l beta ->
  (forall u, In u l -> dy' u = c * p_dy u + s) ->
  (forall j, (j < k)%nat -> sumf (fun u => p_w u * (1 - p_D u) * (dy' u - dotk k (p_x u) beta') * x_at u j) l = 0) ->
  forall u, In u l -> dotk k (p_x u) beta' = c * dotk k (p_x u) beta + s.
Proof.
  intros W NC I N D N' u Hu.
  set (v := vec_of k (fun j => nth j beta' 0 - nth j (vec_of k (fun j => nth j (vscale c beta) 0 + nth j (e0 s) 0)) 0)).
  assert (E : forall u, In u l -> dotk k (p_x u) v = dotk k (p_x u) beta' - (c * dotk k (p_x u) beta + s)).
  { intros a Ha. unfold v. rewrite dotk_sub_r, dotk_add_r, dotk_scale_r. f_equal. f_equal. f_equal.
    destruct I as [-> | [I Hk]]; [|apply dotk_e0; auto]. unfold dotk, e0. apply sumf_zero. intros j _. destruct j as [|[|j]]; cbn; ring. }
  assert (Z : forall j, (j < k)%nat -> nth j v 0 = 0).
  { apply (rank_zero k l v W NC). intros j Hj.
    rewrite (sumf_ext _ (fun u => c * (p_w u * (1 - p_D u) * (p_dy u - dotk k (p_x u) beta) * x_at u j)
                                  - p_w u * (1 - p_D u) * (dy' u - dotk k (p_x u) beta') * x_at u j)).
    - rewrite sumf_sub, sumf_mul_l, N, N' by assumption. ring.
    - intros a Ha. rewrite E, D by exact Ha. ring. }
  assert (F : dotk k (p_x u) v = 0).
  { unfold dotk. apply sumf_zero. intros j Hj. apply in_seq in Hj. rewrite Z by lia. ring. }
  rewrite E in F by exact Hu. rewrite <- (Qcplus_0_l (c * _ + s)), <- F. ring.
Qed.
