(** Proofs for C25-C27. *)
From Verif Require Import Base ListLib ReduceModel ReduceProofs2 DrdidModel DrdidSpec.

Lemma nth_vscale c v j : nth j (vscale c v) 0 = c * nth j v 0.
Proof. unfold vscale. transitivity (nth j (map (fun a => c * a) v) (c * 0)); [f_equal; ring|]. apply map_nth. Qed.
Lemma nth_vec_of k f j : (j < k)%nat -> nth j (vec_of k f) 0 = f j.
Proof. intros H. unfold vec_of. apply nth_map_seq. exact H. Qed.
Lemma mget_mat_of k f i j : (i < k)%nat -> (j < k)%nat -> mget (mat_of k f) i j = f i j.
Proof. intros Hi Hj. unfold mget, mat_of. rewrite nth_map_seq by exact Hi. apply nth_map_seq. exact Hj. Qed.
Lemma mget_mscale c M i j : mget (mscale c M) i j = c * mget M i j.
Proof.
  unfold mget, mscale. transitivity (nth j (vscale c (nth i M [])) 0); [|apply nth_vscale].
  f_equal. change (@nil Qc) with (vscale c []) at 1. apply map_nth.
Qed.
Lemma dotk_ext k x b x' b' : (forall j, (j < k)%nat -> nth j x 0 * nth j b 0 = nth j x' 0 * nth j b' 0) -> dotk k x b = dotk k x' b'.
Proof. intros H. unfold dotk. apply sumf_ext. intros j Hj. apply in_seq in Hj. apply H. lia. Qed.
Lemma dotk_scale_l k c x b : dotk k (vscale c x) b = c * dotk k x b.
Proof. unfold dotk. rewrite <- sumf_mul_l. apply sumf_ext. intros j _. rewrite nth_vscale. ring. Qed.
Lemma dotk_scale_r k c x b : dotk k x (vscale c b) = c * dotk k x b.
Proof. unfold dotk. rewrite <- sumf_mul_l. apply sumf_ext. intros j _. rewrite nth_vscale. ring. Qed.
Lemma dotk_add_r k x b b' : dotk k x (vec_of k (fun j => nth j b 0 + nth j b' 0)) = dotk k x b + dotk k x b'.
Proof.
  unfold dotk. rewrite <- sumf_add. apply sumf_ext. intros j Hj. apply in_seq in Hj. rewrite nth_vec_of by lia. ring.
Qed.
Lemma dotk_sub_r k x b b' : dotk k x (vec_of k (fun j => nth j b 0 - nth j b' 0)) = dotk k x b - dotk k x b'.
Proof.
  unfold dotk. rewrite <- sumf_sub. apply sumf_ext. intros j Hj. apply in_seq in Hj. rewrite nth_vec_of by lia. ring.
Qed.
Lemma dotk_vm k x M v : dotk k (vm k x M) v = dotk k x (mv k M v).
Proof.
  unfold dotk. transitivity (sumf (fun j => sumf (fun i => nth i x 0 * mget M i j * nth j v 0) (seq 0 k)) (seq 0 k)).
  - apply sumf_ext. intros j Hj. apply in_seq in Hj. unfold vm. rewrite nth_map_seq by lia. rewrite sumf_mul_r. reflexivity.
  - rewrite sumf_swap. apply sumf_ext. intros i Hi. apply in_seq in Hi. unfold mv. rewrite nth_map_seq by lia.
    rewrite <- sumf_mul_l. apply sumf_ext. intros; ring.
Qed.
(** linear functionals of the rows average to a functional of the averaged row *)
Lemma sum_dotk k (f : punit -> Qc) v l :
  sumf (fun u => dotk k (vscale (f u) (p_x u)) v) l = dotk k (vec_of k (fun j => sumf (fun u => f u * x_at u j) l)) v.
Proof.
  unfold dotk. rewrite sumf_swap. apply sumf_ext. intros j Hj. apply in_seq in Hj. rewrite nth_vec_of by lia.
  rewrite <- sumf_mul_r. apply sumf_ext. intros u _. rewrite nth_vscale. reflexivity.
Qed.
Lemma sum_alr_zero k (f : punit -> Qc) M v l : (forall j, (j < k)%nat -> sumf (fun u => f u * x_at u j) l = 0) ->
  sumf (fun u => dotk k (vm k (vscale (f u) (p_x u)) M) v) l = 0.
Proof.
  intros H. rewrite (sumf_ext _ (fun u => dotk k (vscale (f u) (p_x u)) (mv k M v))) by (intros; apply dotk_vm).
  rewrite sum_dotk. unfold dotk. apply sumf_zero. intros j Hj. apply in_seq in Hj. rewrite nth_vec_of by lia. rewrite H by lia. ring.
Qed.

Lemma mean_0 {A} (f : A -> Qc) l : sumf f l = 0 -> mean f l = 0.
Proof. intros H. unfold mean. rewrite H. apply Qcdiv_0_l. Qed.
Lemma mean_div_r {A} c (f : A -> Qc) l : mean (fun a => f a / c) l = mean f l / c.
Proof. unfold mean. rewrite sumf_div. unfold Qcdiv. ring. Qed.
Lemma mean_opp {A} (f : A -> Qc) l : mean (fun a => - f a) l = - mean f l.
Proof. unfold mean. rewrite sumf_opp. unfold Qcdiv. ring. Qed.
(** weighted residuals around the weighted mean average to zero *)
Lemma wmean_centred {A} (w v : A -> Qc) l : mean w l <> 0 -> mean (fun u => w u * v u - w u * wmean w v l) l = 0.
Proof. intros H. rewrite mean_sub, mean_mul_r. unfold wmean. field. exact H. Qed.

Lemma lin1 {A} (f g : A -> Qc) m l : mean f l = 0 -> mean g l = 0 -> mean (fun u => (f u - g u) / m) l = 0.
Proof. intros Hf Hg. rewrite mean_div_r, mean_sub, Hf, Hg. unfold Qcdiv. ring. Qed.
Lemma lin2 {A} (f g h : A -> Qc) m l : mean f l = 0 -> mean g l = 0 -> mean h l = 0 -> mean (fun u => (f u + g u - h u) / m) l = 0.
Proof. intros Hf Hg Hh. rewrite mean_div_r, mean_sub, mean_add, Hf, Hg, Hh. unfold Qcdiv. ring. Qed.
Lemma lin3 {A} (f g : A -> Qc) m l : mean f l = 0 -> mean g l = 0 -> mean (fun u => (f u + g u) / m) l = 0.
Proof. intros Hf Hg. rewrite mean_div_r, mean_add, Hf, Hg. unfold Qcdiv. ring. Qed.
(** ** C27 *)
Lemma dr_inf_centred k tl ps out Minv H l :
  mean (w_treat tl ps) l <> 0 -> mean (w_cont tl ps) l <> 0 ->
  (forall j, (j < k)%nat -> sumf (fun u => p_w u * (1 - p_D u) * (p_dy u - out u) * x_at u j) l = 0) ->
  score_equations k ps l ->
  mean (dr_inf k tl ps out Minv H l) l = 0.
Proof.
  intros Ht Hc N S. unfold dr_inf. cbn zeta.
  assert (A : forall v, mean (fun u => dotk k (alr_wols k out Minv u) v) l = 0).
  { intros v. apply mean_0. unfold alr_wols. apply (sum_alr_zero k (fun u => p_w u * (1 - p_D u) * (p_dy u - out u))). exact N. }
  assert (B : forall v, mean (fun u => dotk k (alr_ps k ps H u) v) l = 0).
  { intros v. apply mean_0. unfold alr_ps. apply (sum_alr_zero k (fun u => p_w u * (p_D u - ps u))). exact S. }
  rewrite mean_sub. transitivity (0 - 0); [|ring]. f_equal.
  - apply lin1; [apply wmean_centred; assumption|apply A].
  - apply lin2; [apply wmean_centred; assumption|apply B|apply A].
Qed.
Lemma reg_inf_centred k out Minv l :
  mean w_reg l <> 0 ->
  (forall j, (j < k)%nat -> sumf (fun u => p_w u * (1 - p_D u) * (p_dy u - out u) * x_at u j) l = 0) ->
  mean (reg_inf k out Minv l) l = 0.
Proof.
  intros Hm N. unfold reg_inf. cbn zeta.
  assert (A : forall v, mean (fun u => dotk k (alr_wols k out Minv u) v) l = 0).
  { intros v. apply mean_0. unfold alr_wols. apply (sum_alr_zero k (fun u => p_w u * (1 - p_D u) * (p_dy u - out u))). exact N. }
  rewrite mean_sub. transitivity (0 - 0); [|ring]. f_equal.
  - rewrite mean_div_r, wmean_centred by assumption. apply Qcdiv_0_l.
  - apply lin3; [apply wmean_centred; assumption|apply A].
Qed.
Lemma ipw_inf_centred k tl ps H l :
  mean (w_treat tl ps) l <> 0 -> mean (w_cont tl ps) l <> 0 -> score_equations k ps l ->
  mean (ipw_inf k tl ps H l) l = 0.
Proof.
  intros Ht Hc S. unfold ipw_inf. cbn zeta. rewrite mean_sub, mean_add, !mean_sub.
  assert (B : forall v, mean (fun u => dotk k (alr_ps k ps H u) v) l = 0).
  { intros v. apply mean_0. unfold alr_ps. apply (sum_alr_zero k (fun u => p_w u * (p_D u - ps u))). exact S. }
  rewrite B. rewrite !mean_div_r, !mean_mul_r. field. split; assumption.
Qed.
