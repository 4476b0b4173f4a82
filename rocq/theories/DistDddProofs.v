(** Proofs for C110: pooling with an arbitrary common weight factor [c] (the triple-difference code divides the weights by their mean over
    the whole sample, not over the two subgroups of a comparison). *)
From Verif Require Import Base ListLib ReduceModel ReduceProofs ReduceProofs2 DrdidModel DrdidSpec DrdidProofs DrdidProofs2 DrdidProofs3 DrdidProofs4 DrdidProofs5 DrdidProofs7 DrdidProofs8 DistDidModel DistDidSpec DistDidProofs.
Local Open Scope Qc_scope.

Section PoolC.
Context (l : list punit) (c : Qc) (Hl : l <> []) (Hc0 : c <> 0).
Let nw (u : punit) : punit := set_w (p_w u / c) u.
Let L := map nw l.
Lemma L_map : L = map nw l. Proof. reflexivity. Qed.
Lemma map_L {B} (f : punit -> B) : map f L = map (fun u => f (nw u)) l. Proof. rewrite L_map, map_map. reflexivity. Qed.
Lemma mean_L (f : punit -> Qc) (f' : punit -> Qc) : (forall u, In u l -> f u = c * f' (nw u)) -> mean f l = c * mean f' L.
Proof. intros H. rewrite L_map, mean_map, <- mean_mul_l. apply mean_ext. exact H. Qed.
Lemma sum_L (f : punit -> Qc) (f' : punit -> Qc) : (forall u, In u l -> f u = c * f' (nw u)) -> sumf f l = c * sumf f' L.
Proof. intros H. rewrite L_map, sumf_map, <- sumf_mul_l. apply sumf_ext. exact H. Qed.
Lemma len_L : length L = length l. Proof. apply map_length. Qed.
Lemma wmean_L (w v w' v' : punit -> Qc) : (forall u, In u l -> w u = c * w' (nw u)) -> (forall u, In u l -> v u = v' (nw u)) ->
  wmean w v l = wmean w' v' L.
Proof.
  intros Hw Hv. unfold wmean. rewrite (mean_L w w' Hw), (mean_L (fun u => w u * v u) (fun u => w' u * v' u)).
  - apply ratio_scale. exact Hc0.
  - intros u Hu. rewrite (Hw u Hu), (Hv u Hu). ring.
Qed.
Lemma nw_x u : p_x (nw u) = p_x u. Proof. reflexivity. Qed.
Lemma nw_at u j : x_at (nw u) j = x_at u j. Proof. reflexivity. Qed.
Lemma nw_D u : p_D (nw u) = p_D u. Proof. reflexivity. Qed.
Lemma nw_dy u : p_dy (nw u) = p_dy u. Proof. reflexivity. Qed.
Lemma nw_w u : p_w u = c * p_w (nw u). Proof. unfold nw. cbn. field. exact Hc0. Qed.
Lemma n_neq0 : qn (length l) <> 0. Proof. apply qn_neq0. destruct l; [congruence|cbn; lia]. Qed.

(** gram matrices of the pooled data against the local ones *)
Lemma gram_or k i j : (i < k)%nat -> (j < k)%nat ->
  mget (ols_gram k L) i j = (1 / c) * mget (mscale (1 / qn (length l)) (wgram k (fun u => (1 - p_D u) * p_w u) l)) i j.
Proof.
  intros Hi Hj. unfold ols_gram. rewrite mget_mat_of by assumption. rewrite mget_mscale. unfold wgram. rewrite mget_mat_of by assumption.
  assert (E : mean (fun u => x_at u i * ((1 - p_D u) * p_w u) * x_at u j) l = c * mean (fun u => x_at u i * (p_w u * (1 - p_D u) * x_at u j)) L).
  { apply mean_L. intros u _. rewrite !nw_at, nw_D, (nw_w u). ring. }
  unfold mean in E at 1. unfold Qcdiv in E. transitivity ((1 / c) * (c * mean (fun u => x_at u i * (p_w u * (1 - p_D u) * x_at u j)) L)).
  - field. exact Hc0.
  - rewrite <- E. f_equal. unfold Qcdiv. rewrite Qcmult_1_l. apply Qcmult_comm.
Qed.
Lemma gram_ps k ps i j : (forall w u, ps (set_w w u) = ps u) -> (i < k)%nat -> (j < k)%nat ->
  mget (ps_gram k ps L) i j = (1 / c) * mget (wgram k (fun u => p_w u * ps u * (1 - ps u)) l) i j.
Proof.
  intros Hps Hi Hj. unfold ps_gram, wgram. rewrite !mget_mat_of by assumption.
  rewrite (sum_L (fun u => x_at u i * (p_w u * ps u * (1 - ps u)) * x_at u j) (fun u => x_at u i * (ps u * (1 - ps u) * p_w u * x_at u j))).
  - field. exact Hc0.
  - intros u _. rewrite !nw_at, (nw_w u). assert (E : ps (nw u) = ps u) by apply Hps. rewrite E. ring.
Qed.
(** the outcome regression coefficients agree *)
Lemma same_beta k b b' Minv : is_inverse k (ols_gram k L) Minv -> normal_equations k L b ->
  (forall i, (i < k)%nat -> sumf (fun j => sumf (fun u => x_at u i * p_w u * x_at u j) (ctrl l) * nth j b' 0) (seq 0 k) = sumf (fun u => x_at u i * p_w u * p_dy u) (ctrl l)) ->
  forall j, (j < k)%nat -> nth j b' 0 = nth j b 0.
Proof.
  intros HI HN HS.
  assert (HN' : normal_equations k L b').
  { intros i Hi. apply (Qcmult_cancel_l c); [exact Hc0|]. rewrite Qcmult_0_r.
    rewrite <- (sum_L (fun u => (1 - p_D u) * (x_at u i * p_w u * p_dy u) - (1 - p_D u) * (x_at u i * p_w u * dotk k (p_x u) b'))).
    2:{ intros u _. rewrite nw_at, nw_D, nw_dy, nw_x, (nw_w u). ring. }
    rewrite sumf_sub. assert (F : forall f : punit -> Qc, sumf (fun u => (1 - p_D u) * f u) l = sumf f (ctrl l)).
    { intros f. clear. induction l as [|u l0 IH]; [reflexivity|]. rewrite sumf_cons, IH. cbn [filter]. unfold p_D. destruct (p_d u); cbn [negb ind]; [ring|]. rewrite sumf_cons. ring. }
    rewrite !F, <- (HS i Hi).
    rewrite (sumf_ext (fun u => x_at u i * p_w u * dotk k (p_x u) b') (fun u => sumf (fun j => x_at u i * p_w u * x_at u j * nth j b' 0) (seq 0 k))).
    2:{ intros u _. unfold dotk. rewrite <- sumf_mul_l. apply sumf_ext. intros; unfold x_at; ring. }
    rewrite sumf_swap. rewrite (sumf_ext (fun j => sumf (fun u => x_at u i * p_w u * x_at u j) (ctrl l) * nth j b' 0) (fun j => sumf (fun u => x_at u i * p_w u * x_at u j * nth j b' 0) (ctrl l))).
    2:{ intros j _. rewrite sumf_mul_r. reflexivity. }
    ring. }
  assert (HD : forall i, (i < k)%nat -> sumf (fun j => mget (ols_gram k L) i j * (nth j b' 0 - nth j b 0)) (seq 0 k) = 0).
  { intros i Hi. assert (G : forall v, normal_equations k L v -> sumf (fun j => mget (ols_gram k L) i j * nth j v 0) (seq 0 k) = mean (fun u => p_w u * (1 - p_D u) * p_dy u * x_at u i) L).
    { intros v Hv. specialize (Hv i Hi). transitivity (mean (fun u => p_w u * (1 - p_D u) * dotk k (p_x u) v * x_at u i) L).
      - unfold mean. rewrite (sumf_ext _ (fun j => sumf (fun u => x_at u i * (p_w u * (1 - p_D u) * x_at u j) * nth j v 0) L / qn (length L))).
        + rewrite sumf_div. f_equal. rewrite sumf_swap. apply sumf_ext. intros u _. unfold dotk. rewrite <- sumf_mul_l, <- sumf_mul_r. apply sumf_ext. intros; unfold x_at; ring.
        + intros j Hj. apply in_seq in Hj. unfold ols_gram. rewrite mget_mat_of by lia. unfold mean. rewrite sumf_mul_r. unfold Qcdiv. ring.
      - symmetry. apply Qc_sub_0_eq. rewrite <- mean_sub. apply mean_0. rewrite <- Hv. apply sumf_ext. intros; ring. }
    rewrite (sumf_ext _ (fun j => mget (ols_gram k L) i j * nth j b' 0 - mget (ols_gram k L) i j * nth j b 0)) by (intros; ring).
    rewrite sumf_sub, (G b HN), (G b' HN'). ring. }
  intros j Hj. apply Qc_sub_0_eq. rewrite <- (ind_eqb_sum k j (fun p => nth p b' 0 - nth p b 0) Hj).
  transitivity (sumf (fun p => sumf (fun q => mget Minv j q * mget (ols_gram k L) q p) (seq 0 k) * (nth p b' 0 - nth p b 0)) (seq 0 k)).
  { apply sumf_ext. intros p Hp. apply in_seq in Hp. f_equal. symmetry. exact (proj2 (HI j p Hj ltac:(lia))). }
  transitivity (sumf (fun q => mget Minv j q * sumf (fun p => mget (ols_gram k L) q p * (nth p b' 0 - nth p b 0)) (seq 0 k)) (seq 0 k)).
  { rewrite (sumf_ext _ (fun p => sumf (fun q => mget Minv j q * mget (ols_gram k L) q p * (nth p b' 0 - nth p b 0)) (seq 0 k))) by (intros; rewrite sumf_mul_r; reflexivity).
    rewrite sumf_swap. apply sumf_ext. intros q _. rewrite <- sumf_mul_l. apply sumf_ext. intros; ring. }
  apply sumf_zero. intros q Hq. apply in_seq in Hq. rewrite HD by lia. ring.
Qed.

Lemma col_L k f f' j : (forall u, In u l -> f u = c * f' (nw u)) -> (j < k)%nat -> nth j (sum_col k f l) 0 / qn (length l) = c * nth j (mean_col k f' L) 0.
Proof.
  intros Hf Hj. unfold sum_col, mean_col. rewrite !nth_vec_of by exact Hj.
  change (sumf (fun u => f u * x_at u j) l / qn (length l)) with (mean (fun u => f u * x_at u j) l).
  apply mean_L. intros u Hu. rewrite (Hf u Hu), nw_at. ring.
Qed.
Lemma corr_or k f f' y X Minv : (forall u, In u l -> f u = c * f' (nw u)) ->
  is_inverse k (mscale (1 / qn (length l)) (wgram k (fun u => (1 - p_D u) * p_w u) l)) X -> is_inverse k (ols_gram k L) Minv ->
  dotk k y (mv k X (vec_of k (fun j => nth j (sum_col k f l) 0 / qn (length l)))) = dotk k y (mv k Minv (mean_col k f' L)).
Proof.
  intros Hf HX HM. rewrite (dot_mv_scaled k X Minv (mean_col k f' L) _ (1 / c) c).
  - field. exact Hc0.
  - intros i j Hi Hj. exact (inverse_scaled k _ _ Minv X (1 / c) HM HX (gram_or k) i j Hi Hj).
  - intros j Hj. rewrite nth_vec_of by exact Hj. apply col_L; assumption.
Qed.
Lemma corr_ps k ps f' v y Hh H : (forall w u, ps (set_w w u) = ps u) -> (forall j, (j < k)%nat -> nth j v 0 = c * nth j (mean_col k f' L) 0) ->
  is_inverse k (wgram k (fun u => p_w u * ps u * (1 - ps u)) l) Hh -> is_inverse k (ps_gram k ps L) H ->
  dotk k y (mv k (mscale (qn (length l)) Hh) v) = dotk k y (mv k (mscale (qn (length L)) H) (mean_col k f' L)).
Proof.
  intros Hps Hv HX HM. rewrite len_L. rewrite (dot_mv_scaled k _ (mscale (qn (length l)) H) (mean_col k f' L) v (1 / c) c).
  - field. exact Hc0.
  - intros i j Hi Hj. rewrite !mget_mscale. rewrite (inverse_scaled k _ _ H Hh (1 / c) HM HX (fun i j => gram_ps k ps i j Hps) i j Hi Hj). ring.
  - exact Hv.
Qed.
End PoolC.
