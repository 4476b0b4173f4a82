(** Proofs for C05: the pooled distributed cell is the local estimator. *)
From Verif Require Import Base ListLib ReduceModel ReduceProofs ReduceProofs2 DrdidModel DrdidSpec DrdidProofs DrdidProofs2 DrdidProofs3 DrdidProofs4 DrdidProofs5 DrdidProofs7 DrdidProofs8 DistDidModel DistDidSpec DistDidProofs.
Local Open Scope Qc_scope.

Lemma lookup_column (ids : list Z) l (f : punit -> Qc) i :
  lookup i (map (fun u => (p_id u, qn (length ids) / qn (length l) * f u)) l) =
  match find (fun p => (p_id (fst p) =? i)%Z) (combine l (map f l)) with
                | Some p => qn (length ids) / qn (length l) * snd p | None => 0 end.
Proof.
  generalize (qn (length ids) / qn (length l)) as s. intros s. induction l as [|u l IH]; cbn; [reflexivity|].
  rewrite (Z.eqb_sym i). destruct (p_id u =? i)%Z; [reflexivity|]. exact IH.
Qed.
Lemma core o m k fan tl ids parts completed gamma beta g :
  (2 <= fan)%nat -> hd [] parts <> [] -> Permutation parts completed -> NoDup (map p_id (concat parts)) ->
  match m with MReg => Some (vec_of k (fun _ => 0)) | _ => d_irls o parts end = Some gamma ->
  match m with MIpw => Some (vec_of k (fun _ => 0)) | _ => dist_wls o k fan parts end = Some beta ->
  finalize o m k (partition_stats m (d_mu o) k tl gamma beta (concat parts)) = Some (Some g) ->
  dist_cell o m k fan tl ids parts completed = CDone (g_att g) (column_of ids (concat parts) (map (dist_if m (d_mu o) k tl gamma beta g) (concat parts))).
Proof.
  intros Hf Hh HP Hd Hg Hb Hfin. destruct parts as [|[|u p] parts]; [cbn in Hh; congruence|cbn in Hh; congruence|].
  unfold dist_cell. destruct (Nat.eqb_spec (length (concat ((u :: p) :: parts))) 0) as [E|_]; [cbn in E; lia|].
  rewrite Hg, Hb. rewrite stats_pooled by (try discriminate; exact Hf). rewrite Hfin. f_equal.
  rewrite (flat_map_map (fun u => (p_id u, _))). rewrite writes_zero.
  - unfold column_of. apply map_ext. intros i. rewrite <- lookup_column. apply lookup_perm.
    + rewrite map_map. cbn [fst]. eapply Permutation_NoDup; [apply Permutation_map, concat_perm, HP|exact Hd].
    + apply Permutation_map, concat_perm, Permutation_sym, HP.
  - rewrite map_map. cbn [fst]. eapply Permutation_NoDup; [apply Permutation_map, concat_perm, HP|exact Hd].
Qed.

Section Pool.
Context (l : list punit) (c : Qc) (Hl : l <> []) (Hc : c = mean p_w l) (Hc0 : c <> 0).
Let L := normalise l.
Let nw (u : punit) : punit := set_w (p_w u / c) u.
Lemma L_map : L = map nw l. Proof. unfold L, normalise. rewrite <- Hc. reflexivity. Qed.
Lemma map_L {B} (f : punit -> B) : map f L = map (fun u => f (nw u)) l. Proof. rewrite L_map, map_map. reflexivity. Qed.
Lemma mean_L (f : punit -> Qc) (f' : punit -> Qc) : (forall u, In u l -> f u = c * f' (nw u)) -> mean f l = c * mean f' L.
Proof. intros H. rewrite L_map, mean_map, <- mean_mul_l. apply mean_ext. exact H. Qed.
Lemma sum_L (f : punit -> Qc) (f' : punit -> Qc) : (forall u, In u l -> f u = c * f' (nw u)) -> sumf f l = c * sumf f' L.
Proof. intros H. rewrite L_map, sumf_map, <- sumf_mul_l. apply sumf_ext. exact H. Qed.
Lemma len_L : length L = length l. Proof. apply normalise_length. Qed.
Lemma wmean_L (w v w' v' : punit -> Qc) : (forall u, In u l -> w u = c * w' (nw u)) -> (forall u, In u l -> v u = v' (nw u)) ->
  wmean w v l = wmean w' v' L.
Proof.
  intros Hw Hv. unfold wmean. rewrite (mean_L w w' Hw), (mean_L (fun u => w u * v u) (fun u => w' u * v' u)).
  - apply ratio_scale. exact Hc0.
  - intros u Hu. rewrite (Hw u Hu), (Hv u Hu). ring.
Qed.
Lemma nw_x u : p_x (nw u) = p_x u. Proof. reflexivity. Qed.
Lemma nw_at u j : x_at (nw u) j = x_at u j. Proof. reflexivity. Qed.
Lemma nw_D u : p_D (nw u) = p_D u. Proof. reflexivity. Qed.
Lemma nw_dy u : p_dy (nw u) = p_dy u. Proof. reflexivity. Qed.
Lemma nw_w u : p_w u = c * p_w (nw u). Proof. unfold nw. cbn. field. exact Hc0. Qed.
Lemma n_neq0 : qn (length l) <> 0. Proof. apply qn_neq0. destruct l; [congruence|cbn; lia]. Qed.

(** gram matrices of the pooled data against the local ones *)
Lemma gram_or k i j : (i < k)%nat -> (j < k)%nat ->
  mget (ols_gram k L) i j = (1 / c) * mget (mscale (1 / qn (length l)) (wgram k (fun u => (1 - p_D u) * p_w u) l)) i j.
Proof.
  intros Hi Hj. unfold ols_gram. rewrite mget_mat_of by assumption. rewrite mget_mscale. unfold wgram. rewrite mget_mat_of by assumption.
  assert (E : mean (fun u => x_at u i * ((1 - p_D u) * p_w u) * x_at u j) l = c * mean (fun u => x_at u i * (p_w u * (1 - p_D u) * x_at u j)) L).
  { apply mean_L. intros u _. rewrite !nw_at, nw_D, (nw_w u). ring. }
  unfold mean in E at 1. unfold Qcdiv in E. transitivity ((1 / c) * (c * mean (fun u => x_at u i * (p_w u * (1 - p_D u) * x_at u j)) L)).
  - field. exact Hc0.
  - rewrite <- E. f_equal. unfold Qcdiv. rewrite Qcmult_1_l. apply Qcmult_comm.
Qed.
Lemma gram_ps k ps i j : (forall w u, ps (set_w w u) = ps u) -> (i < k)%nat -> (j < k)%nat ->
  mget (ps_gram k ps L) i j = (1 / c) * mget (wgram k (fun u => p_w u * ps u * (1 - ps u)) l) i j.
Proof.
  intros Hps Hi Hj. unfold ps_gram, wgram. rewrite !mget_mat_of by assumption.
  rewrite (sum_L (fun u => x_at u i * (p_w u * ps u * (1 - ps u)) * x_at u j) (fun u => x_at u i * (ps u * (1 - ps u) * p_w u * x_at u j))).
  - field. exact Hc0.
  - intros u _. rewrite !nw_at, (nw_w u). assert (E : ps (nw u) = ps u) by apply Hps. rewrite E. ring.
Qed.
(** the outcome regression coefficients agree *)
Lemma same_beta k b b' Minv : is_inverse k (ols_gram k L) Minv -> normal_equations k L b ->
  (forall i, (i < k)%nat -> sumf (fun j => sumf (fun u => x_at u i * p_w u * x_at u j) (ctrl l) * nth j b' 0) (seq 0 k) = sumf (fun u => x_at u i * p_w u * p_dy u) (ctrl l)) ->
  forall j, (j < k)%nat -> nth j b' 0 = nth j b 0.
Proof.
  intros HI HN HS.
  assert (HN' : normal_equations k L b').
  { intros i Hi. apply (Qcmult_cancel_l c); [exact Hc0|]. rewrite Qcmult_0_r.
    rewrite <- (sum_L (fun u => (1 - p_D u) * (x_at u i * p_w u * p_dy u) - (1 - p_D u) * (x_at u i * p_w u * dotk k (p_x u) b'))).
    2:{ intros u _. rewrite nw_at, nw_D, nw_dy, nw_x, (nw_w u). ring. }
    rewrite sumf_sub. assert (F : forall f : punit -> Qc, sumf (fun u => (1 - p_D u) * f u) l = sumf f (ctrl l)).
    { intros f. clear. induction l as [|u l0 IH]; [reflexivity|]. rewrite sumf_cons, IH. cbn [filter]. unfold p_D. destruct (p_d u); cbn [negb ind]; [ring|]. rewrite sumf_cons. ring. }
    rewrite !F, <- (HS i Hi).
    rewrite (sumf_ext (fun u => x_at u i * p_w u * dotk k (p_x u) b') (fun u => sumf (fun j => x_at u i * p_w u * x_at u j * nth j b' 0) (seq 0 k))).
    2:{ intros u _. unfold dotk. rewrite <- sumf_mul_l. apply sumf_ext. intros; unfold x_at; ring. }
    rewrite sumf_swap. rewrite (sumf_ext (fun j => sumf (fun u => x_at u i * p_w u * x_at u j) (ctrl l) * nth j b' 0) (fun j => sumf (fun u => x_at u i * p_w u * x_at u j * nth j b' 0) (ctrl l))).
    2:{ intros j _. rewrite sumf_mul_r. reflexivity. }
    ring. }
  assert (HD : forall i, (i < k)%nat -> sumf (fun j => mget (ols_gram k L) i j * (nth j b' 0 - nth j b 0)) (seq 0 k) = 0).
  { intros i Hi. assert (G : forall v, normal_equations k L v -> sumf (fun j => mget (ols_gram k L) i j * nth j v 0) (seq 0 k) = mean (fun u => p_w u * (1 - p_D u) * p_dy u * x_at u i) L).
    { intros v Hv. specialize (Hv i Hi). transitivity (mean (fun u => p_w u * (1 - p_D u) * dotk k (p_x u) v * x_at u i) L).
      - unfold mean. rewrite (sumf_ext _ (fun j => sumf (fun u => x_at u i * (p_w u * (1 - p_D u) * x_at u j) * nth j v 0) L / qn (length L))).
        + rewrite sumf_div. f_equal. rewrite sumf_swap. apply sumf_ext. intros u _. unfold dotk. rewrite <- sumf_mul_l, <- sumf_mul_r. apply sumf_ext. intros; unfold x_at; ring.
        + intros j Hj. apply in_seq in Hj. unfold ols_gram. rewrite mget_mat_of by lia. unfold mean. rewrite sumf_mul_r. unfold Qcdiv. ring.
      - symmetry. apply Qc_sub_0_eq. rewrite <- mean_sub. apply mean_0. rewrite <- Hv. apply sumf_ext. intros; ring. }
    rewrite (sumf_ext _ (fun j => mget (ols_gram k L) i j * nth j b' 0 - mget (ols_gram k L) i j * nth j b 0)) by (intros; ring).
    rewrite sumf_sub, (G b HN), (G b' HN'). ring. }
  intros j Hj. apply Qc_sub_0_eq. rewrite <- (ind_eqb_sum k j (fun p => nth p b' 0 - nth p b 0) Hj).
  transitivity (sumf (fun p => sumf (fun q => mget Minv j q * mget (ols_gram k L) q p) (seq 0 k) * (nth p b' 0 - nth p b 0)) (seq 0 k)).
  { apply sumf_ext. intros p Hp. apply in_seq in Hp. f_equal. symmetry. exact (proj2 (HI j p Hj ltac:(lia))). }
  transitivity (sumf (fun q => mget Minv j q * sumf (fun p => mget (ols_gram k L) q p * (nth p b' 0 - nth p b 0)) (seq 0 k)) (seq 0 k)).
  { rewrite (sumf_ext _ (fun p => sumf (fun q => mget Minv j q * mget (ols_gram k L) q p * (nth p b' 0 - nth p b 0)) (seq 0 k))) by (intros; rewrite sumf_mul_r; reflexivity).
    rewrite sumf_swap. apply sumf_ext. intros q _. rewrite <- sumf_mul_l. apply sumf_ext. intros; ring. }
  apply sumf_zero. intros q Hq. apply in_seq in Hq. rewrite HD by lia. ring.
Qed.

Lemma col_L k f f' j : (forall u, In u l -> f u = c * f' (nw u)) -> (j < k)%nat -> nth j (sum_col k f l) 0 / qn (length l) = c * nth j (mean_col k f' L) 0.
Proof.
  intros Hf Hj. unfold sum_col, mean_col. rewrite !nth_vec_of by exact Hj.
  change (sumf (fun u => f u * x_at u j) l / qn (length l)) with (mean (fun u => f u * x_at u j) l).
  apply mean_L. intros u Hu. rewrite (Hf u Hu), nw_at. ring.
Qed.
Lemma corr_or k f f' y X Minv : (forall u, In u l -> f u = c * f' (nw u)) ->
  is_inverse k (mscale (1 / qn (length l)) (wgram k (fun u => (1 - p_D u) * p_w u) l)) X -> is_inverse k (ols_gram k L) Minv ->
  dotk k y (mv k X (vec_of k (fun j => nth j (sum_col k f l) 0 / qn (length l)))) = dotk k y (mv k Minv (mean_col k f' L)).
Proof.
  intros Hf HX HM. rewrite (dot_mv_scaled k X Minv (mean_col k f' L) _ (1 / c) c).
  - field. exact Hc0.
  - intros i j Hi Hj. exact (inverse_scaled k _ _ Minv X (1 / c) HM HX (gram_or k) i j Hi Hj).
  - intros j Hj. rewrite nth_vec_of by exact Hj. apply col_L; assumption.
Qed.
Lemma corr_ps k ps f' v y Hh H : (forall w u, ps (set_w w u) = ps u) -> (forall j, (j < k)%nat -> nth j v 0 = c * nth j (mean_col k f' L) 0) ->
  is_inverse k (wgram k (fun u => p_w u * ps u * (1 - ps u)) l) Hh -> is_inverse k (ps_gram k ps L) H ->
  dotk k y (mv k (mscale (qn (length l)) Hh) v) = dotk k y (mv k (mscale (qn (length L)) H) (mean_col k f' L)).
Proof.
  intros Hps Hv HX HM. rewrite len_L. rewrite (dot_mv_scaled k _ (mscale (qn (length l)) H) (mean_col k f' L) v (1 / c) c).
  - field. exact Hc0.
  - intros i j Hi Hj. rewrite !mget_mscale. rewrite (inverse_scaled k _ _ H Hh (1 / c) HM HX (fun i j => gram_ps k ps i j Hps) i j Hi Hj). ring.
  - exact Hv.
Qed.
End Pool.

(** fitted scores agree unless a score lies below the local clipping bound *)
Lemma dist_ps_fit m mu k g u : m <> MReg -> eps6 <= mu (dotk k (p_x u) g) -> dist_ps m mu k g u = ps_fit mu k g u.
Proof.
  intros Hm H. assert (E : dist_ps m mu k g u = qmin (clip eps10 (1 - eps10) (mu (dotk k (p_x u) g))) (1 - eps6)) by (destruct m; [reflexivity|congruence|reflexivity]).
  rewrite E. unfold ps_fit, qmin, clip. set (v := mu (dotk k (p_x u) g)) in *. clearbody v.
  assert (E10 : eps10 < eps6) by reflexivity. assert (E1 : eps6 < 1 - eps6) by reflexivity.
  assert (A1 : Qcltb v eps10 = false) by (destruct (Qcltb_spec v eps10) as [K|_]; [exfalso; apply (Qclt_not_le _ _ K); apply (Qcle_trans _ eps6); [discriminate|exact H]|reflexivity]).
  assert (A2 : Qcltb v eps6 = false) by (destruct (Qcltb_spec v eps6) as [K|_]; [exfalso; exact (Qclt_not_le _ _ K H)|reflexivity]). rewrite A1, A2.
  destruct (Qcltb_spec (1 - eps10) v).
  - assert (A3 : Qcltb (1 - eps6) (1 - eps10) = true) by reflexivity. rewrite A3.
    destruct (Qcltb_spec (1 - eps6) v) as [_|N]; [reflexivity|]. exfalso. apply N. apply (Qclt_trans _ (1 - eps10)); [reflexivity|assumption].
  - reflexivity.
Qed.
Lemma wt_eq m tl ps ps' u : m <> MReg -> ps u = ps' u -> dist_wt m tl ps u = w_treat tl ps' u.
Proof. intros Hm E. unfold dist_wt, w_treat, dist_keep, trim_ps. rewrite E. destruct m; try congruence; destruct (p_d u); cbn [orb ind]; ring. Qed.
Lemma wc_eq m tl ps ps' u : m <> MReg -> ps u = ps' u -> dist_wc m tl ps u = w_cont tl ps' u.
Proof.
  intros Hm E. assert (F : dist_wc m tl ps u = dist_keep m tl ps u * ps u * (1 - p_D u) / (1 - ps u) * p_w u) by (destruct m; [reflexivity|congruence|reflexivity]).
  rewrite F. unfold w_cont, dist_keep, trim_ps. rewrite E. unfold p_D. destruct m; try congruence; destruct (p_d u); cbn [orb ind]; unfold Qcdiv; ring.
Qed.
Lemma w_treat_nonneg tl ps u : 0 <= p_w u -> 0 <= w_treat tl ps u.
Proof. intros H. unfold w_treat, trim_ps, p_D. destruct (p_d u); cbn [ind orb]; [rewrite Qcmult_1_l, Qcmult_1_r; exact H|rewrite Qcmult_0_r; apply Qcle_refl]. Qed.
Lemma w_cont_nonneg tl ps u : 0 <= p_w u -> eps6 <= ps u -> ps u <= 1 - eps6 -> 0 <= w_cont tl ps u.
Proof.
  intros H H1 H2. assert (E6 : 0 < eps6) by reflexivity. unfold w_cont. apply Qcdiv_nonneg; [|apply (Qclt_le_trans _ eps6); [exact E6|clear - H2; qclra]].
  assert (A : 0 <= trim_ps tl ps u) by (unfold trim_ps; destruct (p_d u || Qcltb (ps u) tl); cbn; discriminate).
  assert (B : 0 <= 1 - p_D u) by apply one_minus_D. assert (C : 0 <= ps u) by (apply (Qcle_trans _ eps6); [discriminate|exact H1]).
  apply Qcmult_nonneg; [|exact B]. apply Qcmult_nonneg; [|exact C]. apply Qcmult_nonneg; assumption.
Qed.
Lemma mean_pos {A} (f : A -> Qc) l : (forall a, In a l -> 0 <= f a) -> mean f l <> 0 -> 0 < mean f l.
Proof. intros H N. destruct (Qc_le_or_lt (mean f l) 0) as [K|K]; [|exact K]. exfalso. apply N. apply Qcle_antisym; [exact K|apply mean_nonneg; exact H]. Qed.
