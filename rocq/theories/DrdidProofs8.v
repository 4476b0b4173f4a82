(** Proofs for C27, continued: derivative of the regression estimate. *)
From Verif Require Import Base ListLib ReduceModel ReduceProofs2 Calc DrdidModel DrdidSpec DrdidProofs DrdidProofs2 DrdidProofs3 DrdidProofs4 DrdidProofs5 DrdidProofs6 DrdidProofs7.

Lemma reweight0 h l : map (reweight 0 h) l = l.
Proof. transitivity (map (fun u => u) l); [|apply map_id]. apply map_ext. intros [i d y1 y0 w x]. unfold reweight, set_w. cbn. f_equal. ring. Qed.
Lemma cross1 k l (M : matrix) (s : nat -> Qc) (f : punit -> Qc) : l <> [] ->
  sumf (fun u => f u * sumf (fun i => x_at u i * sumf (fun j => mget M j i / qn (length l) * s j) (seq 0 k)) (seq 0 k)) l
  = sumf (fun j => s j * nth j (mv k M (mean_col k f l)) 0) (seq 0 k).
Proof.
  intros Hl. assert (Hn : qn (length l) <> 0) by (apply qn_neq0; destruct l; [congruence|cbn; lia]).
  transitivity (sumf (fun i => (sumf (fun u => f u * x_at u i) l) * sumf (fun j => mget M j i / qn (length l) * s j) (seq 0 k)) (seq 0 k)).
  - rewrite (sumf_ext _ (fun u => sumf (fun i => f u * x_at u i * sumf (fun j => mget M j i / qn (length l) * s j) (seq 0 k)) (seq 0 k))) by (intros u _; rewrite <- sumf_mul_l; apply sumf_ext; intros; ring).
    rewrite sumf_swap. apply sumf_ext. intros i _. apply sumf_mul_r.
  - rewrite (sumf_ext _ (fun i => sumf (fun j => s j * (mget M j i * nth i (mean_col k f l) 0)) (seq 0 k))).
    + rewrite sumf_swap. apply sumf_ext. intros j Hj. apply in_seq in Hj. unfold mv. rewrite nth_map_seq by lia. apply sumf_mul_l.
    + intros i Hi. apply in_seq in Hi. rewrite <- sumf_mul_l. apply sumf_ext. intros j _. unfold mean_col. rewrite nth_vec_of by lia. unfold mean. field. exact Hn.
Qed.
Lemma cross2 k l h (M : matrix) b v (out : punit -> Qc) : (forall u, In u l -> out u = dotk k (p_x u) b) ->
  sumf (fun u => h u * dotk k (alr_wols k out M u) v) l = sumf (fun j => s_reg k l h b j * nth j (mv k M v) 0) (seq 0 k).
Proof.
  intros HO. rewrite (sumf_ext _ (fun u => sumf (fun j => p_w u * h u * ((1 - p_D u) * (p_dy u - dotk k (p_x u) b) * x_at u j) * nth j (mv k M v) 0) (seq 0 k))).
  - rewrite sumf_swap. apply sumf_ext. intros j _. unfold s_reg. apply sumf_mul_r.
  - intros u Hu. unfold alr_wols. rewrite dotk_vm, dotk_scale_l, (HO u Hu). unfold dotk at 2. rewrite <- !sumf_mul_l. apply sumf_ext. intros j _. unfold x_at. ring.
Qed.
Lemma gram_inverse k l M : l <> [] -> is_inverse k (ols_gram k l) M ->
  forall i m, (i < k)%nat -> (m < k)%nat -> sumf (fun j => mget M j i / qn (length l) * G_reg l j m) (seq 0 k) = ind (i =? m)%nat.
Proof.
  intros Hl HI i m Hi Hm. destruct (HI m i Hm Hi) as [E _]. rewrite Nat.eqb_sym. rewrite <- E. unfold mat_mul. apply sumf_ext. intros j Hj. apply in_seq in Hj.
  unfold ols_gram. rewrite mget_mat_of by lia. unfold mean, G_reg.
  rewrite (sumf_ext (fun u => x_at u m * _) (fun u => p_w u * (1 - p_D u) * x_at u j * x_at u m)) by (intros; ring). unfold Qcdiv. ring.
Qed.
Lemma avg_map h l (g : punit -> Qc) : avg_with h l (map g l) = sumf (fun u => h u * g u) l / qn (length l).
Proof. unfold avg_with. rewrite combine_map_self, sumf_map. reflexivity. Qed.
Lemma group_mean_reweight e h v l : (forall w u, v (set_w w u) = v u) ->
  group_mean true v (map (reweight e h) l) = sumf (fun u => p_w u * (1 + e * h u) * (p_D u * v u)) l / sumf (fun u => p_w u * (1 + e * h u) * p_D u) l.
Proof.
  intros Hv. unfold group_mean. rewrite !sumf_filter, !sumf_map. f_equal; apply sumf_ext; intros u _; unfold p_D; cbn [reweight set_w p_d p_w].
  - unfold reweight. rewrite Hv. destruct (p_d u); cbn; ring.
  - destruct (p_d u); cbn; ring.
Qed.
Lemma mean_sum_mul {A} (f : A -> Qc) l : l <> [] -> sumf f l = qn (length l) * mean f l.
Proof. intros H. unfold mean. field. apply qn_neq0. destruct l; [congruence|cbn; lia]. Qed.

Definition beta_of (o : oracle) (l : list punit) : list Qc := match o_wls o (ctrl (normalise l)) with Some b => b | None => [] end.
Lemma beta_near o k l h : wls_ok o k ->
  near0 (fun e => o_wls o (ctrl (normalise (map (reweight e h) l))) <> None /\ mean p_w (map (reweight e h) l) <> 0) ->
  near0 (fun e => normal_equations k (map (reweight e h) l) (beta_of o (map (reweight e h) l))).
Proof.
  intros WO H. eapply near0_impl; [|exact H]. cbn beta. intros e [E Hm]. unfold beta_of.
  destruct (o_wls o (ctrl (normalise (map (reweight e h) l)))) as [b|] eqn:Eb; [|congruence].
  apply normal_raw; [exact Hm|]. apply normal_of_controls. apply WO. exact Eb.
Qed.

Lemma reg_derivative_normalised o k l h att inf : wls_ok o k -> inv_ok o k -> normalise l = l ->
  reg_did_panel o k l = PEst att inf -> near0 (fun e => has_est (reg_did_panel o k (map (reweight e h) l))) ->
  derivative_at_0 (fun e => att_of (reg_did_panel o k (map (reweight e h) l))) (avg_with h l inf).
Proof.
  intros WO IO NL E HE. set (beta := fun e => beta_of o (map (reweight e h) l)).
  assert (NE : near0 (fun e => normal_equations k (map (reweight e h) l) (beta e))).
  { apply beta_near; [exact WO|]. eapply near0_impl; [|exact HE]. cbn beta. intros e [a [i Ee]]. apply reg_inv in Ee.
    destruct Ee as [_ [_ [b [M [Eb [Hm _]]]]]]. split; [congruence|]. apply mean_wreg_pos_weights in Hm. exact Hm. }
  assert (AE : near0 (fun e => sumf (fun u => p_w u * (1 + e * h u) * (p_D u * (p_dy u - dotk k (p_x u) (beta e)))) l / sumf (fun u => p_w u * (1 + e * h u) * p_D u) l
                               = att_of (reg_did_panel o k (map (reweight e h) l)))).
  { eapply near0_impl; [|exact HE]. cbn beta. intros e He. destruct (has_est_inv _ He) as [i Ei]. apply reg_value in Ei. destruct Ei as [b [Eb ->]].
    unfold beta, beta_of. rewrite Eb. rewrite group_mean_reweight by reflexivity. reflexivity. }
  apply reg_inv in E. rewrite NL in E. destruct E as [N0 [_ [b [M [Eb [Hm [EM [-> ->]]]]]]]].
  assert (Hl : l <> []) by (intros ->; apply Hm; reflexivity).
  assert (Hn : qn (length l) <> 0) by (apply qn_neq0; destruct l; [congruence|cbn; lia]).
  assert (B0 : beta 0 = b) by (unfold beta, beta_of; rewrite reweight0, NL, Eb; reflexivity).
  set (d := fun i => sumf (fun j => mget M j i / qn (length l) * s_reg k l h b j) (seq 0 k)).
  assert (DB : forall i, (i < k)%nat -> derivative_at_0 (fun e => nth i (beta e) 0) (d i)).
  { intros i Hi. unfold d. rewrite <- B0. apply (beta_derivative k l h beta (fun i j => mget M j i / qn (length l)) NE); [|exact Hi]. apply gram_inverse; [exact Hl|apply IO; exact EM]. }
  apply (D_ext _ _ _ AE).
  assert (T0 : sumf (fun u => p_w u * (1 + 0 * h u) * p_D u) l = qn (length l) * mean w_reg l).
  { rewrite <- mean_sum_mul by exact Hl. apply sumf_ext. intros u _. unfold w_reg. ring. }
  eapply D_eq; [|apply D_div].
  3:{ apply (D_wsum l h (fun u _ => p_D u) (fun _ => 0)). intros u _. apply D_const. }
  2:{ apply (D_wsum l h (fun u e => p_D u * (p_dy u - dotk k (p_x u) (beta e))) (fun u => p_D u * (0 - sumf (fun j => x_at u j * d j) (seq 0 k)))).
      intros u _. apply D_scale. apply (D_sub (fun _ => p_dy u) (fun e => dotk k (p_x u) (beta e))); [apply D_const|]. apply (D_dotk k (p_x u) beta d DB). }
  2:{ cbn beta. rewrite T0. intros Z. apply Qcmult_integral in Z. destruct Z; contradiction. }
  cbn beta. rewrite T0, B0. rewrite avg_map.
  assert (F0 : sumf (fun u => p_w u * (1 + 0 * h u) * (p_D u * (p_dy u - dotk k (p_x u) b))) l / (qn (length l) * mean w_reg l) = reg_att (outf k b) l).
  { unfold reg_att, wmean. rewrite (sumf_ext _ (fun u => w_reg u * p_dy u - w_reg u * dotk k (p_x u) b)) by (intros; unfold w_reg; ring).
    rewrite sumf_sub. rewrite !(mean_sum_mul _ l Hl). field. split; assumption. }
  rewrite F0. set (A := reg_att (outf k b) l).
  set (m1 := mean w_reg l) in *.
  rewrite (sumf_ext (fun u => p_w u * (p_D u * (0 - sumf (fun j => x_at u j * d j) (seq 0 k)))) (fun u => - (w_reg u * sumf (fun j => x_at u j * d j) (seq 0 k)))) by (intros; unfold w_reg; ring).
  rewrite sumf_opp. unfold d at 1. rewrite (cross1 k l M (s_reg k l h b) w_reg Hl).
  rewrite <- (cross2 k l h M b (mean_col k w_reg l) (outf k b)) by reflexivity.
  rewrite (sumf_ext (fun u => p_w u * 0) (fun _ => 0)) by (intros; ring). rewrite sumf_0.
  rewrite (sumf_ext (fun u => h u * reg_inf k (outf k b) M l u)
    (fun u => (p_w u * h u * (p_D u * (p_dy u - dotk k (p_x u) b)) - p_w u * h u * p_D u * A - h u * dotk k (alr_wols k (outf k b) M u) (mean_col k w_reg l)) / m1)).
  2:{ intros u _. unfold reg_inf. cbn zeta. fold m1. unfold A, reg_att. set (x1 := wmean w_reg p_dy l). set (x2 := wmean w_reg (outf k b) l). unfold w_reg, Qcdiv. ring. }
  rewrite sumf_div, !sumf_sub, sumf_mul_r. field. split; assumption.
Qed.

(** ** removing the normalisation *)
Definition h_norm (l : list punit) (h : punit -> Qc) (v : punit) : Qc := h (set_w (mean p_w l * p_w v) v).
Lemma h_norm_eq l h u : mean p_w l <> 0 -> h_norm l h (set_w (p_w u / mean p_w l) u) = h u.
Proof. intros Hm. unfold h_norm. f_equal. destruct u as [i d y1 y0 w x]. unfold set_w. cbn [p_id p_d p_y1 p_y0 p_w p_x]. f_equal. field. exact Hm. Qed.
Lemma reweight_norm l h e : mean p_w l <> 0 ->
  map (reweight e (h_norm l h)) (normalise l) = map (scale_w (/ mean p_w l)) (map (reweight e h) l).
Proof.
  intros Hm. unfold normalise. rewrite !map_map. apply map_ext. intros u. unfold reweight at 1. rewrite h_norm_eq by exact Hm.
  unfold scale_w, reweight, set_w. cbn [p_id p_d p_y1 p_y0 p_w p_x]. f_equal. unfold Qcdiv. ring.
Qed.
Lemma normalise_idem l : mean p_w l <> 0 -> normalise (normalise l) = normalise l.
Proof. intros Hm. transitivity (normalise (map (scale_w (/ mean p_w l)) l)).
  - f_equal. unfold normalise. apply map_ext. intros u. unfold scale_w, Qcdiv. rewrite Qcmult_comm. reflexivity.
  - apply normalise_scale. intros Z. apply Hm. transitivity (mean p_w l * mean p_w l * / mean p_w l); [field; exact Hm|rewrite Z; ring].
Qed.
Lemma normalise_as_scale l : normalise l = map (scale_w (/ mean p_w l)) l.
Proof. unfold normalise. apply map_ext. intros u. unfold scale_w, Qcdiv. rewrite Qcmult_comm. reflexivity. Qed.
Lemma avg_norm l h inf : mean p_w l <> 0 -> avg_with (h_norm l h) (normalise l) inf = avg_with h l inf.
Proof.
  intros Hm. unfold avg_with. rewrite normalise_length. f_equal. unfold normalise.
  assert (G : forall l' inf, (forall u, In u l' -> h_norm l h (set_w (p_w u / mean p_w l) u) = h u) ->
    sumf (fun p => h_norm l h (fst p) * snd p) (combine (map (fun u => set_w (p_w u / mean p_w l) u) l') inf) = sumf (fun p => h (fst p) * snd p) (combine l' inf)).
  { induction l' as [|a l' IH]; intros inf' H; [reflexivity|]. destruct inf' as [|x inf']; [reflexivity|]. cbn [map combine]. rewrite !sumf_cons. cbn [fst snd].
    rewrite H by (left; reflexivity). f_equal. apply IH. intros u Hu. apply H. right. exact Hu. }
  apply G. intros u _. apply h_norm_eq. exact Hm.
Qed.
Lemma mean_pos_of l : any_neg l = false -> mean p_w l <> 0 -> 0 < / mean p_w l.
Proof.
  intros N Hm. apply Qcinv_pos. destruct (Qc_le_or_lt (mean p_w l) 0) as [L|L]; [|exact L]. exfalso. apply Hm, Qcle_antisym; [exact L|].
  apply mean_nonneg. apply any_neg_false. exact N.
Qed.
Lemma reg_derivative o k l h att inf : wls_ok o k -> inv_ok o k ->
  reg_did_panel o k l = PEst att inf -> near0 (fun e => has_est (reg_did_panel o k (map (reweight e h) l))) ->
  derivative_at_0 (fun e => att_of (reg_did_panel o k (map (reweight e h) l))) (avg_with h l inf).
Proof.
  intros WO IO E HE. assert (E' := E). apply reg_inv in E'. destruct E' as [N0 [_ [b [M [_ [Hm _]]]]]]. apply mean_wreg_pos_weights in Hm.
  assert (P := mean_pos_of l N0 Hm).
  assert (R : forall e, reg_did_panel o k (map (reweight e (h_norm l h)) (normalise l)) = reg_did_panel o k (map (reweight e h) l)).
  { intros e. rewrite reweight_norm by exact Hm. apply reg_scale. exact P. }
  rewrite <- (avg_norm l h inf Hm).
  apply (D_ext (fun e => att_of (reg_did_panel o k (map (reweight e (h_norm l h)) (normalise l))))); [apply near0_all; intros e; rewrite R; reflexivity|].
  apply (reg_derivative_normalised o k (normalise l) (h_norm l h) att inf WO IO (normalise_idem l Hm)).
  - rewrite normalise_as_scale, reg_scale by exact P. exact E.
  - eapply near0_impl; [|exact HE]. cbn beta. intros e. rewrite R. auto.
Qed.
