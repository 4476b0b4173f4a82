(** Proofs for C118: the regression on repeated cross-sections. *)
From Coq Require Import Qcabs.
From Verif Require Import Base ListLib ReduceModel ReduceProofs2 Calc DrdidModel DrdidSpec DrdidProofs DrdidProofs2 DrdidProofs3 DrdidProofs4 DrdidProofs5 DrdidProofs6 DrdidProofs7 DrdidProofs8 ImpProofs RcModel RcSpec RcProofs TwfeModel TwfeSpec TwfeProofs TwfeProofs2.

Lemma rno_const p l : (p = 0%nat \/ rno_leading_ones l) -> (0 <? p)%nat && forallb (fun u => Qceqb (nth 0 (r_x u) 0) 1) (rnormalise l) = false.
Proof.
  intros [->|[u [Hu Hx]]]; [reflexivity|]. apply andb_false_iff. right. apply Bool.not_true_iff_false. intros H. rewrite forallb_forall in H.
  assert (I := in_map (fun v => rset_w (r_w v / mean r_w l) v) l u Hu). specialize (H _ I). cbn in H. unfold rx_at in *. destruct (Qceqb_spec (nth 0 (r_x u) 0) 1); [contradiction|discriminate].
Qed.
Lemma rc_run o p l : (p = 0%nat \/ rno_leading_ones l) ->
  twfe_did_rc o p l = if rany_neg l then PRaise else twfe_fit o (4 + p) (map rc_row (rnormalise l)).
Proof. intros H. unfold twfe_did_rc. cbn zeta. rewrite rno_const by exact H. reflexivity. Qed.
Lemma rc_inv o p l att inf : (p = 0%nat \/ rno_leading_ones l) -> twfe_did_rc o p l = PEst att inf ->
  rany_neg l = false /\ exists beta M, o_wls o (map rc_row (rnormalise l)) = Some beta /\ o_inv o (ols_gram (4 + p) (map rc_row (rnormalise l))) = Some M /\
  att = nth 3 beta 0 /\ inf = map (fun r => nth 3 (alr_wols (4 + p) (fun r => dotk (4 + p) (p_x r) beta) M r) 0) (map rc_row (rnormalise l)).
Proof. intros H. rewrite rc_run by exact H. destruct (rany_neg l); [discriminate|]. intros E. split; [reflexivity|]. apply fit_inv. exact E. Qed.

Definition gtail (p : nat) (beta : list Qc) : list Qc := vec_of p (fun j => nth (4 + j) beta 0).
Lemma dot_gtail p beta x : dotk p x (gtail p beta) = sumf (fun j => nth j x 0 * nth (4 + j) beta 0) (seq 0 p).
Proof. unfold dotk. apply sumf_ext. intros j Hj. apply in_seq in Hj. unfold gtail. rewrite nth_vec_of by lia. reflexivity. Qed.
Lemma rresid p beta u : resid (4 + p) beta (rc_row u) = r_y u - dotk p (r_x u) (gtail p beta) - (nth 0 beta 0 + r_P u * nth 1 beta 0 + r_D u * nth 2 beta 0 + r_D u * r_P u * nth 3 beta 0).
Proof. unfold resid, p_dy. cbn [rc_row p_y1 p_y0 p_x]. rewrite dot_tail, dot_gtail. ring. Qed.
Definition rlev (beta : list Qc) (b t : bool) : Qc := nth 0 beta 0 + ind t * nth 1 beta 0 + ind b * nth 2 beta 0 + ind b * ind t * nth 3 beta 0.
Lemma ind_cell b t u : ind (in_cell b t u) = (if b then r_D u else 1 - r_D u) * (if t then r_P u else 1 - r_P u).
Proof. unfold in_cell, r_D, r_P. destruct (r_d u), (r_post u), b, t; cbn [Bool.eqb andb ind]; ring. Qed.

Section RC.
  Context (p : nat) (L : list runit) (beta : list Qc) (NE : normal_equations (4 + p) (map rc_row L) beta).
  Notation e u := (resid (4 + p) beta (rc_row u)).
  Lemma rne j : (j < 4 + p)%nat -> sumf (fun u => r_w u * e u * x_at (rc_row u) j) L = 0.
  Proof. intros Hj. rewrite <- (NE j Hj), sumf_map. apply sumf_ext. intros u _. unfold p_D at 1. cbn [rc_row p_d p_w ind]. unfold resid. ring. Qed.
  Lemma cell_zero b t : sumf (fun u => r_w u * e u * ind (in_cell b t u)) L = 0.
  Proof.
    assert (H0 := rne 0 ltac:(lia)). assert (H1 := rne 1 ltac:(lia)). assert (H2 := rne 2 ltac:(lia)). assert (H3 := rne 3 ltac:(lia)).
    unfold x_at in *. cbn [rc_row p_x nth] in *.
    set (s0 := sumf (fun u => r_w u * e u * 1) L) in *. set (s1 := sumf (fun u => r_w u * e u * r_P u) L) in *. set (s2 := sumf (fun u => r_w u * e u * r_D u) L) in *. set (s3 := sumf (fun u => r_w u * e u * (r_D u * r_P u)) L) in *.
    rewrite (sumf_ext _ (fun u => r_w u * e u * ((if b then r_D u else 1 - r_D u) * (if t then r_P u else 1 - r_P u)))) by (intros u _; rewrite ind_cell; reflexivity).
    destruct b, t.
    - exact H3.
    - transitivity (s2 - s3); [|rewrite H2, H3; ring]. unfold s2, s3. rewrite <- sumf_sub. apply sumf_ext. intros; ring.
    - transitivity (s1 - s3); [|rewrite H1, H3; ring]. unfold s1, s3. rewrite <- sumf_sub. apply sumf_ext. intros; ring.
    - transitivity (s0 - s1 - s2 + s3); [|rewrite H0, H1, H2, H3; ring]. unfold s0, s1, s2, s3. rewrite <- !sumf_sub, <- sumf_add. apply sumf_ext. intros; ring.
  Qed.
  Lemma cell_level b t : sumf r_w (cell b t L) <> 0 -> cell_mean b t (fun u => r_y u - dotk p (r_x u) (gtail p beta)) L = rlev beta b t.
  Proof.
    intros N. unfold cell_mean. assert (C : sumf (fun u => r_w u * (r_y u - dotk p (r_x u) (gtail p beta))) (cell b t L) = sumf r_w (cell b t L) * rlev beta b t).
    { apply Qc_sub_0_eq. rewrite <- sumf_mul_r, <- sumf_sub. unfold cell. rewrite sumf_filter. rewrite <- (cell_zero b t). apply sumf_ext. intros u _. rewrite rresid.
      unfold in_cell, rlev, r_D, r_P. destruct (r_d u), (r_post u), b, t; cbn [Bool.eqb andb ind]; ring. }
    rewrite C. field. exact N.
  Qed.
  Lemma rfour : (forall b t, sumf r_w (cell b t L) <> 0) -> nth 3 beta 0 = four_cells_of (fun u => r_y u - dotk p (r_x u) (gtail p beta)) L.
  Proof. intros N. unfold four_cells_of. rewrite !cell_level by apply N. unfold rlev. cbn [ind]. ring. Qed.
  Lemma rwithin : (forall b t, sumf r_w (cell b t L) <> 0) -> forall j, (j < p)%nat ->
    sumf (fun u => r_w u * rx_at u j * (r_y u - dotk p (r_x u) (gtail p beta) - cell_mean (r_d u) (r_post u) (fun v => r_y v - dotk p (r_x v) (gtail p beta)) L)) L = 0.
  Proof.
    intros N j Hj. rewrite <- (rne (4 + j) ltac:(lia)). apply sumf_ext. intros u _. rewrite cell_level by apply N. rewrite rresid. unfold rlev, r_D, r_P, rx_at, x_at. cbn [rc_row p_x nth Nat.add]. ring.
  Qed.
  Lemma rcentred M : qsum (map (fun r => nth 3 (alr_wols (4 + p) (fun r => dotk (4 + p) (p_x r) beta) M r) 0) (map rc_row L)) = 0.
  Proof.
    rewrite map_map. change (sumf (fun x => x) (map (fun u => nth 3 (alr_wols (4 + p) (fun r => dotk (4 + p) (p_x r) beta) M (rc_row u)) 0) L) = 0) || idtac.
    transitivity (sumf (fun u => nth 3 (alr_wols (4 + p) (fun r => dotk (4 + p) (p_x r) beta) M (rc_row u)) 0) L); [unfold sumf, qsum; induction L; cbn; [reflexivity|f_equal; assumption]|].
    rewrite (sumf_ext _ (fun u => sumf (fun i => r_w u * e u * x_at (rc_row u) i * mget M i 3) (seq 0 (4 + p)))).
    - rewrite sumf_swap. apply sumf_zero. intros i Hi. apply in_seq in Hi. rewrite sumf_mul_r, rne by lia. ring.
    - intros u _. unfold alr_wols, vm. rewrite nth_map_seq by lia. apply sumf_ext. intros i _. rewrite nth_vscale. unfold p_D. cbn [rc_row p_d p_w ind]. unfold resid, x_at. ring.
  Qed.
End RC.
Section RCInv.
  Context (p : nat) (L : list runit) (M : matrix) (HM : is_inverse (4 + p) (ols_gram (4 + p) (map rc_row L)) M) (W : forall u, In u L -> 0 <= r_w u).
  Notation k := (4 + p)%nat.
  Lemma no_null a0 a1 a2 a3 : (forall u, In u L -> r_w u * (a0 + a1 * r_P u + a2 * r_D u + a3 * (r_D u * r_P u)) = 0) -> a3 = 0.
  Proof.
    intros H.
    assert (G : forall j, (j < k)%nat -> a0 * mget (ols_gram k (map rc_row L)) 0 j + a1 * mget (ols_gram k (map rc_row L)) 1 j + a2 * mget (ols_gram k (map rc_row L)) 2 j + a3 * mget (ols_gram k (map rc_row L)) 3 j = 0).
    { intros j Hj. unfold ols_gram. rewrite !mget_mat_of by lia. rewrite <- !mean_mul_l, <- !mean_add. apply mean_0. rewrite sumf_map. apply sumf_zero. intros u Hu.
      transitivity (r_w u * (a0 + a1 * r_P u + a2 * r_D u + a3 * (r_D u * r_P u)) * x_at (rc_row u) j); [|rewrite (H u Hu); ring].
      unfold p_D. cbn [rc_row p_d p_w ind]. change (x_at _ 0) with 1. change (x_at _ 1) with (r_P u). change (x_at _ 2) with (r_D u). change (x_at _ 3) with (r_D u * r_P u). ring. }
    assert (X : forall i, (i < 4)%nat -> sumf (fun j => mget (ols_gram k (map rc_row L)) i j * mget M j 3) (seq 0 k) = ind (i =? 3)%nat) by (intros i Hi; apply (HM i 3%nat); lia).
    assert (Y : sumf (fun j => (a0 * mget (ols_gram k (map rc_row L)) 0 j + a1 * mget (ols_gram k (map rc_row L)) 1 j + a2 * mget (ols_gram k (map rc_row L)) 2 j + a3 * mget (ols_gram k (map rc_row L)) 3 j) * mget M j 3) (seq 0 k) = 0).
    { apply sumf_zero. intros j Hj. apply in_seq in Hj. rewrite G by lia. ring. }
    rewrite (sumf_ext _ (fun j => a0 * (mget (ols_gram k (map rc_row L)) 0 j * mget M j 3) + a1 * (mget (ols_gram k (map rc_row L)) 1 j * mget M j 3) + a2 * (mget (ols_gram k (map rc_row L)) 2 j * mget M j 3) + a3 * (mget (ols_gram k (map rc_row L)) 3 j * mget M j 3))) in Y by (intros; ring).
    rewrite !sumf_add, !sumf_mul_l, !X in Y by lia. cbn [Nat.eqb ind] in Y. rewrite <- Y. ring.
  Qed.
  Lemma cells_pos b t : sumf r_w (cell b t L) <> 0.
  Proof.
    intros Z0. unfold cell in Z0. rewrite sumf_filter in Z0.
    assert (Hz : forall u, In u L -> ind (in_cell b t u) * r_w u = 0). { apply nonneg_sum_zero; [|exact Z0]. intros u Hu. destruct (in_cell b t u); cbn [ind]; [rewrite Qcmult_1_l; apply W; exact Hu|rewrite Qcmult_0_l; discriminate]. }
    assert (A : (1 : Qc) <> 0) by discriminate. assert (B : - (1) <> (0 : Qc)) by discriminate.
    destruct b, t.
    - apply A, (no_null 0 0 0 1). intros u Hu. refine (eq_trans _ (Hz u Hu)). rewrite ind_cell. ring.
    - apply B, (no_null 0 0 1 (- (1))). intros u Hu. refine (eq_trans _ (Hz u Hu)). rewrite ind_cell. ring.
    - apply B, (no_null 0 1 0 (- (1))). intros u Hu. refine (eq_trans _ (Hz u Hu)). rewrite ind_cell. ring.
    - apply A, (no_null 1 (- (1)) (- (1)) 1). intros u Hu. refine (eq_trans _ (Hz u Hu)). rewrite ind_cell. ring.
  Qed.
End RCInv.
Lemma cell_mean_norm b t v l : (forall w u, v (rset_w w u) = v u) -> mean r_w l <> 0 -> cell_mean b t v (rnormalise l) = cell_mean b t v l.
Proof.
  intros Hv Hm. unfold cell_mean, cell. rewrite !sumf_filter. unfold rnormalise. rewrite !sumf_map.
  rewrite (sumf_ext (fun a => ind (in_cell b t (rset_w (r_w a / mean r_w l) a)) * (r_w (rset_w (r_w a / mean r_w l) a) * v (rset_w (r_w a / mean r_w l) a)))
     (fun a => ind (in_cell b t a) * (r_w a * v a) * / mean r_w l)) by (intros u _; rewrite Hv; cbn [rset_w r_w]; change (in_cell b t (rset_w (r_w u / mean r_w l) u)) with (in_cell b t u); unfold Qcdiv; ring).
  rewrite (sumf_ext (fun a => ind (in_cell b t (rset_w (r_w a / mean r_w l) a)) * r_w (rset_w (r_w a / mean r_w l) a))
     (fun a => ind (in_cell b t a) * r_w a * / mean r_w l)) by (intros u _; cbn [rset_w r_w]; change (in_cell b t (rset_w (r_w u / mean r_w l) u)) with (in_cell b t u); unfold Qcdiv; ring).
  rewrite !sumf_mul_r. destruct (Qc_eq_dec (sumf (fun a => ind (in_cell b t a) * r_w a) l) 0) as [Z0|Z0].
  - rewrite Z0. rewrite Qcmult_0_l. unfold Qcdiv. replace (/ 0) with 0 by reflexivity. ring.
  - field. split; assumption.
Qed.
Lemma rw_nonneg l : rany_neg l = false -> forall u, In u l -> 0 <= r_w u.
Proof.
  intros H u Hu. unfold rany_neg in H. destruct (Qc_le_or_lt 0 (r_w u)) as [L|L]; [exact L|]. exfalso.
  assert (X : existsb (fun u => Qcltb (r_w u) 0) l = true) by (apply existsb_exists; exists u; split; [exact Hu|destruct (Qcltb_spec (r_w u) 0); [reflexivity|contradiction]]). congruence.
Qed.
Section RCEst.
  Context (o : oracle) (p : nat) (l : list runit) (att : Qc) (inf : list Qc).
  Context (HX : p = 0%nat \/ rno_leading_ones l) (WO : wls_ok o (4 + p)) (IO : inv_ok o (4 + p)) (E : twfe_did_rc o p l = PEst att inf).
  Notation L := (rnormalise l).
  Lemma rfacts : exists beta M, o_wls o (map rc_row L) = Some beta /\ normal_equations (4 + p) (map rc_row L) beta /\ is_inverse (4 + p) (ols_gram (4 + p) (map rc_row L)) M /\
    mean r_w l <> 0 /\ (forall b t, sumf r_w (cell b t L) <> 0) /\ rany_neg l = false /\ l <> [] /\
    att = nth 3 beta 0 /\ inf = map (fun r => nth 3 (alr_wols (4 + p) (fun r => dotk (4 + p) (p_x r) beta) M r) 0) (map rc_row L).
  Proof.
    destruct (rc_inv o p l att inf HX E) as [N0 [beta [M [Eb [EM [-> ->]]]]]]. exists beta, M.
    assert (W0 := rw_nonneg l N0).
    assert (W : forall u, In u L -> 0 <= r_w u).
    { destruct (Qc_eq_dec (mean r_w l) 0) as [Z0|Z0]; [|apply rnormalise_nonneg; assumption]. intros u Hu. rewrite (rnormalise_zero l Z0 u Hu). discriminate. }
    assert (C := cells_pos p L M (IO _ _ EM) W).
    assert (Hm : mean r_w l <> 0). { intros Z0. apply (C true true). apply sumf_zero. intros u Hu. apply filter_In in Hu. apply (rnormalise_zero l Z0). apply Hu. }
    split; [exact Eb|]. split; [apply WO; exact Eb|]. split; [apply IO; exact EM|]. split; [exact Hm|]. split; [exact C|]. split; [exact N0|]. split; [intros ->; apply Hm; reflexivity|]. auto.
  Qed.
  Lemma rc_value : exists gamma, att = four_cells_of (fun u => r_y u - dotk p (r_x u) gamma) l /\
    forall j, (j < p)%nat -> sumf (fun u => r_w u * rx_at u j * (r_y u - dotk p (r_x u) gamma - cell_mean (r_d u) (r_post u) (fun v => r_y v - dotk p (r_x v) gamma) l)) l = 0.
  Proof.
    destruct rfacts as [beta [M [_ [NE [HM [Hm [C [_ [_ [-> _]]]]]]]]]]. exists (gtail p beta). split.
    - rewrite (rfour p L beta NE C). unfold four_cells_of. rewrite !cell_mean_norm by (first [reflexivity|exact Hm]). reflexivity.
    - intros j Hj. assert (H := rwithin p L beta NE C j Hj). unfold rnormalise in H at 2. rewrite sumf_map in H.
      rewrite (sumf_ext _ (fun u => r_w u * rx_at u j * (r_y u - dotk p (r_x u) (gtail p beta) - cell_mean (r_d u) (r_post u) (fun v => r_y v - dotk p (r_x v) (gtail p beta)) l) * / mean r_w l)) in H.
      + rewrite sumf_mul_r in H. apply Qcmult_integral in H. destruct H as [H|H]; [exact H|]. exfalso. apply Hm. transitivity (mean r_w l * mean r_w l * / mean r_w l); [field; exact Hm|rewrite H; ring].
      + intros u _. rewrite cell_mean_norm by (first [reflexivity|exact Hm]). unfold rx_at. cbn [rset_w r_w r_x r_y r_d r_post]. unfold Qcdiv. ring.
  Qed.
  Lemma rc_centred : length inf = length l /\ qsum inf = 0.
  Proof.
    destruct rfacts as [beta [M [_ [NE [HM [Hm [C [_ [_ [_ ->]]]]]]]]]]. split; [rewrite !map_length; apply rnormalise_length|apply (rcentred p L beta NE M)].
  Qed.
End RCEst.

(** ** derivative *)
Definition unrow (r : punit) : runit :=
  {| r_id := p_id r; r_d := Qceqb (x_at r 2) 1; r_post := Qceqb (x_at r 1) 1; r_y := p_y1 r; r_w := p_w r; r_x := skipn 4 (p_x r) |}.
Lemma unrow_row u : unrow (rc_row u) = u.
Proof. destruct u as [i d t y w x]. unfold unrow, rc_row, x_at, r_D, r_P. cbn [r_id r_d r_post r_y r_w r_x p_id p_d p_y1 p_w p_x nth skipn]. destruct d, t; reflexivity. Qed.
Lemma row_reweight e h l : map rc_row (map (rreweight e h) l) = map (reweight e (fun r => h (unrow r))) (map rc_row l).
Proof. rewrite !map_map. apply map_ext. intros u. unfold reweight. rewrite unrow_row. reflexivity. Qed.
Lemma row_normalise l : map rc_row (rnormalise l) = normalise (map rc_row l).
Proof.
  unfold rnormalise, normalise. rewrite !map_map. apply map_ext. intros u. unfold rc_row, set_w, rset_w. cbn [r_w r_id r_y r_x p_w p_id p_d p_y1 p_y0 p_x].
  replace (mean p_w (map _ l)) with (mean r_w l); [reflexivity|]. unfold mean. rewrite map_length, sumf_map. reflexivity.
Qed.
Lemma normal_scale k c l b : c <> 0 -> normal_equations k l b -> normal_equations k (map (scale_w c) l) b.
Proof.
  intros Hc H j Hj. rewrite sumf_map. rewrite (sumf_ext _ (fun u => c * (p_w u * (1 - p_D u) * (p_dy u - dotk k (p_x u) b) * x_at u j))) by (intros u _; unfold p_D, p_dy, x_at; cbn [scale_w set_w p_w p_d p_y1 p_y0 p_x]; ring).
  rewrite sumf_mul_l, (H j Hj). ring.
Qed.
Lemma mean_rows l : mean p_w (map rc_row l) = mean r_w l.
Proof. unfold mean. rewrite map_length, sumf_map. reflexivity. Qed.
Lemma rno_reweight e h l p : (p = 0%nat \/ rno_leading_ones l) -> p = 0%nat \/ rno_leading_ones (map (rreweight e h) l).
Proof. intros [H|[u [Hu Hx]]]; [auto|right]. exists (rreweight e h u). split; [apply in_map; exact Hu|exact Hx]. Qed.
Lemma rc_derivative o p l h att inf : (p = 0%nat \/ rno_leading_ones l) -> wls_ok o (4 + p) -> inv_ok o (4 + p) ->
  twfe_did_rc o p l = PEst att inf -> near0 (fun e => has_est (twfe_did_rc o p (map (rreweight e h) l))) ->
  derivative_at_0 (fun e => att_of (twfe_did_rc o p (map (rreweight e h) l))) (ravg_with h l inf).
Proof.
  intros HX WO IO E HE. set (rows := map rc_row l). set (h' := fun r => h (unrow r)). set (k := (4 + p)%nat) in *.
  set (beta := fun e => match o_wls o (map rc_row (rnormalise (map (rreweight e h) l))) with Some b => b | None => [] end).
  assert (S : near0 (fun e => normal_equations k (map (reweight e h') rows) (beta e) /\ att_of (twfe_did_rc o p (map (rreweight e h) l)) = nth 3 (beta e) 0)).
  { eapply near0_impl; [|exact HE]. cbn beta. intros e [a [i Ei]].
    destruct (rfacts o p _ a i (rno_reweight e h l p HX) WO IO Ei) as [b [M [Eb [NE [_ [Hm [_ [_ [_ [-> _]]]]]]]]]].
    unfold beta. rewrite Eb. split; [|rewrite Ei; reflexivity]. unfold rows, h'. rewrite <- row_reweight. apply normal_raw; [rewrite mean_rows; exact Hm|]. rewrite <- row_normalise. exact NE. }
  assert (HE0 := E). destruct (rfacts o p l att inf HX WO IO HE0) as [b [M [Eb [NE [HM [Hm [_ [N0 [Hl [-> ->]]]]]]]]]].
  assert (B0 : beta 0 = b). { unfold beta. replace (map (rreweight 0 h) l) with l; [rewrite Eb; reflexivity|]. symmetry. transitivity (map (fun u : runit => u) l); [|apply map_id]. apply map_ext. intros [i d t y w x]. unfold rreweight, rset_w. cbn. f_equal. ring. }
  assert (HmR : mean p_w rows <> 0) by (unfold rows; rewrite mean_rows; exact Hm).
  rewrite row_normalise in HM. fold rows in HM.
  set (hn := h_norm rows h').
  assert (NS : near0 (fun e => normal_equations k (map (reweight e hn) (normalise rows)) (beta e))).
  { eapply near0_impl; [|exact S]. cbn beta. intros e [N _]. unfold hn. rewrite reweight_norm by exact HmR. apply normal_scale; [|exact N]. intros Z0. apply HmR. transitivity (mean p_w rows * mean p_w rows * / mean p_w rows); [field; exact HmR|rewrite Z0; ring]. }
  apply (D_ext (fun e => nth 3 (beta e) 0)). { eapply near0_impl; [|exact S]. cbn beta. intros e [_ ->]. reflexivity. }
  assert (Hne : normalise rows <> []) by (unfold rows; destruct l; [congruence|discriminate]).
  assert (D := beta_derivative k (normalise rows) hn beta (fun i j => mget M j i / qn (length (normalise rows))) NS (gram_inverse k (normalise rows) M Hne HM) 3 ltac:(unfold k; lia)).
  refine (D_eq _ _ _ _ D). rewrite B0.
  assert (A : ravg_with h l (map (fun r => nth 3 (alr_wols k (fun r => dotk k (p_x r) b) M r) 0) (map rc_row (rnormalise l)))
    = avg_with hn (normalise rows) (map (fun r => nth 3 (alr_wols k (fun r => dotk k (p_x r) b) M r) 0) (normalise rows))).
  { rewrite row_normalise. fold rows. unfold hn. rewrite avg_norm by exact HmR. unfold ravg_with, avg_with. replace (length rows) with (length l) by (unfold rows; rewrite map_length; reflexivity). f_equal.
    generalize (map (fun r => nth 3 (alr_wols k (fun r0 => dotk k (p_x r0) b) M r) 0) (normalise rows)). unfold rows. clear. intros inf. revert inf. induction l as [|u l IH]; intros inf; [reflexivity|]. destruct inf as [|v inf]; [reflexivity|].
    cbn [map combine]. rewrite !sumf_cons, IH. cbn [fst snd]. unfold h'. rewrite unrow_row. reflexivity. }
  refine (eq_trans _ (eq_sym A)). rewrite avg_map.
  rewrite (sumf_ext (fun u => hn u * nth 3 (alr_wols k (fun r => dotk k (p_x r) b) M u) 0) (fun u => sumf (fun j => p_w u * hn u * ((1 - p_D u) * (p_dy u - dotk k (p_x u) b) * x_at u j) * mget M j 3) (seq 0 k))).
  - rewrite sumf_swap, <- sumf_div. apply sumf_ext. intros j _. unfold s_reg. rewrite sumf_mul_r. unfold Qcdiv. ring.
  - intros u _. unfold alr_wols, vm. rewrite nth_map_seq by (unfold k; lia). rewrite <- sumf_mul_l. apply sumf_ext. intros j _. rewrite nth_vscale. unfold x_at. ring.
Qed.

(** ** the remaining branches *)
Lemma reg_nocov o l att inf : wls_ok o 1 -> inv_ok o 1 -> (forall u, In u l -> p_x u = 1 :: nil) -> reg_did_panel o 1 l = PEst att inf -> att = group_mean true p_dy l - group_mean false p_dy l.
Proof. intros WO IO HX. apply nocov_reg; assumption. Qed.
Lemma group_mean_setx b x l : group_mean b p_dy (map (set_x x) l) = group_mean b p_dy l.
Proof. unfold group_mean. rewrite !sumf_filter, !sumf_map. reflexivity. Qed.
Lemma panel_nocov o l att inf : wls_ok o 1 -> inv_ok o 1 -> twfe_did_panel o 0 l = PEst att inf -> att = plain_did l.
Proof.
  intros WO IO. unfold twfe_did_panel. destruct (any_neg l) eqn:N0; [discriminate|]. cbn [Nat.ltb Nat.leb andb Nat.eqb]. cbn zeta.
  destruct (two_groups (normalise l)); [|discriminate]. intros E.
  assert (Hm : mean p_w l <> 0).
  { intros Z0. apply reg_inv in E. destruct E as [_ [_ [b [M [_ [Hm _]]]]]]. apply Hm. apply mean_0, sumf_zero. intros u Hu. apply in_normalise in Hu. destruct Hu as [v [Hv ->]].
    apply in_map_iff in Hv. destruct Hv as [v' [<- Hv']]. unfold w_reg. cbn [set_w p_w set_x]. rewrite (normalise_zero l Z0 v' Hv'). unfold Qcdiv. ring. }
  apply (reg_nocov o _ _ _ WO IO) in E; [|intros u Hu; apply in_map_iff in Hu; destruct Hu as [v [<- _]]; reflexivity].
  rewrite E, !group_mean_setx. unfold plain_did. rewrite !group_mean_norm by (first [reflexivity|exact Hm]). reflexivity.
Qed.
Lemma panel_no_treated o p l : (0 < p)%nat -> no_leading_ones l -> any_neg l = false -> (forall u, In u l -> p_d u = false) ->
  twfe_did_panel o p l = PEst 0 (map (fun _ => 0) (stack l)) /\ twfe_did_panel o 0 l = PRaise.
Proof.
  intros Hp HX N0 HD. assert (X : existsb p_d l = false). { apply Bool.not_true_iff_false. intros H. apply existsb_exists in H. destruct H as [u [Hu Du]]. rewrite (HD u Hu) in Du. discriminate. }
  split; unfold twfe_did_panel; rewrite N0; cbn zeta.
  - rewrite no_const by assumption. destruct (p =? 0)%nat eqn:P0; [apply Nat.eqb_eq in P0; lia|]. rewrite exists_norm by reflexivity. rewrite X. cbn [negb]. f_equal.
    assert (G : forall (A B : Type) (x : list A) (y : list B), length x = length y -> map (fun _ => 0 : Qc) x = map (fun _ => 0) y).
    { intros A B x. induction x as [|a x IH]; intros [|b y] E; try discriminate; [reflexivity|]. cbn. f_equal. apply IH. injection E. auto. }
    apply G. rewrite !stack_length, normalise_length. reflexivity.
  - cbn [Nat.ltb Nat.leb andb Nat.eqb]. unfold two_groups. rewrite exists_norm by reflexivity. rewrite X. reflexivity.
Qed.
Lemma normalise_ones l : normalise (map with_ones l) = map with_ones (normalise l).
Proof. unfold normalise. rewrite !map_map. apply map_ext. intros u. unfold mean. rewrite map_length, sumf_map. reflexivity. Qed.
Lemma rnormalise_ones l : rnormalise (map rwith_ones l) = map rwith_ones (rnormalise l).
Proof. unfold rnormalise. rewrite !map_map. apply map_ext. intros u. unfold mean. rewrite map_length, sumf_map. reflexivity. Qed.
Lemma drop_ones l : map (fun u => set_x (tl (p_x u)) u) (map with_ones l) = l.
Proof. rewrite map_map. transitivity (map (fun u : punit => u) l); [|apply map_id]. apply map_ext. intros [i d y1 y0 w x]. reflexivity. Qed.
Lemma rdrop_ones l : map (fun u => rset_x (tl (r_x u)) u) (map rwith_ones l) = l.
Proof. rewrite map_map. transitivity (map (fun u : runit => u) l); [|apply map_id]. apply map_ext. intros [i d t y w x]. reflexivity. Qed.
Lemma panel_ones o p l : (p = 0%nat \/ no_leading_ones l) -> twfe_did_panel o (S p) (map with_ones l) = twfe_did_panel o p l.
Proof.
  intros H. unfold twfe_did_panel. replace (any_neg (map with_ones l)) with (any_neg l).
  2:{ clear H. unfold any_neg. induction l as [|u l IH]; [reflexivity|]. cbn [map existsb]. rewrite IH. reflexivity. }
  destruct (any_neg l); [reflexivity|]. cbn zeta. rewrite normalise_ones.
  replace ((0 <? S p)%nat && forallb (fun u => Qceqb (x_at u 0) 1) (map with_ones (normalise l))) with true.
  2:{ symmetry. cbn [Nat.ltb Nat.leb andb]. apply forallb_forall. intros u Hu. apply in_map_iff in Hu. destruct Hu as [v [<- _]]. reflexivity. }
  replace ((0 <? p)%nat && forallb (fun u => Qceqb (x_at u 0) 1) (normalise l)) with false.
  2:{ symmetry. destruct H as [->|H]; [reflexivity|]. destruct p; [reflexivity|]. apply no_const; [lia|exact H]. }
  rewrite drop_ones. replace (S p - 1)%nat with p by lia. reflexivity.
Qed.
Lemma rc_ones o p l : (p = 0%nat \/ rno_leading_ones l) -> twfe_did_rc o (S p) (map rwith_ones l) = twfe_did_rc o p l.
Proof.
  intros H. unfold twfe_did_rc. replace (rany_neg (map rwith_ones l)) with (rany_neg l).
  2:{ clear H. unfold rany_neg. induction l as [|u l IH]; [reflexivity|]. cbn [map existsb]. rewrite IH. reflexivity. }
  destruct (rany_neg l); [reflexivity|]. cbn zeta. rewrite rnormalise_ones.
  replace ((0 <? S p)%nat && forallb (fun u => Qceqb (nth 0 (r_x u) 0) 1) (map rwith_ones (rnormalise l))) with true.
  2:{ symmetry. cbn [Nat.ltb Nat.leb andb]. apply forallb_forall. intros u Hu. apply in_map_iff in Hu. destruct Hu as [v [<- _]]. reflexivity. }
  rewrite rno_const by exact H. rewrite rdrop_ones. replace (S p - 1)%nat with p by lia. reflexivity.
Qed.
Lemma twfe_scale o p l c : 0 < c -> twfe_did_rc o p (map (rscale_w c) l) = twfe_did_rc o p l /\
  forall l', twfe_did_panel o p (map (scale_w c) l') = twfe_did_panel o p l'.
Proof.
  intros Hc. assert (Hn : c <> 0) by (apply Qc_pos_neq0; exact Hc). split; [|intros l'].
  - unfold twfe_did_rc. rewrite rany_neg_scale by exact Hc. rewrite rnormalise_scale by exact Hn. reflexivity.
  - unfold twfe_did_panel. rewrite any_neg_scale by exact Hc. rewrite normalise_scale by exact Hn. reflexivity.
Qed.
