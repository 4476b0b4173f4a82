(** Proofs for C117, continued: the estimator functions. *)
From Verif Require Import Base ListLib ReduceModel ReduceProofs2 DrdidModel DrdidSpec DrdidProofs DrdidProofs2 DrdidProofs3 DrdidProofs4 DrdidProofs5 ImpProofs RcModel RcSpec TwfeModel TwfeSpec TwfeProofs.

Lemma fit_inv o k rows att inf : twfe_fit o k rows = PEst att inf -> exists beta M, o_wls o rows = Some beta /\ o_inv o (ols_gram k rows) = Some M /\
  att = nth 3 beta 0 /\ inf = map (fun r => nth 3 (alr_wols k (fun r => dotk k (p_x r) beta) M r) 0) rows.
Proof.
  unfold twfe_fit. destruct (o_wls o rows) as [b|]; [|discriminate]. destruct (o_inv o (ols_gram k rows)) as [M|]; [|discriminate]. intros E. injection E as <- <-. exists b, M. auto.
Qed.
Lemma no_const p l : (0 < p)%nat -> no_leading_ones l -> (0 <? p)%nat && forallb (fun u => Qceqb (x_at u 0) 1) (normalise l) = false.
Proof.
  intros Hp [u [Hu Hx]]. apply andb_false_iff. right. apply Bool.not_true_iff_false. intros H. rewrite forallb_forall in H.
  assert (I := in_map (fun v => set_w (p_w v / mean p_w l) v) l u Hu). specialize (H _ I). cbn in H. unfold x_at in *. cbn in H. destruct (Qceqb_spec (nth 0 (p_x u) 0) 1); [contradiction|discriminate].
Qed.
Lemma exists_norm (f : punit -> bool) l : (forall w u, f (set_w w u) = f u) -> existsb f (normalise l) = existsb f l.
Proof.
  intros H. unfold normalise. generalize (mean p_w l). intros m. induction l as [|u l IH]; [reflexivity|]. cbn [map existsb]. rewrite H, IH. reflexivity.
Qed.
Lemma panel_cov o p l : (0 < p)%nat -> no_leading_ones l -> (exists u, In u l /\ p_d u = true) -> forall att inf, twfe_did_panel o p l = PEst att inf ->
  any_neg l = false /\ (exists u, In u l /\ p_d u = false) /\ twfe_fit o (4 + p) (stack (normalise l)) = PEst att inf.
Proof.
  intros Hp HX [u [Hu Du]] att inf. unfold twfe_did_panel. destruct (any_neg l) eqn:N0; [discriminate|]. cbn zeta. rewrite no_const by assumption.
  destruct (p =? 0)%nat eqn:P0; [apply Nat.eqb_eq in P0; lia|]. rewrite !exists_norm by reflexivity.
  assert (E1 : existsb p_d l = true) by (apply existsb_exists; eauto). rewrite E1. cbn [negb].
  destruct (existsb (fun u => negb (p_d u)) l) eqn:E2; [|discriminate]. cbn [negb]. intros E. split; [reflexivity|]. split; [|exact E].
  apply existsb_exists in E2. destruct E2 as [v [Hv Dv]]. exists v. split; [exact Hv|]. destruct (p_d v); [discriminate|reflexivity].
Qed.
Lemma group_mean_norm b v l : (forall w u, v (set_w w u) = v u) -> mean p_w l <> 0 -> group_mean b v (normalise l) = group_mean b v l.
Proof.
  intros Hv Hm. unfold group_mean. rewrite !sumf_filter. unfold normalise. rewrite !sumf_map.
  rewrite (sumf_ext (fun a => ind (Bool.eqb (p_d (set_w (p_w a / mean p_w l) a)) b) * (p_w (set_w (p_w a / mean p_w l) a) * v (set_w (p_w a / mean p_w l) a)))
     (fun a => ind (Bool.eqb (p_d a) b) * (p_w a * v a) * / mean p_w l)) by (intros u _; rewrite Hv; cbn [set_w p_d p_w]; unfold Qcdiv; ring).
  rewrite (sumf_ext (fun a => ind (Bool.eqb (p_d (set_w (p_w a / mean p_w l) a)) b) * p_w (set_w (p_w a / mean p_w l) a))
     (fun a => ind (Bool.eqb (p_d a) b) * p_w a * / mean p_w l)) by (intros u _; cbn [set_w p_d p_w]; unfold Qcdiv; ring).
  rewrite !sumf_mul_r. destruct (Qc_eq_dec (sumf (fun a => ind (Bool.eqb (p_d a) b) * p_w a) l) 0) as [Z0|Z0].
  - rewrite Z0. rewrite Qcmult_0_l. unfold Qcdiv. replace (/ 0) with 0 by reflexivity. ring.
  - field. split; assumption.
Qed.
Lemma weights_pos l : any_neg l = false -> sumf (fun u => p_w u * p_D u) (normalise l) <> 0 -> mean p_w l <> 0.
Proof. intros _ H Z0. apply H. apply sumf_zero. intros u Hu. rewrite (normalise_zero l Z0 u Hu). ring. Qed.

Section Panel.
  Context (o : oracle) (p : nat) (l : list punit) (att : Qc) (inf : list Qc).
  Context (Hp : (0 < p)%nat) (HX : no_leading_ones l) (HT : exists u, In u l /\ p_d u = true) (WO : wls_ok o (4 + p)) (IO : inv_ok o (4 + p)).
  Context (E : twfe_did_panel o p l = PEst att inf).
  Notation L := (normalise l).
  Lemma facts : exists beta M, normal_equations (4 + p) (stack L) beta /\ is_inverse (4 + p) (ols_gram (4 + p) (stack L)) M /\ (forall u, In u L -> 0 <= p_w u) /\
    mean p_w l <> 0 /\ sumf (fun u => p_w u * p_D u) L <> 0 /\ sumf (fun u => p_w u * (1 - p_D u)) L <> 0 /\
    att = nth 3 beta 0 /\ inf = map (fun r => nth 3 (alr_wols (4 + p) (fun r => dotk (4 + p) (p_x r) beta) M r) 0) (stack L).
  Proof.
    destruct (panel_cov o p l Hp HX HT att inf E) as [N0 [_ F]]. apply fit_inv in F. destruct F as [beta [M [Eb [EM [-> ->]]]]].
    exists beta, M. assert (W0 := proj1 (any_neg_false l) N0).
    assert (W : forall u, In u L -> 0 <= p_w u).
    { destruct (Qc_eq_dec (mean p_w l) 0) as [Z0|Z0]; [|apply normalise_nonneg; assumption]. intros u Hu. rewrite (normalise_zero l Z0 u Hu). discriminate. }
    assert (T := treated_weight p L M (IO _ _ EM) W). assert (C := control_weight p L M (IO _ _ EM) W).
    split; [apply WO; exact Eb|]. split; [apply IO; exact EM|]. split; [exact W|]. split; [apply weights_pos; assumption|]. auto.
  Qed.
  Lemma panel_att : att = plain_did l.
  Proof.
    destruct facts as [beta [M [NE [HM [W [Hm [T [C [-> _]]]]]]]]]. unfold plain_did.
    rewrite <- (group_mean_norm true p_dy l) by (first [reflexivity|exact Hm]). rewrite <- (group_mean_norm false p_dy l) by (first [reflexivity|exact Hm]).
    rewrite (mean_true p L beta NE T), (mean_false p L beta NE C). ring.
  Qed.
  Lemma panel_inf : exists f g, inf = map f l ++ map g l /\ qsum inf = 0 /\ forall u, In u l -> (f u + g u) / (1 + 1) = did_influence l u.
  Proof.
    destruct facts as [beta [M [NE [HM [W [Hm [T [C [_ ->]]]]]]]]].
    set (nn := fun u => set_w (p_w u / mean p_w l) u). change L with (map nn l) in *.
    set (PT := sumf (fun u => p_w u * p_D u) (map nn l) / qn (length (stack (map nn l)))).
    set (PC := sumf (fun u => p_w u * (1 - p_D u)) (map nn l) / qn (length (stack (map nn l)))).
    set (s := fun u => p_w u * (p_D u / PT - (1 - p_D u) / PC)).
    assert (R : forall t, map (fun r => nth 3 (alr_wols (4 + p) (fun r => dotk (4 + p) (p_x r) beta) M r) 0) (map (stack_row t) (map nn l))
                = map (fun u => (if t then 1 else - (1)) * s (nn u) * resid (4 + p) beta (stack_row t (nn u))) l).
    { intros t. rewrite !map_map. apply map_ext_in. intros u Hu. rewrite (inf_row p (map nn l) M HM W). reflexivity. }
    exists (fun u => - (1) * s (nn u) * resid (4 + p) beta (stack_row false (nn u))), (fun u => 1 * s (nn u) * resid (4 + p) beta (stack_row true (nn u))).
    assert (I : map (fun r => nth 3 (alr_wols (4 + p) (fun r => dotk (4 + p) (p_x r) beta) M r) 0) (stack (map nn l))
       = map (fun u => - (1) * s (nn u) * resid (4 + p) beta (stack_row false (nn u))) l ++ map (fun u => 1 * s (nn u) * resid (4 + p) beta (stack_row true (nn u))) l).
    { unfold stack at 1. rewrite map_app. rewrite (R false), (R true). reflexivity. }
    split; [exact I|]. split.
    - rewrite I. destruct (sums p (map nn l) beta NE) as [S1 [S2 [S3 S4]]].
      assert (Q : forall t, sumf (fun u => s u * resid (4 + p) beta (stack_row t u)) (map nn l) = 0).
      { intros t. rewrite (sumf_ext _ (fun u => p_w u * p_D u * resid (4 + p) beta (stack_row t u) * (1 / PT + 1 / PC) - p_w u * resid (4 + p) beta (stack_row t u) * (1 / PC))) by (intros; unfold s, Qcdiv; ring).
        rewrite sumf_sub, !sumf_mul_r. destruct t; rewrite ?S1, ?S2, ?S3, ?S4; ring. }
      rewrite !sumf_map in Q || idtac. assert (Qf := Q false). assert (Qt := Q true). rewrite sumf_map in Qf, Qt.
      rewrite <- (map_id (map _ l ++ _)). change (sumf (fun x => x) (map (fun u => - (1) * s (nn u) * resid (4 + p) beta (stack_row false (nn u))) l ++ map (fun u => 1 * s (nn u) * resid (4 + p) beta (stack_row true (nn u))) l) = 0).
      rewrite sumf_app, !sumf_map.
      rewrite (sumf_ext (fun a => - (1) * s (nn a) * _) (fun a => - (1) * (s (nn a) * resid (4 + p) beta (stack_row false (nn a))))) by (intros; ring).
      rewrite (sumf_ext (fun a => 1 * s (nn a) * _) (fun a => 1 * (s (nn a) * resid (4 + p) beta (stack_row true (nn a))))) by (intros; ring).
      rewrite !sumf_mul_l, Qf, Qt. ring.
    - intros u Hu. transitivity (s (nn u) / (1 + 1) * (resid (4 + p) beta (stack_row true (nn u)) - resid (4 + p) beta (stack_row false (nn u)))); [unfold Qcdiv; ring|].
      rewrite resid_diff. unfold did_influence.
      rewrite <- (group_mean_norm true p_dy l) by (first [reflexivity|exact Hm]). rewrite <- (group_mean_norm false p_dy l) by (first [reflexivity|exact Hm]).
      change (normalise l) with (map nn l). rewrite (mean_true p (map nn l) beta NE T), (mean_false p (map nn l) beta NE C).
      assert (Hn : qn (length l) <> 0) by (apply qn_neq0; destruct l; [destruct Hu|cbn; lia]).
      assert (AT : sumf (fun u => p_w u * p_D u) (map nn l) = sumf p_w (filter p_d l) / mean p_w l).
      { rewrite sumf_map, sumf_filter, <- sumf_div. apply sumf_ext. intros v _. unfold p_D. cbn [nn set_w p_w p_d]. unfold Qcdiv. ring. }
      assert (AC : sumf (fun u => p_w u * (1 - p_D u)) (map nn l) = sumf p_w (filter (fun v => negb (p_d v)) l) / mean p_w l).
      { rewrite sumf_map, sumf_filter, <- sumf_div. apply sumf_ext. intros v _. unfold p_D. cbn [nn set_w p_w p_d]. destruct (p_d v); cbn [negb ind]; unfold Qcdiv; ring. }
      unfold s, PT, PC. rewrite stack_length, map_length, AT, AC. rewrite AT in T. rewrite AC in C.
      assert (T' : sumf p_w (filter p_d l) <> 0) by (intros Z0; apply T; rewrite Z0; unfold Qcdiv; ring).
      assert (C' : sumf p_w (filter (fun v => negb (p_d v)) l) <> 0) by (intros Z0; apply C; rewrite Z0; unfold Qcdiv; ring).
      replace (qn (length l + length l)) with ((1 + 1) * qn (length l)) by (rewrite qn_add; ring).
      change (p_dy (nn u)) with (p_dy u). change (p_D (nn u)) with (p_D u). change (p_w (nn u)) with (p_w u / mean p_w l).
      revert Hn Hm T' C'. generalize (qn (length l)) (mean p_w l) (sumf p_w (filter p_d l)) (sumf p_w (filter (fun v => negb (p_d v)) l)). intros n0 m0 t0 c0 Hn Hm' T' C'.
      unfold p_D. destruct (p_d u); cbn [ind]; field; repeat split; try assumption; discriminate.
  Qed.
End Panel.
