(** Proofs for C107 and C109: the triple difference is the combination of three two-group estimators; derivative of the estimate. *)
From Verif Require Import Base ListLib ReduceModel ReduceProofs2 Calc DrdidModel DrdidSpec DrdidProofs DrdidProofs2 DrdidProofs3 DrdidProofs4 DrdidProofs5 DrdidProofs6 DrdidProofs7 RcModel RcSpec RcCalc RcProofs RcProofs2 RcProofs3 RcProofs4 RcProofs5 RcProofs9 DddModel DddProofs DddProofs3 DddProofs4 DddProofs5 DddRcModel DddRcSpec DddRcProofs DddRcProofs2 DddRcProofs3.

(** ** rows of the influence function *)
Lemma scatter_nth {A} (q : A -> bool) : forall l j i, nth i (scatter (map q l) j) 0 =
  match nth_error l i with Some u => if q u then nth (length (filter q (firstn i l))) j 0 else 0 | None => 0 end.
Proof.
  induction l as [|u l IH]; intros j i; [destruct i; reflexivity|]. destruct i as [|i].
  - cbn [map nth_error firstn filter length]. destruct (q u); cbn [scatter nth]; [destruct j; reflexivity|reflexivity].
  - cbn [map nth_error firstn filter]. destruct (q u) eqn:E; cbn [scatter nth length]; rewrite IH; [|reflexivity].
    destruct (nth_error l i) as [v|]; [|reflexivity]. destruct (q v); [|reflexivity]. destruct j; [destruct (length (filter q (firstn i l))); reflexivity|reflexivity].
Qed.
Lemma combine3_nth x y z : forall f3 f2 f1 i, length f2 = length f3 -> length f1 = length f3 ->
  nth i (map (fun p => x * fst (fst p) + y * snd (fst p) - z * snd p) (combine (combine f3 f2) f1)) 0 = x * nth i f3 0 + y * nth i f2 0 - z * nth i f1 0.
Proof.
  induction f3 as [|a f3 IH]; intros [|b f2] [|c f1] i; cbn [length]; intros; try discriminate.
  - destruct i; cbn; ring.
  - destruct i as [|i]; cbn [combine map nth]; [reflexivity|]. apply IH; congruence.
Qed.
Lemma q_share_norm c l : q_share c (q_normalise l) = q_share c l.
Proof. unfold q_share, q_normalise. rewrite filter_map, !map_length. reflexivity. Qed.
Lemma q_mask_norm c l : map (q_in_pair c) (q_normalise l) = map (q_in_pair c) l.
Proof. unfold q_normalise. rewrite map_map. reflexivity. Qed.
Lemma q_share_val c l : q_pair c l <> [] -> q_share c l = qn (length l) / qn (n_pair c l).
Proof.
  intros H. unfold q_share, n_pair. change (fun v => ((q_sg v =? 4) || (q_sg v =? c))%Z) with (q_in_pair c). unfold q_pair in H. destruct (filter (q_in_pair c) l); [cbn in H; congruence|reflexivity].
Qed.
Lemma dddrc_two_group o k m tl l att a3 a2 a1 inf : rinv_ok o k -> rfits_scale_free o -> (forall c, In c [3; 2; 1]%Z -> rscores_interior o k m (q_pair c l)) ->
  ddd_rc o k m tl l = QEst att a3 a2 a1 inf ->
  exists j3 j2 j1, two_group_rc o k m tl (q_pair 3 l) = PEst a3 j3 /\ two_group_rc o k m tl (q_pair 2 l) = PEst a2 j2 /\ two_group_rc o k m tl (q_pair 1 l) = PEst a1 j1 /\
    length j3 = length (q_pair 3 l) /\ length j2 = length (q_pair 2 l) /\ length j1 = length (q_pair 1 l) /\
    q_pair 3 l <> [] /\ q_pair 2 l <> [] /\ q_pair 1 l <> [] /\
    att = a3 + a2 - a1 /\
    inf = map (fun p => q_share 3 l * fst (fst p) + q_share 2 l * snd (fst p) - q_share 1 l * snd p)
       (combine (combine (scatter (map (q_in_pair 3) l) j3) (scatter (map (q_in_pair 2) l) j2)) (scatter (map (q_in_pair 1) l) j1)).
Proof.
  intros IO FS SI E. apply dddrc_inv in E. destruct E as [W [_ [i3 [i2 [i1 [E3 [E2 [E1 [-> ->]]]]]]]]].
  assert (P := q_mean_pos l W (q_pair_mean _ _ _ _ _ _ _ _ E3)).
  assert (L3 := did_len _ _ _ _ _ _ _ E3). assert (L2 := did_len _ _ _ _ _ _ _ E2). assert (L1 := did_len _ _ _ _ _ _ _ E1).
  rewrite q_pair_normalise in E3, E2, E1, L3, L2, L1.
  assert (LL : forall c i, (exists G : runit -> Qc, i = map G (map (rscale_w (/ mean q_w l)) (q_pair c l))) /\ map (rscale_w (/ mean q_w l)) (q_pair c l) <> [] -> length i = length (q_pair c l) /\ q_pair c l <> []).
  { intros c i [[G ->] N]. rewrite !map_length. split; [reflexivity|]. intros Z0. apply N. rewrite Z0. reflexivity. }
  apply LL in L3, L2, L1. clear LL.
  apply (pair_bridge_rc o k m tl _ _ _ _ P (q_pair_nonneg 3 l W) IO FS (SI 3%Z ltac:(cbn; auto))) in E3.
  apply (pair_bridge_rc o k m tl _ _ _ _ P (q_pair_nonneg 2 l W) IO FS (SI 2%Z ltac:(cbn; auto))) in E2.
  apply (pair_bridge_rc o k m tl _ _ _ _ P (q_pair_nonneg 1 l W) IO FS (SI 1%Z ltac:(cbn; auto))) in E1.
  exists i3, i2, i1. cbn zeta. rewrite !q_share_norm, !q_mask_norm. repeat (split; [tauto|]). reflexivity.
Qed.
Lemma dddrc_rows o k m tl l att a3 a2 a1 inf : rinv_ok o k -> rfits_scale_free o -> (forall c, In c [3; 2; 1]%Z -> rscores_interior o k m (q_pair c l)) ->
  ddd_rc o k m tl l = QEst att a3 a2 a1 inf ->
  exists j3 j2 j1, two_group_rc o k m tl (q_pair 3 l) = PEst a3 j3 /\ two_group_rc o k m tl (q_pair 2 l) = PEst a2 j2 /\ two_group_rc o k m tl (q_pair 1 l) = PEst a1 j1 /\
    att = a3 + a2 - a1 /\ length inf = length l /\
    forall i, nth i inf 0 = qn (length l) / qn (n_pair 3 l) * row_value 3 l j3 i + qn (length l) / qn (n_pair 2 l) * row_value 2 l j2 i - qn (length l) / qn (n_pair 1 l) * row_value 1 l j1 i.
Proof.
  intros IO FS SI E. destruct (dddrc_two_group o k m tl l att a3 a2 a1 inf IO FS SI E) as [j3 [j2 [j1 [T3 [T2 [T1 [L3 [L2 [L1 [P3 [P2 [P1 [Ea Ei]]]]]]]]]]]]].
  exists j3, j2, j1. repeat (split; [assumption|]). split.
  - rewrite Ei, map_length, !combine_length, !length_scatter, !map_length. lia.
  - intros i. rewrite Ei, combine3_nth by (rewrite !length_scatter, !map_length; reflexivity). rewrite !scatter_nth, !q_share_val by assumption. reflexivity.
Qed.

(** ** derivative *)
Lemma q_un_as c u : q_in_pair c u = true -> q_un_pair c (q_as_pair u) = u.
Proof.
  unfold q_in_pair. intros H. unfold q_un_pair, q_as_pair. cbn. destruct u as [a b d e f g]. cbn in *. f_equal. destruct (Z.eqb_spec b 4) as [->|]; [reflexivity|]. cbn in H. apply Z.eqb_eq in H. congruence.
Qed.
Lemma q_pair_reweight c e h l : q_pair c (map (q_reweight e h) l) = map (rreweight e (fun p => h (q_un_pair c p))) (q_pair c l).
Proof.
  induction l as [|u l IH]; [reflexivity|]. unfold q_pair in *. cbn [map filter]. change (q_in_pair c (q_reweight e h u)) with (q_in_pair c u).
  destruct (q_in_pair c u) eqn:E; [|exact IH]. cbn [map]. rewrite IH. f_equal. unfold rreweight. rewrite (q_un_as c u E). reflexivity.
Qed.
Lemma rinterior_near o k m tl L h : (m <> Reg -> rsmooth_logit o k tl L h) -> near0 (fun e => rscores_interior o k m (map (rreweight e h) L)).
Proof.
  intros SM. unfold rscores_interior.
  assert (X : m <> Reg -> near0 (fun e => forall gamma u, ro_logit o (rnormalise (map (rreweight e h) L)) = Some gamma -> In u (map (rreweight e h) L) ->
      eps6 <= ro_mu o (dotk k (r_x u) gamma) /\ ro_mu o (dotk k (r_x u) gamma) <= 1 - eps6)).
  { intros Hm. specialize (SM Hm). assert (N := near0_forall L _ (fun u Hu => rp_mu o k tl L h SM u Hu)).
    eapply near0_impl; [|exact N]. cbn beta. intros e He gamma u Eg Hu. apply in_map_iff in Hu. destruct Hu as [v [<- Hv]]. change (r_x (rreweight e h v)) with (r_x v).
    specialize (He v Hv). assert (G : rgamma_of o (map (rreweight e h) L) = gamma) by (unfold rgamma_of; rewrite Eg; reflexivity). rewrite G in He. rewrite He. apply rps_bounds. }
  destruct m; [apply X; discriminate|apply near0_all; intros; exact I|apply X; discriminate].
Qed.
Lemma q_sum_scatter c (h : qrow -> Qc) l : forall i, length i = length (q_pair c l) ->
  sumf (fun p => h (fst p) * snd p) (combine l (scatter (map (q_in_pair c) l) i)) = sumf (fun p => h (q_un_pair c (fst p)) * snd p) (combine (q_pair c l) i).
Proof.
  induction l as [|u l IH]; intros i Hi; [reflexivity|]. unfold q_pair in *. cbn [map filter] in *. destruct (q_in_pair c u) eqn:E.
  - cbn [map length] in Hi. destruct i as [|x i]; [discriminate|]. cbn [scatter hd List.tl combine map]. rewrite !sumf_cons, IH by (cbn in Hi; lia). cbn [fst snd]. rewrite (q_un_as c u E). reflexivity.
  - cbn [scatter combine]. rewrite sumf_cons, IH by exact Hi. cbn [fst snd]. ring.
Qed.
Lemma q_sum_combine3 (h : qrow -> Qc) x y z : forall l f3 f2 f1, length f3 = length l -> length f2 = length l -> length f1 = length l ->
  sumf (fun p => h (fst p) * snd p) (combine l (map (fun p => x * fst (fst p) + y * snd (fst p) - z * snd p) (combine (combine f3 f2) f1)))
  = x * sumf (fun p => h (fst p) * snd p) (combine l f3) + y * sumf (fun p => h (fst p) * snd p) (combine l f2) - z * sumf (fun p => h (fst p) * snd p) (combine l f1).
Proof.
  induction l as [|u l IH]; intros [|a f3] [|b f2] [|c f1]; cbn [length]; intros; try discriminate; cbn [combine map]; [unfold sumf, qsum; cbn; ring|].
  rewrite !sumf_cons. cbn [fst snd]. rewrite IH by congruence. ring.
Qed.
Lemma q_share_avg c l h i : q_pair c l <> [] -> length i = length (q_pair c l) ->
  q_share c l * sumf (fun p => h (fst p) * snd p) (combine l (scatter (map (q_in_pair c) l) i)) / qn (length l) = ravg_with (fun p => h (q_un_pair c p)) (q_pair c l) i.
Proof.
  intros Hn Hi. rewrite (q_sum_scatter c h l i Hi). unfold ravg_with, q_share.
  assert (EL : length (q_pair c l) = length (filter (q_in_pair c) l)) by (unfold q_pair; apply map_length). rewrite <- EL.
  assert (P : (0 < length (q_pair c l))%nat) by (destruct (q_pair c l); [congruence|cbn; lia]).
  assert (P2 : (0 < length l)%nat) by (rewrite EL in P; pose proof (filter_length_le_ (q_in_pair c) l); lia).
  destruct (Nat.ltb_spec 0 (length (q_pair c l))); [|lia].
  assert (Q1 := Qc_pos_neq0 _ (qn_pos _ P)). assert (Q2 := Qc_pos_neq0 _ (qn_pos _ P2)). field. split; assumption.
Qed.
(** correction terms [K] of the three two-group derivatives carry over *)
Lemma dddrc_derivative_gen o k m tl l h att a3 a2 a1 inf : rinv_ok o k -> rfits_scale_free o ->
  (m <> Reg -> forall c, In c [3; 2; 1]%Z -> rsmooth_logit o k tl (q_pair c l) (fun p => h (q_un_pair c p))) ->
  ddd_rc o k m tl l = QEst att a3 a2 a1 inf -> near0 (fun e => dddrc_has_est (ddd_rc o k m tl (map (q_reweight e h) l))) ->
  (near0 (fun e => forall c, In c [3; 2; 1]%Z -> has_est (two_group_rc o k m tl (map (rreweight e (fun p => h (q_un_pair c p))) (q_pair c l)))) /\
   (forall c, In c [3; 2; 1]%Z -> has_est (two_group_rc o k m tl (q_pair c l)))) /\
  forall K : Z -> Qc, (forall c a i, In c [3; 2; 1]%Z -> two_group_rc o k m tl (q_pair c l) = PEst a i ->
     derivative_at_0 (fun e => att_of (two_group_rc o k m tl (map (rreweight e (fun p => h (q_un_pair c p))) (q_pair c l)))) (ravg_with (fun p => h (q_un_pair c p)) (q_pair c l) i + K c)) ->
   derivative_at_0 (fun e => dddrc_att_of (ddd_rc o k m tl (map (q_reweight e h) l))) (q_avg_with h l inf + (K 3%Z + K 2%Z - K 1%Z)).
Proof.
  intros IO FS SM E N.
  set (H := fun c (p : runit) => h (q_un_pair c p)). set (A := fun c e => att_of (two_group_rc o k m tl (map (rreweight e (H c)) (q_pair c l)))).
  assert (R : forall c e, q_pair c (map (q_reweight e h) l) = map (rreweight e (H c)) (q_pair c l)) by (intros; apply q_pair_reweight).
  assert (I : near0 (fun e => forall c, In c [3; 2; 1]%Z -> rscores_interior o k m (map (rreweight e (H c)) (q_pair c l)))).
  { apply (near0_forall [3; 2; 1]%Z). intros c Hc. apply (rinterior_near o k m tl). intros Hm. exact (SM Hm c Hc). }
  assert (Z0 : map (q_reweight 0 h) l = l).
  { rewrite <- (map_id l) at 2. apply map_ext. intros u. unfold q_reweight, q_set_w. destruct u; cbn. f_equal. ring. }
  assert (I0 : forall c, In c [3; 2; 1]%Z -> rscores_interior o k m (q_pair c l)).
  { intros c Hc. pose proof (near0_at0 _ I c Hc) as X. rewrite <- R, Z0 in X. exact X. }
  destruct (dddrc_two_group o k m tl l att a3 a2 a1 inf IO FS I0 E) as [j3 [j2 [j1 [T3 [T2 [T1 [L3 [L2 [L1 [P3 [P2 [P1 [_ EI]]]]]]]]]]]]].
  split; [split|].
  - eapply near0_impl; [|apply (near0_and _ _ N I)]. cbn beta. intros e [[x [x3 [x2 [x1 [xi X]]]]] IE].
    assert (IE' : forall c, In c [3; 2; 1]%Z -> rscores_interior o k m (q_pair c (map (q_reweight e h) l))) by (intros c Hc; rewrite R; apply IE, Hc).
    destruct (dddrc_two_group o k m tl _ x x3 x2 x1 xi IO FS IE' X) as [i3 [i2 [i1 [U3 [U2 [U1 _]]]]]].
    intros c Hc. rewrite <- (q_pair_reweight c e h l). unfold has_est. destruct Hc as [<-|[<-|[<-|[]]]]; [exists x3, i3; exact U3|exists x2, i2; exact U2|exists x1, i1; exact U1].
  - intros c Hc. unfold has_est. destruct Hc as [<-|[<-|[<-|[]]]]; [exists a3, j3; exact T3|exists a2, j2; exact T2|exists a1, j1; exact T1].
  - intros K DK. apply (D_ext (fun e => A 3%Z e + A 2%Z e - A 1%Z e)).
    + eapply near0_impl; [|apply (near0_and _ _ N I)]. cbn beta. intros e [[x [x3 [x2 [x1 [xi X]]]]] IE].
      assert (IE' : forall c, In c [3; 2; 1]%Z -> rscores_interior o k m (q_pair c (map (q_reweight e h) l))) by (intros c Hc; rewrite R; apply IE, Hc).
      destruct (dddrc_two_group o k m tl _ x x3 x2 x1 xi IO FS IE' X) as [i3 [i2 [i1 [U3 [U2 [U1 [_ [_ [_ [_ [_ [_ [Ex _]]]]]]]]]]]]].
      rewrite X. cbn [dddrc_att_of]. rewrite Ex. unfold A. rewrite <- !R, U3, U2, U1. reflexivity.
    + assert (EA : q_avg_with h l inf + (K 3%Z + K 2%Z - K 1%Z) = (ravg_with (H 3%Z) (q_pair 3 l) j3 + K 3%Z) + (ravg_with (H 2%Z) (q_pair 2 l) j2 + K 2%Z) - (ravg_with (H 1%Z) (q_pair 1 l) j1 + K 1%Z)).
      { unfold H. rewrite <- !q_share_avg by assumption. unfold q_avg_with. rewrite EI. rewrite q_sum_combine3 by (rewrite length_scatter; apply map_length). unfold Qcdiv. ring. }
      rewrite EA.
      assert (D3 := DK 3%Z _ _ ltac:(cbn; auto) T3). assert (D2 := DK 2%Z _ _ ltac:(cbn; auto) T2). assert (D1 := DK 1%Z _ _ ltac:(cbn; auto) T1).
      exact (D_sub _ _ _ _ (D_add _ _ _ _ D3 D2) D1).
Qed.
Lemma dddrc_derivative o k m tl l h att a3 a2 a1 inf : rinv_ok o k -> rwls_ok o k -> rfits_scale_free o -> m <> Dr ->
  (m <> Reg -> forall c, In c [3; 2; 1]%Z -> rsmooth_logit o k tl (q_pair c l) (fun p => h (q_un_pair c p))) ->
  ddd_rc o k m tl l = QEst att a3 a2 a1 inf -> near0 (fun e => dddrc_has_est (ddd_rc o k m tl (map (q_reweight e h) l))) ->
  derivative_at_0 (fun e => dddrc_att_of (ddd_rc o k m tl (map (q_reweight e h) l))) (q_avg_with h l inf).
Proof.
  intros IO WO FS NR SM E N. destruct (dddrc_derivative_gen o k m tl l h att a3 a2 a1 inf IO FS SM E N) as [[NE _] D].
  specialize (D (fun _ => 0)). cbn beta in D. assert (X := D ltac:(
    intros c a i Hc T; assert (NC : near0 (fun e => has_est (two_group_rc o k m tl (map (rreweight e (fun p => h (q_un_pair c p))) (q_pair c l))))) by (eapply near0_impl; [|exact NE]; cbn beta; intros e He; apply He, Hc);
    eapply D_eq; [|destruct m; [congruence|exact (rreg_derivative o k _ _ a i WO IO T NC)|exact (ripw_derivative o k tl _ _ a i IO (SM ltac:(discriminate) c Hc) T NC)]]; ring)).
  revert X. apply D_eq. ring.
Qed.
(** doubly robust: the correction is twice the sum over the covariates of the pre-period imbalance times the derivative of the coefficient *)
Lemma dddrc_dr_derivative o k tl l h att a3 a2 a1 inf : rinv_ok o k -> rwls_ok o k -> rfits_scale_free o ->
  (forall c, In c [3; 2; 1]%Z -> rsmooth_logit o k tl (q_pair c l) (fun p => h (q_un_pair c p))) ->
  ddd_rc o k Dr tl l = QEst att a3 a2 a1 inf -> near0 (fun e => dddrc_has_est (ddd_rc o k Dr tl (map (q_reweight e h) l))) ->
  exists d0 : Z -> nat -> Qc,
    (forall c j, In c [3; 2; 1]%Z -> (j < k)%nat -> derivative_at_0 (fun e => nth j (rbeta_of o false false (q_pair c (map (q_reweight e h) l))) 0) (d0 c j)) /\
    let K := fun c => Q2Qc 2 * sumf (fun j => pre_imbalance tl (rps_fit (ro_mu o) k (rgamma_of o (q_pair c l))) (q_pair c l) j * d0 c j) (seq 0 k) in
    derivative_at_0 (fun e => dddrc_att_of (ddd_rc o k Dr tl (map (q_reweight e h) l))) (q_avg_with h l inf + (K 3%Z + K 2%Z - K 1%Z)).
Proof.
  intros IO WO FS SM E N. destruct (dddrc_derivative_gen o k Dr tl l h att a3 a2 a1 inf IO FS (fun _ => SM) E N) as [[NE TE] D].
  assert (X : forall c, In c [3; 2; 1]%Z -> exists d0 : nat -> Qc, (forall j, (j < k)%nat -> derivative_at_0 (fun e => nth j (rbeta_of o false false (q_pair c (map (q_reweight e h) l))) 0) (d0 j)) /\
    forall a i, two_group_rc o k Dr tl (q_pair c l) = PEst a i -> derivative_at_0 (fun e => att_of (two_group_rc o k Dr tl (map (rreweight e (fun p => h (q_un_pair c p))) (q_pair c l))))
      (ravg_with (fun p => h (q_un_pair c p)) (q_pair c l) i + Q2Qc 2 * sumf (fun j => pre_imbalance tl (rps_fit (ro_mu o) k (rgamma_of o (q_pair c l))) (q_pair c l) j * d0 j) (seq 0 k))).
  { intros c Hc. destruct (TE c Hc) as [a [i T]].
    assert (NC : near0 (fun e => has_est (two_group_rc o k Dr tl (map (rreweight e (fun p => h (q_un_pair c p))) (q_pair c l))))) by (eapply near0_impl; [|exact NE]; cbn beta; intros e He; apply He, Hc).
    destruct (loc_derivative o k tl _ _ a i WO IO (SM c Hc) T NC) as [d0 [D1 D2]]. exists d0. split.
    - intros j Hj. eapply D_ext; [|exact (D1 j Hj)]. apply near0_all. intros e. rewrite q_pair_reweight. reflexivity.
    - intros a' i' T'. rewrite T in T'. injection T' as <- <-. exact D2. }
  destruct (X 3%Z ltac:(cbn; auto)) as [d3 [D3 E3]]. destruct (X 2%Z ltac:(cbn; auto)) as [d2 [D2 E2]]. destruct (X 1%Z ltac:(cbn; auto)) as [d1 [D1 E1]].
  exists (fun c => if (c =? 3)%Z then d3 else if (c =? 2)%Z then d2 else d1). split.
  - intros c j [<-|[<-|[<-|[]]]] Hj; cbn; auto.
  - cbn zeta. apply (D (fun c => Q2Qc 2 * sumf (fun j => pre_imbalance tl (rps_fit (ro_mu o) k (rgamma_of o (q_pair c l))) (q_pair c l) j * (if (c =? 3)%Z then d3 else if (c =? 2)%Z then d2 else d1) j) (seq 0 k))).
    intros c a i [<-|[<-|[<-|[]]]] T; [exact (E3 a i T)|exact (E2 a i T)|exact (E1 a i T)].
Qed.
