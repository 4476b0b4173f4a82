(** C89-C93: the two-period estimators for repeated cross-sections (reg_did_rc, std_ipw_did_rc, ipw_did_rc, drdid_trad_rc, drdid_rc). *)
From Verif Require Import Base ListLib ReduceModel Calc DrdidModel DrdidSpec DrdidProofs DrdidProofs8 DrdidWitness DrdidWitness2 Witness RcModel RcSpec RcProofs RcProofs2 RcProofs3 RcProofs4 RcProofs9 RcWitness RcWitness2.

(** * C89: without covariates the estimate is the two-by-two comparison of weighted cell means *)
Theorem C89_no_covariates_reg : forall o l att inf, (forall u, In u l -> r_x u = 1 :: nil) -> rwls_ok o 1 -> rinv_ok o 1 ->
  reg_did_rc o 1 l = PEst att inf -> att = four_cells l.
Proof. intros o l att inf HX. exact (nocov_rreg l HX o att inf). Qed.
Print Assumptions C89_no_covariates_reg.
(** For the propensity score and doubly robust estimators whatever the fits return. *)
Theorem C89_no_covariates_ipw_dr : forall o tl l att inf, (forall u, In u l -> r_x u = 1 :: nil) ->
  (std_ipw_did_rc o 1 tl l = PEst att inf -> att = four_cells l) /\
  (drdid_trad_rc o 1 tl l = PEst att inf -> att = four_cells l) /\
  (drdid_rc o 1 tl l = PEst att inf -> att = four_cells l).
Proof. intros o tl l att inf HX. exact (conj (nocov_ripw l HX o tl att inf) (conj (nocov_trad l HX o tl att inf) (nocov_loc l HX o tl att inf))). Qed.
Print Assumptions C89_no_covariates_ipw_dr.
(** The Horvitz-Thompson estimator ipw_did_rc only when treatment and period are independent in the weighted sample. *)
Theorem C89_no_covariates_horvitz_thompson_partial : forall o tl l att inf, (forall u, In u l -> r_x u = 1 :: nil) -> rscore_ok o 1 ->
  (forall gamma u, ro_logit o (rnormalise l) = Some gamma -> In u l -> rps_fit (ro_mu o) 1 gamma u < tl) ->
  (forall b t, sumf r_w (cell b t l) = sumf r_w l * wshare (fun u => Bool.eqb (r_d u) b) l * wshare (fun u => Bool.eqb (r_post u) t) l) ->
  ipw_did_rc o 1 tl l = PEst att inf -> att = four_cells l.
Proof. exact nocov_ht. Qed.
Print Assumptions C89_no_covariates_horvitz_thompson_partial.
(** reading a computed outcome without unfolding it *)
Lemma est_neq : forall r x, match r with PEst a _ => negb (Qceqb a x) | _ => false end = true -> exists a i, r = PEst a i /\ a <> x.
Proof. intros [| | |a i] x H; try discriminate H. exists a, i. split; [reflexivity|]. destruct (Qceqb_spec a x) as [E|E]; [discriminate H|exact E]. Qed.
Lemma est_neq2 : forall r r', match r, r' with PEst a _, PEst a' _ => negb (Qceqb a' a) | _, _ => false end = true ->
  exists a i a' i', r = PEst a i /\ r' = PEst a' i' /\ a' <> a.
Proof. intros [| | |a i] [| | |a' i'] H; try discriminate H. exists a, i, a', i'. split; [reflexivity|]. split; [reflexivity|]. destruct (Qceqb_spec a' a) as [E|E]; [discriminate H|exact E]. Qed.
Lemma est_some : forall r, is_est r = true -> exists a i, r = PEst a i.
Proof. intros [| | |a i] H; try discriminate H. exists a, i. reflexivity. Qed.
Lemma neqb : forall a x : Qc, negb (Qceqb a x) = true -> a <> x.
Proof. intros a x H. destruct (Qceqb_spec a x) as [E|E]; [discriminate H|exact E]. Qed.
Theorem C89_horvitz_thompson_refuted : exists o tl l att inf, (forall u, In u l -> r_x u = 1 :: nil) /\ rscore_ok o 1 /\ rwls_ok o 1 /\ rinv_ok o 1 /\
  ipw_did_rc o 1 tl l = PEst att inf /\ att <> four_cells l.
Proof.
  exists rwit1, 1, rwit_rows1. destruct (est_neq (ipw_did_rc rwit1 1 1 rwit_rows1) (four_cells rwit_rows1)) as [att [inf [E N]]]; [vm_compute; reflexivity|].
  exists att, inf. split. { intros u Hu. unfold rwit_rows1 in Hu. apply in_map_iff in Hu. destruct Hu as [v [<- _]]. reflexivity. }
  split; [exact rwit1_score_ok|]. split; [exact rwit1_wls_ok|]. split; [exact rwit1_inv_ok|]. split; [exact E|exact N].
Qed.
Print Assumptions C89_horvitz_thompson_refuted.
(** cases: twelve rows with unequal weights; twelve rows with equal weights, three to a cell *)
Definition unit_w : runit -> runit := rset_w 1.
Example C89_case : forallb is_est [reg_did_rc rwit1 1 rwit_rows1; std_ipw_did_rc rwit1 1 1 rwit_rows1; drdid_trad_rc rwit1 1 1 rwit_rows1; drdid_rc rwit1 1 1 rwit_rows1] = true
  /\ four_cells rwit_rows1 <> 0.
Proof. split; [lazy; reflexivity|]. apply neqb. vm_compute. reflexivity. Qed.
Example C89_case_horvitz_thompson : is_est (ipw_did_rc rwit1 1 1 (map unit_w rwit_rows1)) = true /\
  (forall gamma u, ro_logit rwit1 (rnormalise (map unit_w rwit_rows1)) = Some gamma -> In u (map unit_w rwit_rows1) -> rps_fit (ro_mu rwit1) 1 gamma u < 1) /\
  (forall b t, sumf r_w (cell b t (map unit_w rwit_rows1)) = sumf r_w (map unit_w rwit_rows1) * wshare (fun u => Bool.eqb (r_d u) b) (map unit_w rwit_rows1) * wshare (fun u => Bool.eqb (r_post u) t) (map unit_w rwit_rows1)).
Proof.
  split; [lazy; reflexivity|]. split; [|intros [] []; by_qc].
  intros gamma u _ _. destruct (rps_bounds (ro_mu rwit1) 1 gamma u) as [_ B]. assert (0 < eps6) by reflexivity. qclra.
Qed.

(** * C90: invariances *)
(** Multiplying all sampling weights by a positive constant changes nothing. *)
Theorem C90_weight_scale : forall o k tl l c, 0 < c ->
  reg_did_rc o k (map (rscale_w c) l) = reg_did_rc o k l /\ std_ipw_did_rc o k tl (map (rscale_w c) l) = std_ipw_did_rc o k tl l /\
  ipw_did_rc o k tl (map (rscale_w c) l) = ipw_did_rc o k tl l /\ drdid_trad_rc o k tl (map (rscale_w c) l) = drdid_trad_rc o k tl l /\
  drdid_rc o k tl (map (rscale_w c) l) = drdid_rc o k tl l.
Proof. exact rc_scale. Qed.
Print Assumptions C90_weight_scale.
(** Reordering the rows only reorders the influence values. *)
Theorem C90_row_order : forall o k tl l l', rfits_symmetric o -> Permutation l l' ->
  rsame_up_to_order l l' (reg_did_rc o k l) (reg_did_rc o k l') /\ rsame_up_to_order l l' (std_ipw_did_rc o k tl l) (std_ipw_did_rc o k tl l') /\
  rsame_up_to_order l l' (ipw_did_rc o k tl l) (ipw_did_rc o k tl l') /\ rsame_up_to_order l l' (drdid_trad_rc o k tl l) (drdid_trad_rc o k tl l') /\
  rsame_up_to_order l l' (drdid_rc o k tl l) (drdid_rc o k tl l').
Proof.
  intros o k tl l l' S P. exact (conj (rc_perm_reg o k l l' S P) (conj (rc_perm_ipw o k tl l l' S P) (conj (rc_perm_ht o k tl l l' S P)
    (conj (rc_perm_trad o k tl l l' S P) (rc_perm_loc o k tl l l' S P))))).
Qed.
Print Assumptions C90_row_order.
(** Rescaling the outcome by [c] and adding one constant to all post-period and another to all pre-period outcomes multiplies the estimate
    and every influence value by [c]. *)
Theorem C90_affine_reg : forall o k l c a b att inf att' inf', rwls_ok o k -> rno_collinearity k (cell false false l) -> rno_collinearity k (cell false true l) ->
  rhas_intercept l -> (1 <= k)%nat ->
  reg_did_rc o k l = PEst att inf -> reg_did_rc o k (map (raffine_y c a b) l) = PEst att' inf' -> att' = c * att /\ inf' = map (fun v => c * v) inf.
Proof. intros o k l c a b att inf att' inf'. apply rreg_affine. Qed.
Print Assumptions C90_affine_reg.
Theorem C90_affine_std_ipw : forall o k tl l c a b att inf att' inf', rlogit_blind o ->
  std_ipw_did_rc o k tl l = PEst att inf -> std_ipw_did_rc o k tl (map (raffine_y c a b) l) = PEst att' inf' -> att' = c * att /\ inf' = map (fun v => c * v) inf.
Proof. intros o k tl l c a b att inf att' inf'. apply ripw_affine. Qed.
Print Assumptions C90_affine_std_ipw.
Theorem C90_affine_trad : forall o k tl l c a b att inf att' inf', rwls_ok o k -> rlogit_blind o ->
  rno_collinearity k (cell false false l) -> rno_collinearity k (cell false true l) -> rhas_intercept l -> (1 <= k)%nat ->
  drdid_trad_rc o k tl l = PEst att inf -> drdid_trad_rc o k tl (map (raffine_y c a b) l) = PEst att' inf' -> att' = c * att /\ inf' = map (fun v => c * v) inf.
Proof. intros o k tl l c a b att inf att' inf'. apply trad_affine. Qed.
Print Assumptions C90_affine_trad.
Theorem C90_affine_local : forall o k tl l c a b att inf att' inf', rwls_ok o k -> rlogit_blind o ->
  (forall d t, rno_collinearity k (cell d t l)) -> rhas_intercept l -> (1 <= k)%nat ->
  drdid_rc o k tl l = PEst att inf -> drdid_rc o k tl (map (raffine_y c a b) l) = PEst att' inf' -> att' = c * att /\ inf' = map (fun v => c * v) inf.
Proof. intros o k tl l c a b att inf att' inf'. apply loc_affine. Qed.
Print Assumptions C90_affine_local.
(** Not so for the Horvitz-Thompson estimator: adding 1 to every outcome moves it. *)
Theorem C90_horvitz_thompson_shift_refuted : exists o k tl l att inf att' inf', rlogit_blind o /\ rscore_ok o k /\ rhas_intercept l /\
  ipw_did_rc o k tl l = PEst att inf /\ ipw_did_rc o k tl (map (raffine_y 1 1 1) l) = PEst att' inf' /\ att' <> att.
Proof.
  exists rwit2, 2%nat, 1, rwit_rows.
  destruct (est_neq2 (ipw_did_rc rwit2 2 1 rwit_rows) (ipw_did_rc rwit2 2 1 (map (raffine_y 1 1 1) rwit_rows))) as [att [inf [att' [inf' [E [E' N]]]]]]; [vm_compute; reflexivity|].
  exists att, inf, att', inf'. split; [exact rwit2_blind|]. split; [exact rwit2_score_ok|]. split; [exact rwit_intercept|]. split; [exact E|]. split; [exact E'|exact N].
Qed.
Print Assumptions C90_horvitz_thompson_shift_refuted.
(** a case meeting all hypotheses: twelve rows, intercept and one covariate, unequal weights *)
Example C90_case : rwls_ok rwit2 2 /\ rlogit_blind rwit2 /\ rfits_symmetric rwit2 /\ (forall d t, rno_collinearity 2 (cell d t rwit_rows)) /\ rhas_intercept rwit_rows /\
  forallb (fun l => forallb is_est [reg_did_rc rwit2 2 l; std_ipw_did_rc rwit2 2 1 l; ipw_did_rc rwit2 2 1 l; drdid_trad_rc rwit2 2 1 l; drdid_rc rwit2 2 1 l])
    [rwit_rows; map (raffine_y (qz 2) (qz 3) (qz 5)) rwit_rows; rev rwit_rows] = true.
Proof.
  split; [exact rwit2_wls_ok|]. split; [exact rwit2_blind|]. split; [exact rwit2_symmetric|]. split; [exact rwit_nc|]. split; [exact rwit_intercept|]. lazy. reflexivity.
Qed.

(** * C91: the estimates are the documented differences of weighted means *)
Theorem C91_estimates_as_means : forall o k tl l att inf,
  (reg_did_rc o k l = PEst att inf -> exists b0 b1,
     ro_wls o (cell false false (rnormalise l)) = Some b0 /\ ro_wls o (cell false true (rnormalise l)) = Some b1 /\
     att = (cell_mean true true r_y l - cell_mean true false r_y l) - treated_mean (fun u => dotk k (r_x u) b1 - dotk k (r_x u) b0) l) /\
  (std_ipw_did_rc o k tl l = PEst att inf -> exists gamma, ro_logit o (rnormalise l) = Some gamma /\
     let ps := rps_fit (ro_mu o) k gamma in
     att = (cell_mean true true r_y l - cell_mean true false r_y l) - (odds_cell_mean tl ps true r_y l - odds_cell_mean tl ps false r_y l)) /\
  (ipw_did_rc o k tl l = PEst att inf -> exists gamma, ro_logit o (rnormalise l) = Some gamma /\
     let ps := rps_fit (ro_mu o) k gamma in let one := fun _ => 1 in let odds := fun u => ind (Qcltb (ps u) tl) * (ps u / (1 - ps u)) in
     att = (ht_cell true true one l - ht_cell true false one l) - (ht_cell false true odds l - ht_cell false false odds l)) /\
  (drdid_trad_rc o k tl l = PEst att inf -> exists gamma b0 b1, ro_logit o (rnormalise l) = Some gamma /\
     ro_wls o (cell false false (rnormalise l)) = Some b0 /\ ro_wls o (cell false true (rnormalise l)) = Some b1 /\
     let ps := rps_fit (ro_mu o) k gamma in
     att = (cell_mean true true (fun u => r_y u - dotk k (r_x u) b1) l - cell_mean true false (fun u => r_y u - dotk k (r_x u) b0) l)
           - (odds_cell_mean tl ps true (fun u => r_y u - dotk k (r_x u) b1) l - odds_cell_mean tl ps false (fun u => r_y u - dotk k (r_x u) b0) l)) /\
  (drdid_rc o k tl l = PEst att inf -> exists gamma c0 c1 t0 t1, ro_logit o (rnormalise l) = Some gamma /\
     ro_wls o (cell false false (rnormalise l)) = Some c0 /\ ro_wls o (cell false true (rnormalise l)) = Some c1 /\
     ro_wls o (cell true false (rnormalise l)) = Some t0 /\ ro_wls o (cell true true (rnormalise l)) = Some t1 /\
     let ps := rps_fit (ro_mu o) k gamma in
     att = (cell_mean true true (fun u => r_y u - dotk k (r_x u) t1) l - cell_mean true false (fun u => r_y u - dotk k (r_x u) t0) l)
           - (odds_cell_mean tl ps true (fun u => r_y u - dotk k (r_x u) c1) l - odds_cell_mean tl ps false (fun u => r_y u - dotk k (r_x u) c0) l)
           + treated_mean (fun u => (dotk k (r_x u) t1 - dotk k (r_x u) c1) - (dotk k (r_x u) t0 - dotk k (r_x u) c0)) l).
Proof.
  intros o k tl l att inf. exact (conj (rreg_value o k l att inf) (conj (ripw_value o k tl l att inf) (conj (ht_value o k tl l att inf)
    (conj (trad_value o k tl l att inf) (loc_value o k tl l att inf))))).
Qed.
Print Assumptions C91_estimates_as_means.
(** With an intercept the treated residuals of the locally efficient estimator average out: the estimate is the regression-imputed mean over
    ALL treated rows (both periods) minus the odds-weighted comparison residuals. *)
Theorem C91_local_with_intercept : forall o k tl l att inf, rwls_ok o k -> rhas_intercept l -> (1 <= k)%nat -> drdid_rc o k tl l = PEst att inf -> exists gamma c0 c1 t0 t1,
  ro_logit o (rnormalise l) = Some gamma /\
  ro_wls o (cell false false (rnormalise l)) = Some c0 /\ ro_wls o (cell false true (rnormalise l)) = Some c1 /\
  ro_wls o (cell true false (rnormalise l)) = Some t0 /\ ro_wls o (cell true true (rnormalise l)) = Some t1 /\
  let ps := rps_fit (ro_mu o) k gamma in
  att = treated_mean (fun u => (dotk k (r_x u) t1 - dotk k (r_x u) c1) - (dotk k (r_x u) t0 - dotk k (r_x u) c0)) l
        - (odds_cell_mean tl ps true (fun u => r_y u - dotk k (r_x u) c1) l - odds_cell_mean tl ps false (fun u => r_y u - dotk k (r_x u) c0) l).
Proof. exact loc_value_intercept. Qed.
Print Assumptions C91_local_with_intercept.
(** When the comparison outcomes follow the linear model exactly in both periods, the propensity score does not matter. *)
Theorem C91_exact_outcome_model : forall o k tl l s0 s1, rwls_ok o k -> rno_collinearity k (cell false false l) -> rno_collinearity k (cell false true l) ->
  rexact k false s0 l -> rexact k true s1 l ->
  (forall att inf, reg_did_rc o k l = PEst att inf ->
     att = (cell_mean true true r_y l - cell_mean true false r_y l) - treated_mean (fun u => dotk k (r_x u) s1 - dotk k (r_x u) s0) l) /\
  (forall att inf, drdid_trad_rc o k tl l = PEst att inf ->
     att = cell_mean true true (fun u => r_y u - dotk k (r_x u) s1) l - cell_mean true false (fun u => r_y u - dotk k (r_x u) s0) l) /\
  (forall att inf, rhas_intercept l -> (1 <= k)%nat -> drdid_rc o k tl l = PEst att inf -> exists t0 t1,
     ro_wls o (cell true false (rnormalise l)) = Some t0 /\ ro_wls o (cell true true (rnormalise l)) = Some t1 /\
     att = treated_mean (fun u => (dotk k (r_x u) t1 - dotk k (r_x u) s1) - (dotk k (r_x u) t0 - dotk k (r_x u) s0)) l).
Proof.
  intros o k tl l s0 s1 WO N0 N1 X0 X1. split; [|split]; intros att inf.
  - eapply rreg_exact; eassumption.
  - eapply trad_exact; eassumption.
  - eapply loc_exact; eassumption.
Qed.
Print Assumptions C91_exact_outcome_model.
(** comparison rows follow y = 1 + 2x before and y = 3 + 5x after *)
Definition rwit_exact : list runit := map (fun u => if r_d u then u else
  {| r_id := r_id u; r_d := false; r_post := r_post u; r_y := (if r_post u then qz 3 + qz 5 * nth 1 (r_x u) 0 else 1 + qz 2 * nth 1 (r_x u) 0); r_w := r_w u; r_x := r_x u |}) rwit_rows.
Example C91_exact_case : rexact 2 false (1 :: qz 2 :: nil) rwit_exact /\ rexact 2 true (qz 3 :: qz 5 :: nil) rwit_exact /\ rhas_intercept rwit_exact /\
  map r_x rwit_exact = map r_x rwit_rows /\ map (fun u => (r_d u, r_post u)) rwit_exact = map (fun u => (r_d u, r_post u)) rwit_rows /\
  forallb is_est [reg_did_rc rwit2 2 rwit_exact; drdid_trad_rc rwit2 2 1 rwit_exact; drdid_rc rwit2 2 1 rwit_exact] = true.
Proof.
  assert (X : forall (t : bool) (b : list Qc), b = (if t then qz 3 :: qz 5 :: nil else 1 :: qz 2 :: nil) -> rexact 2 t b rwit_exact).
  { intros t b -> u Hu D P _. unfold rwit_exact in Hu. apply in_map_iff in Hu. destruct Hu as [v [<- Hv]]. destruct (r_d v) eqn:E; [rewrite E in D; discriminate D|]. cbn [r_post r_y r_x] in *. subst t.
    assert (Hx : nth 0 (r_x v) 0 = 1) by (apply rwit_intercept; exact Hv). unfold dotk. cbn [seq]. rewrite !sumf_cons, sumf_nil, Hx. destruct (r_post v); cbn [nth]; ring. }
  split; [apply X; reflexivity|]. split; [apply X; reflexivity|]. split; [|split; [vm_compute; reflexivity|split; [vm_compute; reflexivity|lazy; reflexivity]]].
  intros u H. cbn in H. repeat (destruct H as [<-|H]; [reflexivity|]). destruct H.
Qed.

(** * C92: one influence value per row, averaging to zero *)
Theorem C92_inf_centred_reg : forall o k l att inf, rwls_ok o k -> reg_did_rc o k l = PEst att inf -> length inf = length l /\ qsum inf = 0.
Proof. exact rreg_centred. Qed.
Print Assumptions C92_inf_centred_reg.
(** provided the clipped scores solve the score equations of the logit (true whenever no score is clipped) *)
Theorem C92_inf_centred_ps : forall o k tl l att inf,
  (forall gamma, ro_logit o (rnormalise l) = Some gamma -> rscore_equations k (rps_fit (ro_mu o) k gamma) (rnormalise l)) ->
  (std_ipw_did_rc o k tl l = PEst att inf -> length inf = length l /\ qsum inf = 0) /\
  (ipw_did_rc o k tl l = PEst att inf -> length inf = length l /\ qsum inf = 0) /\
  (rwls_ok o k -> drdid_trad_rc o k tl l = PEst att inf -> length inf = length l /\ qsum inf = 0) /\
  (rwls_ok o k -> drdid_rc o k tl l = PEst att inf -> length inf = length l /\ qsum inf = 0).
Proof.
  intros o k tl l att inf SC. split; [|split; [|split]].
  - intros E. exact (ripw_centred o k tl l att inf E SC).
  - intros E. exact (ht_centred o k tl l att inf E SC).
  - intros WO E. exact (trad_centred o k tl l att inf WO E SC).
  - intros WO E. exact (loc_centred o k tl l att inf WO E SC).
Qed.
Print Assumptions C92_inf_centred_ps.
Example C92_case : rwls_ok rwit2 2 /\ (forall gamma, ro_logit rwit2 (rnormalise rwit_rows) = Some gamma -> rscore_equations 2 (rps_fit (ro_mu rwit2) 2 gamma) (rnormalise rwit_rows)) /\
  forallb (fun r => match r with PEst _ (i :: _) => negb (Qceqb i 0) | _ => false end)
    [reg_did_rc rwit2 2 rwit_rows; std_ipw_did_rc rwit2 2 1 rwit_rows; ipw_did_rc rwit2 2 1 rwit_rows; drdid_trad_rc rwit2 2 1 rwit_rows; drdid_rc rwit2 2 1 rwit_rows] = true.
Proof. split; [exact rwit2_wls_ok|]. split; [intros g E; exact (rwit2_score_ok _ _ E)|]. lazy. reflexivity. Qed.

(** * C93: influence values as derivatives of the estimate with respect to the row weights *)
(** Reading as for C27: the weight of every row [u] is multiplied by [1 + e * h u] and the estimator re-run. *)
Theorem C93_reg_inf_is_derivative : forall o k l h att inf, rwls_ok o k -> rinv_ok o k ->
  reg_did_rc o k l = PEst att inf -> near0 (fun e => has_est (reg_did_rc o k (map (rreweight e h) l))) ->
  derivative_at_0 (fun e => att_of (reg_did_rc o k (map (rreweight e h) l))) (ravg_with h l inf).
Proof. exact rreg_derivative. Qed.
Print Assumptions C93_reg_inf_is_derivative.
Theorem C93_std_ipw_inf_is_derivative : forall o k tl l h att inf, rinv_ok o k -> rsmooth_logit o k tl l h ->
  std_ipw_did_rc o k tl l = PEst att inf -> near0 (fun e => has_est (std_ipw_did_rc o k tl (map (rreweight e h) l))) ->
  derivative_at_0 (fun e => att_of (std_ipw_did_rc o k tl (map (rreweight e h) l))) (ravg_with h l inf).
Proof. exact ripw_derivative. Qed.
Print Assumptions C93_std_ipw_inf_is_derivative.
(** ipw_did_rc: the reported values leave out the effect of the weights on their own normalisation; the true derivative has the extra term
    estimate x average of (h x (weight / mean weight - 1)). *)
Theorem C93_horvitz_thompson_derivative : forall o k tl l h att inf, rinv_ok o k -> rsmooth_logit o k tl l h ->
  ipw_did_rc o k tl l = PEst att inf -> near0 (fun e => has_est (ipw_did_rc o k tl (map (rreweight e h) l))) ->
  derivative_at_0 (fun e => att_of (ipw_did_rc o k tl (map (rreweight e h) l))) (ravg_with h l inf + att * mean (fun u => h u * (r_w u / mean r_w l - 1)) l).
Proof. exact ht_derivative. Qed.
Print Assumptions C93_horvitz_thompson_derivative.
(** Hence with equal sampling weights the values are exact. *)
Theorem C93_horvitz_thompson_equal_weights_partial : forall o k tl l h att inf w0, rinv_ok o k -> rsmooth_logit o k tl l h ->
  (forall u, In u l -> r_w u = w0) ->
  ipw_did_rc o k tl l = PEst att inf -> near0 (fun e => has_est (ipw_did_rc o k tl (map (rreweight e h) l))) ->
  derivative_at_0 (fun e => att_of (ipw_did_rc o k tl (map (rreweight e h) l))) (ravg_with h l inf).
Proof.
  intros o k tl l h att inf w0 IO SM W E HE. assert (E' := E). apply ht_inv in E'. destruct E' as [_ [_ [g [H [_ [_ [Np _]]]]]]].
  assert (Hm : mean r_w l <> 0) by (intros E0; apply Np; apply mean_0, sumf_zero; intros u Hu; rewrite (rnormalise_zero l E0 u Hu); ring).
  assert (Hl : l <> nil) by (intros ->; apply Hm; reflexivity).
  assert (M : mean r_w l = w0) by (rewrite (mean_ext r_w (fun _ => w0)) by exact W; apply mean_const; exact Hl).
  assert (D := ht_derivative o k tl l h att inf IO SM E HE). revert D. apply D_eq. rewrite M in *.
  rewrite (mean_ext _ (fun _ => 0)); [rewrite mean_const by exact Hl; ring|]. intros u Hu. rewrite (W u Hu). field. exact Hm.
Qed.
Print Assumptions C93_horvitz_thompson_equal_weights_partial.
(** drdid_trad_rc and drdid_rc: the derivative of the estimate is the average of the reported values PLUS twice the sum, over the covariates,
    of the pre-period imbalance left by the odds weights times the derivative of the pre-period comparison coefficient: the estimation
    effect of that regression enters the reported values with the wrong sign. *)
Theorem C93_trad_derivative : forall o k tl l h att inf, rwls_ok o k -> rinv_ok o k -> rsmooth_logit o k tl l h ->
  drdid_trad_rc o k tl l = PEst att inf -> near0 (fun e => has_est (drdid_trad_rc o k tl (map (rreweight e h) l))) ->
  exists d0, (forall j, (j < k)%nat -> derivative_at_0 (fun e => nth j (rbeta_of o false false (map (rreweight e h) l)) 0) (d0 j)) /\
  derivative_at_0 (fun e => att_of (drdid_trad_rc o k tl (map (rreweight e h) l)))
    (ravg_with h l inf + Q2Qc 2 * sumf (fun j => pre_imbalance tl (rps_fit (ro_mu o) k (rgamma_of o l)) l j * d0 j) (seq 0 k)).
Proof. exact trad_derivative. Qed.
Print Assumptions C93_trad_derivative.
Theorem C93_local_derivative : forall o k tl l h att inf, rwls_ok o k -> rinv_ok o k -> rsmooth_logit o k tl l h ->
  drdid_rc o k tl l = PEst att inf -> near0 (fun e => has_est (drdid_rc o k tl (map (rreweight e h) l))) ->
  exists d0, (forall j, (j < k)%nat -> derivative_at_0 (fun e => nth j (rbeta_of o false false (map (rreweight e h) l)) 0) (d0 j)) /\
  derivative_at_0 (fun e => att_of (drdid_rc o k tl (map (rreweight e h) l)))
    (ravg_with h l inf + Q2Qc 2 * sumf (fun j => pre_imbalance tl (rps_fit (ro_mu o) k (rgamma_of o l)) l j * d0 j) (seq 0 k)).
Proof. exact loc_derivative. Qed.
Print Assumptions C93_local_derivative.
(** So the values are derivatives when the odds weights balance every covariate exactly before treatment ... *)
Theorem C93_dr_inf_is_derivative_partial : forall o k tl l h att inf, rwls_ok o k -> rinv_ok o k -> rsmooth_logit o k tl l h ->
  (forall j, (j < k)%nat -> pre_imbalance tl (rps_fit (ro_mu o) k (rgamma_of o l)) l j = 0) ->
  (drdid_trad_rc o k tl l = PEst att inf -> near0 (fun e => has_est (drdid_trad_rc o k tl (map (rreweight e h) l))) ->
   derivative_at_0 (fun e => att_of (drdid_trad_rc o k tl (map (rreweight e h) l))) (ravg_with h l inf)) /\
  (drdid_rc o k tl l = PEst att inf -> near0 (fun e => has_est (drdid_rc o k tl (map (rreweight e h) l))) ->
   derivative_at_0 (fun e => att_of (drdid_rc o k tl (map (rreweight e h) l))) (ravg_with h l inf)).
Proof.
  intros o k tl l h att inf WO IO SM B.
  assert (Z : forall d0 : nat -> Qc, sumf (fun j => pre_imbalance tl (rps_fit (ro_mu o) k (rgamma_of o l)) l j * d0 j) (seq 0 k) = 0).
  { intros d0. apply sumf_zero. intros j Hj. apply in_seq in Hj. rewrite B by lia. ring. }
  split; intros E HE; [destruct (trad_derivative o k tl l h att inf WO IO SM E HE) as [d0 [_ D]]|destruct (loc_derivative o k tl l h att inf WO IO SM E HE) as [d0 [_ D]]];
    revert D; apply D_eq; rewrite Z; ring.
Qed.
Print Assumptions C93_dr_inf_is_derivative_partial.
(** ... and not in general, even with correct fits: seven rows, link smooth at the fit. *)
Theorem C93_dr_inf_is_derivative_refuted : exists o k tl l h att inf att2 inf2, rwls_ok o k /\ rinv_ok o k /\ rsmooth_logit o k tl l h /\
  drdid_trad_rc o k tl l = PEst att inf /\ near0 (fun e => has_est (drdid_trad_rc o k tl (map (rreweight e h) l))) /\
  drdid_rc o k tl l = PEst att2 inf2 /\ near0 (fun e => has_est (drdid_rc o k tl (map (rreweight e h) l))) /\
  ~ derivative_at_0 (fun e => att_of (drdid_trad_rc o k tl (map (rreweight e h) l))) (ravg_with h l inf) /\
  ~ derivative_at_0 (fun e => att_of (drdid_rc o k tl (map (rreweight e h) l))) (ravg_with h l inf2).
Proof.
  exists rwit3, 1%nat, 1, rwit_smooth, rwit_h.
  assert (N1 : near0 (fun e => has_est (drdid_trad_rc rwit3 1 1 (map (rreweight e rwit_h) rwit_smooth)))) by (eapply near0_impl; [|exact rwit_smooth_est]; cbn beta; tauto).
  assert (N2 : near0 (fun e => has_est (drdid_rc rwit3 1 1 (map (rreweight e rwit_h) rwit_smooth)))) by (eapply near0_impl; [|exact rwit_smooth_est]; cbn beta; tauto).
  destruct (est_some (drdid_trad_rc rwit3 1 1 rwit_smooth)) as [att [inf E1]]; [vm_compute; reflexivity|].
  destruct (est_some (drdid_rc rwit3 1 1 rwit_smooth)) as [att2 [inf2 E2]]; [vm_compute; reflexivity|].
  exists att, inf, att2, inf2. split; [exact rwit3_wls_ok|]. split; [exact rwit3_inv_ok|]. split; [exact rwit_smooth_logit|].
  split; [exact E1|]. split; [exact N1|]. split; [exact E2|]. split; [exact N2|].
  assert (K : forall d0 : nat -> Qc, (forall j, (j < 1)%nat -> derivative_at_0 (fun e => nth j (rbeta_of rwit3 false false (map (rreweight e rwit_h) rwit_smooth)) 0) (d0 j)) ->
    forall a, a = a + Q2Qc 2 * sumf (fun j => pre_imbalance 1 (rps_fit (ro_mu rwit3) 1 (rgamma_of rwit3 rwit_smooth)) rwit_smooth j * d0 j) (seq 0 1) -> False).
  { intros d0 H a Ha. assert (D := D_unique _ _ _ (H 0%nat ltac:(lia)) D_rwit_beta). cbn [seq] in Ha. rewrite sumf_cons, sumf_nil, D in Ha.
    assert (Z : Q2Qc 2 * (pre_imbalance 1 (rps_fit (ro_mu rwit3) 1 (rgamma_of rwit3 rwit_smooth)) rwit_smooth 0 * (two / (three * three)) + 0) = 0).
    { match goal with |- ?x = 0 => transitivity (a + x - a); [ring|rewrite <- Ha; ring] end. }
    revert Z. apply neqb. vm_compute. reflexivity. }
  split; intros D.
  - destruct (trad_derivative rwit3 1 1 rwit_smooth rwit_h att inf rwit3_wls_ok rwit3_inv_ok rwit_smooth_logit E1 N1) as [d0 [H D']]. exact (K d0 H _ (D_unique _ _ _ D D')).
  - destruct (loc_derivative rwit3 1 1 rwit_smooth rwit_h att2 inf2 rwit3_wls_ok rwit3_inv_ok rwit_smooth_logit E2 N2) as [d0 [H D']]. exact (K d0 H _ (D_unique _ _ _ D D')).
Qed.
Print Assumptions C93_dr_inf_is_derivative_refuted.
(** ipw_did_rc with unequal weights likewise. *)
Theorem C93_horvitz_thompson_refuted : exists o k tl l h att inf, rinv_ok o k /\ rsmooth_logit o k tl l h /\
  ipw_did_rc o k tl l = PEst att inf /\ near0 (fun e => has_est (ipw_did_rc o k tl (map (rreweight e h) l))) /\
  ~ derivative_at_0 (fun e => att_of (ipw_did_rc o k tl (map (rreweight e h) l))) (ravg_with h l inf).
Proof.
  exists rwit3, 1%nat, 1, rwit_smooth, rwit_h.
  assert (N1 : near0 (fun e => has_est (ipw_did_rc rwit3 1 1 (map (rreweight e rwit_h) rwit_smooth)))) by (eapply near0_impl; [|exact rwit_smooth_est]; cbn beta; tauto).
  destruct (est_neq (ipw_did_rc rwit3 1 1 rwit_smooth) 0) as [att [inf [E1 NZ]]]; [vm_compute; reflexivity|].
  exists att, inf. split; [exact rwit3_inv_ok|]. split; [exact rwit_smooth_logit|]. split; [exact E1|]. split; [exact N1|]. intros D.
  assert (D' := ht_derivative rwit3 1 1 rwit_smooth rwit_h att inf rwit3_inv_ok rwit_smooth_logit E1 N1). assert (U := D_unique _ _ _ D D').
  set (M := mean (fun u => rwit_h u * (r_w u / mean r_w rwit_smooth - 1)) rwit_smooth) in *.
  assert (Z : att * M = 0) by (transitivity (ravg_with rwit_h rwit_smooth inf + att * M - ravg_with rwit_h rwit_smooth inf); [ring|rewrite <- U; ring]).
  apply Qcmult_integral in Z. destruct Z as [Z|Z].
  - exact (NZ Z).
  - revert Z. apply neqb. vm_compute. reflexivity.
Qed.
Print Assumptions C93_horvitz_thompson_refuted.
(** the same seven rows meet the hypotheses of every positive theorem above, with non-zero average influence values *)
Example C93_case : rwls_ok rwit3 1 /\ rinv_ok rwit3 1 /\ rsmooth_logit rwit3 1 1 rwit_smooth rwit_h /\
  near0 (fun e => has_est (reg_did_rc rwit3 1 (map (rreweight e rwit_h) rwit_smooth)) /\ has_est (std_ipw_did_rc rwit3 1 1 (map (rreweight e rwit_h) rwit_smooth)) /\
    has_est (ipw_did_rc rwit3 1 1 (map (rreweight e rwit_h) rwit_smooth)) /\ has_est (drdid_trad_rc rwit3 1 1 (map (rreweight e rwit_h) rwit_smooth)) /\
    has_est (drdid_rc rwit3 1 1 (map (rreweight e rwit_h) rwit_smooth))) /\
  forallb (fun r => match r with PEst _ i => negb (Qceqb (ravg_with rwit_h rwit_smooth i) 0) | _ => false end)
    [reg_did_rc rwit3 1 rwit_smooth; std_ipw_did_rc rwit3 1 1 rwit_smooth; ipw_did_rc rwit3 1 1 rwit_smooth; drdid_trad_rc rwit3 1 1 rwit_smooth; drdid_rc rwit3 1 1 rwit_smooth] = true.
Proof.
  split; [exact rwit3_wls_ok|]. split; [exact rwit3_inv_ok|]. split; [exact rwit_smooth_logit|]. split; [exact rwit_smooth_est|]. vm_compute. reflexivity.
Qed.
