(** Weights and overall estimates of a panel. *)
From Verif Require Import Base ListLib ReduceModel DrdidModel DrdidSpec SplineModel SplineSpec ContModel ContSpec ContProofs ContProofs2 ContProofs3.
From Coq Require Import Sorting.Sorted.

Lemma combine_map_self {A B} (f : A -> B) l : combine (map f l) l = map (fun a => (f a, a)) l.
Proof. rewrite <- (map_id l) at 2. apply combine_map. Qed.
Lemma sumf_filter_ind {A} (p : A -> bool) (f : A -> Qc) l : sumf (fun a => if p a then f a else 0) l = sumf f (filter p l).
Proof. induction l as [|a l IH]; cbn [filter]; [reflexivity|]. rewrite sumf_cons, IH. destruct (p a); [rewrite sumf_cons|]; ring. Qed.
Lemma find_combine_map (h : Z -> Qc) g : forall l, In g l -> find (fun p => (fst p =? g)%Z) (map (fun x => (x, h x)) l) = Some (g, h g).
Proof.
  induction l as [|x l IH]; [easy|]. intros H. cbn [map find fst]. destruct (Z.eqb_spec x g) as [->|N]; [reflexivity|]. apply IH. destruct H as [H|H]; [congruence|exact H].
Qed.

Section Run.
  Context (orc : coracle) (o : copts) (T : nat) (us : list cunit) (Ok : panel_ok (co_ant o) T us) (V : co_univ o = false).
  Let T2 : (2 <= T)%nat := proj1 Ok.
  Let Ha : (0 <= co_ant o)%Z := proj1 (proj2 Ok).
  Let Hne : us <> [] := proj1 (proj2 (proj2 Ok)).
  Let Hs : StronglySorted Z.lt (map k_id us) := proj1 (proj2 (proj2 (proj2 Ok))).
  Let Hu : forall u, In u us -> unit_ok (co_ant o) T u := proj2 (proj2 (proj2 (proj2 Ok))).
  Definition run_doses : list Qc := positive_doses (rows T us).
  Definition run_knots : list Qc := choose_knots run_doses (co_nknots o).
  Definition run_grid : list Qc := dose_grid o run_doses.
  Definition run_cells : list pcell := compute_pte orc o run_knots run_grid (tl (calendar 0 T)) (cohorts us) (rows T us).
  Definition pairs : list (Z * Z) := flat_map (fun t => map (fun g => (g, t)) (cohorts us)) (tl (calendar 0 T)).
  Lemma run_eq : cont_did orc o (rows T us) =
    match run_cells with [] => ContRaise
    | _ => if existsb is_raise run_cells then ContRaise else if existsb is_null run_cells then ContUnmodelled
           else process_dose o run_knots run_grid (rows T us) run_cells end.
  Proof.
    unfold cont_did. rewrite (preprocess_rows o T us Ok). unfold cont_run. rewrite (pte_data_rows o T us Ok), (t_list_rows o T us Ok V), (g_list_rows o T us Ok V). reflexivity.
  Qed.
  Lemma pairs_eq : map (fun c => (pc_g c, pc_t c)) run_cells = pairs.
  Proof. unfold run_cells, compute_pte, pairs. rewrite map_flat_map. apply flat_map_ext_in. intros t _. rewrite map_map. reflexivity. Qed.
  Lemma cell_in c : In c run_cells <-> exists g t, In g (cohorts us) /\ (2 <= t <= Z.of_nat T)%Z /\ c = process_cell orc o run_knots run_grid (rows T us) t g.
  Proof.
    unfold run_cells, compute_pte. rewrite in_flat_map. split.
    - intros [t [It H]]. apply in_map_iff in H. destruct H as [g [<- Ig]]. exists g, t. apply (tl_calendar_in o T us Ok) in It. auto.
    - intros [g [t [Ig [It ->]]]]. exists t. split; [now apply (tl_calendar_in o T us Ok)|]. now apply in_map.
  Qed.
  Lemma g_bounds' g : In g (cohorts us) -> (2 + co_ant o <= g <= Z.of_nat T)%Z.
  Proof. intros Hg. exact (g_bounds o T us Ok g Hg). Qed.

  (** * Weights *)
  Lemma first_period_rows : filter (fun r => (c_t r =? 1)%Z) (rows T us) = map (fun u => row_of u 1%Z) us.
  Proof.
    unfold rows, rows_in. rewrite filter_flat_map. rewrite <- flat_map_single. apply flat_map_ext_in. intros u _. rewrite filter_map_comm.
    assert (E : filter (fun t => (c_t (row_of u t) =? 1)%Z) (calendar 0 T) = [1%Z]).
    { apply ssorted_lt_ext; [apply ssorted_filter; apply calendar_sorted|repeat constructor|]. intros x. rewrite filter_In, calendar_in. cbn [row_of c_t]. rewrite Z.eqb_eq. cbn. lia. }
    now rewrite E.
  Qed.
  Lemma cohort_share_eq g : cohort_share (rows T us) g = sumf k_w (cohort us g) / qn (length us).
  Proof.
    unfold cohort_share. rewrite first_period_rows. rewrite mean_map. unfold mean. f_equal. cbn [row_of c_w c_g]. unfold cohort. rewrite sumf_filter.
    apply sumf_ext. intros u _. unfold og_eqb. ring.
  Qed.
  Lemma cohort_pos g : In g (cohorts us) -> 0 < sumf k_w (cohort us g).
  Proof.
    intros Hg. destruct (proj1 (cohorts_in us g) Hg) as [u [I E]]. apply sumf_pos.
    - intros v Hv. apply filter_In in Hv. destruct (Hu v (proj1 Hv)) as [_ W]. now apply Qclt_le_weak.
    - exists u. split; [|apply Hu; exact I]. apply filter_In. split; [exact I|]. rewrite E. apply Z.eqb_refl.
  Qed.
  Lemma adopters_sum : sumf (fun g => sumf k_w (cohort us g)) (cohorts us) = sumf k_w (adopters us).
  Proof.
    unfold cohort, adopters. rewrite (sumf_ext _ (fun g => sumf (fun u => ind (match k_g u with Some h => (h =? g)%Z | None => false end) * k_w u) us)) by (intros; apply sumf_filter).
    rewrite sumf_swap, sumf_filter. apply sumf_ext. intros u I. destruct (k_g u) as [h|] eqn:E.
    - rewrite sumf_mul_r. f_equal. assert (Hh : In h (cohorts us)) by (apply cohorts_in; exists u; auto).
      assert (ND : NoDup (cohorts us)) by (unfold cohorts; apply zuniq_nodup). revert Hh ND. generalize (cohorts us). clear.
      induction l as [|x l IH]; [easy|]. intros Hh ND. inversion ND as [|? ? N1 N2]; subst. rewrite sumf_cons. destruct Hh as [->|Hh].
      + rewrite Z.eqb_refl. rewrite sumf_zero; [unfold ind; ring|]. intros y Hy. destruct (Z.eqb_spec h y) as [->|]; [tauto|reflexivity].
      + rewrite IH by assumption. destruct (Z.eqb_spec h x) as [->|]; [tauto|]. unfold ind. ring.
    - rewrite sumf_zero; [unfold ind; ring|]. intros g _. unfold ind. ring.
  Qed.
  Context (Cne : cohorts us <> []).
  Lemma adopters_pos : 0 < sumf k_w (adopters us).
  Proof.
    rewrite <- adopters_sum. destruct (cohorts us) as [|g q] eqn:E; [easy|]. apply sumf_pos.
    - intros h Hh. apply Qclt_le_weak, cohort_pos. now rewrite E.
    - exists g. split; [now left|]. apply cohort_pos. rewrite E. now left.
  Qed.
  Lemma shares_eq : safe_normalize (map (cohort_share (rows T us)) (cohorts us)) = map (share us) (cohorts us).
  Proof.
    assert (Nn : 0 < qn (length us)) by (apply qn_pos; destruct us; [easy|cbn; lia]).
    assert (E : qsum (map (cohort_share (rows T us)) (cohorts us)) = sumf k_w (adopters us) / qn (length us)).
    { change (qsum (map ?f ?l)) with (sumf f l). rewrite (sumf_ext _ (fun g => sumf k_w (cohort us g) / qn (length us))) by (intros; apply cohort_share_eq).
      rewrite sumf_div, adopters_sum. reflexivity. }
    assert (P := adopters_pos). unfold safe_normalize. rewrite E. destruct (Qcleb_spec (sumf k_w (adopters us) / qn (length us)) 0) as [F|_].
    - exfalso. revert F. apply Qclt_not_le. now apply Qcdiv_pos.
    - rewrite map_map. apply map_ext. intros g. rewrite cohort_share_eq. unfold share. field.
      split; apply Qc_pos_neq0; assumption.
  Qed.
  Lemma share_sum : sumf (share us) (cohorts us) = 1.
  Proof. unfold share. rewrite sumf_div, adopters_sum. field. apply Qc_pos_neq0, adopters_pos. Qed.
  Lemma share_pos g : In g (cohorts us) -> 0 < share us g.
  Proof. intros H. apply Qcdiv_pos; [now apply cohort_pos|exact adopters_pos]. Qed.

  Lemma exposed_tl g : In g (cohorts us) -> exposed T g = filter (fun t => (g <=? t)%Z) (tl (calendar 0 T)).
  Proof.
    intros Hg. assert (B := g_bounds' g Hg). unfold exposed. rewrite (calendar_S T) at 1 by lia. cbn [filter].
    destruct (Z.leb_spec g 1); [lia|reflexivity].
  Qed.
  Lemma exposed_in g t : In g (cohorts us) -> (In t (exposed T g) <-> (g <= t <= Z.of_nat T)%Z).
  Proof. intros Hg. assert (B := g_bounds' g Hg). unfold exposed. rewrite filter_In, calendar_in, Z.leb_le. lia. Qed.
  Lemma exposed_pos g : In g (cohorts us) -> (0 < length (exposed T g))%nat.
  Proof.
    intros Hg. assert (B := g_bounds' g Hg). assert (I : In g (exposed T g)) by (apply exposed_in; [exact Hg|lia]). destruct (exposed T g); [easy|cbn; lia].
  Qed.
  Lemma post_count g : In g (cohorts us) -> length (filter (fun d : Z * Z => (fst d =? g)%Z && (fst d <=? snd d)%Z) pairs) = length (exposed T g).
  Proof.
    intros Hg. rewrite (exposed_tl g Hg). unfold pairs. generalize (tl (calendar 0 T)). induction l as [|t l IH]; [reflexivity|]. cbn [flat_map filter]. rewrite filter_app', app_length, IH.
    assert (E : filter (fun d : Z * Z => (fst d =? g)%Z && (fst d <=? snd d)%Z) (map (fun g0 => (g0, t)) (cohorts us)) = if (g <=? t)%Z then [(g, t)] else []).
    { rewrite filter_map_comm. cbn [fst snd]. assert (ND : NoDup (cohorts us)) by (unfold cohorts; apply zuniq_nodup). revert Hg ND. generalize (cohorts us). clear.
      induction l as [|x l IH]; [easy|]. intros Hg ND. inversion ND as [|? ? N1 N2]; subst. cbn [filter]. destruct Hg as [->|Hg].
      - rewrite Z.eqb_refl. cbn [andb]. rewrite filter_none by (intros y Hy; destruct (Z.eqb_spec y g) as [->|]; [tauto|reflexivity]). destruct (g <=? t)%Z; reflexivity.
      - destruct (Z.eqb_spec x g) as [->|]; [tauto|]. cbn [andb]. now apply IH. }
    rewrite E. destruct (g <=? t)%Z; reflexivity.
  Qed.
  Definition wt (c : Z * Z) : Qc := if (fst c <=? snd c)%Z then share us (fst c) / qn (length (exposed T (fst c))) else 0.
  Lemma tl_cal_ne : tl (calendar 0 T) <> [].
  Proof. intros E. assert (I : In 2%Z (tl (calendar 0 T))) by (apply (tl_calendar_in o T us Ok); lia). now rewrite E in I. Qed.
  Lemma pair_groups : zuniq (map fst pairs) = cohorts us.
  Proof.
    apply ssorted_lt_ext; [apply zuniq_sorted|unfold cohorts; apply zuniq_sorted|]. intros x. rewrite zuniq_in, in_map_iff. unfold pairs. split.
    - intros [p [<- H]]. apply in_flat_map in H. destruct H as [t [_ H]]. apply in_map_iff in H. destruct H as [g [<- Hg]]. exact Hg.
    - intros H. destruct (tl (calendar 0 T)) as [|t q] eqn:E; [now apply tl_cal_ne in E|]. exists (x, t). split; [reflexivity|]. apply in_flat_map. exists t. split; [now left|].
      apply in_map_iff. exists x. auto.
  Qed.
  (** Sums over the cells, cohort by cohort. *)
  Lemma sum_pairs (f : Z * Z -> Qc) : sumf f pairs = sumf (fun g => sumf (fun t => f (g, t)) (tl (calendar 0 T))) (cohorts us).
  Proof.
    unfold pairs. rewrite sumf_flat_map. rewrite (sumf_ext _ (fun t => sumf (fun g => f (g, t)) (cohorts us))) by (intros t _; apply sumf_map). apply sumf_swap.
  Qed.
  Lemma sum_wt (f : Z * Z -> Qc) : sumf (fun c => wt c * f c) pairs = sumf (fun g => share us g * mean (fun t => f (g, t)) (exposed T g)) (cohorts us).
  Proof.
    rewrite sum_pairs. apply sumf_ext. intros g Hg. unfold wt. cbn [fst snd].
    rewrite (sumf_ext _ (fun t => if (g <=? t)%Z then share us g / qn (length (exposed T g)) * f (g, t) else 0)) by (intros t _; destruct (g <=? t)%Z; ring).
    rewrite (sumf_filter_ind (fun t => (g <=? t)%Z)), <- (exposed_tl g Hg), sumf_mul_l. unfold mean, Qcdiv. ring.
  Qed.
  Lemma wt_sum : sumf wt pairs = 1.
  Proof.
    rewrite (sumf_ext _ (fun c => wt c * 1)) by (intros; ring). rewrite sum_wt. rewrite <- share_sum at 1. apply sumf_ext. intros g Hg.
    rewrite mean_const; [ring|]. assert (P := exposed_pos g Hg). destruct (exposed T g); [cbn in P; lia|easy].
  Qed.
  Lemma wt_nonneg c : In c pairs -> 0 <= wt c.
  Proof.
    intros H. unfold wt. unfold pairs in H. apply in_flat_map in H. destruct H as [t [_ H]]. apply in_map_iff in H. destruct H as [g [<- Hg]]. cbn [fst snd].
    destruct (g <=? t)%Z; [|apply Qcle_refl]. apply Qcdiv_nonneg; [now apply Qclt_le_weak, share_pos|]. apply qn_pos, exposed_pos, Hg.
  Qed.
  Lemma weights_eq : overall_weights (rows T us) pairs = Some (map wt pairs).
  Proof.
    unfold overall_weights. rewrite pair_groups, shares_eq.
    assert (C : forall l, combine l (map (share us) l) = map (fun g => (g, share us g)) l) by (intros l; rewrite <- (map_id l) at 1; apply combine_map).
    rewrite C.
    assert (E : map (fun c : Z * Z => if (fst c <=? snd c)%Z
        then match find (fun p => (fst p =? fst c)%Z) (map (fun g => (g, share us g)) (cohorts us)) with
             | Some p => snd p / qn (length (filter (fun d : Z * Z => (fst d =? fst c)%Z && (fst d <=? snd d)%Z) pairs)) | None => 0 end else 0) pairs = map wt pairs).
    { apply map_ext_in. intros c H. unfold wt. destruct (fst c <=? snd c)%Z; [|reflexivity].
      assert (Hg : In (fst c) (cohorts us)) by (rewrite <- pair_groups; apply zuniq_in, in_map, H).
      rewrite (find_combine_map (share us) (fst c)) by exact Hg. cbn [snd]. now rewrite post_count. }
    cbv zeta. rewrite E. change (qsum (map wt pairs)) with (sumf wt pairs). rewrite wt_sum. destruct (Qceqb_spec 1 1); [reflexivity|tauto].
  Qed.

  (** * The result *)
  Definition wt_of (c : pcell) : Qc := wt (pc_g c, pc_t c).
  Lemma wc_eq : combine (map wt pairs) run_cells = map (fun c => (wt_of c, c)) run_cells.
  Proof. rewrite <- pairs_eq, map_map. apply combine_map_self. Qed.
  Lemma sum_ests (h : cellres -> Qc) (l : list pcell) :
    sumf (fun p => h (snd p) * fst p) (ests (map (fun c => (wt_of c, c)) l)) = sumf (fun c => match pc_out c with CEst e => h e * wt_of c | _ => 0 end) l.
  Proof.
    unfold ests. rewrite sumf_flat_map, sumf_map. apply sumf_ext. intros c _. cbn [fst snd]. destruct (pc_out c); cbn [sumf map qsum fold_right fst snd]; try reflexivity. 
    ring.
  Qed.
  Lemma run_inv r : cont_did orc o (rows T us) = ContOk r ->
    r_cells r = run_cells /\ r_weights r = map wt pairs /\ r_dose r = run_grid /\
    existsb is_raise run_cells = false /\ existsb is_null run_cells = false /\
    r_att r = sumf (fun c => match pc_out c with CEst e => zero_of (e_att e) * wt_of c | _ => 0 end) run_cells /\
    r_acrt r = sumf (fun c => match pc_out c with CEst e => e_acrt e * wt_of c | _ => 0 end) run_cells /\
    process_dose o run_knots run_grid (rows T us) run_cells = ContOk r.
  Proof.
    rewrite run_eq. intros H. destruct run_cells as [|c0 cs] eqn:E; [discriminate|]. rewrite <- E in *. clear E c0 cs.
    destruct (existsb is_raise run_cells); [discriminate|]. destruct (existsb is_null run_cells); [discriminate|]. assert (H' := H).
    unfold process_dose in H. rewrite pairs_eq, weights_eq in H. cbv zeta in H. rewrite wc_eq in H.
    rewrite (sum_ests (fun e => zero_of (e_att e))), (sum_ests (fun e => e_acrt e)) in H.
    destruct run_grid as [|d0 dv] eqn:Eg; [injection H as <-; cbn; auto 10|]. rewrite <- Eg in *.
    destruct (bspline_basis (co_deg o) run_grid run_knots None false); [|discriminate].
    destruct (bspline_derivative (co_deg o) run_grid run_knots None false); [|discriminate]. injection H as <-. cbn. auto 10.
  Qed.
  Lemma sum_cells (h : Z -> Z -> Qc) f : (forall g t, In g (cohorts us) -> (2 <= t <= Z.of_nat T)%Z ->
      f (process_cell orc o run_knots run_grid (rows T us) t g) = wt (g, t) * h g t) ->
    sumf f run_cells = sumf (fun g => share us g * mean (h g) (exposed T g)) (cohorts us).
  Proof.
    intros H. transitivity (sumf (fun c => wt c * h (fst c) (snd c)) pairs); [|exact (sum_wt (fun c => h (fst c) (snd c)))]. unfold run_cells, compute_pte, pairs. rewrite !sumf_flat_map. apply sumf_ext. intros t It.
    rewrite !sumf_map. apply sumf_ext. intros g Ig. cbn [fst snd]. apply H; [exact Ig|]. now apply (tl_calendar_in o T us Ok).
  Qed.
End Run.
