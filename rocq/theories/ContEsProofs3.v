(** The cells of an event-study run on a panel. *)
From Verif Require Import Base ListLib ReduceModel DrdidModel DrdidSpec SplineModel SplineSpec ContModel ContSpec ContProofs ContProofs2 ContProofs3 ContProofs4 ContProofs11 ContEsModel ContEsSpec ContEsProofs ContEsProofs2.
From Coq Require Import Sorting.Sorted.

Section Run.
  Context (orc : coracle) (o : copts) (T : nat) (us : list cunit) (Ok : panel_ok (co_ant o) T us) (V : co_univ o = false) (eo : eopts).
  Let n := length us.
  Let ids := map k_id us.
  Definition slope_F (p : Z * Z) : ecell :=
    let c := process_cell orc o (run_knots o T us) (run_grid o T us) (rows T us) (snd p) (fst p) in
    {| ec_g := fst p; ec_t := snd p; ec_att := match pc_out c with CEst e => e_acrt e | _ => 0 end; ec_inf := inf_column n ids c |}.
  Definition level_F (p : Z * Z) : ecell :=
    match level_att (level_units o (fst p) (snd p) (rows T us)) with
    | LEst a inf => {| ec_g := fst p; ec_t := snd p; ec_att := a; ec_inf := spread n (length (units (subset o (fst p) (snd p) (rows T us)))) ids inf |}
    | _ => {| ec_g := fst p; ec_t := snd p; ec_att := 0; ec_inf := map (fun _ => 0) ids |} end.
  Definition run_F (slope : bool) : Z * Z -> ecell := if slope then slope_F else level_F.
  Lemma run_F_key slope p : ec_g (run_F slope p) = fst p /\ ec_t (run_F slope p) = snd p.
  Proof. destruct slope; cbn; [auto|]. unfold level_F. destruct (level_att _); auto. Qed.
  Lemma es_inv slope cells r : cont_did_event orc o eo slope (rows T us) = EsOk cells r ->
    cohorts us <> [] /\ cells = map (run_F slope) (pairs T us) /\ r = aggregate_dynamic eo (rows T us) cells /\
    (slope = true -> forall g t, In (g, t) (pairs T us) -> let c := process_cell orc o (run_knots o T us) (run_grid o T us) (rows T us) t g in is_raise c = false /\ is_null c = false) /\
    (slope = false -> forall g t, In (g, t) (pairs T us) -> let c := level_att (level_units o g t (rows T us)) in c <> LRaise /\ c <> LUnmodelled).
  Proof.
    unfold cont_did_event. rewrite (preprocess_rows o T us Ok). unfold event_run. rewrite (pte_data_rows o T us Ok), (t_list_rows o T us Ok V), (g_list_rows o T us Ok V). cbv zeta.
    assert (U : units (rows T us) = ids) by (apply (rows_units o T us Ok)).
    assert (Ul : length (units (rows T us)) = n) by (rewrite U; apply map_length).
    assert (Ne : forall cs, cs = map (run_F slope) (pairs T us) -> cs <> [] -> cohorts us <> []).
    { intros cs -> H E. apply H. unfold pairs. rewrite E. cbn [map]. clear. induction (tl (calendar 0 T)) as [|t q IH]; [reflexivity|exact IH]. }
    destruct slope.
    - fold (run_doses T us). fold (run_knots o T us). fold (run_grid o T us). unfold slope_cells. cbv zeta. fold (run_cells orc o T us).
      destruct (existsb is_null (run_cells orc o T us)) eqn:E1; [discriminate|]. destruct (existsb is_raise (run_cells orc o T us)) eqn:E2; [discriminate|].
      rewrite Ul, U.
      assert (M : map (fun c => {| ec_g := pc_g c; ec_t := pc_t c; ec_att := match pc_out c with CEst e => e_acrt e | _ => 0 end; ec_inf := inf_column n ids c |}) (run_cells orc o T us) = map (run_F true) (pairs T us)).
      { unfold run_cells, compute_pte, pairs. rewrite !map_flat_map. apply flat_map_ext_in. intros t _. rewrite !map_map. reflexivity. }
      rewrite M. destruct (map (run_F true) (pairs T us)) as [|c0 q] eqn:Q; [discriminate|]. rewrite <- Q in *. intros H. injection H as <- <-.
      split; [apply (Ne _ eq_refl); rewrite Q; discriminate|]. split; [reflexivity|]. split; [reflexivity|]. split; [|discriminate].
      intros _ g t I. set (c := process_cell orc o (run_knots o T us) (run_grid o T us) (rows T us) t g). assert (J : In c (run_cells orc o T us)).
      { apply (cell_in orc o T us Ok). exists g, t. apply (pair_in o T us Ok) in I. cbn in I. unfold c. tauto. }
      split; [destruct (is_raise c) eqn:K; [|reflexivity]|destruct (is_null c) eqn:K; [|reflexivity]]; exfalso.
      + assert (X : existsb is_raise (run_cells orc o T us) = true) by (apply existsb_exists; eauto). congruence.
      + assert (X : existsb is_null (run_cells orc o T us) = true) by (apply existsb_exists; eauto). congruence.
    - unfold level_cells. cbv zeta. rewrite Ul, U.
      set (cs := flat_map (fun tp => map (fun g => ((g, tp), level_cell o (rows T us) tp g)) (cohorts us)) (tl (calendar 0 T))).
      assert (Cs : cs = map (fun p => (p, level_cell o (rows T us) (snd p) (fst p))) (pairs T us)).
      { unfold cs, pairs. rewrite map_flat_map. apply flat_map_ext_in. intros t _. rewrite map_map. reflexivity. }
      rewrite Cs. clear cs Cs.
      destruct (existsb (fun c => l_is_unmod (fst (snd c))) _) eqn:E1; [discriminate|]. destruct (existsb (fun c => l_is_raise (fst (snd c))) _) eqn:E2; [discriminate|].
      rewrite map_map. cbn [fst snd].
      assert (M : map (fun p : Z * Z => match fst (level_cell o (rows T us) (snd p) (fst p)) with
                     | LEst a inf => {| ec_g := fst p; ec_t := snd p; ec_att := a; ec_inf := spread n (snd (level_cell o (rows T us) (snd p) (fst p))) ids inf |}
                     | _ => {| ec_g := fst p; ec_t := snd p; ec_att := 0; ec_inf := map (fun _ => 0) ids |} end) (pairs T us) = map (run_F false) (pairs T us)).
      { apply map_ext. intros p. cbn [run_F]. unfold level_F, level_cell. rewrite V. cbn [andb fst snd]. reflexivity. }
      rewrite M. destruct (map (run_F false) (pairs T us)) as [|c0 q] eqn:Q; [discriminate|]. rewrite <- Q in *. intros H. injection H as <- <-.
      split; [apply (Ne _ eq_refl); rewrite Q; discriminate|]. split; [reflexivity|]. split; [reflexivity|]. split; [discriminate|].
      intros _ g t I. set (c := level_att (level_units o g t (rows T us))).
      assert (J : forall p, existsb (fun x => p (fst (snd x))) (map (fun p : Z * Z => (p, level_cell o (rows T us) (snd p) (fst p))) (pairs T us)) = false -> p c = false).
      { intros p H. destruct (p c) eqn:K; [|reflexivity]. exfalso. assert (X : existsb (fun x => p (fst (snd x))) (map (fun p : Z * Z => (p, level_cell o (rows T us) (snd p) (fst p))) (pairs T us)) = true); [|congruence].
        apply existsb_exists. exists ((g, t), level_cell o (rows T us) t g). split; [apply (in_map (fun p : Z * Z => (p, level_cell o (rows T us) (snd p) (fst p))) _ _ I)|]. cbn [fst snd]. unfold level_cell. rewrite V. cbn [andb fst]. exact K. }
      assert (J1 := J l_is_unmod E1). assert (J2 := J l_is_raise E2). split; intros X; rewrite X in *; discriminate.
  Qed.
  (** * Level cells *)
  Section Level.
    Context (cells : list ecell) (r : es_result) (Run : cont_did_event orc o eo false (rows T us) = EsOk cells r).
    Context (g t : Z) (Hg : In g (cohorts us)) (Ht : (2 <= t <= Z.of_nat T)%Z) (Cp : comparison (co_nyt o) us g t <> []).
    Let m := members (co_nyt o) us g t.
    Let I2 : In (g, t) (pairs T us).
    Proof. apply (pair_in o T us Ok). auto. Qed.
    Lemma level_est a inf : level_att (level_units o g t (rows T us)) = LEst a inf -> estimate cells g t = a /\
      forall i, influence cells g t i = nth i (spread n (length (units (subset o g t (rows T us)))) ids inf) 0.
    Proof.
      intros E. destruct (es_inv false cells r Run) as [Cne [-> _]]. destruct (estimate_eq T us (run_F false) (run_F_key false) g t I2) as [A B].
      rewrite A. cbn [run_F] in *. unfold level_F in *. cbn [fst snd] in *. rewrite E in *. split; [reflexivity|]. exact B.
    Qed.
    Lemma no_raise : level_att (level_units o g t (rows T us)) <> LRaise.
    Proof. destruct (es_inv false cells r Run) as [_ [_ [_ [_ H]]]]. apply (H eq_refl g t I2). Qed.
    Lemma rest_nonzero : uses_reg o us g t = true -> sumf (fun u => k_w u * (1 - k_dose u)) m <> 0.
    Proof.
      intros U E. apply no_raise. rewrite (level_eq o T us Ok V g t Hg Ht Cp), U.
      rewrite (reg_eq _ (L_ne o T us Ok g t Hg)); [|rewrite dose_sum; apply Qc_pos_neq0, (dose_sum_pos o T us Ok g Hg)].
      rewrite R_eq. fold m. rewrite E. destruct (Qceqb_spec 0 0); [reflexivity|tauto].
    Qed.
    (** influence of the i-th unit *)
    Lemma member_len : length (units (subset o g t (rows T us))) = length (filter (in_gt o g t) us) /\ qn (length (filter (in_gt o g t) us)) = qn (length m).
    Proof.
      split; [rewrite (cell_units o T us Ok V g t Hg Ht); apply map_length|]. unfold m. rewrite <- (len_L o us g t). now rewrite map_length.
    Qed.
    Lemma spread_at (f : cunit -> Qc) i u : nth_error us i = Some u ->
      nth i (spread n (length (units (subset o g t (rows T us)))) ids (map (fun u => (k_id u, qn (length m) * f u)) (filter (in_gt o g t) us))) 0 =
      if in_gt o g t u then qn n * f u else 0.
    Proof.
      intros Hi. unfold spread, ids. rewrite map_map. destruct member_len as [M1 M2]. rewrite M1.
      assert (Iu := nth_error_In _ _ Hi).
      assert (ND : NoDup (map k_id (filter (in_gt o g t) us))) by (apply ssorted_nodup, filter_sorted_ids; apply Ok).
      set (h := fun x : cunit => match find (fun p => (fst p =? k_id x)%Z) (map (fun u => (k_id u, qn (length m) * f u)) (filter (in_gt o g t) us)) with Some p => qn n / qn (length (filter (in_gt o g t) us)) * snd p | None => 0 end).
      assert (E : nth i (map h us) 0 = h u) by (apply nth_error_nth; now apply map_nth_error). rewrite E. unfold h. destruct (in_gt o g t u) eqn:G.
      - assert (J : In u (filter (in_gt o g t) us)) by (apply filter_In; auto).
        rewrite (find_id (fun u => qn (length m) * f u) u _ ND J). cbn [snd]. rewrite M2. assert (Q : qn (length m) <> 0). { rewrite <- M2. apply qn_neq0. destruct (filter (in_gt o g t) us); [easy|cbn; lia]. }
        field. exact Q.
      - rewrite find_none_id; [reflexivity|]. intros x Hx Ex. apply in_map_iff in Hx. destruct Hx as [v [<- Hv]]. cbn [fst] in Ex. apply filter_In in Hv. destruct Hv as [Hv Gv].
        assert (Q : v = u) by (apply (same_id o T us Ok v u us); auto; apply Ok). subst v. congruence.
    Qed.
    Lemma reg_cell : uses_reg o us g t = true -> let A := dose_mean (change (co_ant o) g t) (cohort us g) in let mu := wmean (change (co_ant o) g t) (comparison (co_nyt o) us g t) in
      estimate cells g t = A - mu /\
      forall i u, nth_error us i = Some u -> influence cells g t i = if in_gt o g t u then qn n * (dose_term o us g t A (dose_in g u) u - rest_term o us g t mu (dose_in g u) u) else 0.
    Proof.
      intros U A mu. destruct (level_est _ _ (level_reg_eq o T us Ok V g t Hg Ht Cp (rest_nonzero U) U)) as [E I]. split; [exact E|]. intros i u Hi. rewrite I. fold m.
      apply (spread_at (fun u => dose_term o us g t A (dose_in g u) u - rest_term o us g t mu (dose_in g u) u) i u Hi).
    Qed.
    Lemma dr_cell : uses_reg o us g t = false -> dose_share m < Q2Qc (995 # 1000) -> sumf (fun u => k_w u * (1 - k_dose u)) m <> 0 ->
      let A := dose_mean (change (co_ant o) g t) (cohort us g) in let B := rest_mean (change (co_ant o) g t) m in
      estimate cells g t = A - B /\
      forall i u, nth_error us i = Some u -> influence cells g t i = if in_gt o g t u then qn n * (dose_term o us g t A (dose_in g u) u - rest_term o us g t B (dose_in g u) u) else 0.
    Proof.
      intros U P R A B. destruct (level_est _ _ (level_dr_eq o T us Ok V g t Hg Ht Cp R U P)) as [E I]. split; [exact E|]. intros i u Hi. rewrite I. fold m.
      apply (spread_at (fun u => dose_term o us g t A (dose_in g u) u - rest_term o us g t B (dose_in g u) u) i u Hi).
    Qed.
  End Level.
End Run.
