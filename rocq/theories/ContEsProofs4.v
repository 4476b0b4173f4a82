(** Binary doses; sums of influence values; pre and post periods. *)
From Verif Require Import Base ListLib ReduceModel DrdidModel DrdidSpec SplineModel SplineSpec ContModel ContSpec ContProofs ContProofs2 ContProofs3 ContProofs4 ContProofs5 ContProofs6 ContProofs11 ContProps ContEsModel ContEsSpec ContEsProofs ContEsProofs2 ContEsProofs3.
From Coq Require Import Sorting.Sorted.

Lemma dr_trimmed (us : list lunit) : ~ sumf (fun u => l_w u * l_d u) us / sumf l_w us < Q2Qc (995 # 1000) -> (forall u, In u us -> l_d u = 0 \/ l_d u = 1) -> level_dr us = LRaise.
Proof.
  intros P H. unfold level_dr. cbv zeta. set (p := sumf (fun u => l_w u * l_d u) us / sumf l_w us) in *.
  assert (K : Qcltb (clip6 p) (Q2Qc (995 # 1000)) = false).
  { destruct (Qcltb_spec (clip6 p) (Q2Qc (995 # 1000))) as [C|_]; [|reflexivity]. exfalso. apply P. unfold clip6 in C. cbv zeta in C.
    destruct (Qcltb_spec p (Q2Qc (1 # 1000000))) as [L|L]; [eapply Qclt_trans; [exact L|reflexivity]|]. destruct (Qcltb_spec (1 - Q2Qc (1 # 1000000)) p) as [M|M]; [|exact C].
    exfalso. revert C. apply Qcle_not_lt. discriminate. }
  rewrite K. cbn [ind].
  assert (Z : mean (fun u => (if l_zero u then 0 else 1) * l_w u * clip6 p * (1 - l_d u) / (1 - clip6 p)) us = 0).
  { unfold mean. rewrite sumf_zero; [unfold Qcdiv; ring|]. intros u I. unfold l_zero. destruct (H u I) as [->| ->].
    - destruct (Qceqb_spec 0 0); [unfold Qcdiv; ring|tauto].
    - destruct (Qceqb_spec 1 0) as [E|_]; [discriminate|]. unfold Qcdiv. ring. }
  rewrite Z. destruct (Qceqb_spec 0 0); [|tauto]. rewrite orb_true_r. reflexivity.
Qed.

Section B.
  Context (orc : coracle) (o : copts) (T : nat) (us : list cunit) (Ok : panel_ok (co_ant o) T us) (V : co_univ o = false) (eo : eopts).
  Context (cells : list ecell) (r : es_result) (Run : cont_did_event orc o eo false (rows T us) = EsOk cells r).
  Context (g t : Z) (Hg : In g (cohorts us)) (Ht : (2 <= t <= Z.of_nat T)%Z) (Cp : comparison (co_nyt o) us g t <> []).
  Let m := members (co_nyt o) us g t.
  Let D := change (co_ant o) g t.
  Lemma comp_pos : 0 < sumf k_w (comparison (co_nyt o) us g t).
  Proof.
    assert (W : forall u, In u (comparison (co_nyt o) us g t) -> 0 < k_w u).
    { intros u I. apply filter_In in I. destruct Ok as [_ [_ [_ [_ Hu]]]]. apply (Hu u), I. }
    apply sumf_pos; [intros u I; now apply Qclt_le_weak, W|]. destruct (comparison (co_nyt o) us g t) as [|u q]; [easy|]. exists u. split; [now left|]. apply W. now left.
  Qed.
  Lemma rest_pos : (forall u, In u (cohort us g) -> k_dose u <= 1) -> 0 < sumf (fun u => k_w u * (1 - k_dose u)) m.
  Proof.
    intros H. unfold m, members. rewrite sumf_app, sumf_map. cbn [k_w k_dose without_dose].
    rewrite (sumf_ext (fun a => k_w a * (1 - 0)) k_w) by (intros; ring). apply Qclt_le_trans with (sumf k_w (comparison (co_nyt o) us g t)); [exact comp_pos|].
    rewrite <- (Qcplus_0_l (sumf k_w (comparison (co_nyt o) us g t))) at 1. apply Qcplus_le_compat; [|apply Qcle_refl].
    apply sumf_nonneg. intros u I. destruct (cohort_unit o T us Ok g u I) as [_ [_ [W _]]]. specialize (H u I).
    rewrite <- (Qcmult_0_l (1 - k_dose u)). apply Qcmult_le_compat_r; [now apply Qclt_le_weak|]. replace 0 with (k_dose u - k_dose u) by ring. apply Qcplus_le_compat; [exact H|apply Qcle_refl].
  Qed.
  Lemma reg_above : (exists u, In u (cohort us g) /\ 1 < k_dose u) -> uses_reg o us g t = true.
  Proof. intros [u [I H]]. unfold uses_reg. apply orb_true_iff. left. apply existsb_exists. exists u. split; [exact I|]. now destruct (Qcltb_spec 1 (k_dose u)). Qed.
  Lemma dr_below : (forall u, In u (cohort us g) -> k_dose u <= 1) -> mean k_dose m <= Q2Qc (99 # 100) -> uses_reg o us g t = false.
  Proof.
    intros H M. unfold uses_reg. apply orb_false_iff. split.
    - destruct (existsb (fun u => Qcltb 1 (k_dose u)) (cohort us g)) eqn:E; [|reflexivity]. apply existsb_exists in E. destruct E as [u [I E]]. destruct (Qcltb_spec 1 (k_dose u)) as [L|]; [|discriminate].
      exfalso. revert L. apply Qcle_not_lt. now apply H.
    - destruct (Qcltb_spec (Q2Qc (99 # 100)) (mean k_dose (members (co_nyt o) us g t))) as [L|]; [|reflexivity]. exfalso. revert L. apply Qcle_not_lt. exact M.
  Qed.
  Section Ones.
    Context (One : forall u, In u (cohort us g) -> k_dose u = 1).
    Lemma ones_dose (f : cunit -> Qc) : dose_mean f (cohort us g) = wmean f (cohort us g).
    Proof. unfold dose_mean, wmean. f_equal; apply sumf_ext; intros u I; rewrite (One u I); ring. Qed.
    Lemma ones_rest_sum : sumf (fun u => k_w u * (1 - k_dose u)) m = sumf k_w (comparison (co_nyt o) us g t).
    Proof.
      unfold m, members. rewrite sumf_app, sumf_map. cbn [k_w k_dose without_dose]. rewrite (sumf_zero _ (cohort us g)) by (intros u I; rewrite (One u I); ring).
      rewrite Qcplus_0_l. apply sumf_ext. intros; ring.
    Qed.
    Lemma ones_rest : rest_mean D m = wmean D (comparison (co_nyt o) us g t).
    Proof.
      unfold rest_mean. rewrite ones_rest_sum. unfold wmean. f_equal. unfold m, members. rewrite sumf_app, sumf_map. rewrite (sumf_zero _ (cohort us g)) by (intros u I; rewrite (One u I); ring).
      rewrite Qcplus_0_l. apply sumf_ext. intros u _. unfold without_dose, D, change. cbn. ring.
    Qed.
    Lemma ones_share : uses_reg o us g t = false -> dose_share m < Q2Qc (995 # 1000).
    Proof.
      intros U. destruct (Qclt_le_dec (dose_share m) (Q2Qc (995 # 1000))) as [H|H]; [exact H|]. exfalso. apply (no_raise orc o T us Ok V eo cells r Run g t Hg Ht).
      rewrite (level_eq o T us Ok V g t Hg Ht Cp), U. apply dr_trimmed.
      - rewrite !sum_level. apply Qcle_not_lt. exact H.
      - intros u I. apply in_map_iff in I. destruct I as [v [<- I]]. cbn [lu l_d]. unfold dose_in. destruct (og_eqb (k_g v) g) eqn:E; [|now left]. right. apply One. apply filter_In in I. apply filter_In. split; [apply I|exact E].
    Qed.
    Lemma ones_cell : let A := wmean D (cohort us g) in let B := wmean D (comparison (co_nyt o) us g t) in
      estimate cells g t = A - B /\
      forall i u, nth_error us i = Some u -> influence cells g t i = if in_gt o g t u then qn (length us) * (dose_term o us g t A (dose_in g u) u - rest_term o us g t B (dose_in g u) u) else 0.
    Proof.
      destruct (uses_reg o us g t) eqn:U.
      - assert (X := reg_cell orc o T us Ok V eo cells r Run g t Hg Ht Cp U). cbv zeta in X. rewrite ones_dose in X. exact X.
      - assert (X := dr_cell orc o T us Ok V eo cells r Run g t Hg Ht Cp U (ones_share U)). cbv zeta in X. fold m D in X. rewrite ones_dose, ones_rest in X. apply X.
        rewrite ones_rest_sum. apply Qc_pos_neq0, comp_pos.
    Qed.
  End Ones.
  Lemma inf_total (f : cunit -> Qc) : (forall i u, nth_error us i = Some u -> influence cells g t i = if in_gt o g t u then qn (length us) * f u else 0) ->
    sumf (influence cells g t) (seq 0 (length us)) = qn (length us) * sumf f (filter (in_gt o g t) us).
  Proof.
    intros H. rewrite (sumf_ext _ (fun i => nth i (map (fun u => if in_gt o g t u then qn (length us) * f u else 0) us) 0)).
    - assert (Le : length us = length (map (fun u => if in_gt o g t u then qn (length us) * f u else 0) us)) by (now rewrite map_length). rewrite Le at 1. rewrite sum_nth.
      change (qsum (map ?h us)) with (sumf h us). rewrite sumf_filter_ind, sumf_mul_l. reflexivity.
    - intros i Hi. apply in_seq in Hi. destruct (nth_error us i) as [u|] eqn:E; [|apply nth_error_None in E; lia]. rewrite (H i u E). symmetry. apply nth_error_nth.
      exact (map_nth_error (fun u => if in_gt o g t u then qn (length us) * f u else 0) i us E).
  Qed.
  Lemma sum_gt (f : cunit -> Qc -> Qc) : sumf (fun u => f u (dose_in g u)) (filter (in_gt o g t) us) = sumf (fun u => f u (k_dose u)) (cohort us g) + sumf (fun u => f u 0) (comparison (co_nyt o) us g t).
  Proof.
    unfold cohort, comparison. rewrite !sumf_filter, <- sumf_add. apply sumf_ext. intros u I. rewrite (in_gt_split o us g t u I). unfold dose_in, og_eqb. destruct (k_g u) as [h|].
    - destruct (h =? g)%Z; cbn [orb negb ind]; [rewrite andb_false_r|rewrite andb_true_r]; [|destruct (co_nyt o && (t <? h)%Z)]; cbn [ind]; ring.
    - cbn [orb ind]. ring.
  Qed.
  Lemma terms_zero B : (B = rest_mean D m) -> sumf (fun u => k_w u * (1 - k_dose u)) m <> 0 ->
    sumf (fun u => dose_term o us g t (dose_mean D (cohort us g)) (dose_in g u) u - rest_term o us g t B (dose_in g u) u) (filter (in_gt o g t) us) = 0.
  Proof.
    intros EB R. rewrite (sum_gt (fun u d => dose_term o us g t (dose_mean D (cohort us g)) d u - rest_term o us g t B d u)). cbv beta. rewrite (sumf_sub (fun u => dose_term o us g t (dose_mean D (cohort us g)) (k_dose u) u)), (sumf_sub (fun u => dose_term o us g t (dose_mean D (cohort us g)) 0 u)).
    assert (P := Qc_pos_neq0 _ (dose_sum_pos o T us Ok g Hg)).
    assert (S1 : sumf (fun u => dose_term o us g t (dose_mean D (cohort us g)) (k_dose u) u) (cohort us g) = 0).
    { unfold dose_term. rewrite sumf_div. fold D. rewrite (sumf_ext _ (fun u => k_w u * k_dose u * D u - k_w u * k_dose u * dose_mean D (cohort us g))) by (intros; ring).
      rewrite sumf_sub, sumf_mul_r. unfold dose_mean. field. exact P. }
    assert (S2 : sumf (fun u => dose_term o us g t (dose_mean D (cohort us g)) 0 u) (comparison (co_nyt o) us g t) = 0).
    { apply sumf_zero. intros u _. unfold dose_term, Qcdiv. ring. }
    assert (S3 : sumf (fun u => rest_term o us g t B (k_dose u) u) (cohort us g) + sumf (fun u => rest_term o us g t B 0 u) (comparison (co_nyt o) us g t) = 0).
    { transitivity (sumf (fun u => rest_term o us g t B (k_dose u) u) m).
      - unfold m, members. rewrite sumf_app, sumf_map. reflexivity.
      - unfold rest_term. rewrite sumf_div. fold m D. rewrite (sumf_ext _ (fun u => k_w u * (1 - k_dose u) * D u - k_w u * (1 - k_dose u) * B)) by (intros; ring).
        rewrite sumf_sub, sumf_mul_r, EB. unfold rest_mean. field. exact R. }
    rewrite S1, S2. change (sumf (rest_term o us g t B 0) (comparison (co_nyt o) us g t)) with (sumf (fun u => rest_term o us g t B 0 u) (comparison (co_nyt o) us g t)). revert S3. generalize (sumf (fun u => rest_term o us g t B (k_dose u) u) (cohort us g)) (sumf (fun u => rest_term o us g t B 0 u) (comparison (co_nyt o) us g t)).
    intros x y S3. transitivity (- (x + y)); [ring|]. rewrite S3. ring.
  Qed.
  Lemma fractional_inf : (forall u, In u (cohort us g) -> k_dose u <= 1) -> mean k_dose m <= Q2Qc (99 # 100) -> dose_share m < Q2Qc (995 # 1000) -> sumf (influence cells g t) (seq 0 (length us)) = 0.
  Proof.
    intros H M P. assert (R := Qc_pos_neq0 _ (rest_pos H)). destruct (dr_cell orc o T us Ok V eo cells r Run g t Hg Ht Cp (dr_below H M) P R) as [_ I].
    rewrite (inf_total _ I). fold D. rewrite terms_zero; [ring|reflexivity|exact R].
  Qed.
  Lemma ones_inf : (forall u, In u (cohort us g) -> k_dose u = 1) -> sumf (influence cells g t) (seq 0 (length us)) = 0.
  Proof.
    intros H. destruct (ones_cell H) as [_ I]. rewrite (inf_total _ I). fold D. rewrite <- (ones_dose H), terms_zero; [ring|now rewrite (ones_rest H)|].
    rewrite (ones_rest_sum H). apply Qc_pos_neq0, comp_pos.
  Qed.
  (** Two-way outcomes with a dose response. *)
  Lemma two_way f : dose_response us f -> (exists u, In u (cohort us g) /\ 1 < k_dose u) -> estimate cells g t = if (g <=? t)%Z then dose_mean (fun u => f (k_dose u)) (cohort us g) else 0.
  Proof.
    intros [al [la F]] Ab. destruct (reg_cell orc o T us Ok V eo cells r Run g t Hg Ht Cp (reg_above Ab)) as [-> _].
    assert (B := g_bounds' o T us Ok g Hg). assert (A0 : (0 <= co_ant o)%Z) by apply Ok. set (b := reference (co_ant o) g t). set (c := la t - la b).
    assert (Hb : (b < t)%Z /\ (b < g)%Z) by (unfold b, reference; destruct (Z.ltb_spec t (g - co_ant o)); lia).
    assert (M : wmean (change (co_ant o) g t) (comparison (co_nyt o) us g t) = c).
    { unfold wmean. rewrite (sumf_ext _ (fun u => k_w u * c)).
      - rewrite sumf_mul_r. field. apply Qc_pos_neq0, comp_pos.
      - intros u Hu. f_equal. apply filter_In in Hu. destruct Hu as [Hu P]. unfold change. fold b. rewrite !F by exact Hu. unfold c.
        destruct (k_g u) as [h|]; [|ring]. apply andb_prop in P. destruct P as [P _]. apply andb_prop in P. destruct P as [_ P]. apply Z.ltb_lt in P.
        destruct (Z.leb_spec h t); [lia|]. destruct (Z.leb_spec h b); [lia|]. ring. }
    assert (Tr : forall u, In u (cohort us g) -> change (co_ant o) g t u = (if (g <=? t)%Z then f (k_dose u) else 0) + c).
    { intros u Hu. apply filter_In in Hu. destruct Hu as [Hu P]. unfold change. fold b. rewrite !F by exact Hu. unfold c. destruct (k_g u) as [h|]; [|discriminate].
      apply Z.eqb_eq in P. subst h. destruct (Z.leb_spec g b); [lia|]. destruct (g <=? t)%Z; ring. }
    rewrite M. assert (P := Qc_pos_neq0 _ (dose_sum_pos o T us Ok g Hg)). unfold dose_mean.
    rewrite (sumf_ext _ (fun u => k_w u * k_dose u * (if (g <=? t)%Z then f (k_dose u) else 0) + k_w u * k_dose u * c)) by (intros u I; rewrite (Tr u I); ring).
    rewrite sumf_add, sumf_mul_r. destruct (g <=? t)%Z; [field; exact P|]. rewrite sumf_zero by (intros; ring). field. exact P.
  Qed.
End B.
