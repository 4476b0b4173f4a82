(** Level cells: what [pte_attgt] computes. *)
From Verif Require Import Base ListLib ReduceModel DrdidModel DrdidSpec SplineModel SplineProps ContModel ContSpec ContProofs ContProofs2 ContProofs3 ContProofs4 ContEsModel ContEsSpec.
From Coq Require Import Sorting.Sorted.

Lemma mult_pos (a b : Qc) : 0 < a -> 0 < b -> 0 < a * b.
Proof. intros Ha Hb. rewrite <- (Qcmult_0_l b). now apply Qcmult_lt_compat_r. Qed.
Section Pure.
  Context (us : list lunit) (Ne : us <> []).
  Let n := qn (length us).
  Let D := sumf (fun u => l_w u * l_d u) us.
  Let R := sumf (fun u => l_w u * (1 - l_d u)) us.
  Let A := sumf (fun u => l_w u * l_d u * l_dy u) us / D.
  Let B := sumf (fun u => l_w u * (1 - l_d u) * l_dy u) us / R.
  Context (HD : D <> 0).
  Lemma n0 : n <> 0.
  Proof. apply qn_neq0. destruct us; [easy|cbn; lia]. Qed.
  Lemma reg_eq : level_reg us =
    if Qceqb R 0 then LRaise else
    LEst (A - ctl_mean us) (map (fun u => (l_id u, n * (l_w u * l_d u * (l_dy u - A) / D - l_w u * (1 - l_d u) * (l_dy u - ctl_mean us) / R))) us).
  Proof.
    assert (N := n0). unfold level_reg. cbv zeta. set (mu := ctl_mean us).
    assert (M1 : mean (fun u => l_w u * l_d u) us = D / n) by reflexivity.
    assert (M2 : mean (fun u => l_w u * (1 - l_d u)) us = R / n) by reflexivity.
    assert (M3 : mean (fun u => l_w u * l_d u * l_dy u) us / (D / n) = A) by (unfold mean, A; fold n; field; auto).
    assert (M4 : mean (fun u => l_w u * l_d u * mu) us / (D / n) = mu) by (unfold mean; fold n; rewrite sumf_mul_r; fold D; field; auto).
    rewrite M1, M2, M3, M4. destruct (Qceqb_spec (R / n) 0) as [E|E], (Qceqb_spec R 0) as [F|F]; try reflexivity.
    - exfalso. apply F. replace R with (R / n * n) by (field; exact N). rewrite E. ring.
    - exfalso. apply E. rewrite F. unfold Qcdiv. ring.
    - f_equal. apply map_ext. intros u. f_equal. field. auto.
  Qed.
  Context (HR : R <> 0).
  Lemma clip6_range p : p < Q2Qc (995 # 1000) -> 0 < clip6 p /\ clip6 p < Q2Qc (995 # 1000) /\ clip6 p < 1.
  Proof.
    intros H. assert (K : clip6 p < Q2Qc (995 # 1000) /\ 0 < clip6 p).
    { unfold clip6. cbv zeta. destruct (Qcltb_spec p (Q2Qc (1 # 1000000))) as [L|L]; [split; reflexivity|].
      destruct (Qcltb_spec (1 - Q2Qc (1 # 1000000)) p) as [M|M].
      - exfalso. apply (Qclt_not_le _ _ M). apply Qclt_le_weak. eapply Qclt_le_trans; [exact H|]. discriminate.
      - split; [exact H|]. apply Qcnot_lt_le in L. eapply Qclt_le_trans; [|exact L]. reflexivity. }
    destruct K as [K1 K2]. split; [exact K2|]. split; [exact K1|]. eapply Qclt_trans; [exact K1|]. reflexivity.
  Qed.
  Context (HP : D / sumf l_w us < Q2Qc (995 # 1000)).
  Lemma dr_eq : level_dr us = LEst (A - B) (map (fun u => (l_id u, n * (l_w u * l_d u * (l_dy u - A) / D - l_w u * (1 - l_d u) * (l_dy u - B) / R))) us).
  Proof.
    assert (N := n0). unfold level_dr. cbv zeta. fold D. destruct (clip6_range _ HP) as [P1 [P2 P3]]. set (ps := clip6 (D / sumf l_w us)) in *. set (mu := ctl_mean us).
    assert (Tr : forall u, (if l_zero u then ind (Qcltb ps (Q2Qc (995 # 1000))) else 1) = 1).
    { intros u. destruct (l_zero u); [|reflexivity]. destruct (Qcltb_spec ps (Q2Qc (995 # 1000))); [reflexivity|tauto]. }
    assert (Q0 : ps <> 0) by (now apply Qc_pos_neq0).
    assert (Q1 : 1 - ps <> 0). { intros E. assert (ps = 1) by (replace ps with (1 - (1 - ps)) by ring; rewrite E; ring). rewrite H in P3. revert P3. apply Qcle_not_lt, Qcle_refl. }
    set (c := ps / (1 - ps)). assert (C0 : c <> 0). { unfold c. intros E. apply Q0. replace ps with (ps / (1 - ps) * (1 - ps)) by (field; exact Q1). rewrite E. ring. }
    assert (W1 : forall u, (if l_zero u then ind (Qcltb ps (Q2Qc (995 # 1000))) else 1) * l_w u * l_d u = l_w u * l_d u) by (intros u; rewrite Tr; ring).
    assert (W2 : forall u, (if l_zero u then ind (Qcltb ps (Q2Qc (995 # 1000))) else 1) * l_w u * ps * (1 - l_d u) / (1 - ps) = c * (l_w u * (1 - l_d u))).
    { intros u. rewrite Tr. unfold c. field. exact Q1. }
    assert (M1 : mean (fun u => (if l_zero u then ind (Qcltb ps (Q2Qc (995 # 1000))) else 1) * l_w u * l_d u) us = D / n).
    { rewrite (mean_ext _ (fun u => l_w u * l_d u)) by (intros; apply W1). reflexivity. }
    assert (M2 : mean (fun u => (if l_zero u then ind (Qcltb ps (Q2Qc (995 # 1000))) else 1) * l_w u * ps * (1 - l_d u) / (1 - ps)) us = c * (R / n)).
    { rewrite (mean_ext _ (fun u => c * (l_w u * (1 - l_d u)))) by (intros; apply W2). rewrite mean_mul_l. reflexivity. }
    assert (M3 : mean (fun u => (if l_zero u then ind (Qcltb ps (Q2Qc (995 # 1000))) else 1) * l_w u * l_d u * (l_dy u - mu)) us / (D / n) = A - mu).
    { rewrite (mean_ext _ (fun u => l_w u * l_d u * l_dy u - l_w u * l_d u * mu)) by (intros; rewrite W1; ring). rewrite mean_sub, mean_mul_r. unfold mean, A. fold n D. field. auto. }
    assert (M4 : mean (fun u => (if l_zero u then ind (Qcltb ps (Q2Qc (995 # 1000))) else 1) * l_w u * ps * (1 - l_d u) / (1 - ps) * (l_dy u - mu)) us / (c * (R / n)) = B - mu).
    { rewrite (mean_ext _ (fun u => c * (l_w u * (1 - l_d u) * l_dy u - l_w u * (1 - l_d u) * mu))) by (intros; rewrite W2; ring). rewrite mean_mul_l, mean_sub, mean_mul_r. unfold mean, B. fold n R. field. auto. }
    rewrite M1, M2, M3, M4. change (mean (fun u => l_w u * (1 - l_d u)) us) with (R / n).
    assert (Z1 : forall x, x <> 0 -> x / n <> 0) by (intros x Hx E; apply Hx; replace x with (x / n * n) by (field; exact N); rewrite E; ring).
    assert (Z2 : c * (R / n) <> 0) by (intros E; apply Qcmult_integral in E; destruct E as [E|E]; [tauto|now apply (Z1 R HR)]).
    destruct (Qceqb_spec (D / n) 0) as [E|_]; [now apply Z1 in E|]. destruct (Qceqb_spec (c * (R / n)) 0) as [E|_]; [tauto|]. cbn [orb].
    destruct (Qceqb_spec (R / n) 0) as [E|_]; [now apply Z1 in E|].
    assert (M5 : mean (fun v => (if l_zero v then ind (Qcltb ps (Q2Qc (995 # 1000))) else 1) * l_w v * ps * (1 - l_d v) / (1 - ps) * (l_dy v - mu) -
        (if l_zero v then ind (Qcltb ps (Q2Qc (995 # 1000))) else 1) * l_w v * ps * (1 - l_d v) / (1 - ps) * (B - mu)) us = 0).
    { rewrite (mean_ext _ (fun u => c * (l_w u * (1 - l_d u) * l_dy u - l_w u * (1 - l_d u) * B))) by (intros; rewrite W2; ring).
      rewrite mean_mul_l, mean_sub, mean_mul_r. unfold mean, B. fold n R. field. auto. }
    rewrite M5. f_equal; [ring|]. apply map_ext. intros u. f_equal. rewrite W2, W1. set (X := l_w u * (l_d u - ps) / mean (fun u0 : lunit => ps * (1 - ps) * l_w u0) us). field. auto.
  Qed.
End Pure.

(** Two different doses. *)
Lemma two_doses_neq l a b : In a l -> In b l -> a <> b -> two_doses l = true.
Proof.
  intros Ha Hb N. unfold two_doses. destruct (Qceqb_spec (qmin_l l) (qmax_l l)) as [E|]; [|reflexivity]. exfalso. apply N.
  destruct l as [|x l]; [easy|]. unfold qmin_l, qmax_l in E.
  assert (L : forall z, In z (x :: l) -> fold_right (fun x m => if Qcltb x m then x else m) x l <= z /\ z <= fold_right (fun x m => if Qcltb m x then x else m) x l).
  { intros z Hz. split; [now apply fold_min_le|now apply fold_max_ge]. }
  destruct (L a Ha) as [A1 A2], (L b Hb) as [B1 B2]. rewrite E in *. rewrite (Qcle_antisym _ _ A2 A1). now rewrite (Qcle_antisym _ _ B2 B1).
Qed.

Section Cell.
  Context (o : copts) (T : nat) (us : list cunit) (Ok : panel_ok (co_ant o) T us) (V : co_univ o = false).
  Context (g tp : Z) (Hg : In g (cohorts us)) (Ht : (2 <= tp <= Z.of_nat T)%Z).
  Let Hu : forall u, In u us -> unit_ok (co_ant o) T u := proj2 (proj2 (proj2 (proj2 Ok))).
  Let Hs : StronglySorted Z.lt (map k_id us) := proj1 (proj2 (proj2 (proj2 Ok))).
  Definition lu (d : cunit -> Qc) (u : cunit) : lunit := {| l_id := k_id u; l_d := d u; l_dy := change (co_ant o) g tp u; l_w := k_w u |}.
  Lemma cell_units : units (subset o g tp (rows T us)) = map k_id (filter (in_gt o g tp) us).
  Proof.
    destruct (base_ok o T us Ok V g tp Hg Ht) as [B1 B2]. rewrite (subset_rows o T us Ok g tp) by lia.
    unfold units. apply ssorted_lt_ext; [apply zuniq_sorted|now apply filter_sorted_ids|]. intros x. rewrite zuniq_in, map_flat_map, in_flat_map, in_map_iff. split.
    - intros [u [I H]]. cbn in H. exists u. split; [|exact I]. tauto.
    - intros [u [E I]]. exists u. split; [exact I|]. cbn. now left.
  Qed.
  Lemma level_units_eq : level_units o g tp (rows T us) = map (lu (dose_in g)) (filter (in_gt o g tp) us).
  Proof.
    destruct (base_ok o T us Ok V g tp Hg Ht) as [B1 B2]. unfold level_units. cbv zeta. rewrite cell_units. rewrite (subset_rows o T us Ok g tp) by lia.
    rewrite (base_eq o V g tp) in *. set (b := reference (co_ant o) g tp) in *.
    set (vs := filter (in_gt o g tp) us). assert (Sv : StronglySorted Z.lt (map k_id vs)) by (now apply filter_sorted_ids).
    set (f := fun u => [trow g u b; trow g u tp]).
    rewrite (flat_map_concat_map _ (map k_id vs)), map_map, <- flat_map_concat_map. rewrite <- flat_map_single. apply flat_map_ext_in. intros u I.
    assert (P : forall (p : crow -> bool), filter (fun r => (c_id r =? k_id u)%Z && p r) (flat_map f vs) = filter p (f u)).
    { intros p. rewrite (flat_map_unit vs f (fun u r => (c_id r =? k_id u)%Z && p r) u Sv I).
      - unfold f. cbn [filter]. cbn [trow c_id set_d row_of]. rewrite Z.eqb_refl. reflexivity.
      - intros v r Hv Hr N. apply andb_false_iff. left. apply Z.eqb_neq. intros E. apply N. apply (same_id o T us Ok v u vs Sv Hv I).
        destruct Hr as [<-|[<-|[]]]; exact E. }
    rewrite !P. unfold f. cbn [filter trow c_t set_d row_of]. rewrite !Z.eqb_refl. destruct (Z.eqb_spec b tp); [lia|]. destruct (Z.eqb_spec tp b); [lia|]. reflexivity.
  Qed.
  Lemma in_gt_split u : In u us -> in_gt o g tp u =
    (match k_g u with Some h => (h =? g)%Z | None => false end) || (match k_g u with None => true | Some h => co_nyt o && (tp <? h)%Z && negb (h =? g)%Z end).
  Proof.
    intros _. unfold in_gt, og_eqb, og_gt, og_fin. destruct (k_g u) as [h|].
    - destruct (h =? g)%Z; [reflexivity|]. cbn [orb negb]. rewrite andb_true_r. destruct (co_nyt o); reflexivity.
    - destruct (co_nyt o); reflexivity.
  Qed.
  Lemma sum_level (F : lunit -> Qc) : sumf F (map (lu (dose_in g)) (filter (in_gt o g tp) us)) = sumf (fun u => F (lu k_dose u)) (members (co_nyt o) us g tp).
  Proof.
    unfold members. rewrite sumf_app, !sumf_map. unfold cohort, comparison.
    rewrite !sumf_filter, <- sumf_add. apply sumf_ext. intros u I. rewrite (in_gt_split u I).
    assert (D : dose_in g u = if match k_g u with Some h => (h =? g)%Z | None => false end then k_dose u else 0) by reflexivity.
    unfold lu at 1. rewrite D. destruct (k_g u) as [h|] eqn:G.
    - destruct (h =? g)%Z; cbn [orb negb ind].
      + rewrite andb_false_r. cbn [ind]. unfold lu. ring.
      + rewrite andb_true_r. unfold lu, change, without_dose. cbn. destruct (co_nyt o && (tp <? h)%Z); cbn [ind]; ring.
    - cbn [orb ind]. unfold lu, change, without_dose. cbn. ring.
  Qed.
  Lemma zero_level : filter l_zero (map (lu (dose_in g)) (filter (in_gt o g tp) us)) = map (lu (fun _ => 0)) (comparison (co_nyt o) us g tp).
  Proof.
    rewrite filter_map_comm, filter_filter. unfold comparison.
    assert (P : forall u, In u us -> in_gt o g tp u && l_zero (lu (dose_in g) u) = match k_g u with None => true | Some h => co_nyt o && (tp <? h)%Z && negb (h =? g)%Z end).
    { intros u I. rewrite (in_gt_split u I). destruct (Hu u I) as [K _]. unfold l_zero, lu, dose_in, og_eqb. cbn [l_d]. destruct (k_g u) as [h|].
      - destruct (h =? g)%Z; cbn [orb andb negb].
        + rewrite andb_false_r. destruct (Qceqb_spec (k_dose u) 0) as [E|]; [|reflexivity]. rewrite E in K. exfalso. destruct K as [_ [_ K]]. revert K. apply Qcle_not_lt, Qcle_refl.
        + destruct (Qceqb_spec 0 0); [|tauto]. now rewrite !andb_true_r.
      - destruct (Qceqb_spec 0 0); [reflexivity|tauto]. }
    rewrite (filter_ext_in' _ _ us P). apply map_ext_in. intros u I. apply filter_In in I. destruct I as [I0 I]. unfold lu. f_equal. unfold dose_in, og_eqb.
    destruct (k_g u) as [h|]; [|reflexivity]. apply andb_prop in I. destruct I as [_ I]. now destruct (h =? g)%Z.
  Qed.
  Lemma cohort_ne : cohort us g <> [].
  Proof. destruct (proj1 (cohorts_in us g) Hg) as [u [I K]]. intros N. assert (J : In u (cohort us g)) by (apply filter_In; rewrite K, Z.eqb_refl; auto). now rewrite N in J. Qed.
  Lemma cohort_unit u : In u (cohort us g) -> In u us /\ 0 < k_dose u /\ 0 < k_w u /\ og_eqb (k_g u) g = true.
  Proof. intros I. apply filter_In in I. destruct I as [I M]. destruct (Hu u I) as [K W]. destruct (k_g u) as [h|] eqn:G; [|discriminate]. split; [exact I|]. split; [apply K|]. split; [exact W|exact M]. Qed.
  Lemma cohort_in_cell u : In u (cohort us g) -> In u (filter (in_gt o g tp) us).
  Proof. intros I. destruct (cohort_unit u I) as [J [_ [_ M]]]. apply filter_In. split; [exact J|]. unfold in_gt. now rewrite M. Qed.
  Context (Cne : comparison (co_nyt o) us g tp <> []).
  Let m := members (co_nyt o) us g tp.
  Let L := map (lu (dose_in g)) (filter (in_gt o g tp) us).
  Lemma ctl_eq : ctl_mean L = wmean (change (co_ant o) g tp) (comparison (co_nyt o) us g tp).
  Proof. unfold ctl_mean, L. cbv zeta. rewrite zero_level, !sumf_map. reflexivity. Qed.
  Lemma L_ne : L <> [].
  Proof. unfold L. intros E. assert (C := cohort_ne). destruct (cohort us g) as [|u q] eqn:Q; [easy|]. assert (I := cohort_in_cell u ltac:(rewrite Q; now left)). destruct (filter (in_gt o g tp) us); [easy|discriminate]. Qed.
  Lemma sum_cohort (f : cunit -> Qc) : (forall u, k_dose u = 0 -> f u = 0) -> sumf f m = sumf f (cohort us g).
  Proof. intros H. unfold m, members. rewrite sumf_app, sumf_map. rewrite (sumf_zero (fun a => f (without_dose a))) by (intros; now apply H). ring. Qed.
  Lemma dose_sum : sumf (fun u => l_w u * l_d u) L = sumf (fun u => k_w u * k_dose u) (cohort us g).
  Proof. unfold L. rewrite sum_level. apply sum_cohort. intros u E. rewrite E. ring. Qed.
  Lemma dose_sum_pos : 0 < sumf (fun u => k_w u * k_dose u) (cohort us g).
  Proof.
    assert (P : forall u, In u (cohort us g) -> 0 < k_w u * k_dose u).
    { intros u I. destruct (cohort_unit u I) as [_ [K [W _]]]. now apply mult_pos. }
    apply sumf_pos; [intros u I; now apply Qclt_le_weak, P|]. assert (C := cohort_ne). destruct (cohort us g) as [|u q] eqn:Q; [easy|]. exists u. split; [now left|]. apply P. now left.
  Qed.
  Lemma two_L : two_doses (map l_d L) = true.
  Proof.
    assert (C := cohort_ne). destruct (cohort us g) as [|u q] eqn:Q; [easy|]. assert (Iu : In u (cohort us g)) by (rewrite Q; now left). clear Q q C.
    destruct (comparison (co_nyt o) us g tp) as [|v q] eqn:Q; [easy|].
    assert (Iv : In (lu (fun _ => 0) v) (filter l_zero L)) by (unfold L; rewrite zero_level, Q; now left). apply filter_In in Iv.
    apply (two_doses_neq _ (k_dose u) 0).
    - replace (k_dose u) with (l_d (lu (dose_in g) u)). { apply in_map. unfold L. apply in_map. now apply cohort_in_cell. }
      cbn. unfold dose_in. now rewrite (proj2 (proj2 (proj2 (cohort_unit u Iu)))).
    - apply (in_map l_d _ _ (proj1 Iv)).
    - apply Qc_pos_neq0. apply (cohort_unit u Iu).
  Qed.
  Lemma neg_none u : In u L -> Qcltb (l_d u) 0 = false.
  Proof.
    unfold L. intros I. apply in_map_iff in I. destruct I as [v [<- I]]. apply filter_In in I. destruct I as [I _]. cbn [lu l_d]. unfold dose_in.
    destruct (Qcltb_spec (if og_eqb (k_g v) g then k_dose v else 0) 0) as [H|_]; [|reflexivity]. exfalso. revert H. apply Qcle_not_lt. destruct (og_eqb (k_g v) g); [|apply Qcle_refl].
    destruct (Hu v I) as [K _]. destruct (k_g v); [|rewrite K; apply Qcle_refl]. apply Qclt_le_weak. apply K.
  Qed.
  Lemma above_eq : existsb (fun u => Qcltb 1 (l_d u) || Qcltb (l_d u) 0) L = existsb (fun u => Qcltb 1 (k_dose u)) (cohort us g).
  Proof.
    apply Bool.eq_iff_eq_true. rewrite !existsb_exists. split.
    - intros [u [I H]]. rewrite (neg_none u I), orb_false_r in H. unfold L in I. apply in_map_iff in I. destruct I as [v [<- I]]. apply filter_In in I. destruct I as [I _].
      cbn [lu l_d] in H. unfold dose_in in H. destruct (og_eqb (k_g v) g) eqn:E; [|discriminate]. exists v. split; [|exact H]. apply filter_In. split; [exact I|exact E].
    - intros [u [I H]]. exists (lu (dose_in g) u). split; [unfold L; apply in_map; now apply cohort_in_cell|]. cbn [lu l_d]. unfold dose_in. rewrite (proj2 (proj2 (proj2 (cohort_unit u I)))). now rewrite H.
  Qed.
  Lemma len_L : qn (length L) = qn (length m).
  Proof. rewrite <- (Qcmult_1_r (qn (length L))), <- (Qcmult_1_r (qn (length m))), <- !(sumf_const 1). unfold L. apply (sum_level (fun _ => 1)). Qed.
  Lemma mean_L (F : lunit -> Qc) : mean F L = mean (fun u => F (lu k_dose u)) m.
  Proof. unfold mean. rewrite len_L. unfold L. now rewrite sum_level. Qed.

  (** Influence entries. *)
  Definition dose_term (A : Qc) (d : Qc) (u : cunit) : Qc := k_w u * d * (change (co_ant o) g tp u - A) / sumf (fun v => k_w v * k_dose v) (cohort us g).
  Definition rest_term (B : Qc) (d : Qc) (u : cunit) : Qc := k_w u * (1 - d) * (change (co_ant o) g tp u - B) / sumf (fun v => k_w v * (1 - k_dose v)) m.
  Let A := dose_mean (change (co_ant o) g tp) (cohort us g).
  Lemma A_eq : sumf (fun u => l_w u * l_d u * l_dy u) L / sumf (fun u => l_w u * l_d u) L = A.
  Proof. rewrite dose_sum. unfold A, dose_mean. f_equal. unfold L. rewrite sum_level. apply sum_cohort. intros u E. cbn. rewrite E. ring. Qed.
  Lemma R_eq : sumf (fun u => l_w u * (1 - l_d u)) L = sumf (fun u => k_w u * (1 - k_dose u)) m.
  Proof. unfold L. now rewrite sum_level. Qed.
  Lemma B_eq : sumf (fun u => l_w u * (1 - l_d u) * l_dy u) L / sumf (fun u => l_w u * (1 - l_d u)) L = rest_mean (change (co_ant o) g tp) m.
  Proof. rewrite R_eq. unfold rest_mean. f_equal. unfold L. now rewrite sum_level. Qed.
  Definition uses_reg : bool := existsb (fun u => Qcltb 1 (k_dose u)) (cohort us g) || Qcltb (Q2Qc (99 # 100)) (mean k_dose m).
  Lemma level_eq : level_att (level_units o g tp (rows T us)) =
    if uses_reg then level_reg L else level_dr L.
  Proof.
    rewrite level_units_eq. fold L. unfold level_att. rewrite two_L. cbn [negb]. unfold uses_reg. rewrite above_eq, mean_L.
    replace (filter l_zero L) with (map (lu (fun _ => 0)) (comparison (co_nyt o) us g tp)) by (symmetry; apply zero_level).
    destruct (comparison (co_nyt o) us g tp) as [|v q] eqn:Q; [easy|]. reflexivity.
  Qed.
  Context (HR : sumf (fun u => k_w u * (1 - k_dose u)) m <> 0).
  Lemma inf_map (X : Qc) (f : cunit -> Qc -> Qc) (F : lunit -> Qc) : (forall u, F (lu (dose_in g) u) = f u (dose_in g u)) ->
    map (fun u => (l_id u, F u)) L = map (fun u => (k_id u, f u (dose_in g u))) (filter (in_gt o g tp) us).
  Proof. intros H. unfold L. rewrite map_map. apply map_ext. intros u. now rewrite H. Qed.
  Lemma level_reg_eq : uses_reg = true -> let mu := wmean (change (co_ant o) g tp) (comparison (co_nyt o) us g tp) in
    level_att (level_units o g tp (rows T us)) =
    LEst (A - mu) (map (fun u => (k_id u, qn (length m) * (dose_term A (dose_in g u) u - rest_term mu (dose_in g u) u))) (filter (in_gt o g tp) us)).
  Proof.
    intros U mu. rewrite level_eq, U. rewrite (reg_eq L L_ne); [|rewrite dose_sum; apply Qc_pos_neq0, dose_sum_pos].
    rewrite R_eq. destruct (Qceqb_spec (sumf (fun u => k_w u * (1 - k_dose u)) m) 0) as [E|_]; [tauto|]. rewrite A_eq, ctl_eq, dose_sum, len_L. fold mu. f_equal.
    unfold L. rewrite map_map. reflexivity.
  Qed.
  Lemma level_dr_eq : uses_reg = false -> dose_share m < Q2Qc (995 # 1000) -> let B := rest_mean (change (co_ant o) g tp) m in
    level_att (level_units o g tp (rows T us)) =
    LEst (A - B) (map (fun u => (k_id u, qn (length m) * (dose_term A (dose_in g u) u - rest_term B (dose_in g u) u))) (filter (in_gt o g tp) us)).
  Proof.
    intros U P B. rewrite level_eq, U. rewrite (dr_eq L L_ne).
    - rewrite A_eq, B_eq, R_eq, dose_sum, len_L. fold B. f_equal. unfold L. rewrite map_map. reflexivity.
    - rewrite dose_sum; apply Qc_pos_neq0, dose_sum_pos.
    - now rewrite R_eq.
    - unfold L. rewrite !sum_level. exact P.
  Qed.
End Cell.
