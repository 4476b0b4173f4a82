(** C87-C88: the standard errors of did_multiplegt. Vocabulary: InterSpec.v. *)
From Verif Require Import Base ListLib PreprocessModel Witness InterModel InterSpec InterWitness InterWitness2 InterProofs4 InterProofs6 InterProofs7 InterProofs13.

Lemma horizon_se2 c rt rows (placebo : bool) h f (V : Qc) : panel_ok c rows -> ic_same c = false -> ic_trends_lin c = false -> ic_weighted c = false ->
  (1 <= h <= if placebo then ic_placebo c else ic_effects c)%nat -> one_experiment c rows placebo (Z.of_nat h) f ->
  (2 <= length (arm c rows (Z.of_nat h) f (Fin f)))%nat -> (2 <= length (arm c rows (Z.of_nat h) f Inf))%nat ->
  (forall valid, se2_unnorm c (Z.of_nat h) (tmx c rows) valid (cells placebo h (prepare c (balance (map (ann rows) (K c rows))))) placebo rt = V) ->
  exists r, nth (h - 1) (all_horizons c rt placebo (pipeline c rows)) None = Some r /\ h_se2 r = V
    /\ h_unnorm r = arm_mean c rows placebo (Z.of_nat h) (arm c rows (Z.of_nat h) f (Fin f)) - arm_mean c rows placebo (Z.of_nat h) (arm c rows (Z.of_nat h) f Inf).
Proof.
  intros (Hn & Hd & Hs & H0 & Hg) Hsame Htl Hw Hh Hexp N1 N0 HV.
  pose proof (tiny_ok c rows Hn Hd Hw placebo h (proj1 Hh) f Hexp N1 N0) as Hty.
  destruct (result_some c rt rows Hn Hd Hs H0 Hg Hsame Htl placebo h (proj1 Hh) Hty) as (r & Er & Eu & _).
  exists r.
  assert (Hle : (h <= if placebo then n_placebo c (pipeline c rows) else n_effects c (pipeline c rows))%nat).
  { destruct (Nat.leb_spec h (if placebo then n_placebo c (pipeline c rows) else n_effects c (pipeline c rows))) as [l|l]; [exact l|]. exfalso.
    assert (E : switchers c rows placebo (Z.of_nat h) = []).
    { destruct placebo; [apply (placebo_clip c rows Hn Hd Hs H0 Htl)|apply (effects_clip c rows Hn Hd Hs H0 Htl)]; lia. }
    rewrite E in Hty. apply Qcle_not_lt in Hty. apply Hty. reflexivity. }
  split.
  { rewrite (horizons_eq c rt rows Hn Hd Hs H0 Htl placebo). erewrite nth_error_nth; [|rewrite nth_error_map, (nth_error_nth' _ O) by (rewrite seq_length; lia); cbn; rewrite seq_nth by lia; reflexivity].
    replace (1 + (h - 1))%nat with h by lia. exact Er. }
  split.
  - unfold result, horizon in Er. rewrite (pipeline_eq c rows Hn Hd Hs H0 Htl) in Er. destruct (n_sw _ _ _ _ _); [discriminate|]. injection Er as <-. cbn [h_se2]. apply HV.
  - rewrite Eu. unfold average_did. rewrite (sw_A1 c rows Hn Hd Hw placebo h (proj1 Hh) f Hexp N1 N0).
    rewrite (w_arm c rows Hn Hd Hw placebo h f Hexp (Fin f)).
    assert (P1 : qn (length (arm c rows (Z.of_nat h) f (Fin f))) <> 0) by (apply qn_neq0; lia).
    rewrite (sumf_ext _ (fun r0 => val (h_change (used rows c) placebo (Z.of_nat h) r0) - arm_mean c rows placebo (Z.of_nat h) (arm c rows (Z.of_nat h) f Inf))).
    + rewrite sumf_sub, sumf_const. unfold arm_mean at 2. field. exact P1.
    + intros r0 Hr0. apply arm_in in Hr0 as (k1 & k2 & _). destruct (at_t0 c rows Hn Hd Hw placebo h f Hexp r0 k1 k2) as [_ ->]. rewrite Qcmult_1_l. unfold unit_did. f_equal. f_equal.
      rewrite (comps c rows Hn Hd Hw placebo h (proj1 Hh) f Hexp N1 N0 r0 k1 k2), (w_arm c rows Hn Hd Hw placebo h f Hexp Inf). unfold arm_mean. f_equal.
      apply sumf_ext. intros r1 Hr1. apply arm_in in Hr1 as (q1 & q2 & _). destruct (at_t0 c rows Hn Hd Hw placebo h f Hexp r1 q1 q2) as [_ ->]. ring.
Qed.

(** * C87. One experiment: the squared standard error is the variance of a difference of two means, s1^2 / n1 + s0^2 / n0, where
    s^2 = n / (n - 1) * (mean squared deviation) - the factor n / (n - 1) enters as the square of the value of the square-root
    routine [rt] and is absent with less_conservative_se - and the estimate is the difference of the means. *)
Theorem C87_two_sample_variance : forall c rt rows (placebo : bool) h f, panel_ok c rows -> ic_same c = false -> ic_trends_lin c = false -> ic_weighted c = false ->
  ic_cluster c = false -> (1 <= h <= if placebo then ic_placebo c else ic_effects c)%nat -> one_experiment c rows placebo (Z.of_nat h) f ->
  let A1 := arm c rows (Z.of_nat h) f (Fin f) in let A0 := arm c rows (Z.of_nat h) f Inf in
  (2 <= length A1)%nat -> (2 <= length A0)%nat ->
  exists r, nth (h - 1) (all_horizons c rt placebo (pipeline c rows)) None = Some r
    /\ h_unnorm r = arm_mean c rows placebo (Z.of_nat h) A1 - arm_mean c rows placebo (Z.of_nat h) A0
    /\ h_se2 r = dof_correction c rt (length A1) * arm_msd c rows placebo (Z.of_nat h) A1 / qn (length A1)
               + dof_correction c rt (length A0) * arm_msd c rows placebo (Z.of_nat h) A0 / qn (length A0).
Proof.
  intros c rt rows placebo h f Hp Hsame Htl Hw Hcl Hh Hexp A1 A0 N1 N0.
  destruct (horizon_se2 c rt rows placebo h f _ Hp Hsame Htl Hw Hh Hexp N1 N0 (fun valid => se2_two_sample c rt rows (proj1 Hp) (proj1 (proj2 Hp)) (proj2 (proj2 (proj2 (proj2 Hp)))) Hsame Hw placebo h (proj1 Hh) valid f Hexp N1 N0 Hcl)) as (r & h1 & h2 & h3).
  exists r. auto.
Qed.
Print Assumptions C87_two_sample_variance.
Example C87_case : panel_ok cfg0 exp5 /\ one_experiment cfg0 exp5 false 1 3 /\ one_experiment cfg0 exp5 false 2 3 /\ one_experiment cfg0 exp5 true 1 3
  /\ length (arm cfg0 exp5 1 3 (Fin 3%Z)) = 2%nat /\ length (arm cfg0 exp5 1 3 Inf) = 3%nat
  /\ arm_mean cfg0 exp5 false 1 (arm cfg0 exp5 1 3 (Fin 3%Z)) = Q2Qc (9 # 2) /\ arm_msd cfg0 exp5 false 1 (arm cfg0 exp5 1 3 (Fin 3%Z)) = Q2Qc (9 # 4)
  /\ option_map h_se2 (nth 0 (all_horizons cfg0 one false (pipeline cfg0 exp5)) None) = Some (Q2Qc (17 # 3)).
Proof.
  split; [by_panel|]. do 3 (split; [apply one_experimentb_ok; vm_compute; reflexivity|]). split; [vm_compute; reflexivity|]. split; [vm_compute; reflexivity|].
  split; [apply Qc_is_canon; vm_compute; reflexivity|]. split; [apply Qc_is_canon; vm_compute; reflexivity|]. by_o.
Qed.

(** * C88. Clusters: with less_conservative_se (no degrees-of-freedom correction) the squared standard error is the sum over the clusters
    of the squared cluster totals of the units' contributions. *)
Theorem C88_cluster_variance_partial : forall c rt rows (placebo : bool) h f, panel_ok c rows -> ic_same c = false -> ic_trends_lin c = false -> ic_weighted c = false ->
  ic_cluster c = true -> ic_less c = true -> (1 <= h <= if placebo then ic_placebo c else ic_effects c)%nat -> one_experiment c rows placebo (Z.of_nat h) f ->
  clusters_ok c rows (Z.of_nat h) f ->
  exists r, nth (h - 1) (all_horizons c rt placebo (pipeline c rows)) None = Some r /\ h_se2 r = cluster_variance c rows placebo (Z.of_nat h) f.
Proof.
  intros c rt rows placebo h f Hp Hsame Htl Hw Hcl Hl Hh Hexp Hck.
  assert (N : forall g, g = Fin f \/ g = Inf -> (2 <= length (arm c rows (Z.of_nat h) f g))%nat).
  { intros g Hg. destruct (proj2 (proj2 (proj2 Hck)) g Hg) as (r & r' & h1 & h2 & ne). destruct (arm c rows (Z.of_nat h) f g) as [|x [|y l]]; cbn in *; [tauto| |lia].
    exfalso. apply ne. intuition congruence. }
  pose proof (N (Fin f) (or_introl eq_refl)) as N1. pose proof (N Inf (or_intror eq_refl)) as N0.
  destruct (horizon_se2 c rt rows placebo h f _ Hp Hsame Htl Hw Hh Hexp N1 N0 (fun valid => se2_clustered c rt rows (proj1 Hp) (proj1 (proj2 Hp)) (proj2 (proj2 (proj2 (proj2 Hp)))) Hsame Hw placebo h (proj1 Hh) valid f Hexp N1 N0 Hcl Hl Hck)) as (r & h1 & h2 & h3).
  exists r. auto.
Qed.
Print Assumptions C88_cluster_variance_partial.
Example C88_case : panel_ok clless exp5_cl /\ one_experiment clless exp5_cl false 1 3 /\ clusters_ok clless exp5_cl 1 3
  /\ cluster_variance clless exp5_cl false 1 3 = Q2Qc (679 # 216)
  /\ option_map h_se2 (nth 0 (all_horizons clless one false (pipeline clless exp5_cl)) None) = Some (Q2Qc (679 # 216)).
Proof.
  split; [by_panel|]. split; [apply one_experimentb_ok; vm_compute; reflexivity|]. split; [apply clusters_okb_ok; vm_compute; reflexivity|].
  split; [apply Qc_is_canon; vm_compute; reflexivity|]. by_o.
Qed.
