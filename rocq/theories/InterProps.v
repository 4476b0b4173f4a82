(** C70-C86: did_multiplegt. Vocabulary: InterSpec.v. *)
From Coq Require Import Qcabs.
From Verif Require Import Base ListLib PreprocessModel Witness InterModel InterSpec InterWitness InterProofs4 InterProofs6 InterProofs7 InterProofs8 InterProofs9 InterProofs10 InterProofs11 InterProofs12.

(** * C70. The reported effects. *)
Lemma report_is c rt rows (placebo : bool) h : panel_ok c rows -> ic_same c = false -> ic_trends_lin c = false -> (1 <= h <= if placebo then ic_placebo c else ic_effects c)%nat ->
  tiny <= sumf (obs_weight c) (switchers c rows placebo (Z.of_nat h)) ->
  reported c rt rows placebo h = Some (average_did c rows placebo (Z.of_nat h)
    / (if ic_norm c && negb (Qceqb (average_dose c rows placebo (Z.of_nat h)) 0) then average_dose c rows placebo (Z.of_nat h) else 1)).
Proof.
  intros (Hn & Hd & Hs & H0 & Hg) Hsame Htl Hh Hw. rewrite (reported_eq c rt rows Hn Hd Hs H0 Htl) by lia.
  destruct (Nat.leb_spec h (if placebo then n_placebo c (pipeline c rows) else n_effects c (pipeline c rows))) as [l|l].
  - destruct (result_some c rt rows Hn Hd Hs H0 Hg Hsame Htl placebo h ltac:(lia) Hw) as (r & -> & _ & _ & _ & e1 & e2). cbn. now rewrite e2, e1.
  - exfalso. assert (E : switchers c rows placebo (Z.of_nat h) = []).
    { destruct placebo; [apply (placebo_clip c rows Hn Hd Hs H0 Htl)|apply (effects_clip c rows Hn Hd Hs H0 Htl)]; lia. }
    rewrite E in Hw. apply Qcle_not_lt in Hw. apply Hw. reflexivity.
Qed.
Lemma all_in_documented c rows placebo h : (forall r, In r (switchers c rows placebo h) -> switches_in rows (i_g r) = true) ->
  average_did c rows placebo h = documented_did c rows placebo h.
Proof.
  intros Hi. unfold average_did, documented_did. f_equal. apply sumf_ext. intros r Hr. unfold sign. rewrite (Hi r Hr). ring.
Qed.
Lemma report_unnorm c rt rows (placebo : bool) h : panel_ok c rows -> ic_same c = false -> ic_trends_lin c = false -> ic_norm c = false ->
  (1 <= h <= if placebo then ic_placebo c else ic_effects c)%nat -> tiny <= sumf (obs_weight c) (switchers c rows placebo (Z.of_nat h)) ->
  reported c rt rows placebo h = Some (average_did c rows placebo (Z.of_nat h)).
Proof. intros. rewrite report_is by assumption. rewrite H2. cbn [andb]. f_equal. field. discriminate. Qed.

(** DID_l of the documentation, when every switcher of the horizon increases its treatment (in particular with switchers = "in"). *)
Theorem C70_effect_formula_partial : forall c rt rows h, panel_ok c rows -> ic_same c = false -> ic_trends_lin c = false -> ic_norm c = false ->
  (1 <= h <= ic_effects c)%nat -> tiny <= sumf (obs_weight c) (switchers c rows false (Z.of_nat h)) ->
  (forall r, In r (switchers c rows false (Z.of_nat h)) -> switches_in rows (i_g r) = true) ->
  reported c rt rows false h = Some (documented_did c rows false (Z.of_nat h)).
Proof. intros. rewrite (report_unnorm c rt rows false h) by assumption. f_equal. now apply all_in_documented. Qed.
Print Assumptions C70_effect_formula_partial.
Theorem C70_switchers_in : forall c rt rows h, panel_ok c rows -> ic_same c = false -> ic_trends_lin c = false -> ic_norm c = false -> ic_dir c = InSw ->
  (1 <= h <= ic_effects c)%nat -> tiny <= sumf (obs_weight c) (switchers c rows false (Z.of_nat h)) ->
  reported c rt rows false h = Some (documented_did c rows false (Z.of_nat h)).
Proof.
  intros c rt rows h H1 H2 H3 H4 H5 H6 H7. apply C70_effect_formula_partial; auto. intros r Hr. apply filter_In in Hr as [_ Hr]. unfold switcher in Hr.
  rewrite H5 in Hr. rewrite !andb_true_iff in Hr. tauto.
Qed.
Print Assumptions C70_switchers_in.
(** For any switchers: what is reported is the plain average of the unit DIDs, without S_g. *)
Theorem C70_unsigned_average : forall c rt rows h, panel_ok c rows -> ic_same c = false -> ic_trends_lin c = false -> ic_norm c = false ->
  (1 <= h <= ic_effects c)%nat -> tiny <= sumf (obs_weight c) (switchers c rows false (Z.of_nat h)) ->
  reported c rt rows false h = Some (average_did c rows false (Z.of_nat h)).
Proof. intros. now apply (report_unnorm c rt rows false h). Qed.
Print Assumptions C70_unsigned_average.
Example C70_case : panel_ok cfg0 stag /\ tiny <= sumf (obs_weight cfg0) (switchers cfg0 stag false 1) /\ length (switchers cfg0 stag false 1) = 2%nat
  /\ (forall r, In r (switchers cfg0 stag false 1) -> switches_in stag (i_g r) = true) /\ reported cfg0 one stag false 1 = Some (Q2Qc (21 # 4)).
Proof.
  split; [by_panel|]. split; [by_le|]. split; [fast; vm_compute; reflexivity|]. split; [|by_o].
  intros r Hr. assert (E : forallb (fun r => switches_in stag (i_g r)) (switchers cfg0 stag false 1) = true) by (fast; vm_compute; reflexivity).
  rewrite forallb_forall in E. exact (E r Hr).
Qed.
(** A unit whose treatment decreases enters with the wrong sign: an increase with effect 5 and a decrease with effect -5 average to 0
    instead of 5; with switchers = "out" the sign of the effect is flipped. *)
Theorem C70_decreases_refuted : exists rows, panel_ok cfg0 rows /\ documented_did cfg0 rows false 1 = qz 5 /\ reported cfg0 one rows false 1 = Some 0
  /\ let c := upd cfg0 false OutSw false false false false false false false in
     panel_ok c rows /\ documented_did c rows false 1 = qz 5 /\ reported c one rows false 1 = Some (qz (-5)).
Proof.
  exists inout. split; [by_panel|]. split; [by_q|]. split; [by_o|]. split; [by_panel|]. split; [by_q|by_o].
Qed.
Print Assumptions C70_decreases_refuted.

(** * C71. The reported placebos. *)
Theorem C71_placebo_formula_partial : forall c rt rows h, panel_ok c rows -> ic_same c = false -> ic_trends_lin c = false -> ic_norm c = false ->
  (1 <= h <= ic_placebo c)%nat -> tiny <= sumf (obs_weight c) (switchers c rows true (Z.of_nat h)) ->
  (forall r, In r (switchers c rows true (Z.of_nat h)) -> switches_in rows (i_g r) = true) ->
  reported c rt rows true h = Some (documented_did c rows true (Z.of_nat h)).
Proof. intros. rewrite (report_unnorm c rt rows true h) by assumption. f_equal. now apply all_in_documented. Qed.
Print Assumptions C71_placebo_formula_partial.
Theorem C71_unsigned_average : forall c rt rows h, panel_ok c rows -> ic_same c = false -> ic_trends_lin c = false -> ic_norm c = false ->
  (1 <= h <= ic_placebo c)%nat -> tiny <= sumf (obs_weight c) (switchers c rows true (Z.of_nat h)) ->
  reported c rt rows true h = Some (average_did c rows true (Z.of_nat h)).
Proof. intros. now apply (report_unnorm c rt rows true h). Qed.
Print Assumptions C71_unsigned_average.
Example C71_case : panel_ok cfg0 stag /\ tiny <= sumf (obs_weight cfg0) (switchers cfg0 stag true 1) /\ length (switchers cfg0 stag true 1) = 2%nat /\ reported cfg0 one stag true 1 = Some (qz (-1)).
Proof. split; [by_panel|]. split; [by_le|]. split; [reflexivity|by_o]. Qed.
(** A placebo for which no switcher has the two pre-period outcomes and an outcome at F_g - 1 + h is reported as exactly 0, as
    evidence of parallel trends, when the unit's row at F_g - 1 + h is missing (or has no outcome): it counts as a switcher of weight 0. *)
Definition no_outcome : list irow :=
  [mk 1 1 0 0; mk 1 2 100 0; mkr 1 3 None (Some 1%Qc) None None; mk 2 1 0 0; mk 2 2 1 0; mk 2 3 2 0]%Z.
Theorem C71_zero_placebo_refuted : exists rows, panel_ok cfg0 rows /\ sumf (obs_weight cfg0) (switchers cfg0 rows true 1) = 0
  /\ reported cfg0 one rows true 1 = Some 0 /\ unit_did cfg0 rows true 1 (nth 2 rows (mk 0 0 0 0)) = qz (-99).
Proof. exists no_outcome. split; [by_panel|]. split; [fast; vm_compute; reflexivity|]. split; [by_o|]. by_q. Qed.
Print Assumptions C71_zero_placebo_refuted.

(** * C72. Which horizons are reported. *)
Lemma report_none c rt rows h : panel_ok c rows -> ic_same c = false -> ic_trends_lin c = false -> (1 <= h)%nat -> switchers c rows false (Z.of_nat h) = [] ->
  reported c rt rows false h = None.
Proof.
  intros (Hn & Hd & Hs & H0 & Hg) Hsame Htl Hh Hw. rewrite (reported_eq c rt rows Hn Hd Hs H0 Htl) by lia.
  destruct (Nat.leb_spec h (n_effects c (pipeline c rows))) as [l|l]; [|reflexivity].
  rewrite (result_none c rt rows Hn Hd Hs H0 Hg Hsame Htl h Hh Hw). reflexivity.
Qed.
(** Without weights, an effect horizon is NaN or absent from the output exactly when it has no switcher; the output never has more
    horizons than requested. *)
Theorem C72_effects_reported : forall c rt rows h, panel_ok c rows -> ic_same c = false -> ic_trends_lin c = false -> ic_weighted c = false ->
  (1 <= h <= ic_effects c)%nat -> (reported c rt rows false h = None <-> switchers c rows false (Z.of_nat h) = []).
Proof.
  intros c rt rows h Hp Hsame Htl Hw Hh. split; [|apply report_none; auto; lia]. intros E.
  destruct (switchers c rows false (Z.of_nat h)) as [|r l] eqn:El; [reflexivity|]. exfalso.
  rewrite (report_is c rt rows false h Hp Hsame Htl Hh) in E; [discriminate|]. apply (unweighted_total c rt rows); [exact (proj1 Hp)|exact (proj1 (proj2 Hp))|exact Hw|]. congruence.
Qed.
Print Assumptions C72_effects_reported.
Theorem C72_output_length : forall c rt rows, panel_ok c rows -> ic_trends_lin c = false ->
  (length (fst (did_multiplegt c rt rows)) <= ic_effects c)%nat /\ (length (snd (did_multiplegt c rt rows)) <= ic_placebo c)%nat.
Proof.
  intros c rt rows (Hn & Hd & Hs & H0 & Hg) Htl. unfold did_multiplegt. cbn [fst snd].
  rewrite !(estimates_len c rt rows Hn Hd Hs H0 Htl). split; [apply n_effects_le|apply n_placebo_le].
Qed.
Print Assumptions C72_output_length.
Example C72_case : panel_ok cfg0 (firstn 3 stag ++ skipn 10 stag) /\ reported cfg0 one (firstn 3 stag ++ skipn 10 stag) false 1 <> None
  /\ reported cfg0 one (firstn 3 stag ++ skipn 10 stag) false 2 = None /\ fst (did_multiplegt cfg0 one (firstn 10 stag)) = [].
Proof. split; [by_panel|]. split; [by_ne|]. split; [by_o|reflexivity]. Qed.

(** * C73. Unit effects and the scale of the outcome. *)
Theorem C73_unit_effects_and_scale : forall c rt rows k (a : Z -> Qc),
  did_multiplegt c rt (map (with_y (fun r y => k * y + a (i_g r))) rows)
  = (map (option_map (Qcmult k)) (fst (did_multiplegt c rt rows)), map (option_map (Qcmult k)) (snd (did_multiplegt c rt rows))).
Proof. intros. exact (did_fe c rt rows k a). Qed.
Print Assumptions C73_unit_effects_and_scale.
(** The standard error, the number of switchers and the normalisation: squared standard errors are multiplied by k^2, the rest is unchanged. *)
Theorem C73_standard_errors : forall c rt rows k (a : Z -> Qc) (placebo : bool),
  let hs := all_horizons c rt placebo (pipeline c rows) in let hs' := all_horizons c rt placebo (pipeline c (map (with_y (fun r y => k * y + a (i_g r))) rows)) in
  length hs' = length hs /\
  forall i, match nth i hs None, nth i hs' None with
            | Some r, Some r' => h_est r' = k * h_est r /\ h_se2 r' = k * k * h_se2 r /\ h_nsw r' = h_nsw r /\ h_norm r' = h_norm r
            | None, None => True
            | _, _ => False
            end.
Proof.
  intros c rt rows k a placebo hs hs'. assert (E : hs' = map (option_map (scaled k)) hs) by exact (all_fe c rt rows k a placebo).
  rewrite E. split; [apply map_length|]. intros i. replace (nth i (map (option_map (scaled k)) hs) None) with (option_map (scaled k) (nth i hs None)) by exact (eq_sym (map_nth (option_map (scaled k)) hs None i)).
  destruct (nth i hs None) as [r|]; [|exact I]. cbn. auto.
Qed.
Print Assumptions C73_standard_errors.
Example C73_case : fst (did_multiplegt cfg0 one (map (with_y (fun r y => qz 2 * y + qz (i_g r))) stag)) = [Some (Q2Qc (21 # 2)); Some (qz 13)].
Proof. rewrite C73_unit_effects_and_scale. cbn [fst]. apply loqb_eq. vm_compute. reflexivity. Qed.

(** * C74. Shocks common to a baseline group. *)
Definition measured (c : icfg) (rows : list irow) (placebo : bool) (h : nat) : Prop :=
  placebo = false /\ ic_weighted c = false \/ tiny <= sumf (obs_weight c) (switchers c rows placebo (Z.of_nat h)).
Lemma report_same c rt rows rows' (placebo : bool) h : panel_ok c rows -> panel_ok c rows' -> ic_same c = false -> ic_trends_lin c = false ->
  (1 <= h <= if placebo then ic_placebo c else ic_effects c)%nat -> measured c rows placebo h ->
  sumf (obs_weight c) (switchers c rows' placebo (Z.of_nat h)) = sumf (obs_weight c) (switchers c rows placebo (Z.of_nat h)) ->
  (switchers c rows placebo (Z.of_nat h) = [] -> switchers c rows' placebo (Z.of_nat h) = []) ->
  average_did c rows' placebo (Z.of_nat h) = average_did c rows placebo (Z.of_nat h) ->
  average_dose c rows' placebo (Z.of_nat h) = average_dose c rows placebo (Z.of_nat h) ->
  reported c rt rows' placebo h = reported c rt rows placebo h.
Proof.
  intros Hp Hp' Hsame Htl Hh Hm Ew En Ea Ed.
  assert (G : tiny <= sumf (obs_weight c) (switchers c rows placebo (Z.of_nat h)) -> reported c rt rows' placebo h = reported c rt rows placebo h).
  { intros Hw. rewrite !report_is by (auto; rewrite ?Ew; auto). now rewrite Ea, Ed. }
  destruct Hm as [[-> Hw]|Hw]; [|auto].
  destruct (switchers c rows false (Z.of_nat h)) as [|r l] eqn:El.
  - rewrite !report_none; auto; lia.
  - apply G. rewrite <- El. apply (unweighted_total c rt rows); [exact (proj1 Hp)|exact (proj1 (proj2 Hp))|exact Hw|]. congruence.
Qed.
Lemma panel_y c rows phi : panel_ok c rows -> panel_ok c (map (with_y phi) rows).
Proof.
  intros (Hn & Hd & Hs & H0 & Hg). split; [|split; [|split; [|split]]].
  - unfold one_row_per_period in *. rewrite map_map. exact Hn.
  - intros r Hr. apply in_map_iff in Hr as (q & <- & Hq). cbn. auto.
  - now rewrite map_length.
  - intros r Hr. apply in_map_iff in Hr as (q & <- & Hq). cbn. rewrite switch_date_f. auto.
  - rewrite used_f. intros r r' x Hr Hr' Hx. apply in_map_iff in Hr as (q & <- & Hq). apply in_map_iff in Hr' as (q' & <- & Hq'). cbn in Hx.
    destruct (Hg q q' x Hq Hq' Hx) as (s & h1 & h2). exists (with_y phi s). split; [now apply in_map|exact h2].
Qed.
Lemma report_y c rt rows phi (placebo : bool) h : panel_ok c rows -> ic_same c = false -> ic_trends_lin c = false ->
  (1 <= h <= if placebo then ic_placebo c else ic_effects c)%nat -> measured c rows placebo h ->
  average_did c (map (with_y phi) rows) placebo (Z.of_nat h) = average_did c rows placebo (Z.of_nat h) ->
  reported c rt (map (with_y phi) rows) placebo h = reported c rt rows placebo h.
Proof.
  intros Hp Hsame Htl Hh Hm Ea. apply report_same; auto using panel_y, sw_weight_f, avg_dose_f. intros E. now rewrite switchers_f, E.
Qed.
(** Period shocks common to the units with the same baseline treatment (and trends_nonparam value), and unit effects, change nothing. *)
Theorem C74_common_shocks : forall c rt rows (a : Z -> Qc) (b : Z -> option Qc -> option Z -> Qc) (placebo : bool) h,
  panel_ok c rows -> unit_level_trends rows -> ic_same c = false -> ic_trends_lin c = false ->
  (1 <= h <= if placebo then ic_placebo c else ic_effects c)%nat -> measured c rows placebo h ->
  reported c rt (map (with_y (shock rows a b)) rows) placebo h = reported c rt rows placebo h.
Proof. intros. apply report_y; auto. now apply shock_avg. Qed.
Print Assumptions C74_common_shocks.
Example C74_case : panel_ok cfg0 inout /\ unit_level_trends inout /\ measured cfg0 inout false 1
  /\ reported cfg0 one (map (with_y (shock inout (fun g => qz (7 * g)) (fun t d _ => qz t * qz t * oz0 d))) inout) false 1 = Some 0.
Proof. split; [by_panel|]. split; [|split; [now left|by_o]]. intros r r' Hr Hr' _. assert (E : forallb (fun r => oz_eqb (i_tr r) None) inout = true) by reflexivity.
  rewrite forallb_forall in E. pose proof (E r Hr) as e1. pose proof (E r' Hr') as e2. destruct (i_tr r), (i_tr r'); auto; discriminate. Qed.

(** * C75. Recovery of the effects under common trends. *)
(** If every outcome is a unit effect plus a period effect of the baseline group plus, from the switching date on, tau(g,t), then the
    effect at horizon h is the weighted average of tau over the switchers of that horizon and every placebo is 0. *)
Theorem C75_effects_recovered : forall c rt rows a b tau h, panel_ok c rows -> unit_level_trends rows -> truth rows a b tau ->
  ic_same c = false -> ic_trends_lin c = false -> ic_norm c = false -> (1 <= h <= ic_effects c)%nat -> tiny <= sumf (obs_weight c) (switchers c rows false (Z.of_nat h)) ->
  reported c rt rows false h = Some (sumf (fun r => obs_weight c r * tau (i_g r) (i_t r)) (switchers c rows false (Z.of_nat h)) / sumf (obs_weight c) (switchers c rows false (Z.of_nat h))).
Proof. intros c rt rows a b tau h H H1 H2 H3 H4 H5 H6 H7. rewrite (report_unnorm c rt rows false h) by assumption. f_equal. apply (truth_avg c rows a b tau); auto. lia. Qed.
Print Assumptions C75_effects_recovered.
Theorem C75_placebos_zero : forall c rt rows a b tau h, panel_ok c rows -> unit_level_trends rows -> truth rows a b tau ->
  ic_same c = false -> ic_trends_lin c = false -> (1 <= h <= ic_placebo c)%nat -> tiny <= sumf (obs_weight c) (switchers c rows true (Z.of_nat h)) ->
  reported c rt rows true h = Some 0.
Proof.
  intros c rt rows a b tau h H H1 H2 H3 H4 H6 H7. rewrite (report_is c rt rows true h) by assumption. f_equal. rewrite (truth_placebo c rows a b tau); auto; [|lia].
  unfold Qcdiv. ring.
Qed.
Print Assumptions C75_placebos_zero.
Definition truth_panel : list irow :=
  [mk 1 1 10 0; mk 1 2 11 0; mk 1 3 19 1; mk 1 4 26 2; mk 2 1 0 0; mk 2 2 1 0; mk 2 3 4 0; mk 2 4 19 1; mk 3 1 5 0; mk 3 2 6 0; mk 3 3 9 0; mk 3 4 14 0]%Z.
Example C75_case : panel_ok cfg0 truth_panel /\ unit_level_trends truth_panel
  /\ truth truth_panel (fun g => if (g =? 1)%Z then qz 10 else if (g =? 2)%Z then 0 else qz 5)
       (fun t _ _ => if (t =? 1)%Z then 0 else if (t =? 2)%Z then 1 else if (t =? 3)%Z then qz 4 else qz 9)
       (fun g t => if (g =? 1)%Z then (if (t =? 3)%Z then qz 5 else qz 7) else qz 10)
  /\ fst (did_multiplegt cfg0 one truth_panel) = [Some (Q2Qc (15 # 2)); Some (qz 7)] /\ snd (did_multiplegt cfg0 one truth_panel) = (Some 0 :: nil).
Proof.
  split; [by_panel|]. split.
  { intros r r' Hr Hr' _. assert (E : forallb (fun r => oz_eqb (i_tr r) None) truth_panel = true) by reflexivity.
    rewrite forallb_forall in E. pose proof (E r Hr) as e1. pose proof (E r' Hr') as e2. destruct (i_tr r), (i_tr r'); auto; discriminate. }
  split; [|split; apply loqb_eq; vm_compute; reflexivity].
  intros r y Hr. repeat (destruct Hr as [<-|Hr]; [intros [= <-]; by_q|]). destruct Hr.
Qed.

(** * C76. Row order. *)
Theorem C76_row_order : forall c rt rows rows', one_row_per_period rows -> Permutation rows rows' ->
  did_multiplegt c rt rows' = did_multiplegt c rt rows /\
  forall placebo : bool, all_horizons c rt placebo (pipeline c rows') = all_horizons c rt placebo (pipeline c rows).
Proof. intros c rt rows rows' Hn Hp. unfold did_multiplegt. rewrite (pipeline_perm c rows rows' Hn Hp). auto. Qed.
Print Assumptions C76_row_order.
Example C76_case : one_row_per_period stag /\ Permutation stag (rev stag) /\ did_multiplegt cfg0 one (rev stag) = did_multiplegt cfg0 one stag.
Proof.
  assert (H : one_row_per_period stag) by (assert (P : panel_ok cfg0 stag) by by_panel; apply P).
  split; [exact H|]. split; [apply Permutation_rev|]. apply C76_row_order; [exact H|apply Permutation_rev].
Qed.

(** * C77. trends_lin. *)
(** With trends_lin = True a unit-specific linear trend in the outcome changes nothing, standard errors included. *)
Theorem C77_unit_linear_trends : forall c rt rows (a b : Z -> Qc), panel_ok c rows -> ic_trends_lin c = true ->
  let rows' := map (with_y (fun r y => y + (a (i_g r) + b (i_g r) * qz (i_t r)))) rows in
  did_multiplegt c rt rows' = did_multiplegt c rt rows /\
  forall placebo : bool, all_horizons c rt placebo (pipeline c rows') = all_horizons c rt placebo (pipeline c rows).
Proof.
  intros c rt rows a b (Hn & Hd & Hs & H0 & Hg) Htl rows'.
  assert (E : rows' = map (aff 1 (fun g t => a g + b g * qz t)) rows).
  { apply map_ext. intros r. unfold with_y, aff. f_equal. destruct (i_y r); cbn; [f_equal; ring|reflexivity]. }
  assert (G : forall placebo : bool, all_horizons c rt placebo (pipeline c rows') = all_horizons c rt placebo (pipeline c rows)).
  { intros placebo. rewrite E, (all_trend c rt rows Hn Hd Hs H0 Hg Htl a b). apply map_scaled_1. }
  split; [|exact G]. unfold did_multiplegt. now rewrite !G.
Qed.
Print Assumptions C77_unit_linear_trends.
Definition tlc : icfg := upd cfg0 false AnySw false false false false false true false.
Example C77_case : panel_ok tlc stag /\ fst (did_multiplegt tlc one stag) = [Some (Q2Qc (17 # 4)); Some (Q2Qc (25 # 4))]
  /\ fst (did_multiplegt cfg0 one (map (with_y (fun r y => y + qz (i_g r) * qz (i_t r))) stag)) = [Some (qz 4); Some (Q2Qc (7 # 2))].
Proof. split; [by_panel|]. split; apply loqb_eq; vm_compute; reflexivity. Qed.

(** * C78. normalized = True. *)
(** The normalized effect is the effect divided by the average cumulative absolute treatment change of the switchers of the horizon. *)
Theorem C78_normalized : forall c rt rows (placebo : bool) h, panel_ok c rows -> ic_same c = false -> ic_trends_lin c = false -> ic_norm c = true -> ic_keep_bi c = false ->
  (1 <= h <= if placebo then ic_placebo c else ic_effects c)%nat -> tiny <= sumf (obs_weight c) (switchers c rows placebo (Z.of_nat h)) ->
  mean_abs_dose c rows placebo (Z.of_nat h) <> 0 ->
  reported c rt rows placebo h = Some (average_did c rows placebo (Z.of_nat h) / mean_abs_dose c rows placebo (Z.of_nat h)).
Proof.
  intros c rt rows placebo h Hp Hs Ht Hno Hk Hh Hw Hd. rewrite report_is by assumption. rewrite (abs_dose c rows placebo (Z.of_nat h)) by (try exact (proj1 Hp); auto).
  rewrite Hno. destruct (Qceqb_spec (mean_abs_dose c rows placebo (Z.of_nat h)) 0); [tauto|reflexivity].
Qed.
Print Assumptions C78_normalized.
Definition nmc (keep : bool) : icfg := upd cfg0 false AnySw false false false true keep false false.
Definition doses : list irow :=
  [mk 1 1 0 0; mk 1 2 4 2; mk 1 3 9 3; mk 2 1 0 0; mk 2 2 1 0; mk 2 3 2 0; mk 3 1 0 0; mk 3 2 1 4; mk 3 3 7 1]%Z.
Example C78_case : panel_ok (nmc false) doses /\ mean_abs_dose (nmc false) doses false 2 = qz 5 /\ mean_abs_dose (nmc false) doses false 1 = qz 3
  /\ fst (did_multiplegt (nmc false) one doses) = [Some (Q2Qc (1 # 2)); Some (Q2Qc (6 # 5))].
Proof. split; [by_panel|]. split; [by_q|]. split; [by_q|]. apply loqb_eq. vm_compute. reflexivity. Qed.
(** With keep_bidirectional_switchers = True the divisor can be negative: the sign of the estimate is flipped and the reported standard
    error (the root of h_se2 divided by h_norm) is negative. *)
Definition twoway : list irow :=
  [mk 1 1 0 1; mk 1 2 5 2; mk 1 3 7 (-3); mk 1 4 9 0; mk 2 1 0 1; mk 2 2 1 1; mk 2 3 2 1; mk 2 4 3 1; mk 3 1 0 1; mk 3 2 1 1; mk 3 3 4 1; mk 3 4 3 1]%Z.
Theorem C78_bidirectional_refuted : exists rows r, panel_ok (nmc true) rows /\ nth 1 (all_horizons (nmc true) one false (pipeline (nmc true) rows)) None = Some r
  /\ h_norm r < 0 /\ 0 < h_se2 r /\ 0 < average_did (nmc true) rows false 2 /\ reported (nmc true) one rows false 2 = Some (h_est r) /\ h_est r < 0.
Proof.
  exists twoway. destruct (nth 1 (all_horizons (nmc true) one false (pipeline (nmc true) twoway)) None) as [r|] eqn:E; [|vm_compute in E; discriminate].
  exists r. split; [by_panel|]. split; [reflexivity|].
  assert (En : option_map h_norm (nth 1 (all_horizons (nmc true) one false (pipeline (nmc true) twoway)) None) = Some (qz (-3))) by by_o.
  assert (Es : option_map h_se2 (nth 1 (all_horizons (nmc true) one false (pipeline (nmc true) twoway)) None) = Some (qz 18)) by by_o.
  assert (Ee : option_map h_est (nth 1 (all_horizons (nmc true) one false (pipeline (nmc true) twoway)) None) = reported (nmc true) one twoway false 2) by by_o.
  assert (Ef : option_map h_est (nth 1 (all_horizons (nmc true) one false (pipeline (nmc true) twoway)) None) = Some (Q2Qc (-4 # 3))) by by_o.
  rewrite E in En, Es, Ee, Ef. cbn [option_map] in En, Es, Ee, Ef. rewrite <- Ee. clear E Ee. injection En as ->. injection Es as ->. injection Ef as ->.
  split; [vm_compute; reflexivity|]. split; [vm_compute; reflexivity|]. split; [fast; vm_compute; reflexivity|]. split; [reflexivity|vm_compute; reflexivity].
Qed.
Print Assumptions C78_bidirectional_refuted.

(** * C79. The average total effect. *)
(** When every switcher increases its treatment by the same constant amount for good, ATE is the documented ratio: the sum of the unit
    effects over all reported horizons divided by the sum of the treatment changes. *)
Theorem C79_average_total_effect_partial : forall c rt rows d, panel_ok c rows -> ic_same c = false -> ic_trends_lin c = false -> d <> 0 ->
  (forall h, (1 <= h <= Z.of_nat (ic_effects c))%Z -> switchers c rows false h = [] \/ tiny <= sumf (obs_weight c) (switchers c rows false h)) ->
  (forall h r, (1 <= h <= Z.of_nat (ic_effects c))%Z -> In r (switchers c rows false h) -> switches_in rows (i_g r) = true /\ own_dose rows r = d) ->
  switchers c rows false 1 <> [] -> (1 <= ic_effects c)%nat ->
  ate (all_horizons c rt false (pipeline c rows)) = Some (total_effect c rows (ic_effects c)).
Proof. intros c rt rows d (Hn & Hd & Hs & H0 & Hg) Hsame Htl. intros. now apply (ate_total c rt rows Hn Hd Hs H0 Hg Hsame Htl d). Qed.
Print Assumptions C79_average_total_effect_partial.
Definition ate_hypb (c : icfg) (rows : list irow) (d : Qc) (n : nat) : bool :=
  (fun u => forallb (fun h => let s := switchers_u c rows false (Z.of_nat h) u in
       match s with [] => true | _ => Qcleb tiny (sumf (obs_weight c) s) end && forallb (fun r => switches_in rows (i_g r) && Qceqb (own_dose rows r) d) s) (seq 1 n))
    (used rows c).
Lemma ate_hypb_ok c rows d : ate_hypb c rows d (ic_effects c) = true ->
  (forall h, (1 <= h <= Z.of_nat (ic_effects c))%Z -> switchers c rows false h = [] \/ tiny <= sumf (obs_weight c) (switchers c rows false h)) /\
  (forall h r, (1 <= h <= Z.of_nat (ic_effects c))%Z -> In r (switchers c rows false h) -> switches_in rows (i_g r) = true /\ own_dose rows r = d).
Proof.
  unfold ate_hypb. cbv zeta beta. rewrite forallb_forall. intros H. split.
  - intros h Hh. specialize (H (Z.to_nat h)). rewrite Z2Nat.id in H by lia. rewrite <- switchers_fast in H. rewrite in_seq, andb_true_iff in H. destruct H as [H _]; [lia|].
    destruct (switchers c rows false h); [now left|right]. destruct (Qcleb_spec tiny (sumf (obs_weight c) (i :: l))); [assumption|discriminate].
  - intros h r Hh Hr. specialize (H (Z.to_nat h)). rewrite Z2Nat.id in H by lia. rewrite <- switchers_fast in H. rewrite in_seq, andb_true_iff in H. destruct H as [_ H]; [lia|].
    rewrite forallb_forall in H. specialize (H r Hr). apply andb_true_iff in H as [e1 e2]. split; [exact e1|]. destruct (Qceqb_spec (own_dose rows r) d); [assumption|discriminate].
Qed.
Example C79_case : panel_ok cfg0 stag /\ ate_hypb cfg0 stag 1 (ic_effects cfg0) = true /\ switchers cfg0 stag false 1 <> []
  /\ ate (all_horizons cfg0 one false (pipeline cfg0 stag)) = Some (Q2Qc (17 # 3)).
Proof. split; [by_panel|]. split; [vm_compute; reflexivity|]. split; [fast; vm_compute; discriminate|by_o]. Qed.
(** In general the divisor is the average dose of the first horizon only: a unit treated with 1, then 3, with effects 1 and 7, has 8 units
    of outcome for 4 units of treatment, 2 per unit; 4 is reported. *)
Definition growing : list irow := [mk 1 1 0 0; mk 1 2 1 1; mk 1 3 7 3; mk 2 1 0 0; mk 2 2 0 0; mk 2 3 0 0]%Z.
Theorem C79_average_total_effect_refuted : exists rows, panel_ok cfg0 rows /\ (forall h r, In r (switchers cfg0 rows false h) -> switches_in rows (i_g r) = true)
  /\ total_effect cfg0 rows 2 = qz 2 /\ ate (all_horizons cfg0 one false (pipeline cfg0 rows)) = Some (qz 4).
Proof.
  exists growing. split; [by_panel|]. split; [|split; [by_q|by_o]].
  intros h r Hr. unfold switchers in Hr. apply filter_In in Hr as [Hr Hs].
  assert (Hd : switch_date growing (i_g r) <> Inf) by (intros e; unfold switcher in Hs; rewrite e in Hs; discriminate). clear Hs.
  apply (used_rows cfg0) in Hr. repeat (destruct Hr as [<-|Hr]; [first [reflexivity|exfalso; apply Hd; reflexivity]|]). destruct Hr.
Qed.
Print Assumptions C79_average_total_effect_refuted.

(** * C80. same_switchers. *)
(** same_switchers_pl = True together with a placebo horizon discards the restriction of same_switchers: the first effect is computed
    with a unit that has no second effect. And same_switchers_pl = True alone does nothing: the placebos are those of all the switchers. *)
Definition samec (same samepl : bool) : icfg := upd cfg0 false AnySw false same samepl false false false false.
Definition samec2 (samepl : bool) : icfg :=
  {| ic_weighted := false; ic_dir := AnySw; ic_only_never := false; ic_same := false; ic_same_pl := samepl; ic_norm := false; ic_keep_bi := false;
     ic_drop_missing := false; ic_trends_lin := false; ic_cluster := false; ic_less := false; ic_effects := 1; ic_placebo := 2 |}.
Definition stag2 : list irow :=
  [mk 1 1 0 0; mk 1 2 5 0; mk 1 3 7 1; mk 1 4 9 1; mk 1 5 9 1; mk 1 6 9 1; mk 1 7 9 1; mk 1 8 9 1;
   mk 2 1 0 0; mk 2 2 1 0; mk 2 3 2 0; mk 2 4 3 0; mk 2 5 9 1; mk 2 6 9 1; mk 2 7 9 1; mk 2 8 9 1;
   mk 3 1 0 0; mk 3 2 1 0; mk 3 3 3 0; mk 3 4 2 0; mk 3 5 2 0; mk 3 6 2 0; mk 3 7 2 0; mk 3 8 2 0]%Z.
Definition nsws (c : icfg) (placebo : bool) (rows : list irow) : list nat :=
  map (fun o => match o with Some r => h_nsw r | None => O end) (all_horizons c one placebo (pipeline c rows)).
Theorem C80_same_switchers_refuted : exists rows rows', panel_ok cfg0 rows /\ panel_ok cfg0 rows'
  /\ nsws (samec true false) false rows = [1%nat; 1%nat] /\ nsws (samec true true) false rows = [2%nat; 1%nat]
  /\ nsws (samec2 true) true rows' = [2%nat; 1%nat].
Proof. exists stag, stag2. split; [by_panel|]. split; [by_panel|]. repeat split; vm_compute; reflexivity. Qed.
Print Assumptions C80_same_switchers_refuted.

(** * C81. No already-switched unit serves as a control. *)
(** The outcome of a unit after its switching date matters for the effect of horizon h only in period F_g - 1 + h (its own effect), and
    not at all for the placebos. *)
Theorem C81_no_forbidden_comparison : forall c rt rows phi (placebo : bool) h, panel_ok c rows -> ic_same c = false -> ic_trends_lin c = false ->
  (1 <= h <= if placebo then ic_placebo c else ic_effects c)%nat -> measured c rows placebo h ->
  (forall r y, In r rows -> match switch_date rows (i_g r) with
                            | Fin F => (i_t r < F)%Z \/ (placebo = false /\ i_t r = (F - 1 + Z.of_nat h)%Z)
                            | Inf => True end -> phi r y = y) ->
  reported c rt (map (with_y phi) rows) placebo h = reported c rt rows placebo h.
Proof. intros. apply report_y; auto. apply avg_local; auto. lia. Qed.
Print Assumptions C81_no_forbidden_comparison.
Example C81_case : panel_ok cfg0 stag /\ measured cfg0 stag false 1
  /\ reported cfg0 one (map (with_y (fun r y => if ((i_g r =? 1)%Z && (4 <=? i_t r)%Z)%bool then qz 1000 else y)) stag) false 1 = reported cfg0 one stag false 1
  /\ reported cfg0 one (map (with_y (fun r y => if ((i_g r =? 1)%Z && (4 <=? i_t r)%Z)%bool then qz 1000 else y)) stag) false 2 <> reported cfg0 one stag false 2.
Proof. split; [by_panel|]. split; [now left|]. split; [by_o|by_ne]. Qed.
(** Without [complete_treatment]: a unit with treatments 0, missing, 1, 1 has switched by period 3, but is used as a control in period 4. *)
Definition gap_d (y4 : Z) : list irow :=
  [mk 1 1 0 0; mk 1 2 1 0; mk 1 3 7 0; mk 1 4 9 1; mk 2 1 0 0; mk 2 2 1 0; mk 2 3 2 0; mk 2 4 3 0;
   mk 3 1 0 0; mkr 3 2 (Some 0%Qc) None None None; mk 3 3 20 1; mk 3 4 y4 1]%Z.
Theorem C81_missing_treatment_refuted : exists rows phi, one_row_per_period rows /\ switch_date rows 3 = Fin 3%Z /\ switch_date rows 1 = Fin 4%Z
  /\ (forall r y, In r rows -> (i_g r, i_t r) <> (3%Z, 4%Z) -> phi r y = y)
  /\ reported cfg0 one (map (with_y phi) rows) false 1 <> reported cfg0 one rows false 1.
Proof.
  exists (gap_d 30), (fun r y => if ((i_g r =? 3)%Z && (i_t r =? 4)%Z)%bool then 0 else y).
  split; [apply (nodupb_ok (fun p q => ((fst p =? fst q)%Z && (snd p =? snd q)%Z)%bool)); [intros (a, b); cbn; now rewrite !Z.eqb_refl|vm_compute; reflexivity]|].
  split; [vm_compute; reflexivity|]. split; [vm_compute; reflexivity|]. split; [|by_ne].
  intros r y _ Hne. destruct (Z.eqb_spec (i_g r) 3) as [e1|], (Z.eqb_spec (i_t r) 4) as [e2|]; try reflexivity. exfalso. apply Hne. congruence.
Qed.
Print Assumptions C81_missing_treatment_refuted.

(** * C82. Not-yet-switchers as controls. *)
(** By default not-yet-switchers are controls too (C70: [not_yet]), but only where a never-switcher with the same baseline is observed in
    the same period: without never-switchers nothing is estimated, although unit 2 switches two periods after unit 1. *)
Theorem C82_not_yet_switchers_refuted : exists rows, panel_ok cfg0 rows /\ switch_date rows 1 = Fin 3%Z /\ switch_date rows 2 = Fin 5%Z
  /\ baseline rows 1 = baseline rows 2 /\ (forall t, (1 <= t <= 5)%Z -> y_at rows 1 t <> None /\ y_at rows 2 t <> None)
  /\ did_multiplegt cfg0 one rows = ([], []).
Proof.
  exists (firstn 10 stag). split; [by_panel|]. split; [reflexivity|]. split; [reflexivity|]. split; [reflexivity|]. split; [|reflexivity].
  intros t Ht. assert (E : (t = 1 \/ t = 2 \/ t = 3 \/ t = 4 \/ t = 5)%Z) by lia. destruct E as [->|[->|[->|[->| ->]]]]; split; vm_compute; discriminate.
Qed.
Print Assumptions C82_not_yet_switchers_refuted.

(** * C83. Clustered standard errors. *)
(** With one cluster per unit the clustered standard error differs from the unclustered one in a balanced panel (the number of clusters
    of a cohort is counted with one more), and in an unbalanced one units that enter after the first period drop out of the variance. *)
Definition clc : icfg := upd cfg0 false AnySw false false false false false false true.
Definition own_cluster (r : irow) : irow := mkr (i_g r) (i_t r) (i_y r) (i_d r) (i_w r) (Some (i_g r)).
Definition early : list irow :=
  [mk 1 1 0 0; mk 1 2 5 1; mk 1 3 7 1; mk 2 1 0 0; mk 2 2 1 0; mk 2 3 2 0; mk 3 1 0 0; mk 3 2 3 0; mk 3 3 2 0; mk 4 1 0 0; mk 4 2 9 1; mk 4 3 8 1]%Z.
Definition later : list irow :=
  [mk 1 2 0 0; mk 1 3 5 1; mk 1 4 7 1; mk 2 1 0 0; mk 2 2 0 0; mk 2 3 1 0; mk 2 4 2 0; mk 3 1 0 0; mk 3 2 0 0; mk 3 3 3 0; mk 3 4 2 0;
   mk 4 2 0 0; mk 4 3 9 1; mk 4 4 8 1]%Z.
Definition se2s (c : icfg) (rows : list irow) : list (option Qc) := map (option_map h_se2) (all_horizons c one false (pipeline c rows)).
Theorem C83_one_cluster_per_unit_refuted : exists rows rows', panel_ok cfg0 rows /\ panel_ok cfg0 rows'
  /\ se2s cfg0 rows = [Some (qz 10); Some (Q2Qc (1 # 2))] /\ se2s clc (map own_cluster rows) = [Some (Q2Qc (73 # 8)); Some (Q2Qc (1 # 2))]
  /\ se2s cfg0 rows' = [Some (qz 10); Some (Q2Qc (1 # 2))] /\ se2s clc (map own_cluster rows') = [Some (Q2Qc (9 # 8)); Some 0].
Proof. exists early, later. split; [by_panel|]. split; [by_panel|]. repeat split; apply loqb_eq; vm_compute; reflexivity. Qed.
Print Assumptions C83_one_cluster_per_unit_refuted.

(** * C84. Units whose treatment goes above and below its baseline. *)
(** keep_bidirectional_switchers = False: the observations of a unit from its first crossing on never matter. *)
Theorem C84_rows_after_crossing_partial : forall c rt rows phi (placebo : bool) h, panel_ok c rows -> ic_same c = false -> ic_trends_lin c = false -> ic_keep_bi c = false ->
  (1 <= h <= if placebo then ic_placebo c else ic_effects c)%nat -> measured c rows placebo h ->
  (forall r y, In r rows -> crossed rows (i_g r) (i_t r) = false -> phi r y = y) ->
  reported c rt (map (with_y phi) rows) placebo h = reported c rt rows placebo h.
Proof.
  intros c rt rows phi placebo h Hp Hs Ht Hk Hh Hm Hphi. apply report_y; auto.
  assert (Hu : map (with_y phi) (used rows c) = used rows c).
  { rewrite <- (map_id (used rows c)) at 2. apply map_ext_in. intros r Hr. pose proof (used_not_crossed c rows Hk r Hr) as Hc. apply (used_rows c) in Hr.
    destruct r as [g t y d w cl tr]. unfold with_y. cbn in *. f_equal. destruct y as [y|]; [|reflexivity]. cbn. f_equal. now apply Hphi. }
  apply avg_f. intros r r' v v' Hr Hr' Hv Hv'. unfold h_change in *. cbn [with_y i_g i_t]. rewrite Hu, Hv, Hv'. cbn. ring.
Qed.
Print Assumptions C84_rows_after_crossing_partial.
(** But the unit is not dropped, as documented: with treatments 1, 2, 0, 0 it is the only switcher of the first effect. *)
Definition crossing (y : Z) : list irow := [mk 1 1 0 1; mk 1 2 y 2; mk 1 3 7 0; mk 1 4 9 0; mk 2 1 0 1; mk 2 2 1 1; mk 2 3 2 1; mk 2 4 3 1]%Z.
Theorem C84_units_not_dropped_refuted : exists rows, panel_ok cfg0 rows /\ (forall g, switch_date rows g <> Inf -> crossed rows g 4 = true)
  /\ reported cfg0 one rows false 1 = Some (qz 4).
Proof.
  exists (crossing 5). split; [by_panel|]. split; [|by_o]. intros g Hg. destruct (Z.eq_dec g 1) as [->|n1]; [reflexivity|]. exfalso. apply Hg.
  destruct (Z.eq_dec g 2) as [->|n2]; [reflexivity|]. assert (E : periods_of (crossing 5) g = []).
  { unfold periods_of. rewrite filter_none; [reflexivity|]. intros r Hr. apply Z.eqb_neq. repeat (destruct Hr as [<-|Hr]; [cbn; congruence|]). destruct Hr. }
  unfold switch_date. rewrite E. reflexivity.
Qed.
Print Assumptions C84_units_not_dropped_refuted.
Example C84_case : panel_ok cfg0 (crossing 5) /\ measured cfg0 (crossing 5) false 1 /\ crossed (crossing 5) 1 3 = true /\ crossed (crossing 5) 1 2 = false
  /\ reported cfg0 one (map (with_y (fun r y => if ((i_g r =? 1)%Z && (3 <=? i_t r)%Z)%bool then qz 1000 else y)) (crossing 5)) false 1 = Some (qz 4).
Proof. split; [by_panel|]. split; [now left|]. split; [reflexivity|]. split; [reflexivity|by_o]. Qed.

(** * C85. The numbering of the periods. *)
(** Renumbering the periods by a constant changes no estimate, as long as no unit's first change gets the number 0. *)
Theorem C85_calendar_shift_partial : forall c rt rows k (placebo : bool) h, panel_ok c rows -> ic_same c = false -> ic_trends_lin c = false ->
  (forall r, In r rows -> switch_date rows (i_g r) <> Fin (- k)%Z) ->
  (1 <= h <= if placebo then ic_placebo c else ic_effects c)%nat -> measured c rows placebo h ->
  reported c rt (map (shift_t k) rows) placebo h = reported c rt rows placebo h.
Proof.
  intros c rt rows k placebo h Hp Hs Ht Hk Hh Hm. pose proof Hp as (Hn & Hd & Hsz & H0 & Hg).
  apply report_same; auto using sw_s, avg_s, avg_dose_s.
  - split; [now apply one_row_s|]. split; [now apply complete_s|]. split; [now rewrite map_length|]. split; [|now apply gapless_s].
    intros r Hr. apply in_map_iff in Hr as (q & <- & Hq). cbn [shift_t i_g]. rewrite switch_date_s. specialize (Hk q Hq).
    destruct (switch_date rows (i_g q)) as [F|]; cbn; [|discriminate]. intros [= e]. apply Hk. f_equal. lia.
  - intros E. now rewrite switchers_s, E.
Qed.
Print Assumptions C85_calendar_shift_partial.
Example C85_case : panel_ok cfg0 stag /\ (forall r, In r stag -> switch_date stag (i_g r) <> Fin (- 2000)%Z) /\ reported cfg0 one (map (shift_t 2000) stag) false 1 = Some (Q2Qc (21 # 4)).
Proof.
  split; [by_panel|]. split; [|by_o]. intros r Hr. assert (E : forallb (fun r => negb (grp_eqb (switch_date stag (i_g r)) (Fin (- 2000)%Z))) stag = true) by (vm_compute; reflexivity).
  rewrite forallb_forall in E. specialize (E r Hr). intros e. rewrite e in E. discriminate.
Qed.
(** A first change in the period numbered 0 is read as never switching: nothing is estimated. *)
Theorem C85_switch_at_zero_refuted : exists rows k, panel_ok cfg0 rows /\ did_multiplegt cfg0 one rows = ([Some (qz 4); Some (qz 7)], (Some 0 :: nil))
  /\ did_multiplegt cfg0 one (map (shift_t k) rows) = ([], []).
Proof.
  exists (firstn 5 stag ++ skipn 10 stag), (-3)%Z. split; [by_panel|]. split; [|reflexivity].
  rewrite (surjective_pairing (did_multiplegt _ _ _)). f_equal; apply loqb_eq; vm_compute; reflexivity.
Qed.
Print Assumptions C85_switch_at_zero_refuted.
(** The standard error is computed from the observations numbered h + 1 and later: with periods 0, 1, 2 in place of 1, 2, 3 it is 0. *)
Theorem C85_standard_error_refuted : exists rows k, panel_ok cfg0 rows /\ panel_ok cfg0 (map (shift_t k) rows)
  /\ fst (did_multiplegt cfg0 one (map (shift_t k) rows)) = fst (did_multiplegt cfg0 one rows)
  /\ se2s cfg0 rows = [Some (qz 10); Some (Q2Qc (1 # 2))] /\ se2s cfg0 (map (shift_t k) rows) = [Some 0; Some 0].
Proof.
  exists early, (-1)%Z. split; [by_panel|]. split; [by_panel|]. split; [apply loqb_eq; vm_compute; reflexivity|]. split; apply loqb_eq; vm_compute; reflexivity.
Qed.
Print Assumptions C85_standard_error_refuted.
(** Periods that are not consecutive (every second year): the horizons are positions in the sorted list of periods, but the switching
    date is a number; the second effect disappears. *)
Definition every_second (r : irow) : irow := mkr (i_g r) (2 * i_t r) (i_y r) (i_d r) (i_w r) (i_cl r).
Theorem C85_gaps_refuted : exists rows, panel_ok cfg0 rows /\ fst (did_multiplegt cfg0 one rows) = [Some (Q2Qc (21 # 4)); Some (Q2Qc (13 # 2))]
  /\ fst (did_multiplegt cfg0 one (map every_second rows)) = [Some (Q2Qc (21 # 4)); None].
Proof. exists stag. split; [by_panel|]. split; apply loqb_eq; vm_compute; reflexivity. Qed.
Print Assumptions C85_gaps_refuted.

(** * C86. The scale of the sampling weights. *)
Theorem C86_weight_scale_partial : forall c rt rows k (placebo : bool) h, panel_ok c rows -> ic_same c = false -> ic_trends_lin c = false -> ic_norm c = false -> ic_weighted c = true -> 0 < k ->
  (1 <= h <= if placebo then ic_placebo c else ic_effects c)%nat ->
  tiny <= sumf (obs_weight c) (switchers c rows placebo (Z.of_nat h)) -> tiny <= k * sumf (obs_weight c) (switchers c rows placebo (Z.of_nat h)) ->
  reported c rt (map (scale_w k) rows) placebo h = reported c rt rows placebo h.
Proof.
  intros c rt rows k placebo h Hp Hs Ht Hno Hwt Hk Hh Hw Hw'. pose proof Hp as (Hn & Hd & Hsz & H0 & Hg).
  assert (Hp' : panel_ok c (map (scale_w k) rows)).
  { split; [unfold one_row_per_period in *; now rewrite map_map|]. split; [intros r Hr; apply in_map_iff in Hr as (q & <- & Hq); cbn; auto|].
    split; [now rewrite map_length|]. split; [intros r Hr; apply in_map_iff in Hr as (q & <- & Hq); cbn [scale_w i_g]; rewrite switch_date_w; auto|].
    rewrite used_w by assumption. intros r r' x Hr Hr' Hx. apply in_map_iff in Hr as (q & <- & Hq). apply in_map_iff in Hr' as (q' & <- & Hq'). cbn in Hx.
    destruct (Hg q q' x Hq Hq' Hx) as (s & h1 & h2). exists (scale_w k s). split; [now apply in_map|exact h2]. }
  rewrite !report_unnorm; auto; [f_equal; now apply avg_w|]. now rewrite sw_w.
Qed.
Print Assumptions C86_weight_scale_partial.
Definition wgc : icfg := upd cfg0 true AnySw false false false false false false false.
Example C86_case : panel_ok wgc (map (set_w (qz 2)) stag) /\ tiny <= sumf (obs_weight wgc) (switchers wgc (map (set_w (qz 2)) stag) false 1)
  /\ reported wgc one (map (scale_w (Q2Qc (1 # 4))) (map (set_w (qz 2)) stag)) false 1 = Some (Q2Qc (21 # 4)).
Proof. split; [by_panel|]. split; [by_le|by_o]. Qed.
(** Weights that add up to less than 1e-10 over the switchers: the effect is multiplied by (their total) * 1e10. *)
Theorem C86_small_weights_refuted : exists rows k, panel_ok wgc rows /\ 0 < k /\ reported wgc one rows false 1 = Some (Q2Qc (21 # 4))
  /\ reported wgc one (map (scale_w k) rows) false 1 = Some (Q2Qc (21 # 20)).
Proof. exists (map (set_w 1) stag), (Q2Qc (1 # 100000000000)). split; [by_panel|]. split; [reflexivity|]. split; by_o. Qed.
Print Assumptions C86_small_weights_refuted.
