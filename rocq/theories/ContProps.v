(** C97, C98, C100: continuous treatment, what the estimates are. *)
From Verif Require Import Base ListLib ReduceModel DrdidModel DrdidSpec SplineModel SplineSpec SplineProps ContModel ContSpec ContProofs ContProofs2 ContProofs3 ContProofs4 ContProofs5 ContProofs6 ContWitness Witness.
From Coq Require Import Sorting.Sorted.

(** * C97: difference in differences, whatever the spline *)
Theorem C97_cell : forall orc o T us r c e,
  panel_ok (co_ant o) T us -> co_univ o = false -> lstsq_ok (co_lstsq orc) ->
  cont_did orc o (rows T us) = ContOk r -> In c (r_cells r) -> pc_out c = CEst e ->
  comparison (co_nyt o) us (pc_g c) (pc_t c) <> [] ->
  e_att e = Some (did (co_nyt o) (co_ant o) us (pc_g c) (pc_t c)).
Proof.
  intros orc o T us r c e Ok V L Run Ic E C. destruct (cells_inv orc o T us Ok V r Run c Ic) as [g [t [Hg [Ht [Eg [Et ->]]]]]].
  cbn [pc_g pc_t process_cell] in *. exact (cell_att orc o T us Ok V L g t Hg Ht _ _ e E C).
Qed.
Print Assumptions C97_cell.

Theorem C97_overall : forall orc o T us r,
  panel_ok (co_ant o) T us -> co_univ o = false -> lstsq_ok (co_lstsq orc) ->
  cont_did orc o (rows T us) = ContOk r ->
  (forall c, In c (r_cells r) -> (pc_g c <= pc_t c)%Z -> exists e, pc_out c = CEst e) ->
  (exists u, In u us /\ k_g u = None) ->
  r_att r = sumf (fun g => share us g * mean (did (co_nyt o) (co_ant o) us g) (exposed T g)) (cohorts us).
Proof.
  intros orc o T us r Ok V L Run All [n [In_ Nn]]. rewrite (att_sum orc o T us Ok V r Run L). apply sumf_ext. intros g Hg. f_equal. apply mean_ext. intros t Ht.
  assert (B := g_bounds' o T us Ok g Hg). assert (A0 : (0 <= co_ant o)%Z) by apply Ok. apply (exposed_in o T us Ok) in Ht; [|exact Hg].
  destruct (All _ (cells_all orc o T us Ok V r Run g t Hg ltac:(lia))) as [e E]; [cbn; lia|]. unfold estimated. rewrite E.
  destruct (comparison (co_nyt o) us g t) eqn:C; [|reflexivity]. exfalso.
  assert (I : In n (comparison (co_nyt o) us g t)) by (apply filter_In; rewrite Nn; auto). now rewrite C in I.
Qed.
Print Assumptions C97_overall.

(** * C98: exact recovery of polynomial dose responses *)
(** Outcomes with unit and period effects and a dose response [f] from adoption on. *)
Definition dose_response (us : list cunit) (f : Qc -> Qc) : Prop :=
  exists alpha lambda, forall u t, In u us ->
    k_y u t = alpha (k_id u) + lambda t + (match k_g u with Some g => if (g <=? t)%Z then f (k_dose u) else 0 | None => 0 end).

Lemma mean_const' {A} (f : A -> Qc) c l : l <> [] -> (forall a, In a l -> f a = c) -> mean f l = c.
Proof. intros H E. rewrite (mean_ext f (fun _ => c)) by exact E. now apply mean_const. Qed.
Lemma poly_shift a c : exists a', length a' = Nat.max 1 (length a) /\ (forall v, poly a' v = poly a v + c) /\ (forall v, poly' a' v = poly' a v).
Proof.
  destruct a as [|a0 a].
  - exists [c]. split; [reflexivity|]. split; intros v; unfold poly, poly'; cbn; ring.
  - exists ((a0 + c) :: a). split; [reflexivity|]. split; intros v.
    + unfold poly. cbn [length seq]. rewrite !sumf_cons. cbn [nth qpow]. rewrite <- seq_shift, !sumf_map. cbn [nth qpow]. ring.
    + unfold poly'. cbn [length]. apply sumf_ext. intros m _. reflexivity.
Qed.
Lemma poly_nil_shift c : (forall v, poly [c] v = c) /\ (forall v, poly' [c] v = 0).
Proof. split; intros v; unfold poly, poly'; cbn; ring. Qed.

Section TW.
  Context (orc : coracle) (o : copts) (T : nat) (us : list cunit) (Ok : panel_ok (co_ant o) T us) (V : co_univ o = false).
  Context (Lok : lstsq_ok (co_lstsq orc)) (Iok : cinv_ok (co_inv orc)).
  Context (a : list Qc) (La : (length a <= co_deg o + 1)%nat) (DR : dose_response us (poly a)) (Never : exists u, In u us /\ k_g u = None).
  Lemma tw_cell g t knots dvals e : In g (cohorts us) -> (2 <= t <= Z.of_nat T)%Z ->
    pc_out (process_cell orc o knots dvals (rows T us) t g) = CEst e ->
    if (g <=? t)%Z
    then e_attd e = Some (map (poly a) dvals) /\ e_acrtd e = map (poly' a) dvals /\
         e_att e = Some (mean (fun u => poly a (k_dose u)) (cohort us g)) /\ e_acrt e = mean (fun u => poly' a (k_dose u)) (cohort us g)
    else e_attd e = Some (map (fun _ => 0) dvals) /\ e_acrtd e = map (fun _ => 0) dvals.
  Proof.
    intros Hg Ht E. destruct DR as [al [la F]]. assert (B := g_bounds' o T us Ok g Hg). assert (A0 : (0 <= co_ant o)%Z) by apply Ok.
    set (b := reference (co_ant o) g t) in *. set (c := la t - la b).
    assert (Hb : (b < t)%Z /\ (b < g)%Z) by (unfold b, reference; destruct (Z.ltb_spec t (g - co_ant o)); lia).
    assert (Cne : comparison (co_nyt o) us g t <> []).
    { destruct Never as [n [I N]]. intros C. assert (J : In n (comparison (co_nyt o) us g t)) by (apply filter_In; rewrite N; auto). now rewrite C in J. }
    assert (M : mean (change (co_ant o) g t) (comparison (co_nyt o) us g t) = c).
    { apply mean_const'; [exact Cne|]. intros u Hu. apply filter_In in Hu. destruct Hu as [Hu P]. unfold change. fold b. rewrite !F by exact Hu. unfold c.
      destruct (k_g u) as [h|]; [|ring]. apply andb_prop in P. destruct P as [P _]. apply andb_prop in P. destruct P as [_ P]. apply Z.ltb_lt in P.
      destruct (Z.leb_spec h t); [lia|]. destruct (Z.leb_spec h b); [lia|]. ring. }
    assert (Tr : forall u, In u (cohort us g) -> change (co_ant o) g t u = (if (g <=? t)%Z then poly a (k_dose u) else 0) + c).
    { intros u Hu. apply filter_In in Hu. destruct Hu as [Hu P]. unfold change. fold b. rewrite !F by exact Hu. unfold c. destruct (k_g u) as [h|]; [|discriminate].
      apply Z.eqb_eq in P. subst h. destruct (Z.leb_spec g b); [lia|]. destruct (g <=? t)%Z; ring. }
    destruct (g <=? t)%Z.
    - destruct (poly_shift a c) as [a' [L' [P1 P2]]].
      destruct (cell_poly orc o T us Ok V Lok g t Hg Ht Iok knots dvals e a' c E) as [E1 [E2 [E3 [E4 _]]]]; [lia| |exact Cne|exact M|].
      { intros u Hu. rewrite P1. now apply Tr. }
      rewrite E1, E2, E3, E4. split; [|split; [|split]].
      + f_equal. apply map_ext. intros v. rewrite P1. ring.
      + apply map_ext. exact P2.
      + f_equal. rewrite (mean_ext _ (fun u => poly a (k_dose u) + c)) by (intros; apply P1). rewrite mean_add, mean_const; [ring|].
        destruct (proj1 (cohorts_in us g) Hg) as [u [I K]]. intros N. assert (J : In u (cohort us g)) by (apply filter_In; rewrite K, Z.eqb_refl; auto). now rewrite N in J.
      + apply mean_ext. intros; apply P2.
    - destruct (poly_nil_shift c) as [P1 P2].
      destruct (cell_poly orc o T us Ok V Lok g t Hg Ht Iok knots dvals e [c] c E) as [E1 [E2 _]]; [cbn; lia| |exact Cne|exact M|].
      { intros u Hu. rewrite P1, (Tr u Hu). ring. }
      rewrite E1, E2. split; [f_equal|]; apply map_ext; intros v; [rewrite P1; ring|apply P2].
  Qed.
End TW.

Theorem C98_polynomial_recovery : forall orc o T us r a,
  panel_ok (co_ant o) T us -> co_univ o = false -> lstsq_ok (co_lstsq orc) -> cinv_ok (co_inv orc) ->
  (length a <= co_deg o + 1)%nat -> dose_response us (poly a) -> (exists u, In u us /\ k_g u = None) ->
  cont_did orc o (rows T us) = ContOk r ->
  (forall c, In c (r_cells r) -> (pc_g c <= pc_t c)%Z -> exists e, pc_out c = CEst e) ->
  r_att_d r = Some (map (poly a) (r_dose r)) /\
  r_acrt_d r = Some (map (poly' a) (r_dose r)) /\
  r_att r = sumf (fun g => share us g * mean (fun u => poly a (k_dose u)) (cohort us g)) (cohorts us) /\
  r_acrt r = sumf (fun g => share us g * mean (fun u => poly' a (k_dose u)) (cohort us g)) (cohorts us).
Proof.
  intros orc o T us r a Ok V L Iv La DR Nv Run All. assert (A0 : (0 <= co_ant o)%Z) by apply Ok.
  assert (Cne := run_nonempty orc o T us r Ok V Run). destruct (run_inv orc o T us Ok V Cne r Run) as [_ [_ [Ed _]]].
  assert (Est : forall g t, In g (cohorts us) -> (g <= t <= Z.of_nat T)%Z -> exists e, pc_out (process_cell orc o (run_knots o T us) (run_grid o T us) (rows T us) t g) = CEst e).
  { intros g t Hg Ht. assert (B := g_bounds' o T us Ok g Hg). apply All; [|cbn; lia]. apply (cells_all orc o T us Ok V r Run); [exact Hg|lia]. }
  assert (Ex : exists g t, In g (cohorts us) /\ (g <= t <= Z.of_nat T)%Z /\ estimated orc o T us g t = true).
  { destruct (cohorts us) as [|g q] eqn:E; [easy|]. assert (Hg : In g (cohorts us)) by (rewrite E; now left). assert (B := g_bounds' o T us Ok g Hg).
    exists g, g. split; [now left|]. split; [lia|]. destruct (Est g g (or_introl eq_refl) ltac:(lia)) as [e Ee]. unfold estimated. now rewrite Ee. }
  assert (G : run_grid o T us <> []).
  { destruct Ex as [g [t [Hg [Ht E]]]]. assert (B := g_bounds' o T us Ok g Hg). intros N. unfold estimated in E.
    rewrite (cell_eq orc o T us Ok V g t Hg ltac:(lia)) in E. rewrite N in E. discriminate. }
  assert (TW := fun g t e Hg Ht H => tw_cell orc o T us Ok V L Iv a La DR Nv g t (run_knots o T us) (run_grid o T us) e Hg Ht H).
  destruct (curves orc o T us Ok V r Run G) as [-> ->]. rewrite Ed. split; [|split; [|split]].
  - apply (curve_common orc o T us Ok V r Run e_attd); [exact G|apply map_length|exact Ex|]. intros g t e Hg Ht H. specialize (TW g t e Hg Ht H).
    destruct (Z.leb_spec g t).
    + exists (map (poly a) (run_grid o T us)). split; [apply TW|]. split; [apply map_length|reflexivity].
    + exists (map (fun _ => 0) (run_grid o T us)). split; [apply TW|]. split; [apply map_length|lia].
  - apply (curve_common orc o T us Ok V r Run (fun e => Some (e_acrtd e))); [exact G|apply map_length|exact Ex|]. intros g t e Hg Ht H. specialize (TW g t e Hg Ht H).
    destruct (Z.leb_spec g t).
    + exists (map (poly' a) (run_grid o T us)). split; [f_equal; apply TW|]. split; [apply map_length|reflexivity].
    + exists (map (fun _ => 0) (run_grid o T us)). split; [f_equal; apply TW|]. split; [apply map_length|lia].
  - rewrite (C97_overall orc o T us r Ok V L Run All Nv). apply sumf_ext. intros g Hg. f_equal. apply mean_const'.
    { intros N. assert (P := exposed_pos o T us Ok g Hg). rewrite N in P. cbn in P. lia. }
    intros t Ht. apply (exposed_in o T us Ok) in Ht; [|exact Hg]. assert (B := g_bounds' o T us Ok g Hg). destruct (Est g t Hg Ht) as [e E].
    specialize (TW g t e Hg ltac:(lia) E). destruct (Z.leb_spec g t); [|lia]. destruct TW as [_ [_ [W _]]].
    assert (C : comparison (co_nyt o) us g t <> []).
    { destruct Nv as [n [I N]]. intros C. assert (J : In n (comparison (co_nyt o) us g t)) by (apply filter_In; rewrite N; auto). now rewrite C in J. }
    rewrite (cell_att orc o T us Ok V L g t Hg ltac:(lia) _ _ e E C) in W. exact (f_equal zero_of W).
  - rewrite (acrt_sum orc o T us Ok V r Run (fun g _ => mean (fun u => poly' a (k_dose u)) (cohort us g))).
    + apply sumf_ext. intros g Hg. f_equal. apply mean_const'.
      { intros N. assert (P := exposed_pos o T us Ok g Hg). rewrite N in P. cbn in P. lia. }
      intros t Ht. apply (exposed_in o T us Ok) in Ht; [|exact Hg]. destruct (Est g t Hg Ht) as [e E]. unfold estimated. now rewrite E.
    + intros g t e Hg Ht E. assert (B := g_bounds' o T us Ok g Hg). specialize (TW g t e Hg ltac:(lia) E). destruct (Z.leb_spec g t); [|lia]. apply TW.
Qed.
Print Assumptions C98_polynomial_recovery.

(** * C100: the weights *)
Theorem C100_weights : forall orc o T us r,
  panel_ok (co_ant o) T us -> co_univ o = false -> cont_did orc o (rows T us) = ContOk r ->
  r_weights r = map (fun c => if (pc_g c <=? pc_t c)%Z then share us (pc_g c) / qn (length (exposed T (pc_g c))) else 0) (r_cells r) /\
  (forall w, In w (r_weights r) -> 0 <= w) /\ qsum (r_weights r) = 1.
Proof.
  intros orc o T us r Ok V Run. assert (Cne := run_nonempty orc o T us r Ok V Run). destruct (run_inv orc o T us Ok V Cne r Run) as [Ec [Ew _]].
  rewrite Ew, Ec. split; [|split].
  - rewrite <- (pairs_eq orc o T us), map_map. reflexivity.
  - intros w Hw. apply in_map_iff in Hw. destruct Hw as [c [<- Hc]]. now apply (wt_nonneg o T us Ok Cne).
  - exact (wt_sum o T us Ok Cne).
Qed.
Print Assumptions C100_weights.
(** The general formula: cells that were not estimated count as an effect of zero. *)
Theorem C100_unestimated_cells_count_as_zero : forall orc o T us r,
  panel_ok (co_ant o) T us -> co_univ o = false -> lstsq_ok (co_lstsq orc) -> (forall X y, co_lstsq orc X y <> None) ->
  cont_did orc o (rows T us) = ContOk r -> r_dose r <> [] -> (exists u, In u us /\ k_g u = None) ->
  r_att r = sumf (fun g => share us g * mean (did (co_nyt o) (co_ant o) us g) (exposed T g))
              (filter (fun g => existsb (fun u => existsb (fun v => negb (Qceqb (k_dose u) (k_dose v))) (cohort us g)) (cohort us g)) (cohorts us)).
Proof.
  intros orc o T us r Ok V L Tot Run Gne Nv. assert (A0 : (0 <= co_ant o)%Z) by apply Ok.
  assert (Cne := run_nonempty orc o T us r Ok V Run). destruct (run_inv orc o T us Ok V Cne r Run) as [Ec [_ [Ed [Nr [Nn _]]]]].
  rewrite (att_sum orc o T us Ok V r Run L).
  rewrite <- sumf_filter_ind. apply sumf_ext. intros g Hg. assert (B := g_bounds' o T us Ok g Hg).
  assert (Q : existsb (fun u => existsb (fun v => negb (Qceqb (k_dose u) (k_dose v))) (cohort us g)) (cohort us g) = two_doses (map k_dose (cohort us g))).
  { assert (E : two_doses (map k_dose (cohort us g)) = false <-> existsb (fun u => existsb (fun v => negb (Qceqb (k_dose u) (k_dose v))) (cohort us g)) (cohort us g) = false).
    { unfold two_doses. split.
      - intros H. destruct (Qceqb_spec (qmin_l (map k_dose (cohort us g))) (qmax_l (map k_dose (cohort us g)))) as [E|]; [|discriminate].
        assert (S : forall u, In u (cohort us g) -> k_dose u = qmin_l (map k_dose (cohort us g))).
        { intros u Hu. assert (I : In (k_dose u) (map k_dose (cohort us g))) by now apply in_map. destruct (map k_dose (cohort us g)) as [|d0 q]; [easy|].
          apply Qcle_antisym; [rewrite E|]; cbn [qmin_l qmax_l]; [now apply fold_max_ge|now apply fold_min_le]. }
        destruct (existsb _ (cohort us g)) eqn:X; [|reflexivity]. apply existsb_exists in X. destruct X as [u [Hu X]]. apply existsb_exists in X. destruct X as [v [Hv X]].
        rewrite (S u Hu), (S v Hv) in X. destruct (Qceqb_spec (qmin_l (map k_dose (cohort us g))) (qmin_l (map k_dose (cohort us g)))); [discriminate|contradiction].
      - intros H. apply negb_false_iff.
        assert (S : forall u v, In u (cohort us g) -> In v (cohort us g) -> k_dose u = k_dose v).
        { intros u v Hu Hv. destruct (Qceqb_spec (k_dose u) (k_dose v)) as [e|n]; [exact e|]. exfalso.
          assert (X : existsb (fun u => existsb (fun v => negb (Qceqb (k_dose u) (k_dose v))) (cohort us g)) (cohort us g) = true); [|congruence].
          apply existsb_exists. exists u. split; [exact Hu|]. apply existsb_exists. exists v. split; [exact Hv|]. destruct (Qceqb_spec (k_dose u) (k_dose v)); [contradiction|reflexivity]. }
        destruct (cohort us g) as [|x q]; [reflexivity|]. cbn [map qmin_l qmax_l].
        assert (F : forall q, (forall v, In v q -> k_dose v = k_dose x) ->
          fold_right (fun y m => if Qcltb y m then y else m) (k_dose x) (map k_dose q) = k_dose x /\ fold_right (fun y m => if Qcltb m y then y else m) (k_dose x) (map k_dose q) = k_dose x).
        { clear. induction q as [|v q IH]; cbn [map fold_right]; intros H; [auto|]. destruct IH as [E1 E2]; [intros w Hw; apply H; now right|]. rewrite E1, E2, (H v (or_introl eq_refl)).
          destruct (Qcltb (k_dose x) (k_dose x)); auto. }
        destruct (F q) as [E1 E2]; [intros v Hv; apply S; [now right|now left]|]. rewrite E1, E2. destruct (Qceqb_spec (k_dose x) (k_dose x)); [reflexivity|contradiction]. }
    destruct (two_doses (map k_dose (cohort us g))), (existsb _ (cohort us g)); try reflexivity; [discriminate (proj2 E eq_refl)|discriminate (proj1 E eq_refl)]. }
  rewrite Q.
  assert (Est : forall t, (g <= t <= Z.of_nat T)%Z -> estimated orc o T us g t = two_doses (map k_dose (cohort us g))).
  { intros t Ht. unfold estimated. set (c := process_cell orc o (run_knots o T us) (run_grid o T us) (rows T us) t g).
    assert (Ic : In c (run_cells orc o T us)) by (apply (cell_in orc o T us Ok); exists g, t; split; [exact Hg|split; [lia|reflexivity]]).
    assert (Rc : is_raise c = false) by (destruct (is_raise c) eqn:R; [|reflexivity]; assert (X : existsb is_raise (run_cells orc o T us) = true) by (apply existsb_exists; exists c; auto); congruence).
    unfold is_raise in Rc. unfold c in *. rewrite (cell_eq orc o T us Ok V g t Hg ltac:(lia)) in *. rewrite Ed in Gne. destruct (run_grid o T us) as [|d0 dv]; [easy|].
    rewrite fit_eq in *. cbv zeta in *. rewrite (treated_eq o T us Ok g t ltac:(lia)), (comp_eq o T us Ok g t ltac:(lia)) in *. fold (treated o us g t) in *. rewrite (doses_eq o us g t) in *.
    destruct (two_doses (map k_dose (cohort us g))); cbn [negb] in *; [|reflexivity].
    destruct (cell_knots _ _ _) as [kt|]; [|discriminate]. destruct (co_lstsq orc _ _) as [coef|] eqn:Lq; [|exfalso; now apply Tot in Lq].
    destruct ((0 <? co_deg o)%nat && _); [discriminate|]. destruct (co_inv orc _); [reflexivity|discriminate]. }
  destruct (two_doses (map k_dose (cohort us g))).
  - f_equal. apply mean_ext. intros t Ht. apply (exposed_in o T us Ok) in Ht; [|exact Hg]. rewrite (Est t Ht).
    destruct (comparison (co_nyt o) us g t) eqn:C; [|reflexivity]. exfalso. destruct Nv as [n [I N]].
    assert (J : In n (comparison (co_nyt o) us g t)) by (apply filter_In; rewrite N; auto). now rewrite C in J.
  - rewrite mean_const'  with (c := 0); [ring| |].
    + intros N. assert (P := exposed_pos o T us Ok g Hg). rewrite N in P. cbn in P. lia.
    + intros t Ht. apply (exposed_in o T us Ok) in Ht; [|exact Hg]. now rewrite (Est t Ht).
Qed.
Print Assumptions C100_unestimated_cells_count_as_zero.

(** * Concrete cases *)
Definition grid4 : list Qc := [qz 1; qz 2; qz 3; qz 4].
Definition wit_opts : copts := opts true 0 2 1 grid4.
Definition wit_run : cont_result := result_of (cont_did exact wit_opts (rows 3 wit_panel)).
Lemma wit_ok : panel_ok (co_ant wit_opts) 3 wit_panel. Proof. by_panel. Qed.
Lemma wit_est : cont_did exact wit_opts (rows 3 wit_panel) = ContOk wit_run /\ forall c, In c (r_cells wit_run) -> exists e, pc_out c = CEst e.
Proof. apply all_est_ok. vm_compute. reflexivity. Qed.
Lemma wit_never : exists u, In u wit_panel /\ k_g u = None.
Proof. exists (mkc 11 None 0 (noise 11)). split; [|reflexivity]. unfold wit_panel. cbn [map]. do 10 right. left. reflexivity. Qed.
(** Two cohorts, a quadratic spline with one knot, arbitrary outcomes: the overall estimate is not zero. *)
Example C97_example : r_att wit_run = sumf (fun g => share wit_panel g * mean (did true 0 wit_panel g) (exposed 3 g)) (cohorts wit_panel) /\ r_att wit_run = q (-59) 40.
Proof.
  split; [|by_qc]. apply (C97_overall exact wit_opts 3 wit_panel wit_run wit_ok eq_refl exact_lstsq_ok (proj1 wit_est)); [|exact wit_never].
  exact (fun c Hc _ => proj2 wit_est c Hc).
Qed.
(** Effects 2 + 3 d^2 on top of unit and period effects. *)
Definition dr_panel : list cunit :=
  map (with_y (fun u t => qz (k_id u * k_id u) + qz (t * t * 5) + match k_g u with Some g => if (g <=? t)%Z then poly [qz 2; 0; qz 3] (k_dose u) else 0 | None => 0 end)) wit_panel.
Definition dr_run : cont_result := result_of (cont_did exact wit_opts (rows 3 dr_panel)).
Lemma dr_est : cont_did exact wit_opts (rows 3 dr_panel) = ContOk dr_run /\ forall c, In c (r_cells dr_run) -> exists e, pc_out c = CEst e.
Proof. apply all_est_ok. vm_compute. reflexivity. Qed.
Example C98_example : r_att_d dr_run = Some (map (poly [qz 2; 0; qz 3]) (r_dose dr_run)) /\ r_acrt_d dr_run = Some (map (poly' [qz 2; 0; qz 3]) (r_dose dr_run)) /\ r_dose dr_run = grid4.
Proof.
  assert (H := C98_polynomial_recovery exact wit_opts 3 dr_panel dr_run [qz 2; 0; qz 3]).
  destruct H as [H1 [H2 _]]; [by_panel|reflexivity|exact exact_lstsq_ok|exact exact_inv_ok|cbn; lia| | |exact (proj1 dr_est)|exact (fun c Hc _ => proj2 dr_est c Hc)|].
  - exists (fun i => qz (i * i)), (fun t => qz (t * t * 5)). intros u t Hu. unfold dr_panel in Hu. apply in_map_iff in Hu. destruct Hu as [v [<- _]]. reflexivity.
  - exists (with_y (fun u t => qz (k_id u * k_id u) + qz (t * t * 5) + match k_g u with Some g => if (g <=? t)%Z then poly [qz 2; 0; qz 3] (k_dose u) else 0 | None => 0 end) (mkc 11 None 0 (noise 11))).
    split; [|reflexivity]. unfold dr_panel. apply in_map. unfold wit_panel. cbn [map]. do 10 right. left. reflexivity.
  - split; [exact H1|]. split; [exact H2|]. vm_compute. reflexivity.
Qed.
Example C100_example : r_weights wit_run = [q 1 4; 0; q 1 4; q 1 2] /\ map (fun c => (pc_g c, pc_t c)) (r_cells wit_run) = [(2, 2); (3, 2); (2, 3); (3, 3)]%Z.
Proof. split; [|vm_compute; reflexivity]. apply qlist_eqb_eq. vm_compute. reflexivity. Qed.
(** One cohort has a single dose level: its cells are not estimated, and count as an effect of zero with full weight, so the overall effect is not
    the weighted average of the cohorts' effects, and differs from the average of the reported dose curve even though that curve is constant. *)
Definition single_panel : list cunit :=
  map (fun p => let '(i, g, d) := p in mkc i g d (fun t => match g with Some g => if (g <=? t)%Z then qz 4 else 0 | None => 0 end))
    [(1, Some 2, 1); (2, Some 2, 3); (3, Some 3, 2); (4, Some 3, 2); (5, None, 0)]%Z.
Definition single_opts : copts := opts true 0 1 0 [qz 1; qz 2].
Definition single_run : cont_result := result_of (cont_did exact single_opts (rows 3 single_panel)).
Theorem C100_weighted_average_refuted :
  panel_ok (co_ant single_opts) 3 single_panel /\ dose_response single_panel (poly [qz 4]) /\
  cont_did exact single_opts (rows 3 single_panel) = ContOk single_run /\
  (forall g t, In (g, t) [(2, 2); (2, 3); (3, 3)]%Z -> did true 0 single_panel g t = qz 4) /\
  sumf (fun g => share single_panel g * mean (did true 0 single_panel g) (exposed 3 g)) (cohorts single_panel) = qz 4 /\
  r_att_d single_run = Some [qz 4; qz 4] /\ r_att single_run = qz 2.
Proof.
  split; [by_panel|]. split; [|split; [|split; [|split; [|split]]]].
  - exists (fun _ => 0), (fun _ => 0). intros u t Hu. unfold single_panel in Hu. apply in_map_iff in Hu. destruct Hu as [[[i g] d] [<- _]]. cbn [mkc k_y k_g k_dose].
    rewrite (proj1 (poly_nil_shift (qz 4))). destruct g as [g|]; [destruct (g <=? t)%Z|]; ring.
  - unfold single_run. assert (H : match cont_did exact single_opts (rows 3 single_panel) with ContOk _ => true | _ => false end = true) by (vm_compute; reflexivity).
    destruct (cont_did exact single_opts (rows 3 single_panel)); [discriminate|discriminate|reflexivity].
  - intros g t [E|[E|[E|[]]]]; injection E as <- <-; by_qc.
  - by_qc.
  - assert (H : match r_att_d single_run with Some l => qlist_eqb l [qz 4; qz 4] | None => false end = true) by (vm_compute; reflexivity).
    destruct (r_att_d single_run); [|discriminate]. f_equal. now apply qlist_eqb_eq.
  - by_qc.
Qed.
Print Assumptions C100_weighted_average_refuted.
