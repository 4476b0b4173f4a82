(** What the estimates do not depend on. *)
From Verif Require Import Base ListLib ReduceModel DrdidModel DrdidSpec SplineModel SplineSpec ContModel ContSpec ContProofs ContProofs2 ContProofs3 ContProofs4 ContProofs5 ContProofs6.
From Coq Require Import Sorting.Sorted.

(** * Only the adopters matter for the ACRT *)
Lemma filter_filter {A} (p q : A -> bool) l : filter p (filter q l) = filter (fun a => q a && p a) l.
Proof. induction l as [|a l IH]; [reflexivity|]. cbn [filter]. destruct (q a); cbn [filter andb]; [destruct (p a)|]; now rewrite IH. Qed.
Lemma cohort_adopters us g : cohort us g = cohort (adopters us) g.
Proof. unfold cohort, adopters. rewrite filter_filter. apply filter_ext_in'. intros u _. destruct (k_g u); reflexivity. Qed.
Lemma cohorts_adopters us : cohorts us = cohorts (adopters us).
Proof.
  unfold cohorts. f_equal. unfold adopters. induction us as [|u us IH]; [reflexivity|]. cbn [flat_map filter]. destruct (k_g u) as [g|] eqn:E; cbn [flat_map app]; rewrite IH; [now rewrite E|reflexivity].
Qed.
Lemma adopters_idem us : adopters (adopters us) = adopters us.
Proof. unfold adopters. rewrite filter_filter. apply filter_ext_in'. intros u _. destruct (k_g u); reflexivity. Qed.
Lemma share_adopters us g : share us g = share (adopters us) g.
Proof. unfold share. now rewrite (cohort_adopters us), adopters_idem. Qed.
Lemma doses_adopters T us : positive_doses (rows T us) = positive_doses (rows T (adopters us)).
Proof.
  unfold positive_doses, rows, rows_in. f_equal. unfold adopters. induction us as [|u us IH]; [reflexivity|]. cbn [flat_map filter]. rewrite filter_app, IH.
  destruct (k_g u) as [g|] eqn:E; cbn [flat_map]; [now rewrite filter_app|].
  assert (Q : forall l, filter (fun r => match c_g r with Some g => (g <=? c_t r)%Z && Qcltb 0 (c_d r) | None => false end) (map (row_of u) l) = []).
  { induction l as [|t l IHl]; [reflexivity|]. cbn [map filter row_of c_g]. now rewrite E. }
  now rewrite Q.
Qed.
Definition acrt_rel (c c' : pcell) : Prop :=
  pc_g c' = pc_g c /\ pc_t c' = pc_t c /\
  match pc_out c, pc_out c' with
  | CEst e, CEst e' => e_acrtd e' = e_acrtd e /\ e_acrt e' = e_acrt e
  | CFail, CFail => True | CRaise, CRaise => True | CNull, CNull => True | _, _ => False
  end.
Definition acrt_same (a b : cont_out) : Prop :=
  match a, b with
  | ContOk r, ContOk r' => r_acrt r' = r_acrt r /\ r_acrt_d r' = r_acrt_d r
  | ContRaise, ContRaise => True | _, _ => False
  end.
Section A.
  Context (orc : coracle) (o : copts) (T : nat) (us us' : list cunit) (Ok : panel_ok (co_ant o) T us) (Ok' : panel_ok (co_ant o) T us') (V : co_univ o = false).
  Context (Ad : adopters us' = adopters us).
  Lemma co_eq g : cohort us' g = cohort us g. Proof. now rewrite cohort_adopters, Ad, <- cohort_adopters. Qed.
  Lemma cos_eq : cohorts us' = cohorts us. Proof. now rewrite cohorts_adopters, Ad, <- cohorts_adopters. Qed.
  Lemma sh_eq g : share us' g = share us g. Proof. now rewrite share_adopters, Ad, <- share_adopters. Qed.
  Lemma ds_eq : positive_doses (rows T us') = positive_doses (rows T us). Proof. now rewrite doses_adopters, Ad, <- doses_adopters. Qed.
  Lemma tr_eq g t : treated o us' g t = treated o us g t. Proof. unfold treated. now rewrite co_eq. Qed.
  Lemma cell_a knots dvals g t : In g (cohorts us) -> (2 <= t <= Z.of_nat T)%Z ->
    acrt_rel (process_cell orc o knots dvals (rows T us) t g) (process_cell orc o knots dvals (rows T us') t g).
  Proof.
    intros Hg Ht. split; [reflexivity|]. split; [reflexivity|]. assert (Hg' : In g (cohorts us')) by now rewrite cos_eq.
    rewrite (cell_eq orc o T us Ok V g t Hg Ht), (cell_eq orc o T us' Ok' V g t Hg' Ht). destruct dvals as [|d0 dv]; [exact I|]. rewrite !fit_eq. cbv zeta.
    rewrite (treated_eq o T us Ok g t Ht), (treated_eq o T us' Ok' g t Ht). fold (treated o us g t) (treated o us' g t). rewrite tr_eq.
    destruct (negb _); [exact I|]. destruct (cell_knots _ _ _) as [kt|]; [|exact I]. destruct (co_lstsq orc _ _); [|exact I]. destruct (_ && _); [exact I|]. destruct (co_inv orc _); [|exact I].
    split; reflexivity.
  Qed.
  Lemma kn_a : run_knots o T us' = run_knots o T us. Proof. unfold run_knots, run_doses. now rewrite ds_eq. Qed.
  Lemma gr_a : run_grid o T us' = run_grid o T us. Proof. unfold run_grid, run_doses. now rewrite ds_eq. Qed.
  Lemma cells_a : Forall2 acrt_rel (run_cells orc o T us) (run_cells orc o T us').
  Proof.
    unfold run_cells, compute_pte. rewrite kn_a, gr_a, cos_eq.
    assert (Q : forall ts, (forall t, In t ts -> (2 <= t <= Z.of_nat T)%Z) -> forall gs, (forall g, In g gs -> In g (cohorts us)) ->
      Forall2 acrt_rel (flat_map (fun tp => map (process_cell orc o (run_knots o T us) (run_grid o T us) (rows T us) tp) gs) ts)
        (flat_map (fun tp => map (process_cell orc o (run_knots o T us) (run_grid o T us) (rows T us') tp) gs) ts)).
    { intros ts H gs Hg. induction ts as [|t ts IH]; [constructor|]. cbn [flat_map]. apply Forall2_app; [|apply IH; intros; apply H; now right].
      assert (Ht : (2 <= t <= Z.of_nat T)%Z) by (apply H; now left). clear IH. induction gs as [|g l IHl]; [constructor|]. cbn [map]. constructor; [apply cell_a; [apply Hg; now left|exact Ht]|].
      apply IHl. intros; apply Hg; now right. }
    apply Q; [|auto]. intros t Ht. now apply (tl_calendar_in o T us Ok).
  Qed.
  Lemma no_null : existsb is_null (run_cells orc o T us) = false.
  Proof.
    destruct (existsb is_null (run_cells orc o T us)) eqn:E; [|reflexivity]. exfalso. apply existsb_exists in E. destruct E as [c [Hc Nc]]. apply (cell_in orc o T us Ok) in Hc. destruct Hc as [g [t [Hg [Ht ->]]]].
    unfold is_null in Nc. rewrite (cell_eq orc o T us Ok V g t Hg Ht) in Nc. destruct (run_grid o T us); [discriminate|]. rewrite fit_eq in Nc. cbv zeta in Nc.
    destruct (negb _); [discriminate|]. destruct (cell_knots _ _ _); [|discriminate]. destruct (co_lstsq _ _ _); [|discriminate]. destruct (_ && _); [discriminate|]. destruct (co_inv _ _); discriminate.
  Qed.
  Theorem acrt_adopters_only : acrt_same (cont_did orc o (rows T us)) (cont_did orc o (rows T us')).
  Proof.
    assert (F := cells_a). rewrite (run_eq orc o T us Ok V), (run_eq orc o T us' Ok' V).
    assert (R : existsb is_raise (run_cells orc o T us') = existsb is_raise (run_cells orc o T us) /\ existsb is_null (run_cells orc o T us') = existsb is_null (run_cells orc o T us)).
    { clear -F. induction F as [|c c' l l' H _ [IH1 IH2]]; [auto|]. cbn [existsb]. rewrite IH1, IH2. destruct H as [_ [_ H]]. unfold is_raise, is_null. destruct (pc_out c), (pc_out c'); try contradiction; auto. }
    destruct R as [R N]. rewrite R, N, no_null.
    destruct (run_cells orc o T us) as [|c0 cs] eqn:Ec; [inversion F; exact I|]. destruct (run_cells orc o T us') as [|c1 cs'] eqn:Ec'; [inversion F|].
    assert (Cne : cohorts us <> []).
    { intros E. unfold run_cells, compute_pte in Ec. rewrite E in Ec. cbn [map] in Ec. clear -Ec. induction (tl (calendar 0 T)) as [|t l IH]; [discriminate|]. cbn [flat_map app] in Ec. auto. }
    rewrite <- Ec, <- Ec' in *. destruct (existsb is_raise (run_cells orc o T us)); [exact I|].
    unfold process_dose. rewrite (pairs_eq orc o T us), (pairs_eq orc o T us'), (weights_eq o T us Ok Cne), (weights_eq o T us' Ok') by (now rewrite cos_eq).
    assert (Pe : pairs T us' = pairs T us) by (unfold pairs; now rewrite cos_eq). assert (We : map (wt T us') (pairs T us') = map (wt T us) (pairs T us)).
    { rewrite Pe. apply map_ext. intros c. unfold wt. now rewrite sh_eq. }
    rewrite We. cbv zeta. rewrite gr_a, kn_a.
    assert (Es : forall w cs cs', Forall2 acrt_rel cs cs' -> Forall2 (fun x x' : Qc * cellres => fst x' = fst x /\ e_acrtd (snd x') = e_acrtd (snd x) /\ e_acrt (snd x') = e_acrt (snd x)) (ests (combine w cs)) (ests (combine w cs'))).
    { clear. induction w as [|a w IH]; intros cs cs' H; [constructor|]. destruct H as [|c c' cs cs' H T]; [constructor|]. cbn [combine]. unfold ests. cbn [flat_map fst snd].
      fold (ests (combine w cs)). fold (ests (combine w cs')). destruct H as [_ [_ H]]. specialize (IH cs cs' T). destruct (pc_out c), (pc_out c'); try contradiction; cbn [app]; auto. }
    specialize (Es (map (wt T us) (pairs T us)) _ _ F).
    set (E1 := ests (combine (map (wt T us) (pairs T us)) (run_cells orc o T us))) in *. set (E2 := ests (combine (map (wt T us) (pairs T us)) (run_cells orc o T us'))) in *.
    assert (S1 : sumf (fun p => e_acrt (snd p) * fst p) E2 = sumf (fun p => e_acrt (snd p) * fst p) E1).
    { clear -Es. induction Es as [|x x' l l' [A [_ B]] _ IH]; [reflexivity|]. rewrite !sumf_cons, IH, A, B. reflexivity. }
    assert (S2 : map (fun p => (fst p, Some (e_acrtd (snd p)))) E2 = map (fun p => (fst p, Some (e_acrtd (snd p)))) E1).
    { clear -Es. induction Es as [|x x' l l' [A [B _]] _ IH]; [reflexivity|]. cbn [map]. rewrite IH, A, B. reflexivity. }
    destruct (run_grid o T us) as [|d0 dv]; [cbn; auto|]. destruct (bspline_basis _ _ _ _ _); [|exact I]. destruct (bspline_derivative _ _ _ _ _); [|exact I]. cbn [acrt_same r_acrt r_acrt_d]. rewrite S1, S2. auto.
  Qed.
End A.

(** * Later outcomes of other cohorts *)
Definition same_but (h : Z) (u u' : cunit) : Prop :=
  k_id u' = k_id u /\ k_g u' = k_g u /\ k_dose u' = k_dose u /\ k_w u' = k_w u /\ forall t, (k_g u = Some h /\ (h <= t)%Z) \/ k_y u' t = k_y u t.
Section H.
  Context (orc : coracle) (o : copts) (T : nat) (us us' : list cunit) (Ok : panel_ok (co_ant o) T us) (V : co_univ o = false) (h : Z) (Sm : Forall2 (same_but h) us us').
  Lemma ids_h : map k_id us' = map k_id us.
  Proof. assert (S0 := Sm). clear -S0. induction S0 as [|u u' l l' H _ IH]; [reflexivity|]. cbn [map]. rewrite IH. f_equal. exact (proj1 H). Qed.
  Lemma ok_h : panel_ok (co_ant o) T us'.
  Proof.
    destruct Ok as [A [B [N [S U]]]]. split; [exact A|]. split; [exact B|]. split; [|split].
    - clear -Sm N. destruct Sm; [easy|discriminate].
    - now rewrite ids_h.
    - assert (S0 := Sm). clear -S0 U. induction S0 as [|u u' l l' H _ IH]; [easy|]. intros v [<-|Hv].
      + specialize (U u (or_introl eq_refl)). destruct H as [_ [H1 [H2 [H3 _]]]]. unfold unit_ok. rewrite H1, H2, H3. exact U.
      + apply IH; [|exact Hv]. intros w Hw. apply U. now right.
  Qed.
  Lemma cohorts_h : cohorts us' = cohorts us.
  Proof. unfold cohorts. f_equal. assert (S0 := Sm). clear -S0. induction S0 as [|u u' l l' H _ IH]; [reflexivity|]. cbn [flat_map]. rewrite IH. destruct H as [_ [-> _]]. reflexivity. Qed.
  Lemma filter_h (p : cunit -> bool) (F : cunit -> Z * Qc * Qc) : (forall u u', same_but h u u' -> p u' = p u) -> (forall u u', same_but h u u' -> p u = true -> F u' = F u) -> map F (filter p us') = map F (filter p us).
  Proof.
    intros Hp HF. assert (S0 := Sm). clear -S0 Hp HF. induction S0 as [|u u' l l' H _ IH]; [reflexivity|]. cbn [filter]. rewrite (Hp u u' H). destruct (p u) eqn:E; [|exact IH]. cbn [map]. now rewrite IH, (HF u u' H E).
  Qed.
  Lemma tr_h g t : In g (cohorts us) -> (2 <= t <= Z.of_nat T)%Z -> (g <> h \/ (t < h)%Z) -> treated o us' g t = treated o us g t.
  Proof.
    intros Hg Ht Hgt. destruct (base_ok o T us Ok V g t Hg Ht) as [_ B2]. rewrite (base_eq o V g t) in B2. unfold treated, cohort. apply filter_h.
    - intros u u' H. destruct H as [_ [-> _]]. reflexivity.
    - intros u u' [I [Gu [Du [_ Y]]]] P. unfold as_unit, change. rewrite I, Du. destruct (k_g u) as [q|] eqn:E; [|discriminate]. apply Z.eqb_eq in P. subst q.
      destruct (Y t) as [[Q W] | -> ]; [exfalso; injection Q as ->; destruct Hgt; [congruence|lia]|]. destruct (Y (reference (co_ant o) g t)) as [[Q W] | -> ]; [exfalso; injection Q as ->; destruct Hgt; [congruence|lia]|]. reflexivity.
  Qed.
  Lemma co_h g t : In g (cohorts us) -> (2 <= t <= Z.of_nat T)%Z -> compared o us' g t = compared o us g t.
  Proof.
    intros Hg Ht. destruct (base_ok o T us Ok V g t Hg Ht) as [_ B2]. rewrite (base_eq o V g t) in B2. unfold compared, comparison. apply filter_h.
    - intros u u' H. destruct H as [_ [-> _]]. reflexivity.
    - intros u u' [I [Gu [_ [_ Y]]]] P. unfold as_unit, change. rewrite I. destruct (k_g u) as [q|] eqn:E.
      + rewrite !andb_true_iff in P. destruct P as [[_ P] _]. apply Z.ltb_lt in P.
        destruct (Y t) as [[Q W] | -> ]; [exfalso; injection Q as ->; lia|]. destruct (Y (reference (co_ant o) g t)) as [[Q W] | -> ]; [exfalso; injection Q as ->; lia|]. reflexivity.
      + destruct (Y t) as [[Q W] | -> ]; [discriminate|]. destruct (Y (reference (co_ant o) g t)) as [[Q W] | -> ]; [discriminate|]. reflexivity.
  Qed.
  Lemma ds_h : positive_doses (rows T us') = positive_doses (rows T us).
  Proof.
    unfold positive_doses, rows, rows_in. assert (S0 := Sm). clear -S0. induction S0 as [|u u' l l' H _ IH]; [reflexivity|]. cbn [flat_map]. rewrite !filter_app, !map_app, IH. f_equal.
    rewrite !filter_map_comm, !map_map. destruct H as [_ [Gu [Du _]]]. cbn [row_of c_g c_t c_d]. rewrite Gu, Du. reflexivity.
  Qed.
  Lemma n1_h knots dvals g t : pc_n1 (process_cell orc o knots dvals (rows T us') t g) = pc_n1 (process_cell orc o knots dvals (rows T us) t g).
  Proof.
    cbn [process_cell pc_n1]. f_equal. unfold units, subset. f_equal. rewrite !map_map. unfold rows, rows_in. assert (S0 := Sm). clear -S0. induction S0 as [|u u' l l' H _ IH]; [reflexivity|]. cbn [flat_map]. rewrite !filter_app, !map_app, IH. f_equal.
    rewrite !filter_map_comm, !map_map. destruct H as [Iu [Gu _]]. unfold in_cell. cbn [row_of c_g c_t c_id set_d]. rewrite Gu, Iu. reflexivity.
  Qed.
  Lemma cell_h knots dvals g t : In g (cohorts us) -> (2 <= t <= Z.of_nat T)%Z -> (g <> h \/ (t < h)%Z) ->
    process_cell orc o knots dvals (rows T us') t g = process_cell orc o knots dvals (rows T us) t g.
  Proof.
    intros Hg Ht Hgt. assert (N := n1_h knots dvals g t). assert (Hg' : In g (cohorts us')) by now rewrite cohorts_h.
    assert (E : pc_out (process_cell orc o knots dvals (rows T us') t g) = pc_out (process_cell orc o knots dvals (rows T us) t g)).
    { rewrite (cell_eq orc o T us Ok V g t Hg Ht), (cell_eq orc o T us' ok_h V g t Hg' Ht). destruct dvals as [|d0 dv]; [reflexivity|]. rewrite !fit_eq. cbv zeta.
      rewrite (treated_eq o T us Ok g t Ht), (treated_eq o T us' ok_h g t Ht), (comp_eq o T us Ok g t Ht), (comp_eq o T us' ok_h g t Ht).
      fold (treated o us g t) (treated o us' g t) (compared o us g t) (compared o us' g t). now rewrite (tr_h g t Hg Ht Hgt), (co_h g t Hg Ht). }
    unfold process_cell in *. cbn [pc_n1 pc_out] in *. now rewrite N, E.
  Qed.
  Definition untouched (c c' : pcell) : Prop := pc_g c' = pc_g c /\ pc_t c' = pc_t c /\ (pc_g c <> h \/ (pc_t c < h)%Z -> c' = c).
  Lemma cells_h : Forall2 untouched (run_cells orc o T us) (run_cells orc o T us').
  Proof.
    unfold run_cells, compute_pte. assert (Kn : run_knots o T us' = run_knots o T us) by (unfold run_knots, run_doses; now rewrite ds_h). assert (Gr : run_grid o T us' = run_grid o T us) by (unfold run_grid, run_doses; now rewrite ds_h).
    rewrite Kn, Gr, cohorts_h.
    assert (Q : forall ts, (forall t, In t ts -> (2 <= t <= Z.of_nat T)%Z) -> forall gs, (forall g, In g gs -> In g (cohorts us)) ->
      Forall2 untouched (flat_map (fun tp => map (process_cell orc o (run_knots o T us) (run_grid o T us) (rows T us) tp) gs) ts)
        (flat_map (fun tp => map (process_cell orc o (run_knots o T us) (run_grid o T us) (rows T us') tp) gs) ts)).
    { intros ts H gs Hg. induction ts as [|t ts IH]; [constructor|]. cbn [flat_map]. apply Forall2_app; [|apply IH; intros; apply H; now right].
      assert (Ht : (2 <= t <= Z.of_nat T)%Z) by (apply H; now left). clear IH. induction gs as [|g l IHl]; [constructor|]. cbn [map]. constructor; [|apply IHl; intros; apply Hg; now right].
      split; [reflexivity|]. split; [reflexivity|]. intros P. apply cell_h; [apply Hg; now left|exact Ht|exact P]. }
    apply Q; [|auto]. intros t Ht. now apply (tl_calendar_in o T us Ok).
  Qed.
  Theorem later_outcomes r r' : cont_did orc o (rows T us) = ContOk r -> cont_did orc o (rows T us') = ContOk r' -> Forall2 untouched (r_cells r) (r_cells r').
  Proof.
    intros R R'. assert (Cne := run_nonempty orc o T us r Ok V R). assert (Cne' := run_nonempty orc o T us' r' ok_h V R').
    destruct (run_inv orc o T us Ok V Cne r R) as [-> _]. destruct (run_inv orc o T us' ok_h V Cne' r' R') as [-> _]. apply cells_h.
  Qed.
End H.

(** * Period labels *)
Lemma index_of_bound x : forall l, In x l -> (0 <= index_of x l < Z.of_nat (length l))%Z.
Proof. induction l as [|a l IH]; intros H; [easy|]. cbn [index_of length]. destruct (Z.eqb_spec a x); [lia|]. destruct H as [H|H]; [contradiction|]. specialize (IH H). lia. Qed.
Theorem labels_beyond orc o l : (forall r g, In r l -> c_g r = Some g -> g = 0%Z \/ (Z.of_nat (length (periods l)) < g)%Z) -> cont_did orc o l = ContRaise.
Proof.
  intros H. set (n := Z.of_nat (length (periods l))) in *.
  assert (P : forall r, In r (preprocess o l) -> (c_t r <= n)%Z /\ forall g, c_g r = Some g -> (n < g)%Z).
  { intros r Hr. unfold preprocess, balance in Hr. apply filter_In in Hr. destruct Hr as [Hr _]. unfold validate_dose in Hr. apply filter_In in Hr. destruct Hr as [Hr _].
    apply in_map_iff in Hr. destruct Hr as [r1 [E1 Hr]].
    assert (Q : c_t r = c_t r1 /\ c_g r = c_g r1). { rewrite <- E1. destruct (c_g r1) eqn:G; cbn; auto. }
    destruct Q as [-> ->]. clear E1. unfold drop_early in Hr. apply filter_In in Hr. destruct Hr as [Hr _]. unfold recode_periods in Hr. apply in_map_iff in Hr. destruct Hr as [r2 [<- Hr]]. cbn [set_t c_t c_g].
    unfold encode_treatment in *. set (last := fold_right Z.max _ _) in *.
    assert (Pe : periods (map (fun r => set_g (match c_g r with Some g => if (g =? 0)%Z || (last <? g)%Z then None else Some g | None => None end) r) l) = periods l).
    { unfold periods. f_equal. rewrite map_map. reflexivity. }
    rewrite Pe. apply in_map_iff in Hr. destruct Hr as [r3 [<- Hr]]. cbn [set_g c_t c_g]. split.
    - assert (I := index_of_bound (c_t r3) (periods l)). unfold n. assert (In (c_t r3) (periods l)) by (unfold periods; apply zuniq_in; now apply in_map). specialize (I H0). lia.
    - intros g. destruct (c_g r3) as [g0|] eqn:G; [|discriminate]. destruct (H r3 g0 Hr G) as [->|L]; [cbn; discriminate|]. destruct (_ || _); [discriminate|]. intros E. injection E as <-. exact L. }
  unfold cont_did, cont_run. set (p := preprocess o l) in *.
  assert (G : g_list o p = []).
  { unfold g_list. destruct (tl (periods p)) as [|p2 q] eqn:E; [reflexivity|].
    assert (F : forall gs, (forall g, In g gs -> (n < g)%Z) -> filter (fun g => zmem g (t_list o p) && (p2 + co_ant o <=? g)%Z) gs = []).
    { induction gs as [|g gs IH]; intros Hg; [reflexivity|]. cbn [filter]. destruct (zmem g (t_list o p)) eqn:M.
      - exfalso. destruct (zmem_spec g (t_list o p)) as [M1|]; [clear M; rename M1 into M|discriminate]. assert (I : In g (periods p)). { unfold t_list in M. destruct (co_univ o); [exact M|]. destruct (periods p); [easy|]. now right. }
        unfold periods in I. rewrite zuniq_in in I. apply in_map_iff in I. destruct I as [r [Er Hr]]. destruct (P r Hr) as [B _]. specialize (Hg g (or_introl eq_refl)). lia.
      - cbn [andb]. apply IH. intros; apply Hg; now right. }
    apply F. intros g Hg. unfold groups_of in Hg. rewrite zuniq_in in Hg. apply in_flat_map in Hg. destruct Hg as [r [Hr Hg]]. destruct (P r Hr) as [_ B]. destruct (c_g r) as [g1|] eqn:Gr; [|easy]. destruct Hg as [<-|[]]. now apply B. }
  rewrite G. unfold compute_pte. cbn [map]. assert (Z0 : forall ts : list Z, flat_map (fun _ : Z => @nil pcell) ts = []) by (induction ts; auto). now rewrite Z0.
Qed.
