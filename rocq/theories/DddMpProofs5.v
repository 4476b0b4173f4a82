(** Shocks that cancel, and effects that pass through, in the multi-period estimator. *)
From Verif Require Import Base ListLib PreprocessModel PreprocessProofs AttGtModel SeModel ReduceModel DrdidModel DrdidSpec DrdidProofs DrdidProofs9 DddModel DddSpec DddProofs DddProofs2 DddProofs3 DddMpModel DddMpSpec DddMpGmm DddMpProofs1 DddMpProofs2 DddMpProofs3 DddMpProofs4.

(** ** whether an estimate exists does not depend on the outcomes *)
Definition same_view (u v : punit) : Prop := logit_view u = logit_view v.
Lemma same_view_inv u v : same_view u v -> p_d u = p_d v /\ p_w u = p_w v /\ p_x u = p_x v.
Proof. unfold same_view, logit_view. intros H. injection H as H1 H2 H3. auto. Qed.
Lemma sumf_forall2 {A} (R : A -> A -> Prop) (f : A -> Qc) l l' : Forall2 R l l' -> (forall u v, R u v -> f u = f v) -> sumf f l = sumf f l'.
Proof. intros F H. induction F as [|u v l l' HR F IH]; [reflexivity|]. rewrite !sumf_cons, IH, (H u v HR). reflexivity. Qed.
Lemma mean_forall2 {A} (R : A -> A -> Prop) (f : A -> Qc) l l' : Forall2 R l l' -> (forall u v, R u v -> f u = f v) -> mean f l = mean f l'.
Proof. intros F H. unfold mean. rewrite (sumf_forall2 R f l l' F H). assert (L : length l = length l') by (induction F; cbn; congruence). rewrite L. reflexivity. Qed.
Lemma views_map l l' : Forall2 same_view l l' -> map logit_view l = map logit_view l'.
Proof. induction 1 as [|u v l l' H F IH]; [reflexivity|]. cbn. rewrite H, IH. reflexivity. Qed.
Lemma views_ctrl l l' : Forall2 same_view l l' -> Forall2 same_view (filter (fun u => negb (p_d u)) l) (filter (fun u => negb (p_d u)) l').
Proof.
  induction 1 as [|u v l l' H F IH]; [constructor|]. cbn. destruct (same_view_inv _ _ H) as [D _]. rewrite D. destruct (p_d v); cbn; [exact IH|constructor; assumption].
Qed.
Lemma did_none_blind o k m tl l l' : logit_blind o -> wls_existence_blind o -> Forall2 same_view l l' ->
  (compute_did o k m tl l = None <-> compute_did o k m tl l' = None).
Proof.
  intros LB WB F.
  assert (EL : o_logit o l = o_logit o l') by (apply LB, views_map, F).
  assert (EW : o_wls o (filter (fun u => negb (p_d u)) l) = None <-> o_wls o (filter (fun u => negb (p_d u)) l') = None) by (apply WB; exact (views_map _ _ (views_ctrl _ _ F))).
  assert (EO : ols_gram k l = ols_gram k l').
  { unfold ols_gram, mat_of. apply map_ext. intros i. apply map_ext. intros j. apply (mean_forall2 same_view); [exact F|]. intros u v H. destruct (same_view_inv _ _ H) as [D [W X]]. unfold x_at, p_D. rewrite D, W, X. reflexivity. }
  assert (EG : forall gm, ps_gram k (ps_raw (o_mu o) k gm) l = ps_gram k (ps_raw (o_mu o) k gm) l').
  { intros gm. unfold ps_gram, mat_of. apply map_ext. intros i. apply map_ext. intros j. apply (sumf_forall2 same_view); [exact F|]. intros u v H. destruct (same_view_inv _ _ H) as [D [W X]]. unfold x_at, ps_raw. rewrite W, X. reflexivity. }
  assert (ET : forall ps, (forall u v, same_view u v -> ps u = ps v) -> mean (tw_treat m tl ps) l = mean (tw_treat m tl ps) l').
  { intros ps Hp. apply (mean_forall2 same_view); [exact F|]. intros u v H. destruct (same_view_inv _ _ H) as [D [W X]]. rewrite !twt. unfold p_D. rewrite D, W. reflexivity. }
  assert (EC : forall ps, (forall u v, same_view u v -> ps u = ps v) -> mean (tw_control m tl ps) l = mean (tw_control m tl ps) l').
  { intros ps Hp. apply (mean_forall2 same_view); [exact F|]. intros u v H. pose proof (Hp u v H) as E. destruct (same_view_inv _ _ H) as [D [W X]]. rewrite !twc. unfold cwm, cw, p_D. rewrite D, W, E. reflexivity. }
  assert (CAP : forall gm u v, same_view u v -> ps_cap (o_mu o) k gm u = ps_cap (o_mu o) k gm v).
  { intros gm u v H. destruct (same_view_inv _ _ H) as [D [W X]]. unfold ps_cap, ps_raw. rewrite X. reflexivity. }
  unfold compute_did, pscore_fit, outcome_fit, outcome_inv. rewrite <- EL, <- EO. destruct m.
  - destruct (o_logit o l) as [gm|]; [|tauto]. rewrite <- EG. destruct (o_inv o (ps_gram k (ps_raw (o_mu o) k gm) l)) as [V|]; [|tauto].
    destruct (o_wls o (filter (fun u => negb (p_d u)) l)) as [be|]; destruct (o_wls o (filter (fun u => negb (p_d u)) l')) as [be'|]; try (exfalso; destruct EW as [W1 W2]; first [discriminate (W1 eq_refl)|discriminate (W2 eq_refl)]); [|tauto].
    rewrite <- (ET _ (CAP gm)), <- (EC _ (CAP gm)). destruct (Qceqb (mean (tw_treat Dr tl _) l) 0); [tauto|]. destruct (Qceqb (mean (tw_control Dr tl _) l) 0); [tauto|]. destruct (o_inv o (ols_gram k l)); [split; discriminate|tauto].
  - destruct (o_wls o (filter (fun u => negb (p_d u)) l)) as [be|]; destruct (o_wls o (filter (fun u => negb (p_d u)) l')) as [be'|]; try (exfalso; destruct EW as [W1 W2]; first [discriminate (W1 eq_refl)|discriminate (W2 eq_refl)]); [|tauto].
    rewrite <- (ET (fun _ => 1)), <- (EC (fun _ => 1)) by reflexivity. destruct (Qceqb (mean (tw_treat Reg tl _) l) 0); [tauto|]. destruct (Qceqb (mean (tw_control Reg tl _) l) 0); [tauto|]. destruct (o_inv o (ols_gram k l)); [split; discriminate|tauto].
  - destruct (o_logit o l) as [gm|]; [|tauto]. rewrite <- EG. destruct (o_inv o (ps_gram k (ps_raw (o_mu o) k gm) l)) as [V|]; [|tauto].
    rewrite <- (ET _ (CAP gm)), <- (EC _ (CAP gm)). destruct (Qceqb (mean (tw_treat Ipw tl _) l) 0); [tauto|]. destruct (Qceqb (mean (tw_control Ipw tl _) l) 0); [tauto|]. split; discriminate.
Qed.
Definition t_same (u v : tunit) : Prop := t_sg u = t_sg v /\ t_w u = t_w v /\ t_x u = t_x v.
Lemma pair_same c l l' : Forall2 t_same l l' -> Forall2 same_view (pair_units c l) (pair_units c l').
Proof.
  unfold pair_units. induction 1 as [|u v l l' [S1 [W X]] F IH]; [constructor|]. cbn. unfold in_pair. rewrite S1. destruct ((t_sg v =? 4) || (t_sg v =? c))%Z; [|exact IH]. cbn. constructor; [|exact IH].
  unfold same_view, logit_view, as_pair. cbn. rewrite S1, W, X. reflexivity.
Qed.
Lemma normalise_same l l' : Forall2 t_same l l' -> Forall2 t_same (t_normalise l) (t_normalise l').
Proof.
  intros F. assert (M : mean t_w l = mean t_w l') by (apply (mean_forall2 t_same); [exact F|]; intros u v H; apply H). unfold t_normalise. rewrite <- M. generalize (mean t_w l). intros x. clear M.
  induction F as [|u v l l' [S1 [W X]] F IH]; [constructor|]. cbn. constructor; [|exact IH]. unfold t_same. cbn. rewrite W. auto.
Qed.
Lemma forallb_forall2 {A} (R : A -> A -> Prop) (f : A -> bool) l l' : Forall2 R l l' -> (forall u v, R u v -> f u = f v) -> forallb f l = forallb f l'.
Proof. intros F H. induction F as [|u v l l' HR F IH]; [reflexivity|]. cbn. rewrite IH, (H u v HR). reflexivity. Qed.
Lemma existsb_forall2 {A} (R : A -> A -> Prop) (f : A -> bool) l l' : Forall2 R l l' -> (forall u v, R u v -> f u = f v) -> existsb f l = existsb f l'.
Proof. intros F H. induction F as [|u v l l' HR F IH]; [reflexivity|]. cbn. rewrite IH, (H u v HR). reflexivity. Qed.
Lemma panel_raise_blind o k m l l' : logit_blind o -> wls_existence_blind o -> Forall2 t_same l l' -> (ddd_panel o k m l = TRaise <-> ddd_panel o k m l' = TRaise).
Proof.
  intros LB WB F. unfold ddd_panel, t_neg.
  rewrite <- (existsb_forall2 t_same (fun u => Qcltb (t_w u) 0) l l' F) by (intros u v [_ [W _]]; rewrite W; reflexivity).
  rewrite <- (forallb_forall2 t_same sg_ok l l' F) by (intros u v [S1 _]; unfold sg_ok; rewrite S1; reflexivity).
  rewrite <- (existsb_forall2 t_same (fun u => (t_sg u =? 4)%Z) l l' F) by (intros u v [S1 _]; rewrite S1; reflexivity).
  destruct (existsb _ l); [tauto|]. destruct (negb (forallb sg_ok l)); [tauto|]. destruct (negb (existsb _ l)); [tauto|]. unfold compute_all.
  assert (G : forall c, compute_did o k m trim995 (pair_units c (t_normalise l)) = None <-> compute_did o k m trim995 (pair_units c (t_normalise l')) = None) by (intros c; apply did_none_blind; [exact LB|exact WB|]; apply pair_same, normalise_same, F).
  pose proof (G 3%Z) as G3. pose proof (G 2%Z) as G2. pose proof (G 1%Z) as G1. clear G.
  destruct (compute_did o k m trim995 (pair_units 3 (t_normalise l))) as [[? ?]|]; destruct (compute_did o k m trim995 (pair_units 3 (t_normalise l'))) as [[? ?]|]; try (exfalso; destruct G3 as [W1 W2]; first [discriminate (W1 eq_refl)|discriminate (W2 eq_refl)]); [|tauto].
  destruct (compute_did o k m trim995 (pair_units 2 (t_normalise l))) as [[? ?]|]; destruct (compute_did o k m trim995 (pair_units 2 (t_normalise l'))) as [[? ?]|]; try (exfalso; destruct G2 as [W1 W2]; first [discriminate (W1 eq_refl)|discriminate (W2 eq_refl)]); [|tauto].
  destruct (compute_did o k m trim995 (pair_units 1 (t_normalise l))) as [[? ?]|]; destruct (compute_did o k m trim995 (pair_units 1 (t_normalise l'))) as [[? ?]|]; try (exfalso; destruct G1 as [W1 W2]; first [discriminate (W1 eq_refl)|discriminate (W2 eq_refl)]); [|tauto].
  split; discriminate.
Qed.

(** ** pairs of rows behind a cell *)
Definition row_pairs (t p : Z) (rows : list lrow) : list (lrow * lrow) :=
  combine (filter (has_id (period_rows p rows)) (period_rows t rows)) (filter (has_id (period_rows t rows)) (period_rows p rows)).
Lemma units_pairs g t p rows : cell_units g t p rows = map (cell_unit g) (row_pairs t p rows). Proof. reflexivity. Qed.
Lemma pairs_in t p rows r1 r0 : keyed rows -> In (r1, r0) (row_pairs t p rows) -> In r1 rows /\ In r0 rows /\ l_t r1 = t /\ l_t r0 = p /\ l_id r1 = l_id r0.
Proof.
  intros K H. unfold row_pairs in H.
  assert (SA := period_rows_sorted t rows K). assert (SB := period_rows_sorted p rows K).
  apply (combine_same_ids _ _ (common_ids _ _ SA SB)) in H; [|apply nodup_map_filter, ssorted_lt_nodup, SA]. destruct H as [H1 [H2 H3]]. apply filter_In in H1, H2. destruct H1 as [H1 _], H2 as [H2 _].
  apply period_rows_in in H1, H2. tauto.
Qed.
Lemma pairs_map (h : lrow -> lrow) t p rows : (forall r, l_id (h r) = l_id r) -> (forall r, l_t (h r) = l_t r) ->
  row_pairs t p (map h rows) = map (fun x => (h (fst x), h (snd x))) (row_pairs t p rows).
Proof.
  intros HI HT. unfold row_pairs, period_rows. rewrite !filter_map'. rewrite !(isort_map h by_id by_id) by (intros; unfold by_id; rewrite !HI; reflexivity).
  rewrite (filter_ext (fun a => (l_t (h a) =? t)%Z) (fun r => (l_t r =? t)%Z)) by (intros; rewrite HT; reflexivity).
  rewrite (filter_ext (fun a => (l_t (h a) =? p)%Z) (fun r => (l_t r =? p)%Z)) by (intros; rewrite HT; reflexivity).
  set (A := isort by_id (filter (fun r => (l_t r =? t)%Z) rows)). set (B := isort by_id (filter (fun r => (l_t r =? p)%Z) rows)).
  assert (HH : forall X r, has_id (map h X) (h r) = has_id X r). { intros X r. unfold has_id. induction X as [|x X IH]; [reflexivity|]. cbn. rewrite IH, !HI. reflexivity. }
  rewrite !filter_map'. rewrite (filter_ext (fun a => has_id (map h B) (h a)) (has_id B)) by (intros; apply HH). rewrite (filter_ext (fun a => has_id (map h A) (h a)) (has_id A)) by (intros; apply HH).
  generalize (filter (has_id B) A) (filter (has_id A) B). intros l l'. revert l'. induction l as [|x l IH]; intros [|y l']; try reflexivity. cbn. rewrite IH. reflexivity.
Qed.

Section Shock.
  Context (o : oracle) (q : gmm_oracle) (k : nat) (m : emethod) (b : base_mode) (never : bool) (data : list lrow).
  Context (f : Z -> Qc) (gam : grp -> Z -> Qc) (bet : Z -> Z -> Qc) (tau : Z -> Z -> Qc).
  Context (K : keyed data) (TC : time_constant data) (LB : logit_blind o) (WB : wls_existence_blind o).
  Notation SH := (shock_row f gam bet tau).
  Definition passes (g t : Z) : Qc := if (g <=? t)%Z then tau g t else 0.
  Context (HM : m <> Ipw -> (1 <= k)%nat /\ wls_ok o k /\
    forall g t p z u, in_grid b data g t -> base_for b data g t p -> controls_of never data g t p z -> is_sample data g z t p u -> ddd_no_collinearity k u).

  Section Cell.
    Context (g t p : Z) (z : grp) (GR : in_grid b data g t) (BF : base_for b data g t p) (CO : controls_of never data g t p z).
    Let G : (0 < g)%Z. Proof. apply GR. Qed.
    Let CM : may_control never g t p z. Proof. apply CO. Qed.
    Let rows := control_rows g z (cell_rows never g t p data).
    Lemma base_lt : (p < g)%Z. Proof. clear - BF. destruct b; destruct BF as [_ [L _]]; lia. Qed.
    Definition coh (s : Z) : grp := if ((s =? 4) || (s =? 3))%Z then Fin g else z.
    Definition elg (s : Z) : Z := if ((s =? 4) || (s =? 2))%Z then 1 else 0.
    Definition lvl (u : tunit) : Qc := f (t_id u) + gam (coh (t_sg u)) p + bet (elg (t_sg u)) p.
    Definition cG : Qc := gam z t - gam z p + bet 0%Z t - bet 0%Z p.
    Definition cA : Qc := gam (Fin g) t - gam (Fin g) p - (gam z t - gam z p).
    Definition cB : Qc := bet 1%Z t - bet 1%Z p - (bet 0%Z t - bet 0%Z p).
    Lemma row_facts r : In r rows -> In r data /\ (l_g r = Fin g \/ l_g r = z) /\ (l_t r = t \/ l_t r = p).
    Proof. intros H. apply control_rows_in in H. destruct H as [H C]. apply (cell_rows_in never g t p data r G) in H. tauto. Qed.
    Lemma no_effect s pp : (s = t \/ s = p) -> effect tau z pp s = 0.
    Proof.
      intros Hs. destruct CM as [->|[->|[_ [y [-> [Y1 [Y2 _]]]]]]]; [reflexivity|reflexivity|]. unfold effect. destruct (Z.leb_spec y s) as [L|L]; [exfalso; destruct Hs; lia|]. rewrite andb_false_r. reflexivity.
    Qed.
    Lemma g_effect_t pp : effect tau (Fin g) pp t = if (pp =? 1)%Z then passes g t else 0.
    Proof. unfold effect, passes. destruct (Z.ltb_spec 0 g); [|lia]. cbn. destruct (g <=? t)%Z, (pp =? 1)%Z; reflexivity. Qed.
    Lemma g_effect_p pp : effect tau (Fin g) pp p = 0.
    Proof. unfold effect. pose proof base_lt. destruct (Z.leb_spec g p); [lia|]. rewrite andb_false_r. reflexivity. Qed.
    Lemma unit_shift r1 r0 : In (r1, r0) (row_pairs t p rows) -> sg_ok (cell_unit g (r1, r0)) = true ->
      cell_unit g (SH r1, SH r0) = shocked 1 cG cA cB (passes g t) lvl (cell_unit g (r1, r0)).
    Proof.
      intros H OK. apply pairs_in in H; [|apply keyed_control, keyed_cell, K]. destruct H as [H1 [H0 [T1 [T0 I]]]].
      destruct (row_facts r1 H1) as [D1 [C1 _]]. destruct (row_facts r0 H0) as [D0 _]. destruct (TC r1 r0 D1 D0 I) as [EG EP].
      assert (NZ : z <> Fin g) by (apply (may_control_not_g never g t p z G CM)).
      unfold cell_unit, shocked. cbn [fst snd shock_row l_id l_t l_g l_p l_y l_w l_x t_id t_sg t_y1 t_y0 t_w t_x].
      unfold sg_ok, cell_unit in OK. cbn [t_sg fst snd] in OK. rewrite <- EG, <- EP, <- I, T1, T0.
      assert (PP : l_p r1 = 1%Z \/ l_p r1 = 0%Z). { unfold subgroup_code in OK. destruct (Z.eqb_spec (l_p r1) 1); [auto|]. destruct (Z.eqb_spec (l_p r1) 0); [auto|]. discriminate OK. }
      clear OK. f_equal.
      - unfold lvl. cbn [t_id t_sg]. destruct (grp_eqb_spec (l_g r1) (Fin g)) as [E|N].
        + rewrite E, g_effect_t. destruct PP as [P|P]; rewrite P; unfold subgroup_code; cbn [Z.eqb Pos.eqb orb]; unfold coh, elg; cbn [Z.eqb Pos.eqb orb]; unfold cG, cA, cB; ring.
        + destruct C1 as [C1|C1]; [contradiction|]. rewrite C1, no_effect by auto. destruct PP as [P|P]; rewrite P; unfold subgroup_code; cbn [Z.eqb Pos.eqb orb]; unfold coh, elg; cbn [Z.eqb Pos.eqb orb]; unfold cG, cA, cB; ring.
      - unfold lvl. cbn [t_id t_sg]. destruct (grp_eqb_spec (l_g r1) (Fin g)) as [E|N].
        + rewrite E, g_effect_p. destruct PP as [P|P]; rewrite P; unfold subgroup_code; cbn [Z.eqb Pos.eqb orb]; unfold coh, elg; cbn [Z.eqb Pos.eqb orb]; ring.
        + destruct C1 as [C1|C1]; [contradiction|]. rewrite C1, no_effect by auto. destruct PP as [P|P]; rewrite P; unfold subgroup_code; cbn [Z.eqb Pos.eqb orb]; unfold coh, elg; cbn [Z.eqb Pos.eqb orb]; ring.
    Qed.
    Lemma rows_map_shock : control_rows g z (cell_rows never g t p (map SH data)) = map SH rows.
    Proof. unfold rows, control_rows, cell_rows. rewrite !filter_map'. reflexivity. Qed.
    Lemma single_shock : single_ddd o k m g t p (map SH rows) =
      match single_ddd o k m g t p rows with Some (a, i) => Some (a + passes g t, i) | None => None end.
    Proof.
      pose proof (control_sample never data g z t p K G CM) as SA. fold rows in SA.
      unfold single_ddd. rewrite !units_pairs, pairs_map, map_map by reflexivity. rewrite units_pairs in SA. cbn [fst snd].
      set (u := map (cell_unit g) (row_pairs t p rows)) in *. set (u' := map (fun x => cell_unit g (SH (fst x), SH (snd x))) (row_pairs t p rows)).
      assert (SAME : Forall2 t_same u u'). { unfold u, u'. clear. induction (row_pairs t p rows) as [|x l IH]; [constructor|]. cbn. constructor; [|exact IH]. split; [reflexivity|]. split; reflexivity. }
      assert (IDS : map t_id u' = map t_id u) by (unfold u, u'; rewrite !map_map; reflexivity).
      rewrite <- (existsb_forall2 t_same (fun x => (t_sg x =? 4)%Z) u u' SAME) by (intros x y [S1 _]; rewrite S1; reflexivity).
      destruct (negb (existsb (fun x => t_sg x =? 4)%Z u)); [reflexivity|].
      pose proof (panel_raise_blind o k m u u' LB WB SAME) as RB.
      destruct (ddd_panel o k m u) as [|a a3 a2 a1 i] eqn:E; [rewrite (proj1 RB eq_refl); reflexivity|].
      destruct (ddd_panel o k m u') as [|a' a3' a2' a1' i'] eqn:E'; [discriminate (proj2 RB eq_refl)|].
      assert (SG : forall x, In x u -> sg_ok x = true) by (apply ddd_inv in E; apply E).
      assert (EU : u' = map (shocked 1 cG cA cB (passes g t) lvl) u).
      { unfold u', u. rewrite map_map. apply map_ext_in. intros [r1 r0] H. cbn [fst snd]. apply unit_shift; [exact H|]. apply SG. unfold u. apply in_map, H. }
      rewrite EU in E'.
      assert (HU : m <> Ipw -> wls_ok o k /\ ddd_no_collinearity k u /\ t_intercept k u).
      { intros NI. destruct (HM NI) as [K1 [WO NC]]. split; [exact WO|]. split; [apply (NC g t p z u GR BF CO SA)|]. split; [exact K1|].
        intros x Hx. unfold u in Hx. apply in_map_iff in Hx. destruct Hx as [y [<- _]]. reflexivity. }
      destruct (ddd_shock _ _ _ _ _ _ o k m u _ _ _ _ _ _ _ _ _ _ LB HU E E') as [EA EI].
      rewrite IDS. rewrite EA, EI. f_equal. f_equal; [ring|]. rewrite (map_ext (fun v => 1 * v) (fun v => v)) by (intros; ring). rewrite map_id. reflexivity.
    Qed.
  End Cell.

  Context (IO : gmm_inv_ok q).
  Context (REG : forall g t p cols, in_grid b data g t -> base_for b data g t p -> pool_columns o k m never data g t p cols -> gm_inv q (gmm_omega cols) <> None).

  Lemma somes_map_opt {A B} (h : A -> B) l : somes (map (fun x => match x with Some a => Some (h a) | None => None end) l) = map h (somes l).
  Proof. induction l as [|[a|] l IH]; cbn; [reflexivity| |]; rewrite ?IH; reflexivity. Qed.
  Lemma multi_shock g t p cs : in_grid b data g t -> base_for b data g t p -> NoDup cs -> (2 <= length cs)%nat -> (forall z, In z cs <-> controls_of never data g t p z) ->
    multi_ddd o q k m (length (mp_ids data)) g t p cs (map SH (cell_rows never g t p data)) =
    match multi_ddd o q k m (length (mp_ids data)) g t p cs (cell_rows never g t p data) with Some (a, i, s) => Some (a + passes g t, i, s) | None => None end.
  Proof.
    intros GR BF CN C2 CI. unfold multi_ddd.
    set (F := fun c => single_ddd o k m g t p (control_rows g c (cell_rows never g t p data))).
    set (h := fun r : Qc * list (Z * Qc) => (fst r + passes g t, snd r)).
    assert (E : map (fun c => single_ddd o k m g t p (control_rows g c (map SH (cell_rows never g t p data)))) cs = map (fun x => match x with Some a => Some (h a) | None => None end) (map F cs)).
    { rewrite map_map. apply map_ext_in. intros c Hc. unfold F. unfold control_rows at 1. rewrite filter_map'.
      change (map SH (filter (fun a => grp_eqb (l_g (SH a)) (Fin g) || grp_eqb (l_g (SH a)) c) (cell_rows never g t p data))) with (map SH (control_rows g c (cell_rows never g t p data))).
      rewrite (single_shock g t p c GR BF (proj1 (CI c) Hc)). destruct (single_ddd o k m g t p _) as [[a i]|]; reflexivity. }
    rewrite E, somes_map_opt. set (rs := estimable F cs). assert (ES : somes (map F cs) = map snd rs) by (unfold rs; rewrite estimable_snd; reflexivity). rewrite ES.
    assert (G : (0 < g)%Z) by apply GR.
    assert (RI : forall z a i, In (z, (a, i)) rs <-> controls_of never data g t p z /\ against o k m data g z t p a i).
    { intros z a i. unfold rs. rewrite estimable_in, CI. unfold F. split; intros [H1 H2]; (split; [exact H1|]).
      - apply (single_ddd_iff o k m never) in H2; [exact H2|exact K|exact G|apply H1].
      - apply (single_ddd_iff o k m never); [exact K|exact G|apply H1|exact H2]. }
    destruct rs as [|r rs'] eqn:ER; [reflexivity|]. rewrite <- ER in *. assert (NE : rs <> []) by (rewrite ER; discriminate). assert (RN : NoDup (map fst rs)) by (rewrite ER; rewrite <- ER; subst rs; apply estimable_nodup, CN).
    destruct (map snd rs) as [|r0 l0] eqn:EL; [destruct rs; [congruence|discriminate EL]|]. change (map h (r0 :: l0)) with (h r0 :: map h l0). cbv iota. change (h r0 :: map h l0) with (map h (r0 :: l0)). rewrite <- EL in *.
    cbn zeta.
    assert (FI : flat_map (fun r1 : Qc * list (Z * Qc) => map fst (snd r1)) (map h (map snd rs)) = flat_map (fun r1 => map fst (snd r1)) (map snd rs)).
    { clear. induction (map snd rs) as [|x l IH]; [reflexivity|]. cbn. rewrite IH. reflexivity. }
    rewrite FI. set (u := zuniq (flat_map (fun r1 => map fst (snd r1)) (map snd rs))).
    set (cols := map (fun r1 => place u (snd r1)) (map snd rs)).
    assert (FC : map (fun r1 => place u (snd r1)) (map h (map snd rs)) = cols) by (unfold cols; rewrite (map_map h); reflexivity). rewrite FC.
    assert (NS : gm_inv q (gmm_omega cols) <> None).
    { apply (REG g t p cols GR BF). split.
      - destruct cs as [|z [|z' cs']]; [cbn in C2; lia|cbn in C2; lia|]. exists z, z'. split; [intros ->; inversion CN as [|? ? N _]; apply N; left; reflexivity|]. split; apply CI; [left; reflexivity|right; left; reflexivity].
      - exists rs, u. split; [exact NE|]. split; [exact RN|]. split; [exact RI|]. split; [apply zuniq_sorted|]. split.
        + intros j. unfold u. rewrite zuniq_in, in_flat_map. split.
          * intros [r1 [Hr Hj]]. apply in_map_iff in Hr. destruct Hr as [r2 [<- Hr]]. apply in_map_iff in Hj. destruct Hj as [[j' v] [EJ Hj]]. cbn in EJ. subst j'. eauto.
          * intros [r1 [v [Hr Hv]]]. exists (snd r1). split; [apply in_map, Hr|]. change j with (fst (j, v)). apply in_map, Hv.
        + unfold cols. rewrite map_map. assert (RA : forall x, In x rs -> NoDup (map fst (snd (snd x)))). { intros [z [a i]] Hx. apply RI in Hx. destruct Hx as [_ Hx]. apply (against_ids o k m data g z t p a i Hx). }
          clearbody u. clear - RA. induction rs as [|x l IH]; [constructor|]. cbn [map]. constructor; [apply place_column, RA; left; reflexivity|]. apply IH. intros; apply RA; right; assumption. }
    destruct (gm_inv q (gmm_omega cols)) as [V|] eqn:EV; [|congruence].
    assert (LN : forall col, In col cols -> length col = length u). { intros col Hc. apply in_map_iff in Hc. destruct Hc as [r1 [<- _]]. apply map_length. }
    assert (C0 : (0 < length cols)%nat) by (unfold cols; rewrite ER; cbn; lia).
    destruct (IO (length cols) (gmm_omega cols) V) as [_ INV]; [unfold gmm_omega, mat_of; rewrite map_length, seq_length; reflexivity|exact EV|].
    pose proof (total_pos (length u) cols LN V INV C0) as TP.
    unfold gmm_aggregate, gmm_inverse. rewrite EV. cbn zeta. cbn [fst snd]. f_equal. f_equal. f_equal.
    assert (LA : length (map fst (map snd rs)) = length cols) by (unfold cols; rewrite !map_length; reflexivity).
    rewrite (sumf_ext _ (fun i => gmm_weight (length cols) V i * nth i (map fst (map snd rs)) 0 + passes g t * gmm_weight (length cols) V i)).
    - rewrite sumf_add, sumf_mul_l. f_equal. replace (sumf (gmm_weight (length cols) V) (seq 0 (length cols))) with 1; [ring|].
      unfold gmm_weight. rewrite sumf_div. fold (gmm_total (length cols) V). field. apply Qc_pos_neq0, TP.
    - intros i Hi. apply in_seq in Hi. assert (HL : (i < length (map snd rs))%nat) by (rewrite map_length; unfold cols in Hi; rewrite !map_length in Hi; lia).
      rewrite map_map, (nth_map_list (fun x => fst (h x)) 0 (0, [])), (nth_map_list fst 0 (0, [])) by exact HL. unfold h. cbn [fst]. ring.
  Qed.
  Definition bump (c : mp_cell) : mp_cell :=
    {| mc_att := mc_att c + passes (mc_g c) (mc_t c); mc_g := mc_g c; mc_t := mc_t c; mc_post := mc_post c; mc_inf := mc_inf c; mc_se2 := mc_se2 c |}.
  Lemma process_shock g i : is_cohort data g -> (i < length (mp_tlist data) - tfac b)%nat ->
    process_cell o q k m b never (map SH data) g i = match process_cell o q k m b never data g i with Some c => Some (bump c) | None => None end.
  Proof.
    intros GC Hi. unfold process_cell. cbn zeta.
    assert (ET : mp_tlist (map SH data) = mp_tlist data) by (unfold mp_tlist; rewrite map_map; reflexivity). assert (EI : mp_ids (map SH data) = mp_ids data) by (unfold mp_ids; rewrite map_map; reflexivity).
    rewrite ET, EI. set (t := nth (i + tfac b) (mp_tlist data) 0%Z). destruct (mp_pret b g t i (mp_tlist data)) as [p|] eqn:EP; [|reflexivity]. apply (mp_pret_iff b data g i p Hi) in EP. fold t in EP.
    assert (GR : in_grid b data g t). { split; [exact GC|]. exact (proj2 (period_index b data t) (ex_intro _ i (conj Hi eq_refl))). }
    destruct (match b with Universal => (p =? t)%Z | Varying => false end) eqn:EU.
    - unfold bump. cbn. f_equal. f_equal. unfold passes. pose proof (base_lt g t p EP). destruct b; [|discriminate EU]. apply Z.eqb_eq in EU. destruct (Z.leb_spec g t); [lia|ring].
    - assert (ER : cell_rows never g t p (map SH data) = map SH (cell_rows never g t p data)) by (unfold cell_rows; rewrite filter_map'; reflexivity). rewrite ER.
      assert (EC : cell_controls g (map SH (cell_rows never g t p data)) = cell_controls g (cell_rows never g t p data)) by (unfold cell_controls; rewrite map_map; reflexivity). rewrite EC.
      assert (G : (0 < g)%Z) by apply GC.
      pose proof (fun z => cell_controls_in never g t p data z G) as CI. pose proof (cell_controls_nodup g (cell_rows never g t p data)) as CN. pose proof (one_control_rows never data g) as OC.
      destruct (cell_controls g (cell_rows never g t p data)) as [|z [|z' cs]] eqn:ECC; [reflexivity| |].
      + pose proof (single_shock g t p z GR EP (proj1 (CI z) (or_introl eq_refl))) as SS. rewrite (OC z t p G ECC) in SS. rewrite SS.
        destruct (single_ddd o k m g t p (cell_rows never g t p data)) as [[a inf]|]; reflexivity.
      + rewrite (multi_shock g t p (z :: z' :: cs) GR EP CN ltac:(cbn; lia) CI). destruct (multi_ddd o q k m _ g t p _ _) as [[[a inf] s]|]; reflexivity.
  Qed.
  Lemma table_shock : ddd_mp o q k m b never (map SH data) =
    match ddd_mp o q k m b never data with
    | MRaise => MRaise
    | MTable rows cols ses => MTable (map (fun r => (fst r, snd r + passes (fst (fst r)) (snd (fst r)))) rows) cols ses
    end.
  Proof.
    unfold ddd_mp. cbn zeta. assert (EI : mp_ids (map SH data) = mp_ids data) by (unfold mp_ids; rewrite map_map; reflexivity).
    assert (EJ : mp_jobs b (map SH data) = mp_jobs b data) by (unfold mp_jobs, mp_glist, mp_tlist; rewrite !map_map; reflexivity). rewrite EI, EJ.
    set (R := map (fun j => process_cell o q k m b never data (fst j) (snd j)) (mp_jobs b data)).
    assert (ER : map (fun j => process_cell o q k m b never (map SH data) (fst j) (snd j)) (mp_jobs b data) = map (fun x => match x with Some a => Some (bump a) | None => None end) R).
    { unfold R. rewrite map_map. apply map_ext_in. intros [g i] Hj. cbn [fst snd]. apply jobs_in in Hj. apply process_shock; apply Hj. }
    rewrite ER, somes_map_opt.
    assert (M1 : map (mp_column (mp_ids data)) (map (fun x => match x with Some a => Some (bump a) | None => None end) R) = map (mp_column (mp_ids data)) R) by (rewrite map_map; apply map_ext; intros [c|]; reflexivity).
    assert (M2 : map mp_override (map (fun x => match x with Some a => Some (bump a) | None => None end) R) = map mp_override R) by (rewrite map_map; apply map_ext; intros [c|]; reflexivity).
    rewrite M1, M2. destruct (somes R) as [|c cs] eqn:ES; [reflexivity|]. cbn [map]. rewrite !map_map. cbn [length]. rewrite map_length. reflexivity.
  Qed.
End Shock.
