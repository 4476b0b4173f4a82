(** Columns and standard errors of the reported cells. *)
From Verif Require Import Base ListLib PreprocessModel PreprocessProofs AttGtModel SeModel ReduceModel DrdidModel DrdidSpec DddModel DddSpec DddProofs DddProofs2 DddProofs3 DddMpModel DddMpSpec DddMpGmm DddMpProofs1 DddMpProofs2 DddMpProofs3 DddMpProofs4.

Lemma placed_column ids inf : NoDup (map fst inf) -> is_placed ids inf (map (fun i => lookup inf i) ids).
Proof.
  intros N. split; [apply map_length|]. intros j Hj. rewrite (nth_map_z (fun i => lookup inf i) ids j Hj). split.
  - intros v Hv. apply lookup_in; assumption.
  - intros O. apply lookup_out, O.
Qed.
Lemma placed_unique ids inf col col' : NoDup (map fst inf) -> is_placed ids inf col -> is_placed ids inf col' -> col = col'.
Proof.
  intros N [L H] [L' H']. apply (nth_ext _ _ 0 0); [congruence|]. intros j Hj. rewrite L in Hj. destruct (H j Hj) as [A B]. destruct (H' j Hj) as [A' B'].
  destruct (in_dec Z.eq_dec (nth j ids 0%Z) (map fst inf)) as [I|I].
  - apply in_map_iff in I. destruct I as [[x v] [E I]]. cbn in E. subst x. rewrite (A v I), (A' v I). reflexivity.
  - assert (O : forall v, ~ In (nth j ids 0%Z, v) inf) by (intros v Hv; apply I; change (nth j ids 0%Z) with (fst (nth j ids 0%Z, v)); apply in_map, Hv). rewrite (B O), (B' O). reflexivity.
Qed.
(** sum over all units of a function of the looked-up value *)
Lemma lookup_cons_eq i v l : lookup ((i, v) :: l) i = v. Proof. unfold lookup. cbn. rewrite Z.eqb_refl. reflexivity. Qed.
Lemma lookup_cons_ne i j v l : i <> j -> lookup ((i, v) :: l) j = lookup l j.
Proof. intros N. unfold lookup. cbn. destruct (Z.eqb_spec i j); [contradiction|reflexivity]. Qed.
Lemma sumf_one (ids : list Z) (i : Z) (c : Qc) : NoDup ids -> In i ids -> sumf (fun j => if (j =? i)%Z then c else 0) ids = c.
Proof.
  induction ids as [|x ids IH]; intros N H; [destruct H|]. inversion N as [|? ? N1 N2]; subst. rewrite sumf_cons. destruct H as [->|H].
  - rewrite Z.eqb_refl. rewrite sumf_zero; [ring|]. intros j Hj. destruct (Z.eqb_spec j i) as [->|]; [contradiction|reflexivity].
  - rewrite IH by assumption. destruct (Z.eqb_spec x i) as [->|]; [contradiction|ring].
Qed.
Lemma sum_lookup (F : Qc -> Qc) ids inf : F 0 = 0 -> NoDup ids -> NoDup (map fst inf) -> (forall p, In p inf -> In (fst p) ids) ->
  sumf (fun i => F (lookup inf i)) ids = sumf (fun p => F (snd p)) inf.
Proof.
  intros F0 NI. induction inf as [|[i v] inf IH]; intros N S1.
  - rewrite sumf_nil. apply sumf_zero. intros i _. exact F0.
  - inversion N as [|? ? N1 N2]; subst. rewrite sumf_cons. cbn [snd]. rewrite <- IH; [|exact N2|intros; apply S1; right; assumption].
    rewrite (sumf_ext _ (fun j => (if (j =? i)%Z then F v else 0) + F (lookup inf j))).
    + rewrite sumf_add, sumf_one; [ring|exact NI|]. apply (S1 (i, v)). left. reflexivity.
    + intros j Hj. destruct (Z.eqb_spec j i) as [->|NE].
      * rewrite lookup_cons_eq, (lookup_out inf i), F0; [ring|]. intros w Hw. apply N1. change i with (fst (i, w)). apply in_map, Hw.
      * rewrite lookup_cons_ne by congruence. ring.
Qed.
Lemma sumf_diag (l : list Qc) : sumf (fun p => fst p * snd p) (combine l l) = sum_squares l.
Proof. unfold sum_squares. induction l as [|x l IH]; [reflexivity|]. cbn [combine]. rewrite !sumf_cons, IH. reflexivity. Qed.
Lemma se2_squares n col : se2 n col = sum_squares col / (qn n * qn n).
Proof. unfold se2, vcov. rewrite sumf_diag. unfold Qcdiv. rewrite Qcinv_mult_distr. ring. Qed.

Lemma map_fst_combine' {A B} (l : list A) (l' : list B) : length l = length l' -> map fst (combine l l') = l.
Proof. revert l'. induction l as [|x l IH]; intros [|y l'] H; try discriminate; [reflexivity|]. cbn. rewrite IH by (cbn in H; lia). reflexivity. Qed.
Lemma qn_one_lt c : (2 <= c)%nat -> 0 < qn c - 1.
Proof. intros H. destruct c as [|c]; [lia|]. rewrite qn_S. replace (qn c + 1 - 1) with (qn c) by ring. replace (1 + qn c - 1) with (qn c) by ring. apply qn_pos. lia. Qed.

Section Own.
  Context (o : oracle) (q : gmm_oracle) (k : nat) (m : emethod) (b : base_mode) (never : bool) (data : list lrow).
  Context (K : keyed data) (IO : gmm_inv_ok q).
  Let ids := mp_ids data.
  Let n := length ids.
  Lemma scale_len N (l : list (Z * Qc)) : length (scale_inf N l) = length l. Proof. apply map_length. Qed.
  Lemma multi_ids g t p cs rows att inf se N : multi_ddd o q k m N g t p cs rows = Some (att, inf, se) -> NoDup (map fst inf).
  Proof.
    unfold multi_ddd. destruct (somes _) as [|r rs]; [discriminate|]. cbn zeta. set (u := zuniq _). destruct (gmm_aggregate q N _ _) as [[a i] s]. intros E. injection E as <- <- <-.
    rewrite scale_inf_fst. assert (G : forall A B (l : list A) (l' : list B), NoDup l -> NoDup (map fst (combine l l'))).
    { clear. intros A B. induction l as [|x l IH]; intros [|y l'] H; try constructor; inversion H as [|? ? H1 H2]; subst.
      - cbn. intros X. apply H1. apply in_map_iff in X. destruct X as [[c d] [E X]]. cbn in E. subst c. apply in_combine_l in X. exact X.
      - apply IH, H2. }
    apply G. apply ssorted_lt_nodup, zuniq_sorted.
  Qed.
  Lemma own_column rows cols ses j g t att : ddd_mp o q k m b never data = MTable rows cols ses -> nth_error rows j = Some (g, t, att) ->
    no_gap_before b data rows g t ->
    exists col p, nth_error cols j = Some col /\ base_for b data g t p /\
      ((p = t /\ col = map (fun _ => 0) ids /\ nth_error ses j = Some None) \/
       (p <> t /\ exists z inf, one_control never data g t p z /\ against o k m data g z t p att inf /\ is_column ids inf col /\
          nth_error ses j = Some (reported_se2 (sum_squares col / (qn n * qn n)))) \/
       (p <> t /\ several_controls never data g t p /\ exists rs inf se, all_comparisons o k m never data g t p rs /\ pooled q n rs att inf se /\ is_placed ids inf col /\
          nth_error ses j = Some (reported_se2 se))).
  Proof.
    intros E NE NG. destruct (row_position o q k m b never data K rows cols ses j g t att E NE NG) as [i [c [GC [Hi [ET [P [EA RJ]]]]]]].
    assert (L : (j < length rows)%nat) by (apply nth_error_Some; rewrite NE; discriminate).
    destruct (column_at o q k m b never data rows cols ses j (Some c) E L RJ) as [C1 C2].
    cbn [fst snd] in P. destruct (process_some o q k m b never data K g i c GC Hi P) as [p [BF [_ [_ CK]]]]. rewrite <- ET in BF, CK. clear P ET.
    exists (mp_column ids (Some c)), p. split; [exact C1|]. split; [exact BF|]. destruct CK as [[EP [A0 [I0 S0]]]|[NP [cs [CN [CI CK]]]]].
    - left. split; [exact EP|]. split; [unfold mp_column; rewrite I0; reflexivity|]. rewrite C2. unfold mp_override. rewrite S0.
      assert (X : mp_column ids (Some c) = mp_column ids None) by (unfold mp_column; rewrite I0; reflexivity). fold ids. rewrite X. f_equal. apply zero_col_se.
    - right. destruct CK as [[z [inf [ECS [AG [CI1 S0]]]]]|[C22 [rs [RN [RNE [RI [inf [se [EM [ES [CI1 S0]]]]]]]]]]].
      + left. split; [exact NP|]. exists z, inf. rewrite EA. split.
        { intros z'. rewrite <- CI, ECS. cbn. split; [intros [->|[]]; reflexivity|intros ->; left; reflexivity]. }
        split; [exact AG|]. split; [exact (column_single o k m data g z t p (mc_att c) inf c AG CI1)|].
        rewrite C2. unfold mp_override. rewrite S0. f_equal. unfold mp_se2. rewrite se2_squares. reflexivity.
      + right. split; [exact NP|]. split.
        { destruct cs as [|z [|z' cs]]; [cbn in C22; lia|cbn in C22; lia|]. exists z, z'. split; [intros ->; inversion CN as [|? ? N _]; apply N; left; reflexivity|]. split; apply CI; [left; reflexivity|right; left; reflexivity]. }
        exists rs, inf, se. split; [split; [exact RNE|split; [exact RN|]]; intros z a i0; rewrite RI, CI; reflexivity|]. split.
        { rewrite EA. apply (multi_pooled o q k m never data g t p cs rs (mc_att c) inf se IO); [|exact ES|exact RNE|exact EM]. intros z a i0 H. apply RI in H. apply H. }
        split.
        { unfold mp_column. rewrite CI1. apply placed_column. exact (multi_ids g t p cs _ _ _ _ _ EM). }
        rewrite C2. unfold mp_override. rewrite S0. reflexivity.
  Qed.

  (** ** the standard error of a pooled cell against its column *)
  Lemma is_column_place u inf col : NoDup (map fst inf) -> is_column u inf col -> col = place u inf.
  Proof.
    intros N [L H]. destruct (place_column u inf N) as [L' H']. apply (nth_ext _ _ 0 0); [congruence|]. intros j Hj. rewrite L in Hj. destruct (H j Hj) as [A B]. destruct (H' j Hj) as [A' B'].
    destruct (in_dec Z.eq_dec (nth j u 0%Z) (map fst inf)) as [I|I].
    - apply in_map_iff in I. destruct I as [[x v] [E I]]. cbn in E. subst x. rewrite (A v I), (A' v I). reflexivity.
    - assert (O : forall v, ~ In (nth j u 0%Z, v) inf) by (intros v Hv; apply I; change (nth j u 0%Z) with (fst (nth j u 0%Z, v)); apply in_map, Hv). rewrite (B O), (B' O). reflexivity.
  Qed.
  Lemma column_sum u inf col : NoDup u -> NoDup (map fst inf) -> (forall p, In p inf -> In (fst p) u) -> is_column u inf col -> qsum (map snd inf) = 0 -> qsum col = 0.
  Proof.
    intros NU N S1 IC Z0. rewrite (is_column_place u inf col N IC). unfold place. change (qsum (map ?f u)) with (sumf f u). rewrite sumf_mul_l.
    pose proof (sum_lookup (fun x => x) u inf eq_refl NU N S1) as SL. cbn beta in SL. change (sumf (lookup inf) u = sumf snd inf) in SL. change (sumf (fun i => lookup inf i) u) with (sumf (lookup inf) u). rewrite SL. change (sumf snd inf) with (sumf (fun p : Z * Qc => snd p) inf). change (sumf (fun p : Z * Qc => snd p) inf) with (qsum (map snd inf)). rewrite Z0. ring.
  Qed.
  Lemma comb_cols_sum N w : forall cols, (forall col, In col cols -> length col = N /\ qsum col = 0) -> sumf (fun x => x) (comb_cols N w cols) = 0.
  Proof.
    revert w. unfold comb_cols. induction w as [|x w IH]; intros cols H.
    - rewrite sumf_map. apply sumf_zero. intros r _. reflexivity.
    - destruct cols as [|col cols]; [rewrite sumf_map; apply sumf_zero; intros r _; reflexivity|]. rewrite sumf_map.
      rewrite (sumf_ext _ (fun r => x * nth r col 0 + comb_vals w (map (fun col => nth r col 0) cols))).
      + rewrite sumf_add, sumf_mul_l. specialize (IH cols ltac:(intros; apply H; right; assumption)). rewrite sumf_map in IH. rewrite IH.
        destruct (H col (or_introl eq_refl)) as [L Z0]. rewrite <- L. assert (G : sumf (fun r => nth r col 0) (seq 0 (length col)) = qsum col).
        { clear. unfold sumf. f_equal. apply (nth_ext _ _ 0 0); [rewrite map_length, seq_length; reflexivity|]. intros i Hi. rewrite map_length, seq_length in Hi. exact (nth_map_seq (fun r => nth r col 0) 0 (length col) i Hi). }
        rewrite G, Z0. ring.
      + intros r _. unfold comb_vals. cbn [map combine]. rewrite sumf_cons. reflexivity.
  Qed.
  Lemma pooled_se g t p rs att inf se col c u : pooled q n rs att inf se -> is_placed ids inf col -> all_comparisons o k m never data g t p rs ->
    (forall z a i, controls_of never data g t p z -> against o k m data g z t p a i -> qsum (map snd i) = 0) ->
    (forall cols, Forall2 (fun r col => is_column u (snd (snd r)) col) rs cols -> gm_inv q (gmm_omega cols) <> None) ->
    units_of rs u -> length u = c ->
    (2 <= c)%nat /\ 0 < se /\ se = qn c * qn c / (qn n * (qn c - 1)) * (sum_squares col / (qn n * qn n)).
  Proof.
    intros PO PL [RNE [RN RI]] CE REG [US UI] LC. destruct PO as [u' [cols [US' [UI' [FC PO]]]]].
    assert (u' = u). { apply (ssorted_ext Z.lt); [intros; lia|exact US'|exact US|apply ssorted_lt_nodup, US'|apply ssorted_lt_nodup, US|]. intros i. rewrite UI, UI'. reflexivity. } subst u'.
    destruct (PO (REG cols FC)) as [w [MV [EA [EI [SP ES]]]]]. rewrite LC in *.
    assert (NU : NoDup u) by (apply ssorted_lt_nodup, US).
    assert (RA : forall r, In r rs -> NoDup (map fst (snd (snd r))) /\ qsum (map snd (snd (snd r))) = 0 /\ forall x, In x (snd (snd r)) -> In (fst x) u).
    { intros [z [a i]] H. pose proof H as H0. apply RI in H. destruct H as [H1 H2]. split; [apply (against_ids o k m data g z t p a i H2)|]. split; [apply (CE z a i H1 H2)|].
      intros [x v] Hx. apply UI. exists (z, (a, i)), v. split; [exact H0|exact Hx]. }
    assert (CS : forall cl, In cl cols -> length cl = c /\ qsum cl = 0).
    { clear - FC RA NU LC. intros cl H. revert RA. induction FC as [|r x l l' HR F IH]; intros RA; [destruct H|]. destruct H as [->|H]; [|apply IH; [exact H|intros; apply RA; right; assumption]].
      destruct (RA r (or_introl eq_refl)) as [A [B C]]. split; [rewrite <- LC; apply HR|]. apply (column_sum u (snd (snd r))); assumption. }
    set (inf0 := comb_cols c w cols) in *. assert (L0 : length inf0 = c) by (unfold inf0, comb_cols; rewrite map_length, seq_length; reflexivity).
    assert (M0 : mean (fun x => x) inf0 = 0). { unfold mean, inf0. rewrite (comb_cols_sum c w cols CS). unfold Qcdiv. ring. }
    assert (SV : svar inf0 = sum_squares inf0 / (qn c - 1)). { unfold svar, sum_squares. rewrite M0, L0. f_equal. apply sumf_ext. intros; ring. }
    assert (C2 : (2 <= c)%nat).
    { destruct c as [|[|c]]; [| |lia]; exfalso.
      - assert (inf0 = []) by (destruct inf0; [reflexivity|discriminate L0]). rewrite H in SP. vm_compute in SP. discriminate SP.
      - rewrite SV in SP. replace (qn 1 - 1) with 0 in SP by (apply Qc_is_canon; reflexivity). unfold Qcdiv in SP. rewrite (Qc_is_canon (/ 0) 0 eq_refl) in SP. replace (sum_squares inf0 * 0) with 0 in SP by ring. discriminate SP. }
    assert (UN : (0 < n)%nat).
    { unfold n. destruct u as [|x u0]; [cbn in LC; lia|]. assert (In x (x :: u0)) by (left; reflexivity). apply UI in H. destruct H as [[z [a i]] [v [H1 H2]]]. apply RI in H1. destruct H1 as [_ [tu [a3 [a2 [a1 [vv [IS [_ EI0]]]]]]]].
      cbn in H2. rewrite EI0 in H2. apply in_combine_l in H2. apply in_map_iff in H2. destruct H2 as [y [_ Hy]]. apply IS in Hy. destruct Hy as [r1 [_ [Hr _]]].
      assert (HI : In (l_id r1) ids) by (apply (ids_units data); exists r1; auto). destruct ids; [destruct HI|cbn; lia]. }
    assert (PN := qn_pos n UN). assert (PC := qn_pos c ltac:(lia)).
    assert (PC1 : 0 < qn c - 1). { apply qn_one_lt. exact C2. }
    split; [exact C2|]. split; [rewrite ES; apply Qcdiv_pos; [exact SP|exact PN]|].
    assert (NI : NoDup (map fst inf)). { rewrite EI. rewrite map_fst_combine' by (rewrite map_length; lia). exact NU. }
    assert (EC : sum_squares col = qn n / qn c * (qn n / qn c) * sum_squares inf0).
    { rewrite (placed_unique ids inf col _ NI PL (placed_column ids inf NI)). unfold sum_squares at 1. rewrite sumf_map.
      rewrite (sum_lookup (fun x => x * x) ids inf).
      - rewrite EI. unfold sum_squares. rewrite <- sumf_mul_l. clear - L0 LC. assert (LL : length u = length inf0) by congruence. clearbody inf0. clear L0 LC. revert inf0 LL.
        induction u as [|x u IH]; intros [|y l] LL; try discriminate; [reflexivity|]. cbn [map combine]. rewrite !sumf_cons. cbn [snd]. rewrite IH by (cbn in LL; lia). ring.
      - ring.
      - apply ssorted_lt_nodup, zuniq_sorted.
      - exact NI.
      - intros [x v] Hx. cbn. rewrite EI in Hx. apply in_combine_l in Hx. apply UI in Hx. destruct Hx as [[z [a i]] [v' [H1 H2]]]. apply RI in H1. destruct H1 as [_ [tu [a3 [a2 [a1 [vv [IS [_ EI0]]]]]]]].
        cbn in H2. rewrite EI0 in H2. apply in_combine_l in H2. apply in_map_iff in H2. destruct H2 as [y [EY Hy]]. apply IS in Hy. destruct Hy as [r1 [r0 [Hr [_ [_ [_ [_ [_ [_ [EY2 _]]]]]]]]]].
        apply (ids_units data). exists r1. split; [exact Hr|congruence]. }
    rewrite ES, SV, EC. field. repeat split; apply Qc_pos_neq0; assumption.
  Qed.
End Own.
