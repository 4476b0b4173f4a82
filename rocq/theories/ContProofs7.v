(** Scaling: cells whose ATT parts are multiplied by [p] and ACRT parts by [q]. *)
From Verif Require Import Base ListLib ReduceModel DrdidModel DrdidSpec SplineModel SplineSpec ContModel ContSpec ContProofs ContProofs2 ContProofs3 ContProofs4 ContProofs5.
From Coq Require Import Sorting.Sorted.

Definition sc (p : Qc) (l : list Qc) : list Qc := map (fun x => p * x) l.
Definition est_rel (p q : Qc) (e e' : cellres) : Prop :=
  e_attd e' = option_map (sc p) (e_attd e) /\ e_acrtd e' = sc q (e_acrtd e) /\ e_att e' = option_map (Qcmult p) (e_att e) /\ e_acrt e' = q * e_acrt e /\
  e_inf e' = map (fun x => (fst x, q * snd x)) (e_inf e) /\ length (e_coef e') = length (e_coef e) /\ e_bread e' = e_bread e /\ e_score e' = map (sc p) (e_score e).
Definition out_rel (p q : Qc) (c c' : cell) : Prop :=
  match c, c' with
  | CEst e, CEst e' => est_rel p q e e'
  | CFail, CFail => True | CRaise, CRaise => True | CNull, CNull => True | _, _ => False
  end.
Definition cell_rel (p q : Qc) (c c' : pcell) : Prop :=
  pc_g c' = pc_g c /\ pc_t c' = pc_t c /\ pc_n1 c' = pc_n1 c /\ out_rel p q (pc_out c) (pc_out c').
(** The results. *)
Definition result_rel (p q : Qc) (r r' : cont_result) : Prop :=
  r_weights r' = r_weights r /\ r_att r' = p * r_att r /\ r_acrt r' = q * r_acrt r /\
  r_att_d r' = option_map (sc p) (r_att_d r) /\ r_acrt_d r' = option_map (sc q) (r_acrt_d r) /\
  r_att_inf r' = sc q (r_att_inf r) /\ r_acrt_inf r' = sc q (r_acrt_inf r) /\
  r_att_d_inf r' = map (sc p) (r_att_d_inf r) /\ r_acrt_d_inf r' = map (sc q) (r_acrt_d_inf r).

Section S.
  Context (p q : Qc) (Hp : p <> 0) (Hq : q <> 0).
  Lemma rel_pairs cs cs' : Forall2 (cell_rel p q) cs cs' -> map (fun c => (pc_g c, pc_t c)) cs' = map (fun c => (pc_g c, pc_t c)) cs.
  Proof. induction 1 as [|c c' cs cs' H _ IH]; [reflexivity|]. cbn [map]. rewrite IH. destruct H as [-> [-> _]]. reflexivity. Qed.
  Lemma rel_raise cs cs' : Forall2 (cell_rel p q) cs cs' -> existsb is_raise cs' = existsb is_raise cs /\ existsb is_null cs' = existsb is_null cs.
  Proof.
    induction 1 as [|c c' cs cs' H _ [IH1 IH2]]; [auto|]. cbn [existsb]. rewrite IH1, IH2. destruct H as [_ [_ [_ H]]]. unfold is_raise, is_null.
    destruct (pc_out c), (pc_out c'); cbn in H; try contradiction; auto.
  Qed.
  Lemma find_map_snd (i : Z) : forall l : list (Z * Qc), find (fun x => (fst x =? i)%Z) (map (fun x => (fst x, q * snd x)) l) = option_map (fun x => (fst x, q * snd x)) (find (fun x => (fst x =? i)%Z) l).
  Proof. induction l as [|x l IH]; [reflexivity|]. cbn [map find fst]. destruct (fst x =? i)%Z; [reflexivity|exact IH]. Qed.
  Lemma rel_col n ids c c' : cell_rel p q c c' -> inf_column n ids c' = sc q (inf_column n ids c).
  Proof.
    intros [_ [_ [N H]]]. unfold inf_column, sc. destruct (pc_out c) as [| | |e], (pc_out c') as [| | |e']; cbn in H; try contradiction; rewrite map_map;
      try (apply map_ext; intros i; ring).
    destruct H as [_ [_ [_ [_ [-> _]]]]]. apply map_ext. intros i. rewrite find_map_snd, N. destruct (find _ (e_inf e)); cbn [option_map snd]; ring.
  Qed.
  Lemma nth_sc k : forall l i, nth i (sc k l) 0 = k * nth i l 0.
  Proof. unfold sc. induction l as [|x l IH]; intros [|i]; cbn [map nth]; try ring. apply IH. Qed.
  Lemma sc_zero x : Qceqb (q * x) 0 = Qceqb x 0.
  Proof.
    destruct (Qceqb_spec x 0) as [E0|N]; destruct (Qceqb_spec (q * x) 0) as [E|E]; try reflexivity.
    - exfalso. apply E. rewrite E0. ring.
    - exfalso. apply N. apply (Qcmult_cancel_l q); [exact Hq|]. rewrite E. ring.
  Qed.
  Lemma nonzero_sc col : nonzero_pos (sc q col) = nonzero_pos col.
  Proof. unfold nonzero_pos. unfold sc at 2. rewrite map_length. apply filter_ext_in'. intros i _. rewrite nth_sc, sc_zero. reflexivity. Qed.
  Lemma dotk_vm_sc k r B w : dotk k (vm k (sc p r) B) w = p * dotk k (vm k r B) w.
  Proof.
    unfold dotk, vm. rewrite <- sumf_mul_l. apply sumf_ext. intros j Hj. apply in_seq in Hj.
    set (f := fun j => sumf (fun i => nth i (sc p r) 0 * mget B i j) (seq 0 k)). set (h := fun j => sumf (fun i => nth i r 0 * mget B i j) (seq 0 k)).
    rewrite (nth_indep (map f (seq 0 k)) 0 (f 0%nat)) by (rewrite map_length, seq_length; lia). rewrite (nth_indep (map h (seq 0 k)) 0 (h 0%nat)) by (rewrite map_length, seq_length; lia).
    rewrite (map_nth f), (map_nth h). rewrite seq_nth by lia. cbn [Nat.add].
    assert (E : f j = p * h j). { unfold f, h. rewrite <- sumf_mul_l. apply sumf_ext. intros i _. rewrite nth_sc. ring. }
    rewrite E. ring.
  Qed.
  Lemma dotk_sc_r k s a b : dotk k a (sc s b) = s * dotk k a b.
  Proof. unfold dotk. rewrite <- sumf_mul_l. apply sumf_ext. intros j _. rewrite nth_sc. ring. Qed.
  Lemma nth_map_sc : forall l j, nth j (map (sc p) l) [] = sc p (nth j l []).
  Proof. induction l as [|x l IH]; intros [|j]; cbn [map nth]; auto. Qed.
  Definition wcc_rel (x x' : Qc * (pcell * list Qc)) : Prop := fst x' = fst x /\ cell_rel p q (fst (snd x)) (fst (snd x')) /\ snd (snd x') = sc q (snd (snd x)).
  Lemma comp_part_self col i : comp_part col col i = 0.
  Proof. unfold comp_part. destruct (Qceqb_spec (nth i col 0) 0); reflexivity. Qed.
  Lemma rel_dose n b s cs cs' brow brow' i : brow' = sc s brow -> Forall2 wcc_rel cs cs' -> dose_influence n b cs' brow' i = s * p * dose_influence n b cs brow i.
  Proof.
    intros -> H. unfold dose_influence. induction H as [|x x' cs cs' [W [R C]] _ IH]; [cbn; ring|]. rewrite !sumf_cons, IH. clear IH.
    rewrite W, C, nonzero_sc, !comp_part_self. destruct R as [_ [_ [_ R]]]. destruct (pc_out (fst (snd x))) as [| | |e], (pc_out (fst (snd x'))) as [| | |e']; cbn in R; try contradiction; try ring.
    destruct R as [_ [_ [_ [_ [_ [Lc [Bd Sc]]]]]]]. rewrite Lc, Bd, Sc, map_length. destruct (Qceqb (fst x) 0 || _); [ring|].
    destruct (pos_of i (nonzero_pos (snd (snd x)))) as [j|]; [|destruct b; ring]. destruct (j <? length (e_score e))%nat; [|destruct b; ring].
    rewrite nth_map_sc, dotk_vm_sc, dotk_sc_r. destruct b; ring.
  Qed.
  Lemma rel_ests (w : list Qc) : forall cs cs', Forall2 (cell_rel p q) cs cs' ->
    Forall2 (fun x x' : Qc * cellres => fst x' = fst x /\ est_rel p q (snd x) (snd x')) (ests (combine w cs)) (ests (combine w cs')).
  Proof.
    induction w as [|a w IH]; intros cs cs' H; [constructor|]. destruct H as [|c c' cs cs' H T]; [constructor|]. cbn [combine]. unfold ests. cbn [flat_map fst snd].
    fold (ests (combine w cs)). fold (ests (combine w cs')). destruct H as [_ [_ [_ H]]]. specialize (IH cs cs' T).
    destruct (pc_out c), (pc_out c'); cbn in H; try contradiction; cbn [app]; auto.
  Qed.
  Lemma rel_combine (s : Qc) nd : forall l l' : list (Qc * option (list Qc)),
    Forall2 (fun x x' => fst x' = fst x /\ snd x' = option_map (sc s) (snd x)) l l' -> weighted_combine nd l' = option_map (sc s) (weighted_combine nd l).
  Proof.
    intros l l' H. unfold weighted_combine.
    assert (E1 : sumf fst l' = sumf fst l). { induction H as [|x x' l l' [H _] _ IH]; [reflexivity|]. rewrite !sumf_cons, IH, H. reflexivity. }
    assert (E2 : forallb (fun x : Qc * option (list Qc) => og_fin (option_map (fun _ => 0%Z) (snd x))) l' = forallb (fun x => og_fin (option_map (fun _ => 0%Z) (snd x))) l).
    { clear E1. induction H as [|x x' l l' [_ H] _ IH]; [reflexivity|]. cbn [forallb]. rewrite IH. rewrite H. destruct (snd x); reflexivity. }
    rewrite E1, E2. destruct (Qceqb (sumf fst l) 0); [reflexivity|]. destruct (forallb _ l); [|reflexivity]. cbn [option_map]. f_equal. unfold sc at 1. rewrite map_map. apply map_ext. intros j.
    generalize (sumf fst l). intros tot. clear E1 E2. induction H as [|x x' l l' [H1 H2] _ IH]; [cbn; ring|]. rewrite !sumf_cons, IH, H1, H2.
    destruct (snd x) as [a|]; cbn [option_map]; [rewrite nth_sc|]; [|destruct j; cbn [nth]]; ring.
  Qed.

  Lemma rel_process o o' knots knots' dvals dvals' l l' cs cs' : Forall2 (cell_rel p q) cs cs' ->
    units l' = units l -> overall_weights l' (map (fun c => (pc_g c, pc_t c)) cs) = overall_weights l (map (fun c => (pc_g c, pc_t c)) cs) ->
    length dvals' = length dvals ->
    bspline_basis (co_deg o') dvals' knots' None false = bspline_basis (co_deg o) dvals knots None false ->
    bspline_derivative (co_deg o') dvals' knots' None false = option_map (map (sc (q / p))) (bspline_derivative (co_deg o) dvals knots None false) ->
    match process_dose o knots dvals l cs, process_dose o' knots' dvals' l' cs' with
    | ContOk r, ContOk r' => result_rel p q r r' /\ r_dose r = dvals /\ r_dose r' = dvals'
    | ContRaise, ContRaise => True
    | _, _ => False
    end.
  Proof.
    intros H U W Ld Eb Ed. unfold process_dose. rewrite (rel_pairs cs cs' H), W, U. destruct (overall_weights l _) as [w|]; [|exact I]. cbv zeta.
    set (n := length (units l)). set (ids := units l).
    assert (Ec : map (inf_column n ids) cs' = map (sc q) (map (inf_column n ids) cs)).
    { clear -H. induction H as [|c c' cs cs' R _ IH]; [reflexivity|]. cbn [map]. rewrite IH. f_equal. now apply rel_col. }
    assert (Eo : map (fun i => sumf (fun x => nth i (snd x) 0 * fst x) (combine w (map (inf_column n ids) cs'))) (seq 0 n)
               = sc q (map (fun i => sumf (fun x => nth i (snd x) 0 * fst x) (combine w (map (inf_column n ids) cs))) (seq 0 n))).
    { unfold sc. rewrite map_map. apply map_ext. intros i. rewrite Ec. generalize (map (inf_column n ids) cs). intros cl. clear -Hq. revert cl. induction w as [|a w IH]; intros [|c cl]; cbn [combine map]; try (cbn; ring).
      rewrite !sumf_cons, IH. cbn [fst snd]. rewrite nth_sc. ring. }
    assert (Es := rel_ests w cs cs' H).
    assert (Ea : sumf (fun x => zero_of (e_att (snd x)) * fst x) (ests (combine w cs')) = p * sumf (fun x => zero_of (e_att (snd x)) * fst x) (ests (combine w cs))).
    { clear -Es. induction Es as [|x x' l l' [E R] _ IH]; [cbn; ring|]. rewrite !sumf_cons, IH, E. destruct R as [_ [_ [-> _]]]. destruct (e_att (snd x)); cbn [option_map zero_of]; ring. }
    assert (Er : sumf (fun x => e_acrt (snd x) * fst x) (ests (combine w cs')) = q * sumf (fun x => e_acrt (snd x) * fst x) (ests (combine w cs))).
    { clear -Es. induction Es as [|x x' l l' [E R] _ IH]; [cbn; ring|]. rewrite !sumf_cons, IH, E. destruct R as [_ [_ [_ [-> _]]]]. ring. }
    destruct dvals as [|d0 dv], dvals' as [|d0' dv']; cbn in Ld; try discriminate.
    - split; [|auto]. unfold result_rel. cbn. rewrite Ea, Er, Eo. auto 10.
    - rewrite Eb, Ed. destruct (bspline_basis (co_deg o) (d0 :: dv) knots None false) as [B|]; [|exact I].
      destruct (bspline_derivative (co_deg o) (d0 :: dv) knots None false) as [B'|]; [|exact I]. cbn [option_map].
      assert (Ew : Forall2 wcc_rel (combine w (combine cs (map (inf_column n ids) cs))) (combine w (combine cs' (map (inf_column n ids) cs')))).
      { clear -H. revert cs cs' H. induction w as [|a w IH]; intros cs cs' H; [constructor|]. destruct H as [|c c' cs cs' R T]; [constructor|]. cbn [map combine]. constructor; [|now apply IH].
        split; [reflexivity|]. split; [exact R|]. cbn [snd]. now apply rel_col. }
      split; [|auto]. unfold result_rel. cbn [r_weights r_att r_acrt r_att_d r_acrt_d r_att_inf r_acrt_inf r_att_d_inf r_acrt_d_inf]. rewrite Ea, Er, Eo.
      assert (Lt : length (d0' :: dv') = length (d0 :: dv)) by (cbn; lia). rewrite Lt.
      split; [reflexivity|]. split; [reflexivity|]. split; [reflexivity|]. split; [|split; [|split; [reflexivity|split; [reflexivity|split]]]].
      + apply rel_combine. clear -Es. induction Es as [|x x' l l' [E R] _ IH]; cbn [map]; constructor; [|exact IH]. cbn [fst snd]. split; [exact E|apply R].
      + apply rel_combine. clear -Es. induction Es as [|x x' l l' [E R] _ IH]; cbn [map]; constructor; [|exact IH]. cbn [fst snd]. split; [exact E|]. cbn [option_map]. f_equal. apply R.
      + rewrite map_map. apply map_ext. intros i. unfold sc. rewrite map_map. apply map_ext. intros b. refine (eq_trans (rel_dose n true 1 _ _ (1 :: b) (1 :: b) i _ Ew) _); [|ring].
        unfold sc. rewrite <- (map_id (1 :: b)) at 1. apply map_ext. intros. ring.
      + rewrite map_map. apply map_ext. intros i. unfold sc at 2. rewrite !map_map. apply map_ext. intros b.
        refine (eq_trans (rel_dose n false (q / p) _ _ (0 :: b) (0 :: sc (q / p) b) i _ Ew) _); [|field; exact Hp].
        unfold sc. cbn [map]. f_equal. ring.
  Qed.
End S.
