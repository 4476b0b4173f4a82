(** did_multiplegt: the estimate of one horizon as an average over the switching rows. *)
From Verif Require Import Base ListLib PreprocessModel InterModel InterProofs1.

Definition one_first (cs : list cell) : Prop := forall x, In x cs -> sumf (fun y => ind (p_first (c_p y))) (filter (mate x) cs) = 1.

Lemma mate_sym x y : mate x y = mate y x.
Proof. unfold mate. apply Z.eqb_sym. Qed.
Lemma same_base_refl a : same_base a a = true.
Proof. unfold same_base. destruct (oq_eqb_spec (s_dsq a) (s_dsq a)); [|tauto]. destruct (oz_eqb_spec (i_tr (s_row a)) (i_tr (s_row a))); [reflexivity|tauto]. Qed.
Lemma same_base_iff a b : same_base a b = true <-> s_dsq a = s_dsq b /\ i_tr (s_row a) = i_tr (s_row b).
Proof.
  unfold same_base. rewrite andb_true_iff.
  destruct (oq_eqb_spec (s_dsq a) (s_dsq b)), (oz_eqb_spec (i_tr (s_row a)) (i_tr (s_row b))); intuition congruence.
Qed.
Lemma peer_iff a b : peer a b = true <-> p_t (c_p a) = p_t (c_p b) /\ same_base (p_s (c_p a)) (p_s (c_p b)) = true.
Proof. unfold peer, same_cell. rewrite andb_true_iff, Z.eqb_eq. reflexivity. Qed.
Lemma peer_ext a b : peer a b = true -> forall y, peer a y = peer b y.
Proof.
  rewrite peer_iff, same_base_iff. intros (e1 & e2 & e3) y. unfold peer, same_cell, same_base. unfold p_t in e1. now rewrite e1, e2, e3.
Qed.
Lemma peer_sym a b : peer a b = peer b a.
Proof.
  apply Bool.eq_true_iff_eq. rewrite !peer_iff, !same_base_iff. intuition congruence.
Qed.

Lemma sum_units cs f : one_first cs -> sumf (unit_sum cs f) cs = sumf f cs.
Proof.
  intros H. unfold unit_sum.
  transitivity (sumf (fun x => sumf (fun y => ind (mate x y) * ind (p_first (c_p x)) * f y) cs) cs).
  { apply sumf_ext. intros x _. rewrite sumf_filter, <- sumf_mul_r. apply sumf_ext. intros; ring. }
  rewrite sumf_swap. apply sumf_ext. intros y Hy.
  transitivity (f y * sumf (fun x => ind (p_first (c_p x))) (filter (mate y) cs)); [|rewrite (H y Hy); ring].
  rewrite sumf_filter, <- sumf_mul_l. apply sumf_ext. intros x _. rewrite (mate_sym x y). ring.
Qed.
Lemma n_units_pos cs : cs <> [] -> qn (n_units cs) <> 0.
Proof.
  intros H. apply qn_neq0. unfold n_units. destruct cs as [|x cs]; [tauto|].
  destruct (zuniq (map (fun x => p_g (c_p x)) (x :: cs))) as [|z l] eqn:E; [|cbn; lia].
  exfalso. apply (in_nil (a := p_g (c_p x))). rewrite <- E, zuniq_in. now left.
Qed.

Section One.
  Context (c : icfg) (h tmax : Z) (valid : prow -> bool) (cs : list cell).
  Notation never := (never c tmax). Notation n_control := (n_control c tmax cs).
  Notation dist := (dist c h tmax valid cs). Notation dist_w := (dist_w c h tmax valid cs). Notation n_treated := (n_treated c h tmax valid cs).
  Notation safe_nsw := (safe_nsw c h tmax valid cs). Notation sw_mask := (sw_mask c valid).
  Definition d0 (x : cell) : Qc := oz0 (c_diff x).
  (** the weighted average change of the comparison rows of [x] *)
  Definition ctrl (x : cell) : Qc := sumf (fun y => oz0 (never y) * c_w y * d0 y) (filter (peer x) cs) / n_control x.
  Definition eligible (x : cell) : bool :=
    is_some (c_diff x) && (at_target h x && (h <=? p_L (c_p x))%Z && Qcltb 0 (n_control x) && sw_mask (c_p x)).

  Lemma n_control_peer x y : peer x y = true -> n_control x = n_control y.
  Proof. intros H. unfold InterModel.n_control. f_equal. apply filter_ext. apply peer_ext, H. Qed.
  Lemma dist_ind x : oz0 (dist x) = ind (eligible x).
  Proof.
    unfold InterModel.dist, eligible. destruct (c_diff x); cbn; [|reflexivity].
    now destruct (at_target h x && (h <=? p_L (c_p x))%Z && Qcltb 0 (n_control x) && sw_mask (c_p x)).
  Qed.
  Lemma dist_w_ind x : dist_w x = ind (eligible x) * c_w x.
  Proof.
    unfold InterModel.dist_w. rewrite dist_ind. destruct (sw_mask (c_p x)) eqn:E; [reflexivity|].
    replace (eligible x) with false; [cbn; ring|]. unfold eligible. rewrite E, !andb_false_r. reflexivity.
  Qed.
  Lemma eligible_pos x : eligible x = true -> 0 < n_control x.
  Proof. unfold eligible. rewrite !andb_true_iff. intros (_ & ((_ & H) & _)). destruct (Qcltb_spec 0 (n_control x)); [auto|discriminate]. Qed.
  Lemma dist_one_elig x : dist_one c h tmax valid cs x = eligible x.
  Proof.
    unfold dist_one, InterModel.dist, eligible. destruct (c_diff x); cbn; [|reflexivity].
    destruct (at_target h x && (h <=? p_L (c_p x))%Z && Qcltb 0 (n_control x) && sw_mask (c_p x)); reflexivity.
  Qed.
  Lemma is_sw_elig x : is_sw c h tmax valid cs x = eligible x.
  Proof.
    unfold is_sw, InterModel.dist, eligible. destruct (c_diff x); cbn; [|reflexivity].
    destruct (sw_mask (c_p x)); [|now rewrite !andb_false_r]. rewrite !andb_true_r.
    destruct (at_target h x && (h <=? p_L (c_p x))%Z && Qcltb 0 (n_control x)); reflexivity.
  Qed.

  Lemma inf_temp_val x : oz0 (inf_temp c h tmax valid cs x)
    = qn (n_units cs) / safe_nsw * (c_w x * (ind (eligible x) - n_treated x / safe_ncontrol c tmax cs x * oz0 (never x)) * d0 x).
  Proof.
    unfold inf_temp, coef. rewrite <- dist_ind. unfold d0.
    destruct (dist x) as [d|] eqn:E; cbn; [ring|].
    unfold InterModel.dist in E. destruct (c_diff x); [discriminate|]. cbn. ring.
  Qed.

  Lemma raw_estimate_avg : one_first cs -> cs <> [] ->
    raw_estimate c h tmax valid cs = sumf (fun x => c_w x * (d0 x - ctrl x)) (filter eligible cs) / safe_nsw.
  Proof.
    intros Hf Hne. unfold raw_estimate. rewrite sum_units by exact Hf.
    rewrite (sumf_ext _ _ cs (fun x _ => inf_temp_val x)), sumf_mul_l.
    assert (E : sumf (fun x => c_w x * (ind (eligible x) - n_treated x / safe_ncontrol c tmax cs x * oz0 (never x)) * d0 x) cs
              = sumf (fun x => c_w x * (d0 x - ctrl x)) (filter eligible cs)).
    { rewrite sumf_filter.
      transitivity (sumf (fun x => ind (eligible x) * c_w x * d0 x) cs
                    - sumf (fun x => n_treated x / safe_ncontrol c tmax cs x * (oz0 (never x) * c_w x * d0 x)) cs).
      { rewrite <- sumf_sub. apply sumf_ext. intros; ring. }
      transitivity (sumf (fun x => ind (eligible x) * c_w x * d0 x) cs - sumf (fun x => ind (eligible x) * c_w x * ctrl x) cs).
      2:{ rewrite <- sumf_sub. apply sumf_ext. intros; ring. }
      match goal with |- ?a - ?b = ?a - ?d => cut (b = d); [intros ->; reflexivity|] end.
      transitivity (sumf (fun x => sumf (fun y => ind (peer x y) * dist_w y / safe_ncontrol c tmax cs x * (oz0 (never x) * c_w x * d0 x)) cs) cs).
      { apply sumf_ext. intros x _. unfold InterModel.n_treated. rewrite sumf_filter. unfold Qcdiv. rewrite <- !sumf_mul_r.
        apply sumf_ext. intros; ring. }
      rewrite sumf_swap. apply sumf_ext. intros y Hy. rewrite dist_w_ind.
      destruct (eligible y) eqn:Ey; cbn; [|apply eq_trans with (sumf (fun _ : cell => 0) cs); [apply sumf_ext; intros; unfold Qcdiv; ring|rewrite sumf_0; ring]].
      pose proof (eligible_pos y Ey) as Hp. apply Qc_pos_neq0 in Hp.
      unfold ctrl. rewrite sumf_filter. unfold Qcdiv. rewrite <- sumf_mul_r, <- sumf_mul_l. apply sumf_ext. intros x Hx.
      rewrite (peer_sym x y). destruct (peer y x) eqn:Ep; cbn; [|ring].
      unfold safe_ncontrol. rewrite <- (n_control_peer y x Ep). destruct (Qceqb_spec (n_control y) 0); [contradiction|]. ring. }
    rewrite E. pose proof (n_units_pos cs Hne) as Hn. unfold Qcdiv.
    match goal with |- ?n * ?s * ?e * / ?n = ?r => transitivity (e * s * (n * / n)); [ring|] end.
    rewrite Qcmult_inv_r by exact Hn. ring.
  Qed.
  Lemma nsw_weighted_elig : n_sw_weighted c h tmax valid cs = sumf c_w (filter eligible cs).
  Proof. unfold n_sw_weighted. rewrite sumf_filter. apply sumf_ext. intros; apply dist_w_ind. Qed.
  Lemma n_sw_zero : n_sw c h tmax valid cs = O <-> filter eligible cs = [].
  Proof.
    unfold n_sw. rewrite (filter_ext _ _ (fun x => is_sw_elig x)). destruct (filter eligible cs) as [|x l]; [easy|].
    split; [|discriminate]. intros H. exfalso.
    destruct (zuniq (map (fun x => p_g (c_p x)) (x :: l))) as [|z m] eqn:E; [|discriminate].
    apply (in_nil (a := p_g (c_p x))). rewrite <- E, zuniq_in. now left.
  Qed.
End One.
