(** Proofs for C27: the reported influence function is the derivative of the estimate in the sampling weights. *)
From Coq Require Import Qcabs.
From Verif Require Import Base ListLib ReduceModel ReduceProofs2 Calc DrdidModel DrdidSpec DrdidProofs DrdidProofs2 DrdidProofs3 DrdidProofs4 DrdidProofs5.

(** ** solutions of linear equations with perturbed coefficients *)
Lemma Qcabs_sum {A} (f : A -> Qc) l : Qcabs (sumf f l) <= sumf (fun a => Qcabs (f a)) l.
Proof.
  induction l as [|a l IH]; [rewrite !sumf_nil, abs0; apply Qcle_refl|]. rewrite !sumf_cons.
  eapply Qcle_trans; [apply Qcabs_triangle|]. apply Qcplus_le_compat; [apply Qcle_refl|exact IH].
Qed.
Lemma sumf_ge_elem {A} (f : A -> Qc) l a : (forall a, In a l -> 0 <= f a) -> In a l -> f a <= sumf f l.
Proof.
  induction l as [|b l IH]; intros H []; rewrite sumf_cons.
  - subst. assert (0 <= sumf f l) by (apply sumf_nonneg; intros; apply H; right; assumption). qclra.
  - assert (f a <= sumf f l) by (apply IH; [intros; apply H; right; assumption|assumption]). assert (0 <= f b) by (apply H; left; reflexivity). qclra.
Qed.
Lemma Qcmult_le_l (a b c : Qc) : 0 <= c -> a <= b -> c * a <= c * b.
Proof. intros Hc H. rewrite (Qcmult_comm c a), (Qcmult_comm c b). apply Qcmult_le_compat_r; assumption. Qed.

Lemma perturbed_solution {I} (idx : list I) (delta : I -> Qc -> Qc) (c : I -> Qc) (M : I -> I -> Qc) :
  near0 (fun e => forall i, In i idx -> delta i e = e * (c i + sumf (fun m => M i m * delta m e) idx)) ->
  forall i, In i idx -> derivative_at_0 (delta i) (c i).
Proof.
  intros H i Hi.
  set (K1 := sumf (fun i => Qcabs (c i)) idx). set (K2 := sumf (fun i => sumf (fun m => Qcabs (M i m)) idx) idx).
  assert (P1 : 0 <= K1) by (apply sumf_nonneg; intros; apply Qcabs_nonneg).
  assert (P2 : 0 <= K2) by (apply sumf_nonneg; intros; apply sumf_nonneg; intros; apply Qcabs_nonneg).
  set (T := fun e => sumf (fun i => Qcabs (delta i e)) idx).
  assert (PT : forall e, 0 <= T e) by (intros; apply sumf_nonneg; intros; apply Qcabs_nonneg).
  assert (B : near0 (fun e => T e <= (1 + 1) * K1 * Qcabs e)).
  { assert (S : near0 (fun e => Qcabs e * K2 <= / (1 + 1))).
    { exists (/ (1 + 1) / (K2 + 1)). split; [apply Qcdiv_pos; [reflexivity|qclra]|]. intros e He.
      apply (Qcle_trans _ (Qcabs e * (K2 + 1))); [apply Qcmult_le_l; [apply Qcabs_nonneg|qclra]|].
      replace (/ (1 + 1)) with (/ (1 + 1) / (K2 + 1) * (K2 + 1)) by (field; repeat split; first [discriminate|apply Qc_pos_neq0; qclra]).
      apply Qcmult_le_compat_r; [exact He|qclra]. }
    eapply near0_impl; [|apply (near0_and _ _ S H)]. cbn beta. intros e [He E].
    assert (L : T e <= Qcabs e * K1 + Qcabs e * K2 * T e).
    { unfold T at 1. apply (Qcle_trans _ (sumf (fun i => Qcabs e * Qcabs (c i) + Qcabs e * (sumf (fun m => Qcabs (M i m)) idx * T e)) idx)).
      - apply sumf_le. intros j Hj. rewrite (E j Hj), Qcabs_Qcmult.
        apply (Qcle_trans _ (Qcabs e * (Qcabs (c j) + sumf (fun m => Qcabs (M j m)) idx * T e))); [|apply Qc_eq_le_; ring].
        apply Qcmult_le_l; [apply Qcabs_nonneg|]. eapply Qcle_trans; [apply Qcabs_triangle|]. apply Qcplus_le_compat; [apply Qcle_refl|].
        eapply Qcle_trans; [apply Qcabs_sum|]. rewrite <- sumf_mul_r. apply sumf_le. intros m Hm. rewrite Qcabs_Qcmult.
        apply Qcmult_le_l; [apply Qcabs_nonneg|]. apply (sumf_ge_elem (fun i => Qcabs (delta i e))); [intros; apply Qcabs_nonneg|exact Hm].
      - rewrite sumf_add, !sumf_mul_l, sumf_mul_r. fold K1 K2. apply Qc_eq_le_. ring. }
    assert (L2 : Qcabs e * K2 * T e <= / (1 + 1) * T e) by (apply Qcmult_le_compat_r; [exact He|apply PT]).
    assert (X : / (1 + 1) * T e + / (1 + 1) * T e = T e) by (field; discriminate).
    set (t := T e) in *. set (y := / (1 + 1) * t) in *. assert (Z : (1 + 1) * K1 * Qcabs e = Qcabs e * K1 + Qcabs e * K1) by ring. rewrite Z.
    set (a := Qcabs e * K1) in *. set (b := Qcabs e * K2 * t) in *. clearbody a b t y. clear - L L2 X. qclra. }
  set (u := fun m e => delta m e / e).
  assert (Z0 : forall m, In m idx -> delta m 0 = 0).
  { intros m Hm. apply near0_at0 in B. rewrite abs0 in B. apply Qcabs_null, Qcle_antisym; [|apply Qcabs_nonneg].
    eapply Qcle_trans; [apply (sumf_ge_elem (fun i => Qcabs (delta i 0)) idx m); [intros; apply Qcabs_nonneg|exact Hm]|]. eapply Qcle_trans; [exact B|]. apply Qc_eq_le_. ring. }
  assert (U : forall m, In m idx -> bounded0 (u m)).
  { intros m Hm. exists ((1 + 1) * K1). eapply near0_impl; [|exact B]. cbn beta. intros e He.
    destruct (Qceqb_spec e 0) as [->|Ne].
    - unfold u. rewrite Qcdiv_0_r, abs0. apply Qcmult_nonneg; [discriminate|exact P1].
    - assert (Le : Qcabs (delta m e) <= (1 + 1) * K1 * Qcabs e) by (eapply Qcle_trans; [apply (sumf_ge_elem (fun i => Qcabs (delta i e)) idx m); [intros; apply Qcabs_nonneg|exact Hm]|exact He]).
      assert (Pe : 0 < Qcabs e). { destruct (Qc_le_or_lt (Qcabs e) 0) as [L|L]; [|exact L]. exfalso. apply Ne, Qcabs_null, Qcle_antisym; [exact L|apply Qcabs_nonneg]. }
      unfold u, Qcdiv. rewrite Qcabs_Qcmult. assert (Iv := Qcabs_inv e Ne).
      apply (Qcle_trans _ ((1 + 1) * K1 * Qcabs e * Qcabs (/ e))); [apply Qcmult_le_compat_r; [exact Le|apply Qcabs_nonneg]|].
      apply Qc_eq_le_. transitivity ((1 + 1) * K1 * (Qcabs (/ e) * Qcabs e)); [ring|rewrite Iv; ring]. }
  apply (deriv_intro _ _ (fun e => sumf (fun m => M i m * u m e) idx)).
  - apply (bnd_sum idx (fun m e => M i m * u m e)). intros m Hm. apply bnd_mul; [apply bnd_const|apply U; exact Hm].
  - eapply near0_impl; [|exact H]. cbn beta. intros e E. rewrite (Z0 i Hi), (E i Hi).
    rewrite (sumf_ext (fun m => M i m * delta m e) (fun m => e * (M i m * u m e))); [rewrite sumf_mul_l; ring|].
    intros m Hm. unfold u. destruct (Qceqb_spec e 0) as [->|Ne]; [rewrite (Z0 m Hm); ring|]. field. exact Ne.
Qed.
