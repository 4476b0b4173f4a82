(** The derivative matrix is the derivative; polynomials are reproduced with their derivative. *)
From Coq Require Import Qcabs.
From Verif Require Import Base Calc SplineModel SplineSpec SplineProofs SplineProofs2 SplineProofs3.

Lemma dotl_seq : forall a b, length a = length b -> dotl a b = sumf (fun i => nth i a 0 * nth i b 0) (seq 0 (length a)).
Proof.
  unfold dotl. induction a as [|x a IH]; intros [|y b] H; cbn in H; try discriminate; [reflexivity|].
  cbn [combine map length seq]. rewrite sumf_cons. cbn [qsum fold_right fst snd nth]. f_equal. fold (qsum (map (fun p => fst p * snd p) (combine a b))).
  rewrite IH by lia. rewrite <- seq_shift. unfold sumf. rewrite map_map. reflexivity.
Qed.

Lemma D_glue f g h d : derivative_at_0 f d -> derivative_at_0 g d -> f 0 = g 0 ->
  near0 (fun e => h e = if Qcltb e 0 then g e else f e) -> derivative_at_0 h d.
Proof.
  intros Df Dg E0 Hh. apply deriv_elim in Df as [r1 [[B1 B1'] E1]]. apply deriv_elim in Dg as [r2 [[B2 B2'] E2]].
  apply (deriv_intro _ _ (fun e => if Qcltb e 0 then r2 e else r1 e)).
  - exists (Qcabs B1 + Qcabs B2). eapply near0_impl; [|apply (near0_and _ _ B1' B2')]. cbn beta. intros e [H1 H2].
    assert (P1 := Qcabs_nonneg B1). assert (P2 := Qcabs_nonneg B2). assert (L1 := Qcle_Qcabs B1). assert (L2 := Qcle_Qcabs B2).
    destruct (Qcltb e 0); [eapply Qcle_trans; [exact H2|]|eapply Qcle_trans; [exact H1|]]; qclra.
  - assert (H0 := near0_at0 _ Hh). cbn beta in H0. replace (Qcltb 0 0) with false in H0 by reflexivity.
    eapply near0_impl; [|apply (near0_and _ _ Hh (near0_and _ _ E1 E2))]. cbn beta. intros e [He [H1 H2]].
    rewrite He, H0. destruct (Qcltb e 0); [rewrite H2, E0; reflexivity|rewrite H1; reflexivity].
Qed.

Section Seq.
Context (k : nat) (lo hi : Qc) (internal : list Qc) (G : good k lo hi internal).
Let T := knot_seq k lo hi internal.
Let n := n_basis T k.
Let t := kn T.
Let it := itv k lo hi internal.

Lemma spline_eq c x : length c = n -> spline T k c x = sumf (fun i => nth i c 0 * bs t (it x) k i x) (seq 0 n).
Proof.
  intros H. unfold spline.
  rewrite dotl_seq by (rewrite H; symmetry; apply basis_row_length). rewrite H. apply sumf_ext. intros i Hi. apply in_seq in Hi.
  rewrite (basis_row_nth k lo hi internal) by (fold T n; lia). reflexivity.
Qed.
Lemma dspline_eq c x : length c = n -> dotl c (deriv_row T k x) = sumf (fun i => nth i c 0 * dbs t (it x) k i x) (seq 0 n).
Proof.
  intros H. rewrite dotl_seq by (rewrite H; symmetry; apply deriv_row_length_any). rewrite H. apply sumf_ext. intros i Hi. apply in_seq in Hi.
  rewrite (deriv_row_nth k lo hi internal) by (fold T n; lia). reflexivity.
Qed.
Lemma range i : (i < n)%nat -> (i + k + 1 < length T)%nat.
Proof. intros H. unfold n, n_basis in H. lia. Qed.
Lemma piece_sum l c x : derivative_at_0 (fun e => sumf (fun i => nth i c 0 * bs t l k i (x + e)) (seq 0 n)) (sumf (fun i => nth i c 0 * dbs t l k i x) (seq 0 n)).
Proof.
  apply D_sum. intros i Hi. apply in_seq in Hi. apply D_scale.
  apply (piece_deriv t (length T) (t_mono k lo hi internal G)). apply range. lia.
Qed.
Lemma deriv_off c x : length c = n -> ~ In x internal -> derivative_at (spline T k c) x (dotl c (deriv_row T k x)).
Proof.
  intros Hc Hx. unfold derivative_at. rewrite dspline_eq by exact Hc.
  refine (D_ext _ _ _ _ (piece_sum (it x) c x)). eapply near0_impl; [|apply (itv_near k lo hi internal x Hx)].
  cbn beta. intros e He. rewrite spline_eq by exact Hc. unfold it at 2. rewrite He. reflexivity.
Qed.

Lemma itv_unique x l : (k <= l)%nat -> (l < n)%nat -> (l = k \/ t l <= x) -> (S l = n \/ x < t (S l)) -> it x = l.
Proof.
  intros H1 H2 H3 H4. assert (M := t_mono k lo hi internal G). fold T t in M.
  destruct (itv_range k lo hi internal x) as [A B]. fold T n it in A, B. unfold it, itv, find_interval in *.
  destruct (scan_spec (kn T) x (n - 1 - k) k) as [S1 S2]. cbv zeta in *. fold T n t in S1, S2 |- *. fold T n t in A, B.
  set (r := scan t x (n - 1 - k) k) in *.
  assert (HN : (n < length T)%nat) by (unfold n, n_basis in *; lia).
  destruct (lt_eq_lt_dec r l) as [[h|h]|h]; [|exact h|].
  - exfalso. destruct H3 as [->|H3]; [lia|]. assert (X := S2 ltac:(lia)). assert (Y := M (S r) l ltac:(lia) ltac:(lia)). apply (Qclt_not_le _ _ X). exact (Qcle_trans _ _ _ Y H3).
  - exfalso. destruct H4 as [H4|H4]; [lia|]. assert (X := S1 r ltac:(lia)). assert (Y := M (S l) r ltac:(lia) ltac:(lia)). apply (Qclt_not_le _ _ H4). exact (Qcle_trans _ _ _ Y X).
Qed.
Lemma t_strict i : NoDup internal -> (k <= i)%nat -> (i < n)%nat -> t i < t (S i).
Proof.
  intros ND H1 H2. apply (itv_wide k lo hi internal G i H1 H2). intros j Hj Hi. fold T n t in Hi |- *.
  assert (En := n_eq k lo hi internal). fold T n in En.
  assert (M := t_mono k lo hi internal G j (S i) ltac:(lia) ltac:(rewrite T_length; lia)). fold T t in M.
  destruct (Qcle_lt_or_eq _ _ M) as [h|h]; [exact h|]. exfalso.
  assert (A1 := t_int k lo hi internal (j - S k) ltac:(lia)). assert (A2 := t_int k lo hi internal (S i - S k) ltac:(lia)). fold T t in A1, A2.
  replace (S k + (j - S k))%nat with j in A1 by lia. replace (S k + (S i - S k))%nat with (S i) in A2 by lia.
  rewrite A1, A2 in h. assert (ND' : NoDup (qsort internal)) by (eapply Permutation_NoDup; [apply qsort_perm|exact ND]).
  apply (proj1 (NoDup_nth _ 0) ND') in h; rewrite ?qsort_length; lia.
Qed.

Lemma deriv_knot c x p : k = S (S p) -> length c = n -> NoDup internal -> In x internal -> derivative_at (spline T k c) x (dotl c (deriv_row T k x)).
Proof.
  intros Ek Hc ND Hx. assert (En := n_eq k lo hi internal). fold T n in En.
  assert (Hl : exists r, (r < length internal)%nat /\ t (S k + r)%nat = x).
  { apply (Permutation_in x (qsort_perm internal)), In_nth with (d := 0) in Hx as [r [Hr Er]]. rewrite qsort_length in Hr. exists r.
    split; [exact Hr|]. rewrite <- Er. apply (t_int k lo hi internal). exact Hr. }
  destruct Hl as [r [Hr Er]]. set (l := (k + r)%nat). replace (S k + r)%nat with (S l) in Er by (unfold l; lia).
  assert (L1 : t l < t (S l)) by (apply t_strict; auto; unfold l; lia).
  assert (L2 : t (S l) < t (S (S l))) by (apply t_strict; auto; unfold l; lia).
  assert (I0 : it x = S l).
  { apply itv_unique; [unfold l; lia|unfold l; lia|right; rewrite Er; apply Qcle_refl|right; rewrite <- Er; exact L2]. }
  assert (DX : derivative_at_0 (fun e => x + e) (0 + 1)) by (apply D_add; [apply D_const|apply D_id]).
  unfold derivative_at. rewrite dspline_eq by exact Hc. rewrite I0.
  apply (D_glue (fun e => sumf (fun i => nth i c 0 * bs t (S l) k i (x + e)) (seq 0 n))
                (fun e => sumf (fun i => nth i c 0 * bs t l k i (x + e)) (seq 0 n))).
  - apply piece_sum.
  - refine (D_eq _ _ _ _ (piece_sum l c x)). apply sumf_ext. intros i _. rewrite Ek, (dbs_glue t l x (eq_sym Er) L1 L2). reflexivity.
  - apply sumf_ext. intros i _. replace (x + 0) with x by ring. rewrite Ek, (bs_glue t l x (eq_sym Er) L1 L2). reflexivity.
  - assert (N1 : near0 (fun e => x + e < t (S (S l)))).
    { apply (D_lt (fun e => x + e) _ _ DX). replace (x + 0) with x by ring. rewrite <- Er. exact L2. }
    assert (N2 : near0 (fun e => t l < x + e)).
    { apply (D_gt (fun e => x + e) _ _ DX). replace (x + 0) with x by ring. rewrite <- Er. exact L1. }
    eapply near0_impl; [|apply (near0_and _ _ N1 N2)]. cbn beta. intros e [E1 E2]. rewrite spline_eq by exact Hc.
    destruct (Qcltb_spec e 0) as [h|h].
    + rewrite (itv_unique (x + e) l); [reflexivity|unfold l; lia|unfold l; lia|right; apply Qclt_le_weak; exact E2|right; rewrite Er; qclra].
    + apply Qcnot_lt_le in h. rewrite (itv_unique (x + e) (S l)); [reflexivity|unfold l; lia|unfold l; lia|right; rewrite Er; qclra|right; exact E1].
Qed.

(** Reproduction of polynomials. *)
Definition pcoefs (a : list Qc) : list Qc := map (pcoef t k a) (seq 0 n).
Lemma pcoefs_length a : length (pcoefs a) = n. Proof. unfold pcoefs. rewrite map_length, seq_length. reflexivity. Qed.
Lemma pcoefs_nth a i : (i < n)%nat -> nth i (pcoefs a) 0 = pcoef t k a i.
Proof.
  intros H. unfold pcoefs. rewrite (nth_indep _ 0 (pcoef t k a 0)) by (rewrite map_length, seq_length; exact H).
  rewrite (map_nth (pcoef t k a)), seq_nth by exact H. reflexivity.
Qed.
Lemma pcoefs_piece a x y : (length a <= S k)%nat -> sumf (fun i => nth i (pcoefs a) 0 * bs t (it x) k i y) (seq 0 n) = poly a y.
Proof.
  intros Ha. destruct (itv_range k lo hi internal x) as [A B]. fold T n it in A, B.
  rewrite <- (poly_repr t (length T) (t_mono k lo hi internal G) k n (it x) a y A B); [|unfold n, n_basis in *; lia|apply (itv_lt k lo hi internal G)|exact Ha].
  apply sumf_ext. intros i Hi. apply in_seq in Hi. rewrite pcoefs_nth by lia. reflexivity.
Qed.
Lemma pcoefs_ok a x : (length a <= S k)%nat -> spline T k (pcoefs a) x = poly a x.
Proof. intros Ha. rewrite spline_eq by apply pcoefs_length. apply pcoefs_piece, Ha. Qed.
Lemma pcoefs_deriv a x : (length a <= S k)%nat -> dotl (pcoefs a) (deriv_row T k x) = poly' a x.
Proof.
  intros Ha. rewrite dspline_eq by apply pcoefs_length.
  apply (D_unique (fun e => sumf (fun i => nth i (pcoefs a) 0 * bs t (it x) k i (x + e)) (seq 0 n))); [apply piece_sum|].
  refine (D_ext _ _ _ _ (D_poly_user a x)). apply near0_all. intros e. symmetry. apply pcoefs_piece, Ha.
Qed.
End Seq.
