(** Least squares in a cell: normal equations, mean fit, uniqueness, polynomials. *)
From Verif Require Import Base ListLib ReduceModel DrdidModel DrdidSpec SplineModel SplineSpec SplineProofs3 SplineProofs4 SplineProps ContModel ContSpec ContProofs ContProofs2.
From Coq Require Import Sorting.Sorted.

Lemma dotk_dotl k a b : length a = k -> length b = k -> dotk k a b = dotl a b.
Proof. intros A B. rewrite dotl_seq by lia. now rewrite A. Qed.
Lemma cell_knots_good deg knots doses t : cell_knots deg knots doses = Some t ->
  exists lo hi, boundary doses (Some (qmin_l doses, qmax_l doses)) = Some (lo, hi) /\ good deg lo hi knots /\ t = knot_seq deg lo hi knots.
Proof. apply knots_good. Qed.
Lemma nb_eq deg knots doses t : cell_knots deg knots doses = Some t -> n_basis t deg = (S deg + length knots)%nat.
Proof. intros H. destruct (cell_knots_good _ _ _ _ H) as [lo [hi [_ [G ->]]]]. apply n_eq. Qed.
Lemma basis_row_len t k v : length (basis_row t k v) = n_basis t k.
Proof. unfold basis_row. now rewrite map_length, seq_length. Qed.
Lemma tl_length {A} (l : list A) : length (tl l) = (length l - 1)%nat.
Proof. destruct l; cbn; lia. Qed.
Lemma brow_length deg knots doses t v : cell_knots deg knots doses = Some t -> length (brow t deg v) = n_basis t deg.
Proof. intros H. unfold brow. cbn [length]. rewrite tl_length, basis_row_len. rewrite (nb_eq _ _ _ _ H). lia. Qed.
Lemma drow_length t deg v : length (drow t deg v) = (n_basis t deg - 1)%nat.
Proof. unfold drow. rewrite tl_length, deriv_row_length_any. reflexivity. Qed.
Lemma two_doses_ne l : two_doses l = true -> l <> [].
Proof. intros H ->. discriminate H. Qed.

Lemma sub0_eq (a b : Qc) : a - b = 0 -> b = a.
Proof. intros H. transitivity (a - (a - b)); [ring|]. rewrite H. ring. Qed.

Lemma dotl_cons x y a b : dotl (x :: a) (y :: b) = x * y + dotl a b.
Proof. reflexivity. Qed.
Lemma dotl_comm : forall a b, dotl a b = dotl b a.
Proof. induction a as [|x a IH]; intros [|y b]; try reflexivity. rewrite !dotl_cons, IH. ring. Qed.

Section Fit.
  Context (orc : coracle) (Lok : lstsq_ok (co_lstsq orc)) (Iok : cinv_ok (co_inv orc)).
  Context (deg : nat) (knots doses t : list Qc) (K : cell_knots deg knots doses = Some t) (tr : list (Z * Qc * Qc)) (Tne : tr <> []).
  Let k := n_basis t deg.
  Lemma k_pos : (1 <= k)%nat.
  Proof. unfold k. rewrite (nb_eq _ _ _ _ K). lia. Qed.
  Let row := fun u : Z * Qc * Qc => brow t deg (dose_of u).
  Lemma normal (y : Z * Qc * Qc -> Qc) coef : co_lstsq orc (dX t deg tr) (map y tr) = Some coef ->
    length coef = k /\ forall j, (j < k)%nat -> sumf (fun u => nth j (row u) 0 * (y u - dotk k (row u) coef)) tr = 0.
  Proof.
    intros L. destruct Lok as [Lo _]. destruct (Lo _ _ _ k L) as [E N].
    - unfold dX. intros H. apply map_eq_nil in H. tauto.
    - unfold dX. now rewrite !map_length.
    - intros x Hx. unfold dX in Hx. apply in_map_iff in Hx. destruct Hx as [u [<- _]]. apply (brow_length _ _ _ _ _ K).
    - split; [exact E|]. intros j Hj. specialize (N j Hj). unfold dX in N. rewrite combine_map, sumf_map in N. cbn [fst snd] in N.
      refine (eq_trans _ N). apply sumf_ext. intros u _. rewrite (dotk_dotl k); [reflexivity|apply (brow_length _ _ _ _ _ K)|exact E].
  Qed.
  (** The intercept makes the average fit the average outcome. *)
  Lemma mean_fit (y : Z * Qc * Qc -> Qc) coef : co_lstsq orc (dX t deg tr) (map y tr) = Some coef ->
    mean (fun u => dotk (length coef) (row u) coef) tr = mean y tr.
  Proof.
    intros L. destruct (normal y coef L) as [E N]. rewrite E. specialize (N 0%nat k_pos). cbn [row brow nth] in N.
    rewrite (sumf_ext _ (fun u => y u - dotk k (row u) coef)) in N by (intros u _; ring). rewrite sumf_sub in N.
    unfold mean. f_equal. exact (sub0_eq _ _ N).
  Qed.
  Lemma dotk_app_inv bread c : is_inverse k (gram t deg k tr) bread -> length c = k ->
    forall i, (i < k)%nat -> nth i c 0 = sumf (fun j => mget bread i j * (sumf (fun u => nth j (row u) 0 * dotk k (row u) c) tr / qn (length tr))) (seq 0 k).
  Proof.
    intros In_ Lc i Hi.
    assert (G : forall j, (j < k)%nat -> sumf (fun u => nth j (row u) 0 * dotk k (row u) c) tr / qn (length tr)
        = sumf (fun b => mget (gram t deg k tr) j b * nth b c 0) (seq 0 k)).
    { intros j Hj. unfold dotk. rewrite (sumf_ext _ (fun u => sumf (fun b => nth j (row u) 0 * nth b (row u) 0 * nth b c 0) (seq 0 k))).
      2:{ intros u _. rewrite <- sumf_mul_l. apply sumf_ext. intros b _. ring. }
      rewrite sumf_swap, <- sumf_div. apply sumf_ext. intros b Hb. apply in_seq in Hb.
      assert (E : mget (gram t deg k tr) j b = sumf (fun u => nth j (row u) 0 * nth b (row u) 0) tr / qn (length tr)).
      { unfold mget, gram, mat_of. rewrite (nth_indep _ [] (map (fun b => sumf (fun u => nth 0 (row u) 0 * nth b (row u) 0) tr / qn (length tr)) (seq 0 k))) by (rewrite map_length, seq_length; lia).
        rewrite (map_nth (fun i => map (fun b => sumf (fun u => nth i (row u) 0 * nth b (row u) 0) tr / qn (length tr)) (seq 0 k))), seq_nth by lia. cbn [Nat.add].
        rewrite (nth_indep _ 0 ((fun b => sumf (fun u => nth j (row u) 0 * nth b (row u) 0) tr / qn (length tr)) 0%nat)) by (rewrite map_length, seq_length; lia).
        rewrite (map_nth (fun b => sumf (fun u => nth j (row u) 0 * nth b (row u) 0) tr / qn (length tr))), seq_nth by lia. reflexivity. }
      rewrite E, sumf_mul_r. unfold Qcdiv. ring. }
    rewrite (sumf_ext _ (fun j => sumf (fun b => mget bread i j * mget (gram t deg k tr) j b * nth b c 0) (seq 0 k))).
    2:{ intros j Hj. apply in_seq in Hj. rewrite G by lia. rewrite <- sumf_mul_l. apply sumf_ext. intros b _. ring. }
    rewrite sumf_swap. rewrite (sumf_ext _ (fun b => ind (i =? b)%nat * nth b c 0)).
    2:{ intros b Hb. apply in_seq in Hb. rewrite sumf_mul_r. f_equal. apply (In_ i b); lia. }
    clear -Hi. assert (S : forall s n, (s <= i < s + n)%nat -> sumf (fun b => ind (i =? b)%nat * nth b c 0) (seq s n) = nth i c 0).
    { intros s n. revert s. induction n as [|n IH]; intros s H; [lia|]. cbn [seq]. rewrite sumf_cons. destruct (Nat.eqb_spec i s) as [->|N].
      - rewrite sumf_zero; [unfold ind; ring|]. intros b Hb. apply in_seq in Hb. destruct (Nat.eqb_spec s b); [lia|]. unfold ind. ring.
      - rewrite IH by lia. unfold ind. ring. }
    symmetry. apply S. lia.
  Qed.
  (** Two coefficient vectors with the same fitted moments coincide. *)
  Lemma coef_unique bread c c' : is_inverse k (gram t deg k tr) bread -> length c = k -> length c' = k ->
    (forall j, (j < k)%nat -> sumf (fun u => nth j (row u) 0 * dotk k (row u) c) tr = sumf (fun u => nth j (row u) 0 * dotk k (row u) c') tr) -> c = c'.
  Proof.
    intros I L L' H. apply (nth_ext c c' 0 0); [lia|]. intros i Hi. rewrite (dotk_app_inv bread c I L i), (dotk_app_inv bread c' I L' i) by lia.
    apply sumf_ext. intros j Hj. apply in_seq in Hj. rewrite H by lia. reflexivity.
  Qed.
  Lemma gram_length n : length (gram t deg n tr) = n.
  Proof. unfold gram, mat_of. now rewrite map_length, seq_length. Qed.
  (** If the outcome is a polynomial in the dose, the coefficients are those of the polynomial. *)
  Lemma poly_coef coef bread a : ((0 <? deg)%nat && negb (diff_ok t deg) = false) ->
    co_lstsq orc (dX t deg tr) (map dy_of tr) = Some coef -> co_inv orc (gram t deg (length coef) tr) = Some bread ->
    (length a <= deg + 1)%nat -> (forall u, In u tr -> dy_of u = poly a (dose_of u)) ->
    (forall v, dotk (length coef) (brow t deg v) coef = poly a v) /\ (forall v, dotk (length coef - 1) (drow t deg v) (tl coef) = poly' a v).
  Proof.
    intros D L Iv La P. destruct (normal dy_of coef L) as [E N]. rewrite E in *.
    destruct (cell_knots_good _ _ _ _ K) as [lo [hi [B [Gd Et]]]].
    destruct (C96_with_intercept deg doses knots (Some (qmin_l doses, qmax_l doses)) lo hi (map (fun v => deriv_row t deg v) doses) a B) as [b0 [b [Lb [F1 F2]]]].
    { unfold bspline_derivative. change (bspline_knots deg doses knots (Some (qmin_l doses, qmax_l doses))) with (cell_knots deg knots doses). rewrite K, D. reflexivity. }
    { exact La. }
    assert (BA : forall v, basis_at deg lo hi knots false v = tl (basis_row t deg v)).
    { intros v. apply (basis_at_eq deg lo hi knots doses (Some (qmin_l doses, qmax_l doses)) t v false B K). }
    assert (DA : forall v, derivative_row_at deg lo hi knots false v = drow t deg v).
    { intros v. destruct (deriv_at_eq deg lo hi knots doses (Some (qmin_l doses, qmax_l doses)) (map (fun v => deriv_row t deg v) doses) true B) as [t' [K' [_ D']]].
      - unfold bspline_derivative. change (bspline_knots deg doses knots (Some (qmin_l doses, qmax_l doses))) with (cell_knots deg knots doses). rewrite K, D. reflexivity.
      - assert (t' = t) by (unfold cell_knots in K; congruence). subst t'. apply D'. }
    assert (Kn := nb_eq _ _ _ _ K). fold k in Kn.
    assert (Lc : length (b0 :: b) = k) by (cbn; lia).
    assert (Q : forall v, dotk k (brow t deg v) (b0 :: b) = poly a v).
    { intros v. rewrite (dotk_dotl k); [|apply (brow_length _ _ _ _ _ K)|exact Lc]. rewrite <- F1, BA. unfold brow. rewrite dotl_cons, dotl_comm. ring. }
    assert (C : coef = b0 :: b).
    { apply (coef_unique bread); [apply (Iok _ _ k Iv); apply gram_length|exact E|exact Lc|]. intros j Hj. specialize (N j Hj).
      rewrite (sumf_ext (fun u => nth j (row u) 0 * dotk k (row u) (b0 :: b)) (fun u => nth j (row u) 0 * dy_of u)).
      2:{ intros u Hu. rewrite (P u Hu). f_equal. apply Q. }
      rewrite (sumf_ext _ (fun u => nth j (row u) 0 * dy_of u - nth j (row u) 0 * dotk k (row u) coef)) in N by (intros u _; ring).
      rewrite sumf_sub in N. exact (sub0_eq _ _ N). }
    rewrite C. split; [exact Q|]. intros v. cbn [tl]. rewrite <- F2, DA. rewrite (dotk_dotl (k - 1)); [|rewrite drow_length; reflexivity|cbn in Lc; lia].
    apply dotl_comm.
  Qed.
End Fit.
