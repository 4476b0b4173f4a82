(** Polynomials up to the degree lie in the span of the basis (from Marsden's identity, differentiated in its parameter). *)
From Verif Require Import Base Calc SplineModel SplineSpec SplineProofs.

Definition peval (a : list Qc) (y : Qc) : Qc := fold_right (fun c acc => c + y * acc) 0 a.
Fixpoint padd (a b : list Qc) : list Qc :=
  match a, b with | nil, _ => b | _, nil => a | x :: a', y :: b' => (x + y) :: padd a' b' end.
Definition pscale (c : Qc) (a : list Qc) : list Qc := map (Qcmult c) a.
Fixpoint pder (a : list Qc) : list Qc := match a with nil => nil | c :: r => padd r (0 :: pder r) end.
Lemma peval_padd y : forall a b, peval (padd a b) y = peval a y + peval b y.
Proof.
  induction a as [|x a IH]; intros [|z b]; cbn [padd peval fold_right]; try ring.
  fold (peval (padd a b) y) (peval a y) (peval b y). rewrite IH. ring.
Qed.
Lemma peval_pscale y c : forall a, peval (pscale c a) y = c * peval a y.
Proof.
  induction a as [|x a IH]; cbn [pscale map peval fold_right]; [ring|].
  fold (pscale c a) (peval (pscale c a) y) (peval a y). rewrite IH. ring.
Qed.
Lemma D_poly y : forall a, derivative_at_0 (fun e => peval a (y + e)) (peval (pder a) y).
Proof.
  induction a as [|c r IH].
  - cbn. apply D_const.
  - cbn [pder]. rewrite peval_padd.
    apply (D_ext (fun e => c + (y + e) * peval r (y + e))); [apply near0_all; intros e; reflexivity|].
    refine (D_eq _ _ _ _ (D_add _ _ _ _ (D_const c) (D_mul (fun e => y + e) _ _ _ (D_add _ _ _ _ (D_const y) D_id) IH))).
    cbn [peval fold_right]. fold (peval (pder r) y). replace (y + 0) with y by ring. ring.
Qed.

Definition pmul1 (b : Qc) (a : list Qc) : list Qc := padd (0 :: a) (pscale (- b) a).
Fixpoint psip (t : nat -> Qc) (p i : nat) : list Qc := match p with O => 1 :: nil | S q => pmul1 (t (S i)) (psip t q (S i)) end.
Lemma psip_ok t y : forall p i, peval (psip t p i) y = psi t p i y.
Proof.
  induction p as [|p IH]; intros i; cbn [psip psi]; [cbn; ring|].
  unfold pmul1. rewrite peval_padd, peval_pscale, IH. cbn [peval fold_right].
  fold (peval (psip t p (S i)) y). rewrite IH. ring.
Qed.

Fixpoint falling (p m : nat) : Qc := match m with O => 1 | S m' => falling p m' * qn (p - m') end.
Lemma falling_neq p : forall m, (m <= p)%nat -> falling p m <> 0.
Proof.
  induction m as [|m IH]; intros H; cbn [falling]; [discriminate|].
  intros E. apply Qcmult_integral in E as [E|E]; [apply (IH ltac:(lia) E)|]. revert E. apply qn_neq0. lia.
Qed.
Lemma D_pow x y q : derivative_at_0 (fun e => qpow (y + e - x) (S q)) (qn (S q) * qpow (y - x) q).
Proof.
  induction q as [|q IH].
  - apply (D_ext (fun e => y + e - x)); [apply near0_all; intros e; cbn [qpow]; ring|].
    refine (D_eq _ _ _ _ (D_sub _ _ _ _ (D_add _ _ _ _ (D_const y) D_id) (D_const x))). rewrite qn_S, qn_0. cbn [qpow]. ring.
  - apply (D_ext (fun e => (y + e - x) * qpow (y + e - x) (S q))); [apply near0_all; intros e; reflexivity|].
    refine (D_eq _ _ _ _ (D_mul (fun e => y + e - x) _ _ _ (D_sub _ _ _ _ (D_add _ _ _ _ (D_const y) D_id) (D_const x)) IH)).
    rewrite (qn_S (S q)). replace (y + 0 - x) with (y - x) by ring. cbn [qpow]. ring.
Qed.

Section Repr.
Context (t : nat -> Qc) (N : nat) (Hm : forall i j, (i <= j)%nat -> (j < N)%nat -> t i <= t j).
Context (k n : nat).

Lemma marsden_der l x : (k <= l)%nat -> (l < n)%nat -> (l + k < N)%nat -> t l < t (S l) ->
  forall m y, (m <= k)%nat ->
  sumf (fun i => peval (Nat.iter m pder (psip t k i)) y * bs t l k i x) (seq 0 n) = falling k m * qpow (y - x) (k - m).
Proof.
  intros H1 H2 H3 H4. induction m as [|m IH]; intros y Hm'.
  - cbn [Nat.iter falling nat_rect]. rewrite Nat.sub_0_r, <- (marsden t N Hm l n x y k H1 H2 H3 H4).
    rewrite (sumf_ext _ (fun i => psi t k i y * bs t l k i x)) by (intros i _; rewrite psip_ok; reflexivity). ring.
  - assert (E : forall z, sumf (fun i => peval (Nat.iter m pder (psip t k i)) z * bs t l k i x) (seq 0 n) = falling k m * qpow (z - x) (k - m))
      by (intros z; apply IH; lia).
    apply (D_unique (fun e => sumf (fun i => peval (Nat.iter m pder (psip t k i)) (y + e) * bs t l k i x) (seq 0 n))).
    + apply (D_ext (fun e => sumf (fun i => bs t l k i x * peval (Nat.iter m pder (psip t k i)) (y + e)) (seq 0 n))).
      { apply near0_all. intros e. apply sumf_ext. intros i _. ring. }
      rewrite (sumf_ext _ (fun i => bs t l k i x * peval (pder (Nat.iter m pder (psip t k i))) y)) by (intros i _; rewrite Qcmult_comm; reflexivity).
      apply D_sum. intros i _. apply D_scale, D_poly.
    + apply (D_ext (fun e => falling k m * qpow (y + e - x) (S (k - S m)))).
      { apply near0_all. intros e. rewrite E. f_equal. f_equal. lia. }
      cbn [falling]. rewrite <- Qcmult_assoc. apply D_scale. replace (k - m)%nat with (S (k - S m)) by lia. apply D_pow.
Qed.

(** Coefficients of x^q. *)
Definition mcoef (q i : nat) : Qc := qpow (- (1)) q * (peval (Nat.iter (k - q) pder (psip t k i)) 0 / falling k (k - q)).
Lemma qpow_opp x q : qpow (- (1)) q * qpow (0 - x) q = qpow x q.
Proof.
  induction q as [|q IH]; cbn [qpow]; [ring|]. rewrite <- IH at 1. ring.
Qed.
Lemma monomial l x q : (k <= l)%nat -> (l < n)%nat -> (l + k < N)%nat -> t l < t (S l) -> (q <= k)%nat ->
  sumf (fun i => mcoef q i * bs t l k i x) (seq 0 n) = qpow x q.
Proof.
  intros H1 H2 H3 H4 Hq. assert (E := marsden_der l x H1 H2 H3 H4 (k - q) 0 ltac:(lia)).
  replace (k - (k - q))%nat with q in E by lia.
  assert (F := falling_neq k (k - q) ltac:(lia)).
  transitivity (qpow (- (1)) q * / falling k (k - q) * sumf (fun i => peval (Nat.iter (k - q) pder (psip t k i)) 0 * bs t l k i x) (seq 0 n)).
  - rewrite <- sumf_mul_l. apply sumf_ext. intros i _. unfold mcoef, Qcdiv. ring.
  - rewrite E, <- (qpow_opp x q). field. exact F.
Qed.
(** Coefficients of a polynomial. *)
Definition pcoef (a : list Qc) (i : nat) : Qc := sumf (fun q => nth q a 0 * mcoef q i) (seq 0 (length a)).
Lemma poly_repr l a x : (k <= l)%nat -> (l < n)%nat -> (l + k < N)%nat -> t l < t (S l) -> (length a <= S k)%nat ->
  sumf (fun i => pcoef a i * bs t l k i x) (seq 0 n) = poly a x.
Proof.
  intros H1 H2 H3 H4 Ha. unfold poly.
  transitivity (sumf (fun q => sumf (fun i => nth q a 0 * (mcoef q i * bs t l k i x)) (seq 0 n)) (seq 0 (length a))).
  - rewrite sumf_swap. apply sumf_ext. intros i _. unfold pcoef. rewrite <- sumf_mul_r. apply sumf_ext. intros q _. ring.
  - apply sumf_ext. intros q Hq. apply in_seq in Hq. rewrite sumf_mul_l, (monomial l x q) by (auto; lia). reflexivity.
Qed.
End Repr.

(** Derivative of [poly]. *)
Lemma D_monomial x q : derivative_at_0 (fun e => qpow (x + e) (S q)) (qn (S q) * qpow x q).
Proof.
  refine (D_ext _ _ _ _ (D_eq _ _ _ _ (D_pow 0 x q))).
  - apply near0_all. intros e. replace (x + e - 0) with (x + e) by ring. reflexivity.
  - replace (x - 0) with x by ring. reflexivity.
Qed.
Lemma D_poly_user a x : derivative_at_0 (fun e => poly a (x + e)) (poly' a x).
Proof.
  unfold poly, poly'. destruct a as [|c r]; [cbn; apply D_const|].
  cbn [length]. rewrite Nat.sub_succ, Nat.sub_0_r.
  apply (D_ext (fun e => c + sumf (fun m => nth (S m) (c :: r) 0 * qpow (x + e) (S m)) (seq 0 (length r)))).
  { apply near0_all. intros e. cbn [seq]. rewrite sumf_cons. cbn [qpow nth]. rewrite Qcmult_1_r. f_equal.
    rewrite <- seq_shift. unfold sumf. rewrite map_map. reflexivity. }
  refine (D_eq _ _ _ _ (D_add _ _ _ _ (D_const c) (D_sum (seq 0 (length r)) (fun m e => nth (S m) (c :: r) 0 * qpow (x + e) (S m))
     (fun m => nth (S m) (c :: r) 0 * (qn (S m) * qpow x m)) _))).
  - rewrite Qcplus_0_l. apply sumf_ext. intros m _. ring.
  - intros m _. apply D_scale, D_monomial.
Qed.
