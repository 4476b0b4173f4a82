(** Cox-de Boor algebra: support, Marsden identity, nonnegativity, derivative of a polynomial piece. *)
From Verif Require Import Base Calc SplineModel SplineSpec.

Lemma sumf_shift (g : nat -> Qc) n : sumf (fun i => g (S i)) (seq 0 n) = sumf g (seq 0 n) + g n - g 0%nat.
Proof.
  induction n as [|n IH]; [cbn; unfold sumf; cbn; ring|].
  rewrite seq_S, !sumf_app, IH. unfold sumf; cbn [map qsum fold_right Nat.add]. ring.
Qed.
Lemma sumf_one (f : nat -> Qc) n l : (l < n)%nat -> (forall i, i <> l -> f i = 0) -> sumf f (seq 0 n) = f l.
Proof.
  intros Hl H. induction n as [|n IH]; [lia|]. rewrite seq_S, sumf_app. unfold sumf at 2; cbn [map qsum fold_right Nat.add].
  destruct (Nat.eq_dec l n) as [->|Hn].
  - rewrite sumf_zero; [ring|]. intros i Hi. apply H. apply in_seq in Hi. lia.
  - rewrite IH by lia. rewrite (H n) by lia. ring.
Qed.

Lemma bs_left t l k x : forall i, (l < i)%nat -> bs t l k i x = 0.
Proof.
  induction k as [|p IH]; intros i Hi; cbn [bs].
  - destruct (Nat.eqb_spec i l); [lia|reflexivity].
  - rewrite !IH by lia. ring.
Qed.
Lemma bs_right t l k x : forall i, (i + k < l)%nat -> bs t l k i x = 0.
Proof.
  induction k as [|p IH]; intros i Hi; cbn [bs].
  - destruct (Nat.eqb_spec i l); [lia|reflexivity].
  - rewrite !IH by lia. ring.
Qed.
Lemma bs_ext t t' l k x : forall i, (forall j, (i <= j <= i + k + 1)%nat -> t j = t' j) -> bs t l k i x = bs t' l k i x.
Proof.
  induction k as [|p IH]; intros i H; cbn [bs]; [reflexivity|].
  rewrite (H i), (H (i + S p)%nat), (H (i + S (S p))%nat), (H (S i)) by lia.
  rewrite (IH i), (IH (S i)) by (intros; apply H; lia). reflexivity.
Qed.
Lemma bs_shift t l k x : forall i, bs (fun j => t (S j)) l k i x = bs t (S l) k (S i) x.
Proof.
  induction k as [|p IH]; intros i; cbn [bs]; [reflexivity|]. rewrite !IH. reflexivity.
Qed.

Section Core.
Context (t : nat -> Qc) (N : nat) (Hm : forall i j, (i <= j)%nat -> (j < N)%nat -> t i <= t j).

Lemma wide_neq l i p : t l < t (S l) -> (i <= l)%nat -> (l < i + p)%nat -> (i + p < N)%nat -> t (i + p)%nat - t i <> 0.
Proof.
  intros Hl H1 H2 H3 E. assert (A := Hm i l H1 ltac:(lia)). assert (B := Hm (S l) (i + p) ltac:(lia) H3). qclra.
Qed.

(** Product of the [y - t (i+1)], ..., [y - t (i+p)]. *)
Fixpoint psi (p i : nat) (y : Qc) : Qc := match p with O => 1 | S q => (y - t (S i)) * psi q (S i) y end.
Lemma psi_last p : forall i y, psi (S p) i y = psi p i y * (y - t (i + S p)%nat).
Proof.
  induction p as [|p IH]; intros i y.
  - cbn [psi]. replace (i + 1)%nat with (S i) by lia. ring.
  - change (psi (S (S p)) i y) with ((y - t (S i)) * psi (S p) (S i) y). rewrite IH. cbn [psi].
    replace (S i + S p)%nat with (i + S (S p))%nat by lia. ring.
Qed.

Lemma marsden l n x y : forall p, (p <= l)%nat -> (l < n)%nat -> (l + p < N)%nat -> t l < t (S l) ->
  sumf (fun i => psi p i y * bs t l p i x) (seq 0 n) = qpow (y - x) p.
Proof.
  induction p as [|p IH]; intros Hp Hn HN Hl.
  - rewrite (sumf_one _ n l Hn); cbn [psi bs qpow].
    + rewrite Nat.eqb_refl. cbn. ring.
    + intros i Hi. destruct (Nat.eqb_spec i l); [lia|]. cbn. ring.
  - set (g := fun i => (y - t i) * psi p i y * ((t (i + S p)%nat - x) / (t (i + S p)%nat - t i)) * bs t l p i x).
    assert (E : forall i, psi (S p) i y * bs t l (S p) i x
      = psi (S p) i y * ((x - t i) / (t (i + S p)%nat - t i)) * bs t l p i x + g (S i)).
    { intros i. unfold g. cbn [bs]. replace (S i + S p)%nat with (i + S (S p))%nat by lia. cbn [psi]. ring. }
    rewrite (sumf_ext _ _ _ (fun i _ => E i)), sumf_add, sumf_shift.
    assert (G0 : g 0%nat = 0) by (unfold g; rewrite (bs_right t l p x 0) by lia; ring).
    assert (Gn : g n = 0) by (unfold g; rewrite (bs_left t l p x n) by lia; ring).
    rewrite G0, Gn. cbn [qpow]. rewrite <- IH by (try lia; exact Hl). rewrite <- sumf_mul_l.
    transitivity (sumf (fun i => psi (S p) i y * ((x - t i) / (t (i + S p)%nat - t i)) * bs t l p i x + g i) (seq 0 n)).
    { rewrite sumf_add. ring. }
    apply sumf_ext. intros i Hi. unfold g. rewrite psi_last.
    destruct (le_lt_dec i l) as [h|h]; [|rewrite (bs_left t l p x i h); ring].
    destruct (le_lt_dec l (i + p)) as [h'|h']; [|rewrite (bs_right t l p x i h'); ring].
    field. apply (wide_neq l); auto; lia.
Qed.

Lemma partition l n x p : (p <= l)%nat -> (l < n)%nat -> (l + p < N)%nat -> t l < t (S l) ->
  sumf (fun i => bs t l p i x) (seq 0 n) = 1.
Proof.
  induction p as [|p IH]; intros Hp Hn HN Hl.
  - rewrite (sumf_one _ n l Hn); cbn [bs]; [rewrite Nat.eqb_refl; reflexivity|].
    intros i Hi. destruct (Nat.eqb_spec i l); [lia|]. reflexivity.
  - set (g := fun i => ((t (i + S p)%nat - x) / (t (i + S p)%nat - t i)) * bs t l p i x).
    assert (E : forall i, bs t l (S p) i x = ((x - t i) / (t (i + S p)%nat - t i)) * bs t l p i x + g (S i)).
    { intros i. unfold g. cbn [bs]. replace (S i + S p)%nat with (i + S (S p))%nat by lia. ring. }
    rewrite (sumf_ext _ _ _ (fun i _ => E i)), sumf_add, sumf_shift.
    assert (G0 : g 0%nat = 0) by (unfold g; rewrite (bs_right t l p x 0) by lia; ring).
    assert (Gn : g n = 0) by (unfold g; rewrite (bs_left t l p x n) by lia; ring).
    rewrite G0, Gn. rewrite <- IH by (try lia; exact Hl).
    transitivity (sumf (fun i => (x - t i) / (t (i + S p)%nat - t i) * bs t l p i x + g i) (seq 0 n)).
    { rewrite sumf_add. ring. }
    apply sumf_ext. intros i Hi. unfold g.
    destruct (le_lt_dec i l) as [h|h]; [|rewrite (bs_left t l p x i h); ring].
    destruct (le_lt_dec l (i + p)) as [h'|h']; [|rewrite (bs_right t l p x i h'); ring].
    field. apply (wide_neq l); auto; lia.
Qed.

Lemma bs_nonneg l x : t l <= x -> x <= t (S l) -> forall p i, (i + S p < N)%nat -> 0 <= bs t l p i x.
Proof.
  intros Hx1 Hx2. induction p as [|p IH]; intros i Hi; cbn [bs].
  - destruct (i =? l)%nat; cbn; qclra.
  - assert (Hfrac : forall a b, 0 <= a -> 0 <= b -> 0 <= a / b).
    { intros a b Ha Hb. destruct (Qceqb_spec b 0) as [->|Hb0].
      - unfold Qcdiv. replace (/ 0) with 0 by (apply Qc_is_canon; reflexivity). qclra.
      - apply Qcdiv_nonneg; [exact Ha|]. destruct (Qc_le_or_lt b 0); [exfalso; apply Hb0; qclra|assumption]. }
    apply (Qcle_trans _ (0 + 0)); [qclra|]. apply Qcplus_le_compat.
    + destruct (le_lt_dec i l) as [h|h]; [|rewrite (bs_left t l p x i h), Qcmult_0_r; apply Qcle_refl].
      destruct (le_lt_dec l (i + p)) as [h'|h']; [|rewrite (bs_right t l p x i h'), Qcmult_0_r; apply Qcle_refl].
      apply Qcmult_nonneg; [|apply IH; lia]. assert (A := Hm i l h ltac:(lia)). assert (B := Hm i (i + S p) ltac:(lia) ltac:(lia)).
      apply Hfrac; qclra.
    + destruct (le_lt_dec (S i) l) as [h|h]; [|rewrite (bs_left t l p x (S i) h), Qcmult_0_r; apply Qcle_refl].
      destruct (le_lt_dec l (S i + p)) as [h'|h']; [|rewrite (bs_right t l p x (S i) h'), Qcmult_0_r; apply Qcle_refl].
      apply Qcmult_nonneg; [|apply IH; lia]. assert (A := Hm (S l) (i + S (S p)) ltac:(lia) ltac:(lia)).
      assert (B := Hm (S i) (i + S (S p)) ltac:(lia) ltac:(lia)). apply Hfrac; qclra.
Qed.

(** The derivative of the polynomial piece. *)
Definition dbs (l k i : nat) (x : Qc) : Qc :=
  match k with
  | O => 0
  | S p => qn (S p) * (bs t l p i x / (t (i + S p)%nat - t i) - bs t l p (S i) x / (t (i + S (S p))%nat - t (S i)))
  end.
Lemma w_dich i p B : (i + S (S p) < N)%nat -> (** either the outer differences are both non zero or the inner weight vanishes *)
  t (i + S (S p))%nat - t i = 0 -> B / (t (S i + S p)%nat - t (S i)) = 0.
Proof.
  intros Hi E. assert (A := Hm i (S i) ltac:(lia) ltac:(lia)).
  assert (C : t (S i) <= t (i + S (S p))%nat) by (apply Hm; lia).
  replace (S i + S p)%nat with (i + S (S p))%nat by lia.
  replace (t (i + S (S p))%nat - t (S i)) with 0 by qclra. unfold Qcdiv.
  replace (/ 0) with 0 by (apply Qc_is_canon; reflexivity). ring.
Qed.
Lemma w_dich' i p B : (i + S (S (S p)) < N)%nat ->
  t (i + S (S (S p)))%nat - t (S i) = 0 -> B / (t (S i + S p)%nat - t (S i)) = 0.
Proof.
  intros Hi E. assert (A : t (S i) <= t (S i + S p)%nat) by (apply Hm; lia).
  assert (C : t (S i + S p)%nat <= t (i + S (S (S p)))%nat) by (apply Hm; lia).
  replace (t (S i + S p)%nat - t (S i)) with 0 by qclra. unfold Qcdiv.
  replace (/ 0) with 0 by (apply Qc_is_canon; reflexivity). ring.
Qed.
Lemma div_mul_self a b : (b = 0 -> a = 0) -> a / b * b = a.
Proof.
  intros H. destruct (Qceqb_spec b 0) as [E|E]; [rewrite (H E); unfold Qcdiv; ring|field; exact E].
Qed.

Lemma piece_deriv l x : forall k i, (i + k + 1 < N)%nat ->
  derivative_at_0 (fun e => bs t l k i (x + e)) (dbs l k i x).
Proof.
  induction k as [|p IH]; intros i Hi.
  - cbn [bs dbs]. apply D_const.
  - set (a := t i). set (b := t (i + S (S p))%nat). set (u := / (t (i + S p)%nat - t i)). set (v := / (b - t (S i))).
    assert (D1 : derivative_at_0 (fun e => u * ((x - a + e) * bs t l p i (x + e)) + v * ((b - x - e) * bs t l p (S i) (x + e)))
      (u * ((0 + 1) * bs t l p i (x + 0) + (x - a + 0) * dbs l p i x) + v * ((0 - 1) * bs t l p (S i) (x + 0) + (b - x - 0) * dbs l p (S i) x))).
    { apply D_add; apply D_scale; apply (D_mul (fun e => _)).
      - apply D_add; [apply D_const|apply D_id].
      - apply IH. lia.
      - apply D_sub; [apply D_const|apply D_id].
      - apply IH. lia. }
    apply (D_ext (fun e => u * ((x - a + e) * bs t l p i (x + e)) + v * ((b - x - e) * bs t l p (S i) (x + e)))).
    { apply near0_all. intros e. cbn [bs]. unfold u, v, a, b, Qcdiv. ring. }
    refine (D_eq _ _ _ _ D1). clear D1. replace (x + 0) with x by ring.
    destruct p as [|q]; cbn [dbs].
    + rewrite qn_S, qn_0. fold b. unfold Qcdiv. fold u v. ring.
    + set (A := bs t l q i x / (t (i + S q)%nat - t i)). set (B := bs t l q (S i) x / (t (S i + S q)%nat - t (S i))).
      set (C := bs t l q (S (S i)) x / (t (S i + S (S q))%nat - t (S (S i)))).
      assert (Eu : u = / (t (S i + S q)%nat - t i)) by (unfold u; replace (i + S (S q))%nat with (S i + S q)%nat by lia; reflexivity).
      replace (i + S (S q))%nat with (S i + S q)%nat in * by lia. fold B.
      assert (EN : bs t l (S q) i x = (x - a) * A + (t (S i + S q)%nat - x) * B).
      { cbn [bs]. replace (i + S (S q))%nat with (S i + S q)%nat by lia. unfold A, B, a, Qcdiv. ring. }
      assert (EM : bs t l (S q) (S i) x = (x - t (S i)) * B + (b - x) * C).
      { cbn [bs]. unfold B, C, b. replace (S i + S (S q))%nat with (i + S (S (S q)))%nat by lia. unfold Qcdiv. ring. }
      rewrite EN, EM. fold b.
      assert (K : B * (v * (b - t (S i)) - u * (t (S i + S q)%nat - a)) = 0).
      { assert (K1 : v * (b - t (S i)) * B = B).
        { destruct (Qceqb_spec (b - t (S i)) 0) as [E|E]; [unfold B; rewrite (w_dich' i q _ ltac:(lia) E); ring|].
          unfold v. field. exact E. }
        assert (K2 : u * (t (S i + S q)%nat - a) * B = B).
        { destruct (Qceqb_spec (t (S i + S q)%nat - a) 0) as [E|E].
          - unfold B; rewrite (w_dich i q); [ring|lia|]. replace (i + S (S q))%nat with (S i + S q)%nat by lia. exact E.
          - rewrite Eu. unfold a in *. field. exact E. }
        transitivity (v * (b - t (S i)) * B - u * (t (S i + S q)%nat - a) * B); [ring|]. rewrite K1, K2. ring. }
      rewrite (qn_S (S q)). unfold Qcdiv. fold v.
      transitivity ((1 + qn (S q)) * (((x - a) * A + (t (S i + S q)%nat - x) * B) * u - ((x - t (S i)) * B + (b - x) * C) * v)
        + qn (S q) * (B * (v * (b - t (S i)) - u * (t (S i + S q)%nat - a)))); [|rewrite K, Eu; unfold a; ring].
      rewrite Eu. unfold a. ring.
Qed.

(** At a simple knot the two neighbouring pieces agree. *)
Lemma bs_glue l x : x = t (S l) -> t l < t (S l) -> t (S l) < t (S (S l)) -> forall p i,
  bs t l (S p) i x = bs t (S l) (S p) i x.
Proof.
  intros -> H1 H2. induction p as [|p IH]; intros i.
  - cbn [bs]. replace (i + 1)%nat with (S i) by lia. replace (i + 2)%nat with (S (S i)) by lia.
    destruct (Nat.eqb_spec i l) as [->|n1].
    + replace (l =? S l)%nat with false by (symmetry; apply Nat.eqb_neq; lia).
      replace (S l =? l)%nat with false by (symmetry; apply Nat.eqb_neq; lia). rewrite Nat.eqb_refl. cbn [ind].
      field. split; intros E; qclra.
    + destruct (Nat.eqb_spec (S i) l) as [e|n2].
      * subst l. replace (i =? S (S i))%nat with false by (symmetry; apply Nat.eqb_neq; lia).
        replace (S i =? S (S i))%nat with false by (symmetry; apply Nat.eqb_neq; lia). cbn [ind]. unfold Qcdiv. ring.
      * destruct (Nat.eqb_spec i (S l)) as [e|n3].
        -- subst i. replace (S (S l) =? S l)%nat with false by (symmetry; apply Nat.eqb_neq; lia). cbn [ind]. unfold Qcdiv. ring.
        -- replace (S i =? S l)%nat with false by (symmetry; apply Nat.eqb_neq; lia). cbn [ind]. ring.
  - change (bs t l (S (S p)) i (t (S l))) with ((t (S l) - t i) / (t (i + S (S p))%nat - t i) * bs t l (S p) i (t (S l))
      + (t (i + S (S (S p)))%nat - t (S l)) / (t (i + S (S (S p)))%nat - t (S i)) * bs t l (S p) (S i) (t (S l))).
    rewrite !IH. reflexivity.
Qed.
Lemma dbs_glue l x : x = t (S l) -> t l < t (S l) -> t (S l) < t (S (S l)) -> forall p i,
  dbs l (S (S p)) i x = dbs (S l) (S (S p)) i x.
Proof. intros E H1 H2 p i. unfold dbs. rewrite !(bs_glue l x E H1 H2 p). reflexivity. Qed.
End Core.
