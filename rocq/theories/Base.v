(** Common arithmetic over exact rationals and list sums.
    No code of moderndid is modelled here; these are the mathematical
    notions (finite sums, means, strictly increasing lists) in which the models
    and the specifications are phrased. *)
From Coq Require Export List Arith ZArith Lia Bool QArith Qcanon Permutation Sorted Field.
From Coq Require Import Lqa.
Export ListNotations.
Open Scope Qc_scope.

(** * Linear arithmetic on [Qc] by transfer to [Q] *)

Lemma this_plus (a b : Qc) : (this (a + b) == this a + this b)%Q.
Proof. apply Qred_correct. Qed.
Lemma this_mult (a b : Qc) : (this (a * b) == this a * this b)%Q.
Proof. apply Qred_correct. Qed.
Lemma this_opp (a : Qc) : (this (- a) == - this a)%Q.
Proof. apply Qred_correct. Qed.
Lemma this_minus (a b : Qc) : (this (a - b) == this a - this b)%Q.
Proof. unfold Qcminus. rewrite this_plus, this_opp. reflexivity. Qed.
Lemma this_inv (a : Qc) : (this (/ a) == / this a)%Q.
Proof. apply Qred_correct. Qed.
Lemma this_div (a b : Qc) : (this (a / b) == this a / this b)%Q.
Proof. unfold Qcdiv. rewrite this_mult, this_inv. reflexivity. Qed.
Lemma this_Q2Qc (q : Q) : (this (Q2Qc q) == q)%Q.
Proof. apply Qred_correct. Qed.
Lemma this_0 : (this 0 == 0)%Q. Proof. reflexivity. Qed.
Lemma this_1 : (this 1 == 1)%Q. Proof. reflexivity. Qed.

Lemma Qc_eq_this (a b : Qc) : a = b <-> (this a == this b)%Q.
Proof. split; [intros ->; reflexivity | apply Qc_is_canon]. Qed.

Ltac qc_to_Q :=
  repeat match goal with
  | H : @eq Qc _ _ |- _ => apply (proj1 (Qc_eq_this _ _)) in H
  | H : ~ (@eq Qc ?a ?b) |- _ =>
      let H' := fresh in
      assert (H' : ~ (this a == this b)%Q) by (intro; apply H, Qc_is_canon; assumption);
      clear H
  end;
  unfold Qcle, Qclt in *;
  try apply Qc_is_canon;
  repeat first [ setoid_rewrite this_plus | setoid_rewrite this_mult
               | setoid_rewrite this_minus | setoid_rewrite this_opp
               | setoid_rewrite this_Q2Qc | setoid_rewrite this_0 | setoid_rewrite this_1 ];
  repeat match goal with
  | H : _ |- _ => progress (first [ setoid_rewrite this_plus in H | setoid_rewrite this_mult in H
               | setoid_rewrite this_minus in H | setoid_rewrite this_opp in H
               | setoid_rewrite this_Q2Qc in H | setoid_rewrite this_0 in H | setoid_rewrite this_1 in H ])
  end.

Ltac qclra := qc_to_Q; lra.
Ltac qcnra := qc_to_Q; nra.

Goal forall a b c : Qc, a <= b -> b < c -> a + 1 < c + 1. Proof. intros. qclra. Qed.
Goal forall a b c : Qc, a = b -> b + a = c + c -> a = c. Proof. intros. qclra. Qed.
Goal forall a b : Qc, 0 <= a -> 0 <= b -> 0 <= a * b. Proof. intros. qcnra. Qed.

(** Boolean comparisons (executable). *)
Definition Qceqb (a b : Qc) : bool := Qeq_bool (this a) (this b).
Definition Qcleb (a b : Qc) : bool := Qle_bool (this a) (this b).
Definition Qcltb (a b : Qc) : bool := negb (Qle_bool (this b) (this a)).

Lemma Qceqb_spec a b : reflect (a = b) (Qceqb a b).
Proof.
  apply iff_reflect. unfold Qceqb. rewrite Qeq_bool_iff. apply Qc_eq_this.
Qed.
Lemma Qcleb_spec a b : reflect (a <= b) (Qcleb a b).
Proof. apply iff_reflect. unfold Qcleb. rewrite Qle_bool_iff. reflexivity. Qed.
Lemma Qcltb_spec a b : reflect (a < b) (Qcltb a b).
Proof.
  apply iff_reflect. unfold Qcltb, Qclt. rewrite negb_true_iff.
  split.
  - intros H. destruct (Qle_bool (this b) (this a)) eqn:E; [|reflexivity].
    apply Qle_bool_iff in E. exfalso. lra.
  - intros H. destruct (Qlt_le_dec (this a) (this b)) as [h|h]; [exact h|].
    apply Qle_bool_iff in h. congruence.
Qed.

Lemma Qc_le_or_lt (a b : Qc) : a <= b \/ b < a.
Proof. destruct (Qcleb_spec a b) as [h|h]; [left; exact h|right]. apply Qcnot_le_lt; exact h. Qed.

(** Integers as rationals. *)
Definition qz (z : Z) : Qc := Q2Qc (inject_Z z).
Definition qn (n : nat) : Qc := qz (Z.of_nat n).

Lemma qz_add a b : qz (a + b) = qz a + qz b.
Proof. unfold qz. qc_to_Q. rewrite inject_Z_plus. reflexivity. Qed.
Lemma qz_mul a b : qz (a * b) = qz a * qz b.
Proof. unfold qz. qc_to_Q. rewrite inject_Z_mult. reflexivity. Qed.
Lemma qz_opp a : qz (- a) = - qz a.
Proof. unfold qz. qc_to_Q. rewrite inject_Z_opp. reflexivity. Qed.
Lemma qz_0 : qz 0 = 0. Proof. apply Qc_is_canon. reflexivity. Qed.
Lemma qz_1 : qz 1 = 1. Proof. apply Qc_is_canon. reflexivity. Qed.
Lemma qz_le a b : (a <= b)%Z <-> qz a <= qz b.
Proof. unfold qz, Qcle. setoid_rewrite this_Q2Qc. rewrite Zle_Qle. reflexivity. Qed.
Lemma qz_lt a b : (a < b)%Z <-> qz a < qz b.
Proof. unfold qz, Qclt. setoid_rewrite this_Q2Qc. rewrite Zlt_Qlt. reflexivity. Qed.
Lemma qz_inj a b : qz a = qz b -> a = b.
Proof.
  intros H. apply Qc_eq_this in H. unfold qz in H. rewrite !this_Q2Qc in H.
  apply inject_Z_injective. exact H.
Qed.

Lemma qn_S n : qn (S n) = 1 + qn n.
Proof. unfold qn. rewrite Nat2Z.inj_succ, <- Z.add_1_l, qz_add, qz_1. reflexivity. Qed.
Lemma qn_0 : qn 0 = 0. Proof. exact qz_0. Qed.
Lemma qn_add a b : qn (a + b) = qn a + qn b.
Proof. unfold qn. rewrite Nat2Z.inj_add. apply qz_add. Qed.
Lemma qn_nonneg n : 0 <= qn n.
Proof. unfold qn. rewrite <- qz_0. apply (proj1 (qz_le _ _)). lia. Qed.
Lemma qn_pos n : (0 < n)%nat -> 0 < qn n.
Proof. intros. unfold qn. rewrite <- qz_0. apply (proj1 (qz_lt _ _)). lia. Qed.
Lemma qn_neq0 n : (0 < n)%nat -> qn n <> 0.
Proof. intros H E. apply qn_pos in H. rewrite E in H. qclra. Qed.

(** A few facts about division. *)
Lemma Qc_pos_neq0 (a : Qc) : 0 < a -> a <> 0.
Proof. intros H E. subst. qclra. Qed.
Lemma Qcinv_pos (a : Qc) : 0 < a -> 0 < / a.
Proof.
  intros H. destruct (Qc_le_or_lt (/ a) 0) as [h|h]; [|exact h].
  exfalso. assert (E : a * / a = 1) by (apply Qcmult_inv_r, Qc_pos_neq0, H).
  qcnra.
Qed.
Lemma Qcdiv_nonneg (a b : Qc) : 0 <= a -> 0 < b -> 0 <= a / b.
Proof. intros Ha Hb. apply Qcinv_pos in Hb. unfold Qcdiv. qcnra. Qed.
Lemma Qcdiv_pos (a b : Qc) : 0 < a -> 0 < b -> 0 < a / b.
Proof. intros Ha Hb. apply Qcinv_pos in Hb. unfold Qcdiv. qcnra. Qed.
Lemma Qcmult_nonneg (a b : Qc) : 0 <= a -> 0 <= b -> 0 <= a * b.
Proof. intros; qcnra. Qed.
Lemma Qcdiv_0_l (a : Qc) : 0 / a = 0.
Proof. unfold Qcdiv. ring. Qed.
Lemma Qcmult_cancel_l (a b c : Qc) : a <> 0 -> a * b = a * c -> b = c.
Proof.
  intros Ha H. assert (E : / a * (a * b) = / a * (a * c)) by (rewrite H; reflexivity).
  rewrite !Qcmult_assoc, !(Qcmult_comm (/a) a), !Qcmult_inv_r, !Qcmult_1_l in E by exact Ha. exact E.
Qed.
Lemma Qcdiv_eq_iff (a b c : Qc) : b <> 0 -> (a / b = c <-> a = c * b).
Proof.
  intros Hb. split; intros H.
  - subst c. field. exact Hb.
  - subst a. field. exact Hb.
Qed.

(** * Sums over lists *)
Definition qsum (l : list Qc) : Qc := fold_right Qcplus 0 l.
Definition sumf {A} (f : A -> Qc) (l : list A) : Qc := qsum (map f l).
Definition mean {A} (f : A -> Qc) (l : list A) : Qc := sumf f l / qn (length l).
Definition ind (b : bool) : Qc := if b then 1 else 0.

Section Sums.
  Context {A : Type}.
  Implicit Types (f g : A -> Qc) (l : list A).

  Lemma sumf_nil f : sumf f [] = 0. Proof. reflexivity. Qed.
  Lemma sumf_cons f a l : sumf f (a :: l) = f a + sumf f l. Proof. reflexivity. Qed.
  Lemma sumf_app f l1 l2 : sumf f (l1 ++ l2) = sumf f l1 + sumf f l2.
  Proof.
    induction l1 as [|a l1 IH]; cbn [app]; rewrite ?sumf_nil, ?sumf_cons; [ring|].
    rewrite IH. ring.
  Qed.
  Lemma sumf_ext f g l : (forall a, In a l -> f a = g a) -> sumf f l = sumf g l.
  Proof.
    induction l as [|a l IH]; intros H; [reflexivity|].
    rewrite !sumf_cons, (H a) by (left; reflexivity). f_equal. apply IH.
    intros b Hb. apply H. right. exact Hb.
  Qed.
  Lemma sumf_add f g l : sumf (fun a => f a + g a) l = sumf f l + sumf g l.
  Proof. induction l as [|a l IH]; rewrite ?sumf_nil, ?sumf_cons; [ring|]. rewrite IH. ring. Qed.
  Lemma sumf_sub f g l : sumf (fun a => f a - g a) l = sumf f l - sumf g l.
  Proof. induction l as [|a l IH]; rewrite ?sumf_nil, ?sumf_cons; [ring|]. rewrite IH. ring. Qed.
  Lemma sumf_opp f l : sumf (fun a => - f a) l = - sumf f l.
  Proof. induction l as [|a l IH]; rewrite ?sumf_nil, ?sumf_cons; [ring|]. rewrite IH. ring. Qed.
  Lemma sumf_mul_l c f l : sumf (fun a => c * f a) l = c * sumf f l.
  Proof. induction l as [|a l IH]; rewrite ?sumf_nil, ?sumf_cons; [ring|]. rewrite IH. ring. Qed.
  Lemma sumf_mul_r c f l : sumf (fun a => f a * c) l = sumf f l * c.
  Proof. induction l as [|a l IH]; rewrite ?sumf_nil, ?sumf_cons; [ring|]. rewrite IH. ring. Qed.
  Lemma sumf_div c f l : sumf (fun a => f a / c) l = sumf f l / c.
  Proof. unfold Qcdiv. apply sumf_mul_r. Qed.
  Lemma sumf_const c l : sumf (fun _ => c) l = qn (length l) * c.
  Proof.
    induction l as [|a l IH]; rewrite ?sumf_nil, ?sumf_cons; cbn [length].
    - rewrite qn_0. ring.
    - rewrite IH, qn_S. ring.
  Qed.
  Lemma sumf_0 l : sumf (fun _ => 0) l = 0.
  Proof. rewrite sumf_const. ring. Qed.
  Lemma sumf_zero f l : (forall a, In a l -> f a = 0) -> sumf f l = 0.
  Proof. intros H. rewrite (sumf_ext f (fun _ => 0)); [apply sumf_0 | exact H]. Qed.
  Lemma sumf_perm f l l' : Permutation l l' -> sumf f l = sumf f l'.
  Proof.
    induction 1 as [|x l l' _ IH|x y l|l l' l'' _ IH1 _ IH2]; rewrite ?sumf_cons; [reflexivity| | |].
    - rewrite IH. reflexivity.
    - ring.
    - congruence.
  Qed.
  Lemma sumf_nonneg f l : (forall a, In a l -> 0 <= f a) -> 0 <= sumf f l.
  Proof.
    induction l as [|a l IH]; intros H; [rewrite sumf_nil; qclra|]. rewrite sumf_cons.
    assert (H1 := H a (or_introl eq_refl)).
    assert (H2 : 0 <= sumf f l) by (apply IH; intros; apply H; right; assumption).
    qclra.
  Qed.
  Lemma sumf_le f g l : (forall a, In a l -> f a <= g a) -> sumf f l <= sumf g l.
  Proof.
    intros H. assert (H2 : 0 <= sumf (fun a => g a - f a) l).
    { apply sumf_nonneg. intros a Ha. specialize (H a Ha). qclra. }
    rewrite sumf_sub in H2. qclra.
  Qed.
  Lemma sumf_pos f l : (forall a, In a l -> 0 <= f a) -> (exists a, In a l /\ 0 < f a) -> 0 < sumf f l.
  Proof.
    induction l as [|a l IH]; intros H [b [Hb Hp]]; [destruct Hb|]. rewrite sumf_cons.
    assert (H1 := H a (or_introl eq_refl)).
    assert (H2 : 0 <= sumf f l) by (apply sumf_nonneg; intros; apply H; right; assumption).
    destruct Hb as [->|Hb]; [qclra|].
    assert (0 < sumf f l) by (apply IH; [intros; apply H; right; assumption | exists b; auto]).
    qclra.
  Qed.
  Lemma sumf_filter f (p : A -> bool) l : sumf f (filter p l) = sumf (fun a => ind (p a) * f a) l.
  Proof.
    induction l as [|a l IH]; [reflexivity|]. cbn [filter]. rewrite sumf_cons.
    destruct (p a); unfold ind at 1; rewrite ?sumf_cons, IH; ring.
  Qed.
  Lemma sumf_ind (p : A -> bool) l : sumf (fun a => ind (p a)) l = qn (length (filter p l)).
  Proof.
    induction l as [|a l IH]; [rewrite sumf_nil; cbn; rewrite qn_0; reflexivity|].
    cbn [filter]. rewrite sumf_cons, IH. unfold ind. destruct (p a); cbn [length]; rewrite ?qn_S; ring.
  Qed.

  Lemma mean_perm f l l' : Permutation l l' -> mean f l = mean f l'.
  Proof. intros H. unfold mean. rewrite (sumf_perm f _ _ H), (Permutation_length H). reflexivity. Qed.
  Lemma mean_add f g l : mean (fun a => f a + g a) l = mean f l + mean g l.
  Proof. unfold mean. rewrite sumf_add. unfold Qcdiv. ring. Qed.
  Lemma mean_sub f g l : mean (fun a => f a - g a) l = mean f l - mean g l.
  Proof. unfold mean. rewrite sumf_sub. unfold Qcdiv. ring. Qed.
  Lemma mean_mul_l c f l : mean (fun a => c * f a) l = c * mean f l.
  Proof. unfold mean. rewrite sumf_mul_l. unfold Qcdiv. ring. Qed.
  Lemma mean_mul_r c f l : mean (fun a => f a * c) l = mean f l * c.
  Proof. unfold mean. rewrite sumf_mul_r. unfold Qcdiv. ring. Qed.
  Lemma mean_ext f g l : (forall a, In a l -> f a = g a) -> mean f l = mean g l.
  Proof. intros H. unfold mean. rewrite (sumf_ext f g l H). reflexivity. Qed.
  Lemma mean_const c l : l <> [] -> mean (fun _ => c) l = c.
  Proof.
    intros H. unfold mean. rewrite sumf_const. field. apply qn_neq0.
    destruct l; [congruence | cbn; lia].
  Qed.
End Sums.

Lemma sumf_map {A B} (h : A -> B) (f : B -> Qc) l : sumf f (map h l) = sumf (fun a => f (h a)) l.
Proof. unfold sumf. rewrite map_map. reflexivity. Qed.
Lemma sumf_flat_map {A B} (h : A -> list B) (f : B -> Qc) l :
  sumf f (flat_map h l) = sumf (fun a => sumf f (h a)) l.
Proof. induction l as [|a l IH]; [reflexivity|]. cbn [flat_map]. rewrite sumf_app, sumf_cons, IH. reflexivity. Qed.
Lemma sumf_concat {A} (f : A -> Qc) (ls : list (list A)) :
  sumf f (concat ls) = sumf (sumf f) ls.
Proof. induction ls as [|a l IH]; [reflexivity|]. cbn [concat]. rewrite sumf_app, sumf_cons, IH. reflexivity. Qed.
Lemma sumf_swap {A B} (f : A -> B -> Qc) l1 l2 :
  sumf (fun a => sumf (fun b => f a b) l2) l1 = sumf (fun b => sumf (fun a => f a b) l1) l2.
Proof.
  induction l1 as [|a l1 IH].
  - rewrite sumf_nil. symmetry. apply sumf_0.
  - rewrite sumf_cons, IH, <- sumf_add. apply sumf_ext. intros. rewrite sumf_cons. reflexivity.
Qed.

(** ** Weighted averages *)
Lemma wavg_bounds {A} (w f : A -> Qc) l lo hi :
  (forall a, In a l -> 0 <= w a) -> sumf w l = 1 ->
  (forall a, In a l -> lo <= f a /\ f a <= hi) ->
  lo <= sumf (fun a => f a * w a) l /\ sumf (fun a => f a * w a) l <= hi.
Proof.
  intros Hw H1 Hb. split.
  - assert (sumf (fun a => lo * w a) l <= sumf (fun a => f a * w a) l).
    { apply sumf_le. intros a Ha. specialize (Hw a Ha). destruct (Hb a Ha) as [h _]. qcnra. }
    rewrite sumf_mul_l, H1 in H. qclra.
  - assert (sumf (fun a => f a * w a) l <= sumf (fun a => hi * w a) l).
    { apply sumf_le. intros a Ha. specialize (Hw a Ha). destruct (Hb a Ha) as [_ h]. qcnra. }
    rewrite sumf_mul_l, H1 in H. qclra.
Qed.

(** * Distinct integers in increasing order (np.unique / sorted(set)) *)
Fixpoint zinsert (x : Z) (l : list Z) : list Z :=
  match l with
  | [] => [x]
  | y :: l' => if (x <? y)%Z then x :: l else if (x =? y)%Z then l else y :: zinsert x l'
  end.
Definition zuniq (l : list Z) : list Z := fold_right zinsert [] l.

Lemma zinsert_in x y l : In y (zinsert x l) <-> y = x \/ In y l.
Proof.
  induction l as [|a l IH]; cbn [zinsert].
  - cbn. intuition.
  - destruct (Z.ltb_spec x a); [cbn; intuition|].
    destruct (Z.eqb_spec x a); [subst; cbn; intuition|]. cbn. rewrite IH. intuition.
Qed.
Lemma zuniq_in x l : In x (zuniq l) <-> In x l.
Proof.
  induction l as [|a l IH]; [reflexivity|]. cbn [zuniq fold_right].
  change (fold_right zinsert [] l) with (zuniq l). rewrite zinsert_in, IH. cbn. intuition.
Qed.
Lemma zinsert_sorted x l : StronglySorted Z.lt l -> StronglySorted Z.lt (zinsert x l).
Proof.
  induction 1 as [|a l Hs IH Hf]; cbn [zinsert].
  - repeat constructor.
  - destruct (Z.ltb_spec x a).
    + constructor; [constructor; assumption|]. constructor; [lia|].
      eapply Forall_impl; [|exact Hf]. cbn. intros; lia.
    + destruct (Z.eqb_spec x a); [constructor; assumption|].
      constructor; [exact IH|]. apply Forall_forall. intros y Hy.
      apply zinsert_in in Hy as [->|Hy]; [lia|]. rewrite Forall_forall in Hf. apply Hf; exact Hy.
Qed.
Lemma zuniq_sorted l : StronglySorted Z.lt (zuniq l).
Proof. induction l as [|a l IH]; [constructor|]. apply zinsert_sorted, IH. Qed.

Lemma ssorted_lt_nodup l : StronglySorted Z.lt l -> NoDup l.
Proof.
  induction 1 as [|a l Hs IH Hf]; constructor; [|exact IH].
  intros H. rewrite Forall_forall in Hf. specialize (Hf a H). lia.
Qed.
Lemma zuniq_nodup l : NoDup (zuniq l).
Proof. apply ssorted_lt_nodup, zuniq_sorted. Qed.

(** Two strictly increasing lists with the same elements are equal. *)
Lemma ssorted_lt_ext l l' : StronglySorted Z.lt l -> StronglySorted Z.lt l' ->
  (forall x, In x l <-> In x l') -> l = l'.
Proof.
  intros H. revert l'. induction H as [|a l Hs IH Hf]; intros l' H' E.
  - destruct l' as [|b l']; [reflexivity|]. exfalso. apply (E b). left; reflexivity.
  - destruct l' as [|b l']; [exfalso; apply (E a); left; reflexivity|].
    inversion H' as [|? ? Hs' Hf']; subst. rewrite Forall_forall in Hf, Hf'.
    assert (a = b).
    { destruct (proj1 (E a) (or_introl eq_refl)) as [->|h]; [reflexivity|].
      destruct (proj2 (E b) (or_introl eq_refl)) as [->|h']; [reflexivity|].
      specialize (Hf' _ h). specialize (Hf _ h'). lia. }
    subst b. f_equal. apply IH; [assumption|]. intros x. split; intros Hx.
    + destruct (proj1 (E x) (or_intror Hx)) as [->|h]; [|exact h].
      specialize (Hf _ Hx). lia.
    + destruct (proj2 (E x) (or_intror Hx)) as [->|h]; [|exact h].
      specialize (Hf' _ Hx). lia.
Qed.
Lemma zuniq_ext l l' : (forall x, In x l <-> In x l') -> zuniq l = zuniq l'.
Proof.
  intros H. apply ssorted_lt_ext; try apply zuniq_sorted. intros x. rewrite !zuniq_in. apply H.
Qed.
Lemma zuniq_idem l : zuniq (zuniq l) = zuniq l.
Proof. apply zuniq_ext. intros. apply zuniq_in. Qed.
Lemma zuniq_of_sorted l : StronglySorted Z.lt l -> zuniq l = l.
Proof. intros H. apply ssorted_lt_ext; [apply zuniq_sorted|exact H|]. intros x. apply zuniq_in. Qed.

(** Membership tests on Z. *)
Definition zmem (x : Z) (l : list Z) : bool := existsb (Z.eqb x) l.
Lemma zmem_spec x l : reflect (In x l) (zmem x l).
Proof.
  apply iff_reflect. unfold zmem. rewrite existsb_exists. split.
  - intros H. exists x. split; [exact H|apply Z.eqb_refl].
  - intros [y [H E]]. apply Z.eqb_eq in E. subst. exact H.
Qed.

(** Generic list facts. *)
Lemma filter_app' {A} (p : A -> bool) l1 l2 : filter p (l1 ++ l2) = filter p l1 ++ filter p l2.
Proof. induction l1 as [|a l IH]; [reflexivity|]. cbn. destruct (p a); cbn; rewrite IH; reflexivity. Qed.
Lemma filter_ext_in' {A} (p q : A -> bool) l : (forall a, In a l -> p a = q a) -> filter p l = filter q l.
Proof.
  induction l as [|a l IH]; intros H; [reflexivity|]. cbn.
  rewrite (H a (or_introl eq_refl)), IH; [reflexivity|]. intros; apply H; right; assumption.
Qed.
Lemma filter_all {A} (p : A -> bool) l : (forall a, In a l -> p a = true) -> filter p l = l.
Proof.
  induction l as [|a l IH]; intros H; [reflexivity|]. cbn.
  rewrite (H a (or_introl eq_refl)), IH; [reflexivity|]. intros; apply H; right; assumption.
Qed.
Lemma filter_none {A} (p : A -> bool) l : (forall a, In a l -> p a = false) -> filter p l = [].
Proof.
  induction l as [|a l IH]; intros H; [reflexivity|]. cbn.
  rewrite (H a (or_introl eq_refl)), IH; [reflexivity|]. intros; apply H; right; assumption.
Qed.
Lemma filter_filter {A} (p q : A -> bool) l : filter p (filter q l) = filter (fun a => q a && p a) l.
Proof. induction l as [|a l IH]; [reflexivity|]. cbn. destruct (q a); cbn; rewrite ?IH; reflexivity. Qed.
Lemma filter_perm {A} (p : A -> bool) l l' : Permutation l l' -> Permutation (filter p l) (filter p l').
Proof.
  induction 1 as [|x l l' _ IH|x y l|l l' l'' _ IH1 _ IH2]; cbn.
  - constructor.
  - destruct (p x); [constructor|]; exact IH.
  - destruct (p x), (p y); try reflexivity. constructor.
  - etransitivity; eassumption.
Qed.
