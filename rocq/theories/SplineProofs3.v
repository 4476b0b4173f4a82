(** The knot sequence, the interval search and the rows of the two matrices. *)
From Verif Require Import Base Calc SplineModel SplineSpec SplineProofs SplineProofs2.

(** * Sorting *)
Lemma qins_perm x l : Permutation (x :: l) (qins x l).
Proof.
  induction l as [|a r IH]; cbn [qins]; [reflexivity|]. destruct (Qcleb x a); [reflexivity|].
  rewrite perm_swap. constructor. exact IH.
Qed.
Lemma qsort_perm l : Permutation l (qsort l).
Proof. induction l as [|a r IH]; [reflexivity|]. cbn [qsort fold_right]. fold (qsort r). rewrite <- qins_perm. constructor. exact IH. Qed.
Lemma qins_sorted x l : StronglySorted Qcle l -> StronglySorted Qcle (qins x l).
Proof.
  induction 1 as [|a r Hs IH Ha]; cbn [qins]; [repeat constructor|].
  destruct (Qcleb_spec x a) as [h|h].
  - constructor; [constructor; assumption|]. constructor; [exact h|]. rewrite Forall_forall in *. intros b Hb.
    eapply Qcle_trans; [exact h|apply Ha, Hb].
  - constructor; [exact IH|]. rewrite Forall_forall in *. intros b Hb. apply (Permutation_in b (Permutation_sym (qins_perm x r))) in Hb.
    destruct Hb as [<-|Hb]; [apply Qclt_le_weak, Qcnot_le_lt, h|apply Ha, Hb].
Qed.
Lemma qsort_sorted l : StronglySorted Qcle (qsort l).
Proof. induction l as [|a r IH]; cbn; [constructor|apply qins_sorted, IH]. Qed.
Lemma qsort_length l : length (qsort l) = length l.
Proof. symmetry. apply Permutation_length, qsort_perm. Qed.
Lemma ssorted_nth l : StronglySorted Qcle l -> forall i j, (i <= j)%nat -> (j < length l)%nat -> nth i l 0 <= nth j l 0.
Proof.
  induction 1 as [|a r Hs IH Ha]; intros i j Hij Hj; [cbn in Hj; lia|].
  destruct j as [|j]; [replace i with 0%nat by lia; apply Qcle_refl|]. cbn in Hj.
  destruct i as [|i]; cbn [nth].
  - rewrite Forall_forall in Ha. apply Ha, nth_In. lia.
  - apply IH; lia.
Qed.
Lemma ssorted_app l1 l2 : StronglySorted Qcle l1 -> StronglySorted Qcle l2 -> (forall a b, In a l1 -> In b l2 -> a <= b) -> StronglySorted Qcle (l1 ++ l2).
Proof.
  induction 1 as [|a r Hs IH Ha]; intros H2 H; [exact H2|]. cbn. constructor.
  - apply IH; [exact H2|]. intros; apply H; [right|]; assumption.
  - rewrite Forall_app. split; [exact Ha|]. rewrite Forall_forall. intros b Hb. apply H; [left; reflexivity|exact Hb].
Qed.
Lemma ssorted_repeat a n : StronglySorted Qcle (repeat a n).
Proof.
  induction n as [|n IH]; [constructor|]. cbn. constructor; [exact IH|]. rewrite Forall_forall. intros b Hb. apply repeat_spec in Hb. subst. apply Qcle_refl.
Qed.

Lemma nth_repeat_lt {A} (a d : A) : forall n i, (i < n)%nat -> nth i (repeat a n) d = a.
Proof. induction n as [|n IH]; intros [|i] H; cbn; try lia; [reflexivity|apply IH; lia]. Qed.

Lemma nth_removelast (d : Qc) : forall r i, (i < length r - 1)%nat -> nth i (removelast r) d = nth i r d.
Proof.
  induction r as [|a r IH]; intros i H; [reflexivity|]. cbn [removelast]. destruct r as [|b r]; [cbn in H; lia|].
  destruct i as [|i]; [reflexivity|]. cbn [nth length] in *. apply IH. cbn [length]. lia.
Qed.

(** * Good knot sequences *)
Definition good (k : nat) (lo hi : Qc) (internal : list Qc) : Prop := lo < hi /\ forall a, In a internal -> lo < a /\ a < hi.
Lemma boundary_lt x bnd lo hi : boundary x bnd = Some (lo, hi) -> lo < hi.
Proof.
  assert (Hmin : forall r a, fold_right (fun x m => if Qcltb x m then x else m) a r <= a).
  { induction r as [|b r IH]; intros a; cbn; [apply Qcle_refl|]. destruct (Qcltb_spec b (fold_right (fun x m => if Qcltb x m then x else m) a r)) as [h|h];
      [apply (Qcle_trans _ (fold_right (fun x m => if Qcltb x m then x else m) a r)); [apply Qclt_le_weak, h|apply IH]|apply IH]. }
  assert (Hmax : forall r a, a <= fold_right (fun x m => if Qcltb m x then x else m) a r).
  { induction r as [|b r IH]; intros a; cbn; [apply Qcle_refl|]. destruct (Qcltb_spec (fold_right (fun x m => if Qcltb m x then x else m) a r) b) as [h|h];
      [apply (Qcle_trans _ (fold_right (fun x m => if Qcltb m x then x else m) a r)); [apply IH|apply Qclt_le_weak, h]|apply IH]. }
  unfold boundary. destruct bnd as [[a b]|].
  - destruct (Qceqb_spec a b) as [e|e]; [discriminate|]. destruct (Qcltb_spec a b) as [h|h]; injection 1 as <- <-; [exact h|].
    apply Qcnot_lt_le in h. destruct (Qcle_lt_or_eq _ _ h) as [h'|h']; [exact h'|congruence].
  - destruct x as [|a r]; [discriminate|]. set (x := a :: r). destruct (Qceqb_spec (qmin_l x) (qmax_l x)) as [e|e]; [discriminate|].
    injection 1 as <- <-. assert (H : qmin_l x <= qmax_l x).
    { unfold x, qmin_l, qmax_l. eapply Qcle_trans; [apply Hmin|apply Hmax]. }
    destruct (Qcle_lt_or_eq _ _ H) as [h'|h']; [exact h'|congruence].
Qed.
Lemma knots_good k x internal bnd t : bspline_knots k x internal bnd = Some t ->
  exists lo hi, boundary x bnd = Some (lo, hi) /\ good k lo hi internal /\ t = knot_seq k lo hi internal.
Proof.
  unfold bspline_knots. destruct (boundary x bnd) as [[lo hi]|] eqn:B; [|discriminate].
  destruct (forallb _ internal) eqn:F; [|discriminate]. injection 1 as <-. exists lo, hi. split; [reflexivity|]. split; [|reflexivity].
  split; [eapply boundary_lt; exact B|]. rewrite forallb_forall in F. intros a Ha. apply F in Ha. apply andb_prop in Ha as [A1 A2].
  destruct (Qcltb_spec lo a); [|discriminate]. destruct (Qcltb_spec a hi); [|discriminate]. auto.
Qed.

Lemma deriv_row_S T k p x : k = S p -> deriv_row T k x =
  map (fun i => sumf (fun j => dcoef T k i j * bs (kn (trim T)) (find_interval (kn (trim T)) p (n_basis (trim T) p) x) p j x) (seq 0 (n_basis (trim T) p))) (seq 0 (n_basis T k)).
Proof. intros ->. reflexivity. Qed.
Lemma deriv_row_0 T k x : k = 0%nat -> deriv_row T k x = map (fun _ => 0) (seq 0 (n_basis T k)).
Proof. intros ->. reflexivity. Qed.
Lemma dbs_0 t l k i x : k = 0%nat -> dbs t l k i x = 0. Proof. intros ->. reflexivity. Qed.
Lemma dbs_S t l k p i x : k = S p -> dbs t l k i x = qn (S p) * (bs t l p i x / (t (i + S p)%nat - t i) - bs t l p (S i) x / (t (i + S (S p))%nat - t (S i))).
Proof. intros ->. reflexivity. Qed.
Lemma deriv_row_length_any T k x : length (deriv_row T k x) = n_basis T k.
Proof. destruct k; cbn [deriv_row]; rewrite map_length, seq_length; reflexivity. Qed.

Lemma scan_bounds (s : nat -> Qc) x : forall f l, (l <= scan s x f l <= l + f)%nat.
Proof.
  induction f as [|f IH]; intros l; cbn [scan]; [lia|]. destruct (Qcleb (s (S l)) x); [specialize (IH (S l)); lia|lia].
Qed.
Lemma scan_spec (s : nat -> Qc) x : forall f l, let r := scan s x f l in
  (forall j, (l < j <= r)%nat -> s j <= x) /\ ((r < l + f)%nat -> x < s (S r)).
Proof.
  induction f as [|f IH]; intros l r; unfold r; clear r; cbn [scan]; [split; [intros; lia|intros; lia]|].
  destruct (Qcleb_spec (s (S l)) x) as [h|h].
  - destruct (IH (S l)) as [A B]. split.
    + intros j Hj. destruct (Nat.eq_dec j (S l)) as [->|]; [exact h|]. apply A. lia.
    + intros H. apply B. lia.
  - split; [intros; lia|]. intros _. apply Qcnot_le_lt, h.
Qed.
Lemma scan_ext (s : nat -> Qc) x x' : forall f l, (forall j, (l < j <= l + f)%nat -> Qcleb (s j) x = Qcleb (s j) x') -> scan s x f l = scan s x' f l.
Proof.
  induction f as [|f IH]; intros l H; cbn [scan]; [reflexivity|]. rewrite (H (S l)) by lia.
  destruct (Qcleb (s (S l)) x'); [apply IH; intros; apply H; lia|reflexivity].
Qed.
Lemma leb_shift a x : a <> x -> near0 (fun e => Qcleb a (x + e) = Qcleb a x).
Proof.
  intros Hne. assert (D : derivative_at_0 (fun e => x + e) (0 + 1)) by (apply D_add; [apply D_const|apply D_id]).
  destruct (Qcleb_spec a x) as [h|h].
  - destruct (Qcle_lt_or_eq _ _ h) as [h'|]; [|contradiction].
    assert (D' := D_gt _ _ a D). cbv beta in D'. replace (x + 0) with x in D' by ring. eapply near0_impl; [|apply D', h'].
    cbn beta. intros e He. destruct (Qcleb_spec a (x + e)) as [h2|h2]; [reflexivity|]. exfalso. apply h2, Qclt_le_weak, He.
  - apply Qcnot_le_lt in h. assert (D' := D_lt _ _ a D). cbv beta in D'. replace (x + 0) with x in D' by ring. eapply near0_impl; [|apply D', h].
    cbn beta. intros e He. destruct (Qcleb_spec a (x + e)) as [h2|h2]; [|reflexivity]. exfalso. eapply Qclt_not_le; eassumption.
Qed.
Lemma scan_shift (s : nat -> Qc) x : forall f l, S (scan (fun j => s (S j)) x f l) = scan s x f (S l).
Proof. induction f as [|f IH]; intros l; cbn [scan]; [reflexivity|]. destruct (Qcleb (s (S (S l))) x); [apply IH|reflexivity]. Qed.
Lemma scan_same (s s' : nat -> Qc) x : forall f l, (forall j, (l < j <= l + f)%nat -> s j = s' j) -> scan s x f l = scan s' x f l.
Proof.
  induction f as [|f IH]; intros l H; cbn [scan]; [reflexivity|]. rewrite (H (S l)) by lia.
  destruct (Qcleb (s' (S l)) x); [apply IH; intros; apply H; lia|reflexivity].
Qed.

Section Seq.
Context (k : nat) (lo hi : Qc) (internal : list Qc) (G : good k lo hi internal).
Let T := knot_seq k lo hi internal.
Let m := length internal.
Let n := n_basis T k.
Let t := kn T.

Lemma T_length : length T = (2 * S k + m)%nat.
Proof. unfold T, knot_seq. rewrite !app_length, !repeat_length, qsort_length. fold m. lia. Qed.
Lemma n_eq : n = (S k + m)%nat.
Proof. unfold n, n_basis. rewrite T_length. lia. Qed.
Lemma T_sorted : StronglySorted Qcle T.
Proof.
  destruct G as [L I]. unfold T, knot_seq. apply ssorted_app; [apply ssorted_repeat| |].
  - apply ssorted_app; [apply qsort_sorted|apply ssorted_repeat|]. intros a b Ha Hb. apply repeat_spec in Hb. subst b.
    apply Qclt_le_weak, I. eapply Permutation_in; [symmetry; apply qsort_perm|exact Ha].
  - intros a b Ha Hb. apply repeat_spec in Ha. subst a. apply in_app_iff in Hb as [Hb|Hb].
    + apply Qclt_le_weak, I. eapply Permutation_in; [symmetry; apply qsort_perm|exact Hb].
    + apply repeat_spec in Hb. subst b. apply Qclt_le_weak, L.
Qed.
Lemma t_mono i j : (i <= j)%nat -> (j < length T)%nat -> t i <= t j.
Proof. apply ssorted_nth, T_sorted. Qed.
Lemma t_lo i : (i <= k)%nat -> t i = lo.
Proof. intros H. unfold t, kn, T, knot_seq. rewrite app_nth1 by (rewrite repeat_length; lia). apply nth_repeat_lt. lia. Qed.
Lemma t_int r : (r < m)%nat -> t (S k + r)%nat = nth r (qsort internal) 0.
Proof.
  intros H. unfold t, kn, T, knot_seq. rewrite app_nth2 by (rewrite repeat_length; lia). rewrite repeat_length.
  rewrite app_nth1 by (rewrite qsort_length; fold m; lia). f_equal. lia.
Qed.
Lemma t_int_in i : (k < i)%nat -> (i < n)%nat -> In (t i) internal.
Proof.
  intros H1 H2. rewrite n_eq in H2. replace i with (S k + (i - S k))%nat by lia. rewrite t_int by lia.
  eapply Permutation_in; [symmetry; apply qsort_perm|]. apply nth_In. rewrite qsort_length. fold m. lia.
Qed.
Lemma t_hi i : (n <= i)%nat -> (i < length T)%nat -> t i = hi.
Proof.
  intros H1 H2. rewrite n_eq in H1. rewrite T_length in H2. unfold t, kn, T, knot_seq.
  rewrite app_nth2 by (rewrite repeat_length; lia). rewrite repeat_length. rewrite app_nth2 by (rewrite qsort_length; fold m; lia).
  rewrite qsort_length. fold m. apply nth_repeat_lt. lia.
Qed.

(** * The interval *)
Definition itv (x : Qc) : nat := find_interval t k n x.
Lemma itv_range x : (k <= itv x)%nat /\ (itv x < n)%nat.
Proof. unfold itv, find_interval. assert (H := scan_bounds t x (n - 1 - k) k). assert (E := n_eq). lia. Qed.
Lemma itv_wide l : (k <= l)%nat -> (l < n)%nat -> (forall j, (k < j <= l)%nat -> (l + 1 < n)%nat -> t j < t (S l)) -> t l < t (S l).
Proof.
  intros H1 H2 H. assert (E := n_eq). assert (EL := T_length). destruct G as [L I].
  destruct (Nat.eq_dec (S l) n) as [e|e].
  - rewrite (t_hi (S l)) by lia. destruct (Nat.eq_dec l k) as [->|]; [rewrite t_lo by lia; exact L|]. apply I, t_int_in; lia.
  - destruct (Nat.eq_dec l k) as [->|]; [rewrite t_lo by lia; apply I, t_int_in; lia|]. apply H; lia.
Qed.
Lemma itv_lt x : t (itv x) < t (S (itv x)).
Proof.
  destruct (itv_range x) as [A B]. apply itv_wide; auto. intros j Hj Hl.
  unfold itv, find_interval in *. destruct (scan_spec t x (n - 1 - k) k) as [S1 S2]. cbv zeta in *.
  eapply Qcle_lt_trans; [apply S1; exact Hj|apply S2]. lia.
Qed.
Lemma itv_in x : lo <= x -> x <= hi -> t (itv x) <= x /\ x <= t (S (itv x)).
Proof.
  intros H1 H2. destruct (itv_range x) as [A B]. unfold itv, find_interval in *.
  destruct (scan_spec t x (n - 1 - k) k) as [S1 S2]. cbv zeta in *. set (l := scan t x (n - 1 - k) k) in *. assert (E := n_eq). split.
  - destruct (Nat.eq_dec l k) as [->|]; [rewrite t_lo by lia; exact H1|apply S1; lia].
  - destruct (Nat.eq_dec (S l) n) as [e|]; [rewrite (t_hi (S l)); [exact H2|lia|rewrite T_length; lia]|]. apply Qclt_le_weak, S2. lia.
Qed.
(** only comparisons with interior knots matter *)
Lemma itv_ext x x' : (forall a, In a internal -> Qcleb a x = Qcleb a x') -> itv x = itv x'.
Proof.
  intros H. unfold itv, find_interval. apply scan_ext. intros j Hj. apply H, t_int_in; [lia|]. assert (E := n_eq). lia.
Qed.
Lemma itv_near x : ~ In x internal -> near0 (fun e => itv (x + e) = itv x).
Proof.
  intros H. apply (near0_impl (fun e => forall a, In a internal -> Qcleb a (x + e) = Qcleb a x)).
  - intros e He. apply itv_ext. exact He.
  - apply near0_forall. intros a Ha. apply leb_shift. intros ->. contradiction.
Qed.

(** * Rows *)
Lemma basis_row_nth x i : (i < n)%nat -> nth i (basis_row T k x) 0 = bs t (itv x) k i x.
Proof.
  intros H. unfold basis_row. fold n t. change (find_interval t k n x) with (itv x).
  rewrite (nth_indep _ 0 (bs t (itv x) k 0 x)) by (rewrite map_length, seq_length; exact H).
  rewrite (map_nth (fun i => bs t (itv x) k i x)), seq_nth by exact H. reflexivity.
Qed.
Lemma basis_row_length x : length (basis_row T k x) = n.
Proof. unfold basis_row. rewrite map_length, seq_length. reflexivity. Qed.
Lemma basis_row_sum x : qsum (basis_row T k x) = 1.
Proof.
  unfold basis_row. fold n t. change (find_interval t k n x) with (itv x).
  change (qsum (map ?f ?l)) with (sumf f l). destruct (itv_range x) as [A B].
  apply (partition t (length T) t_mono); auto; [|apply itv_lt]. rewrite T_length. rewrite n_eq in B. lia.
Qed.
Lemma basis_row_nonneg x v : lo <= x -> x <= hi -> In v (basis_row T k x) -> 0 <= v.
Proof.
  intros H1 H2 Hv. unfold basis_row in Hv. fold n t in Hv. change (find_interval t k n x) with (itv x) in Hv.
  apply in_map_iff in Hv as [i [<- Hi]]. apply in_seq in Hi. destruct (itv_in x H1 H2) as [A B].
  apply (bs_nonneg t (length T) t_mono (itv x) x A B). assert (E := T_length). assert (F := n_eq). lia.
Qed.
Lemma trim_kn i : (i < length T - 2)%nat -> kn (trim T) i = t (S i).
Proof.
  unfold trim, t, kn. clearbody n. generalize T as L. intros [|a r] H; [cbn in H; lia|]. cbn [tl nth length] in *. apply nth_removelast. lia.
Qed.
Lemma trim_length : length (trim T) = (length T - 2)%nat.
Proof.
  unfold trim. destruct T as [|a r]; [reflexivity|]. cbn [tl length]. rewrite removelast_firstn_len, firstn_length. lia.
Qed.
Lemma deriv_row_nth x i : (i < n)%nat -> nth i (deriv_row T k x) 0 = dbs t (itv x) k i x.
Proof.
  intros Hi. assert (EL := T_length). assert (EN := n_eq). destruct (itv_range x) as [R1 R2].
  assert (Hk : k = 0%nat \/ exists p, k = S p) by (clear; destruct k as [|p]; [left; reflexivity|right; exists p; reflexivity]).
  destruct Hk as [Ek|[p Ek]].
  - rewrite (dbs_0 _ _ _ _ _ Ek), (deriv_row_0 _ _ _ Ek). destruct (nth_in_or_default i (map (fun _ : nat => 0) (seq 0 (n_basis T k))) 0) as [h|h]; [|exact h].
    apply in_map_iff in h as [z [<- _]]. reflexivity.
  - rewrite (deriv_row_S _ _ _ _ Ek), (dbs_S _ _ _ _ _ _ Ek). fold n.
    set (f := fun i => _). rewrite (nth_indep _ 0 (f 0%nat)) by (rewrite map_length, seq_length; exact Hi).
    rewrite (map_nth f), seq_nth by exact Hi. unfold f. cbn [Nat.add].
    assert (Hn' : n_basis (trim T) p = (n - 1)%nat) by (unfold n, n_basis; rewrite trim_length; lia). rewrite Hn'.
    assert (Hl : S (find_interval (kn (trim T)) p (n - 1) x) = itv x).
    { unfold itv, find_interval. rewrite (scan_same (kn (trim T)) (fun j => t (S j))) by (intros j Hj; apply trim_kn; lia).
      rewrite scan_shift. f_equal; lia. }
    assert (Hb : forall j, (j < n - 1)%nat -> bs (kn (trim T)) (find_interval (kn (trim T)) p (n - 1) x) p j x = bs t (itv x) p (S j) x).
    { intros j Hj. rewrite (bs_ext _ (fun j => t (S j))) by (intros r Hr; apply trim_kn; lia). rewrite bs_shift, Hl. reflexivity. }
    rewrite (sumf_ext _ (fun j => ind (i =? S j)%nat * (qn (S p) / (t (S j + S p)%nat - t (S j)) * bs t (itv x) p (S j) x)
        - ind (i =? j)%nat * (qn (S p) / (t (S j + S p)%nat - t (S j)) * bs t (itv x) p (S j) x))).
    2:{ intros j Hj. apply in_seq in Hj. rewrite Hb by lia. unfold dcoef. rewrite Ek. fold t.
        replace (j + S p + 1)%nat with (S j + S p)%nat by lia. replace (j + 1)%nat with (S j) by lia. unfold Qcdiv. ring. }
    rewrite sumf_sub.
    assert (E1 : sumf (fun j => ind (i =? S j)%nat * (qn (S p) / (t (S j + S p)%nat - t (S j)) * bs t (itv x) p (S j) x)) (seq 0 (n - 1))
      = qn (S p) * (bs t (itv x) p i x / (t (i + S p)%nat - t i))).
    { destruct i as [|i].
      - rewrite sumf_zero by (intros j _; cbn; ring). rewrite (bs_right t (itv x) p x 0) by lia. unfold Qcdiv. ring.
      - rewrite (sumf_one _ (n - 1) i) by (try lia; intros j Hj; replace (S i =? S j)%nat with false by (symmetry; apply Nat.eqb_neq; lia); cbn [ind]; ring).
        rewrite Nat.eqb_refl. cbn [ind]. unfold Qcdiv. ring. }
    assert (E2 : sumf (fun j => ind (i =? j)%nat * (qn (S p) / (t (S j + S p)%nat - t (S j)) * bs t (itv x) p (S j) x)) (seq 0 (n - 1))
      = qn (S p) * (bs t (itv x) p (S i) x / (t (i + S (S p))%nat - t (S i)))).
    { replace (i + S (S p))%nat with (S i + S p)%nat by lia. destruct (Nat.eq_dec i (n - 1)) as [e|e].
      - rewrite sumf_zero. { rewrite (bs_left t (itv x) p x (S i)) by lia. unfold Qcdiv. ring. }
        intros j Hj. apply in_seq in Hj. replace (i =? j)%nat with false by (symmetry; apply Nat.eqb_neq; lia). cbn [ind]. ring.
      - rewrite (sumf_one _ (n - 1) i) by (try lia; intros j Hj; replace (i =? j)%nat with false by (symmetry; apply Nat.eqb_neq; lia); cbn [ind]; ring).
        rewrite Nat.eqb_refl. cbn [ind]. unfold Qcdiv. ring. }
    rewrite E1, E2. ring.
Qed.
Lemma deriv_row_length x : length (deriv_row T k x) = n.
Proof. apply deriv_row_length_any. Qed.
End Seq.
