(** Vector algebra and the meaning of the constraint matrices. *)
From Coq Require Import Qcabs.
From Verif Require Import Base ListLib HonestModel HonestSpec.
Local Open Scope nat_scope.
Local Open Scope list_scope.

(** * dot products *)
Lemma dot_nil_l v : dot [] v = 0%Qc. Proof. reflexivity. Qed.
Lemma dot_nil_r v : dot v [] = 0%Qc. Proof. destruct v; reflexivity. Qed.
Lemma dot_cons a u b v : dot (a :: u) (b :: v) = (a * b + dot u v)%Qc. Proof. reflexivity. Qed.
Lemma dot_zeros n v : dot (zeros n) v = 0%Qc.
Proof.
  revert v; induction n as [|n IH]; intros [|x v]; try reflexivity.
  change (zeros (S n)) with (0%Qc :: zeros n). rewrite dot_cons, IH. ring.
Qed.
Lemma dot_zeros_r n v : dot v (zeros n) = 0%Qc.
Proof.
  revert v; induction n as [|n IH]; intros [|x v]; try reflexivity.
  change (zeros (S n)) with (0%Qc :: zeros n). rewrite dot_cons, IH. ring.
Qed.
Lemma dot_app u1 u2 v1 v2 : length u1 = length v1 -> dot (u1 ++ u2) (v1 ++ v2) = (dot u1 v1 + dot u2 v2)%Qc.
Proof.
  revert v1; induction u1 as [|a u1 IH]; intros [|b v1] H; cbn in H; try discriminate.
  - cbn [app]. rewrite dot_nil_l. ring.
  - cbn [app]. rewrite !dot_cons, IH by lia. ring.
Qed.
Lemma dot_comm u v : dot u v = dot v u.
Proof. revert v; induction u as [|a u IH]; intros [|b v]; try reflexivity. rewrite !dot_cons, IH. ring. Qed.
Lemma dot_vopp u v : dot (vopp u) v = (- dot u v)%Qc.
Proof.
  revert v; induction u as [|a u IH]; intros [|b v]; try reflexivity.
  cbn [vopp map]. rewrite !dot_cons. unfold vopp in IH. rewrite IH. ring.
Qed.
Lemma dot_vscale c u v : dot (vscale c u) v = (c * dot u v)%Qc.
Proof.
  revert v; induction u as [|a u IH]; intros [|b v]; try (cbn; ring).
  cbn [vscale map]. rewrite !dot_cons. unfold vscale in IH. rewrite IH. ring.
Qed.
Lemma dot_vsub u w v : length u = length w -> dot (vsub u w) v = (dot u v - dot w v)%Qc.
Proof.
  revert w v; induction u as [|a u IH]; intros [|c w] v H; cbn in H; try discriminate.
  - change (0 = 0 - 0)%Qc. ring.
  - destruct v as [|b v]; [rewrite !dot_nil_r; ring|].
    change (vsub (a :: u) (c :: w)) with ((a - c)%Qc :: vsub u w). rewrite !dot_cons, IH by lia. ring.
Qed.
Lemma zeros_length n : length (zeros n) = n. Proof. apply repeat_length. Qed.
Lemma vopp_length u : length (vopp u) = length u. Proof. apply map_length. Qed.
Lemma vscale_length c u : length (vscale c u) = length u. Proof. apply map_length. Qed.
Lemma zip2_length f u w : length u = length w -> length (zip2 f u w) = length u.
Proof. intros H. unfold zip2. rewrite map_length, combine_length. lia. Qed.
Lemma vsub_length u w : length u = length w -> length (vsub u w) = length u.
Proof. apply zip2_length. Qed.
Lemma put_length v k xs : k + length xs <= length v -> length (put v k xs) = length v.
Proof. intros H. unfold put. rewrite !app_length, firstn_length, skipn_length. lia. Qed.
Lemma firstn_zeros k n : firstn k (zeros n) = zeros (Nat.min k n).
Proof.
  revert n; induction k as [|k IH]; intros [|n]; try reflexivity.
  change (firstn (S k) (zeros (S n))) with (0%Qc :: firstn k (zeros n)). rewrite IH. reflexivity.
Qed.
Lemma skipn_zeros k n : skipn k (zeros n) = zeros (n - k).
Proof. revert n; induction k as [|k IH]; intros [|n]; try reflexivity. cbn [skipn Nat.sub]. apply IH. Qed.
Lemma dot_put n k xs v : k + length xs <= n -> length v = n -> dot (put (zeros n) k xs) v = dot xs (skipn k v).
Proof.
  intros H Hv. unfold put. rewrite firstn_zeros, skipn_zeros.
  rewrite <- (firstn_skipn k v) at 1.
  rewrite dot_app by (rewrite zeros_length, firstn_length; lia). rewrite dot_zeros, Qcplus_0_l.
  rewrite <- (firstn_skipn (length xs) (skipn k v)) at 1.
  rewrite dot_app by (rewrite firstn_length, skipn_length; lia). rewrite dot_zeros.
  rewrite <- (firstn_skipn (length xs) (skipn k v)) at 2.
  rewrite <- (app_nil_r xs) at 3. rewrite dot_app by (rewrite firstn_length, skipn_length; lia).
  rewrite dot_nil_l. ring.
Qed.
Lemma skipn_nth_cons (k : nat) (v : vec) : k < length v -> skipn k v = nth k v 0%Qc :: skipn (S k) v.
Proof.
  revert k; induction v as [|x v IH]; intros k H; cbn in H; [lia|].
  destruct k; [reflexivity|]. cbn [skipn nth]. rewrite IH by lia. reflexivity.
Qed.
Lemma dot_put1 n k a v : k < n -> length v = n -> dot (put (zeros n) k [a]) v = (a * nth k v 0)%Qc.
Proof.
  intros H Hv. rewrite dot_put by (cbn; lia). rewrite (skipn_nth_cons k) by lia.
  rewrite dot_cons, dot_nil_l. ring.
Qed.
Lemma dot_put2 n k a b v : k + 1 < n -> length v = n ->
  dot (put (zeros n) k [a; b]) v = (a * nth k v 0 + b * nth (k + 1) v 0)%Qc.
Proof.
  intros H Hv. rewrite dot_put by (cbn; lia). rewrite (skipn_nth_cons k), (skipn_nth_cons (S k)) by lia.
  rewrite !dot_cons, dot_nil_l. replace (k + 1) with (S k) by lia. ring.
Qed.
Lemma dot_put3 n k a b c v : k + 2 < n -> length v = n ->
  dot (put (zeros n) k [a; b; c]) v = (a * nth k v 0 + b * nth (k + 1) v 0 + c * nth (k + 2) v 0)%Qc.
Proof.
  intros H Hv. rewrite dot_put by (cbn; lia).
  rewrite (skipn_nth_cons k), (skipn_nth_cons (S k)), (skipn_nth_cons (S (S k))) by lia.
  rewrite !dot_cons, dot_nil_l. replace (k + 1) with (S k) by lia. replace (k + 2) with (S (S k)) by lia. ring.
Qed.

(** * the trend with its zero at period 0 *)
Definition ins (k : nat) (v : vec) : vec := firstn k v ++ 0%Qc :: skipn k v.
Lemma ins_length k v : length (ins k v) = S (length v).
Proof.
  unfold ins. rewrite app_length. cbn [length]. rewrite firstn_length, skipn_length. lia.
Qed.
Lemma dot_del k row v : k <= length v -> length row = S (length v) -> dot (del k row) v = dot row (ins k v).
Proof.
  intros Hk Hr. unfold del, ins.
  rewrite <- (firstn_skipn k v) at 1.
  rewrite <- (firstn_skipn k row) at 3. rewrite (skipn_nth_cons k row) by lia.
  rewrite !dot_app by (rewrite !firstn_length; lia). rewrite dot_cons. ring.
Qed.
Lemma nth_ins pre v i : pre <= length v -> nth i (ins pre v) 0%Qc = trend pre v (Z.of_nat i - Z.of_nat pre).
Proof.
  intros H. unfold ins, trend.
  assert (L : length (firstn pre v) = pre) by (rewrite firstn_length; lia).
  destruct (Z.ltb_spec (Z.of_nat i - Z.of_nat pre) 0).
  - rewrite app_nth1 by lia. replace (Z.to_nat _) with i by lia.
    rewrite <- (firstn_skipn pre v) at 2. rewrite app_nth1 by lia. reflexivity.
  - rewrite app_nth2 by lia. rewrite L. destruct (Z.eqb_spec (Z.of_nat i - Z.of_nat pre) 0).
    + replace (i - pre) with 0 by lia. reflexivity.
    + replace (i - pre) with (S (i - pre - 1)) by lia. cbn [nth].
      replace (Z.to_nat _) with (pre + (i - pre - 1)) by lia.
      rewrite <- (firstn_skipn pre v) at 2. rewrite app_nth2 by lia.
      f_equal. lia.
Qed.

Lemma row_step pre post v r : path pre post v -> r < pre + post ->
  dot (put (zeros (pre + post + 1)) r [(-(1))%Qc; 1%Qc]) (ins pre v) = step (trend pre v) (Z.of_nat r - Z.of_nat pre).
Proof.
  intros P H. unfold path in P. rewrite dot_put2 by (rewrite ?ins_length; lia).
  rewrite !nth_ins by lia. unfold step.
  replace (Z.of_nat (r + 1) - Z.of_nat pre)%Z with (Z.of_nat r - Z.of_nat pre + 1)%Z by lia. ring.
Qed.
Lemma row_curve pre post v r : path pre post v -> r + 1 < pre + post ->
  dot (put (zeros (pre + post + 1)) r [1%Qc; (-(1 + 1))%Qc; 1%Qc]) (ins pre v)
  = curve (trend pre v) (Z.of_nat r - Z.of_nat pre + 1).
Proof.
  intros P H. unfold path in P. rewrite dot_put3 by (rewrite ?ins_length; lia).
  rewrite !nth_ins by lia. unfold curve.
  replace (Z.of_nat (r + 1) - Z.of_nat pre)%Z with (Z.of_nat r - Z.of_nat pre + 1)%Z by lia.
  replace (Z.of_nat (r + 2) - Z.of_nat pre)%Z with (Z.of_nat r - Z.of_nat pre + 1 + 1)%Z by lia.
  replace (Z.of_nat r - Z.of_nat pre + 1 - 1)%Z with (Z.of_nat r - Z.of_nat pre)%Z by lia. ring.
Qed.

(** * systems of inequalities *)
Lemma abs_le_iff (x m : Qc) : (Qcabs x <= m <-> x <= m /\ - x <= m)%Qc.
Proof.
  split.
  - intros H. apply Qcabs_Qcle_condition in H. destruct H. split; qclra.
  - intros [H1 H2]. apply Qcabs_Qcle_condition. split; qclra.
Qed.
Lemma sat_app a1 a2 d1 d2 v : length a1 = length d1 ->
  (satisfies (a1 ++ a2, d1 ++ d2) v <-> satisfies (a1, d1) v /\ satisfies (a2, d2) v).
Proof.
  unfold satisfies; cbn [fst snd]. revert d1. induction a1 as [|r a1 IH]; intros [|x d1] H; cbn in H; try discriminate.
  - cbn [app]. split; [intros K; split; [constructor|exact K]|intros [_ K]; exact K].
  - cbn [app]. split.
    + intros K. inversion K; subst. destruct (proj1 (IH d1 ltac:(lia)) H5). split; [constructor|]; assumption.
    + intros [K1 K2]. inversion K1; subst. constructor; [assumption|]. apply IH; [lia|]. split; assumption.
Qed.
Lemma sat_const a c v : satisfies (a, repeat c (length a)) v <-> forall r, In r a -> (dot r v <= c)%Qc.
Proof.
  unfold satisfies; cbn [fst snd]. induction a as [|r a IH]; cbn [length repeat].
  - split; [intros _ r []|constructor].
  - split.
    + intros K. inversion K; subst. intros r' [<-|H]; [assumption|]. apply IH; assumption.
    + intros K. constructor; [apply K; left; reflexivity|]. apply IH. intros r' H. apply K. right; exact H.
Qed.
Lemma sat_pm a c v : satisfies (a ++ map vopp a, repeat c (length (a ++ map vopp a))) v <->
  forall r, In r a -> (Qcabs (dot r v) <= c)%Qc.
Proof.
  rewrite sat_const. split.
  - intros K r H. apply abs_le_iff. split; [apply K, in_or_app; left; exact H|].
    rewrite <- dot_vopp. apply K, in_or_app; right. apply in_map; exact H.
  - intros K r H. apply in_app_or in H as [H|H].
    + apply abs_le_iff, K, H.
    + apply in_map_iff in H as (r0 & <- & H). rewrite dot_vopp. apply (proj1 (abs_le_iff _ _) (K r0 H)).
Qed.

(** * Delta^SD *)
Lemma sd_rows_in pre post row : In row (map (del pre) (second_differences (pre + post - 1) (pre + post + 1))) <->
  exists r, r + 1 < pre + post /\ row = del pre (put (zeros (pre + post + 1)) r [1%Qc; (-(1 + 1))%Qc; 1%Qc]).
Proof.
  unfold second_differences. rewrite map_map, in_map_iff. split.
  - intros (r & <- & H). apply in_seq in H. exists r. split; [lia|].
    destruct (Nat.leb_spec (r + 3) (pre + post + 1)); [reflexivity|lia].
  - intros (r & H & ->). exists r. split; [|apply in_seq; lia].
    destruct (Nat.leb_spec (r + 3) (pre + post + 1)); [reflexivity|lia].
Qed.
Lemma sd_row_dot pre post v r : path pre post v -> r + 1 < pre + post ->
  dot (del pre (put (zeros (pre + post + 1)) r [1%Qc; (-(1 + 1))%Qc; 1%Qc])) v
  = curve (trend pre v) (Z.of_nat r - Z.of_nat pre + 1).
Proof.
  intros P H. rewrite dot_del; [apply row_curve; assumption| |]; unfold path in P; [lia|].
  rewrite put_length; rewrite zeros_length; cbn; lia.
Qed.
Lemma sat_sd pre post m v : path pre post v ->
  satisfies (sd_matrix pre post false, sd_vector (sd_matrix pre post false) m) v <-> in_sd pre post m v.
Proof.
  intros P. unfold sd_matrix, sd_vector. cbn [andb]. rewrite sat_pm. unfold in_sd. split.
  - intros K t Ht. specialize (K (del pre (put (zeros (pre + post + 1)) (Z.to_nat (t - 1 + Z.of_nat pre)) [1%Qc; (-(1 + 1))%Qc; 1%Qc]))).
    rewrite sd_row_dot in K by (assumption || lia).
    replace (Z.of_nat (Z.to_nat (t - 1 + Z.of_nat pre)) - Z.of_nat pre + 1)%Z with t in K by lia.
    apply K, sd_rows_in. eexists; split; [|reflexivity]. lia.
  - intros K row H. apply sd_rows_in in H as (r & H & ->). rewrite sd_row_dot by assumption. apply K. lia.
Qed.

(** * the relative-magnitude polyhedra, for a template row [xs] *)
Lemma nth_zeros j n : nth j (zeros n) 0%Qc = 0%Qc.
Proof.
  revert j; induction n as [|n IH]; intros [|j]; try reflexivity.
  change (zeros (S n)) with (0%Qc :: zeros n). cbn [nth]. apply IH.
Qed.
Lemma nth_put n k xs j : k + length xs <= n ->
  nth j (put (zeros n) k xs) 0%Qc = if (k <=? j) && (j <? k + length xs) then nth (j - k) xs 0%Qc else 0%Qc.
Proof.
  intros H. unfold put. rewrite firstn_zeros, skipn_zeros.
  destruct (Nat.leb_spec k j) as [h|h]; cbn [andb].
  - rewrite app_nth2 by (rewrite zeros_length; lia). rewrite zeros_length.
    replace (j - Nat.min k n) with (j - k) by lia.
    destruct (Nat.ltb_spec j (k + length xs)) as [h2|h2].
    + rewrite app_nth1 by lia. reflexivity.
    + rewrite app_nth2 by lia. apply nth_zeros.
  - rewrite app_nth1 by (rewrite zeros_length; lia). apply nth_zeros.
Qed.
Lemma nth_vopp j u : nth j (vopp u) 0%Qc = (- nth j u 0)%Qc.
Proof.
  revert j; induction u as [|a u IH]; intros [|j]; cbn [vopp map nth]; try ring. apply IH.
Qed.
Lemma nth_vscale c j u : nth j (vscale c u) 0%Qc = (c * nth j u 0)%Qc.
Proof. revert j; induction u as [|a u IH]; intros [|j]; cbn [vscale map nth]; try ring. apply IH. Qed.
Lemma nth_vsub j u w : length u = length w -> nth j (vsub u w) 0%Qc = (nth j u 0 - nth j w 0)%Qc.
Proof.
  revert j w; induction u as [|a u IH]; intros j [|c w] H; cbn in H; try discriminate.
  - destruct j; cbn; ring.
  - change (vsub (a :: u) (c :: w)) with ((a - c)%Qc :: vsub u w). destruct j; cbn [nth]; [reflexivity|]. apply IH; lia.
Qed.

Section Template.
Context (pre post : nat) (xs : vec) (k N : nat) (c : nat -> Qc) (C : nat -> vec) (eps : Qc) (keep : vec -> bool).
Let n := pre + post + 1.
Context (Hxs : exists x0 mid xl, xs = x0 :: mid ++ [xl] /\ Qcabs x0 = 1%Qc /\ Qcabs xl = 1%Qc)
        (HN : N + length xs <= n + 1) (Hk : k < N)
        (HC : forall r, length (C r) = n /\ forall j, nth j (C r) 0%Qc = (c r * nth j (put (zeros n) k xs) 0)%Qc)
        (Heps : (eps < 1)%Qc)
        (Hkeep : forall row, keep row = false -> forall j, (Qcabs (nth j row 0) <= eps)%Qc)
        (Hck : (Qcabs (1 - c k) <= eps -> c k = 1)%Qc /\ (Qcabs (- (1) - c k) <= eps -> c k = - (1))%Qc).

Let P r := put (zeros n) r xs.
Let U r := vsub (P r) (C r).
Let L r := vsub (vopp (P r)) (C r).

Lemma P_length r : r < N -> length (P r) = n.
Proof. intros H. unfold P. rewrite put_length; rewrite zeros_length; lia. Qed.

Lemma xs_len : exists m, length xs = S (S m).
Proof. destruct Hxs as (x0 & mid & xl & -> & _). exists (length mid). cbn. rewrite app_length. cbn. lia. Qed.
Lemma xs_first : Qcabs (nth 0 xs 0%Qc) = 1%Qc.
Proof. destruct Hxs as (x0 & mid & xl & -> & H & _). exact H. Qed.
Lemma xs_last : Qcabs (nth (length xs - 1) xs 0%Qc) = 1%Qc.
Proof.
  destruct Hxs as (x0 & mid & xl & -> & _ & H). cbn [length]. rewrite app_length. cbn [length].
  replace (S (length mid + 1) - 1) with (S (length mid)) by lia. cbn [nth].
  rewrite app_nth2, Nat.sub_diag by lia. exact H.
Qed.

Lemma other_row_big r e : r < N -> r <> k -> Qcabs e = 1%Qc ->
  exists j, Qcabs (e * nth j (P r) 0 - c r * nth j (P k) 0)%Qc = 1%Qc.
Proof.
  intros Hr Hrk He. destruct xs_len as [m Hm]. unfold P.
  destruct (Nat.lt_ge_cases r k) as [h|h].
  - exists r. rewrite !nth_put by lia.
    replace ((r <=? r) && (r <? r + length xs)) with true by (symmetry; apply andb_true_iff; split; [apply Nat.leb_refl|apply Nat.ltb_lt; lia]).
    replace ((k <=? r) && _) with false by (symmetry; apply andb_false_iff; left; apply Nat.leb_gt; lia).
    rewrite Nat.sub_diag. replace (e * nth 0 xs 0 - c r * 0)%Qc with (e * nth 0 xs 0)%Qc by ring.
    rewrite Qcabs_Qcmult, He, xs_first. ring.
  - exists (r + length xs - 1). rewrite !nth_put by lia.
    replace ((r <=? _) && (_ <? r + length xs)) with true by (symmetry; apply andb_true_iff; split; [apply Nat.leb_le; lia|apply Nat.ltb_lt; lia]).
    replace ((k <=? _) && (_ <? k + length xs)) with false by (symmetry; apply andb_false_iff; right; apply Nat.ltb_ge; lia).
    replace (r + length xs - 1 - r) with (length xs - 1) by lia.
    replace (e * nth (length xs - 1) xs 0 - c r * 0)%Qc with (e * nth (length xs - 1) xs 0)%Qc by ring.
    rewrite Qcabs_Qcmult, He, xs_last. ring.
Qed.

Lemma dropped_zero r e row : r < N -> (e = 1 \/ e = - (1))%Qc ->
  (forall j, nth j row 0 = e * nth j (P r) 0 - c r * nth j (P k) 0)%Qc ->
  keep row = false -> r = k /\ c k = e.
Proof.
  intros Hr He Hrow Hd.
  assert (Ha : Qcabs e = 1%Qc) by (destruct He as [->| ->]; apply Qc_is_canon; reflexivity).
  destruct (Nat.eq_dec r k) as [->|h].
  - split; [reflexivity|]. pose proof (Hkeep row Hd k) as B. rewrite Hrow in B. unfold P in B.
    destruct xs_len as [m Hm]. rewrite !nth_put in B by lia.
    replace ((k <=? k) && (k <? k + length xs)) with true in B by (symmetry; apply andb_true_iff; split; [apply Nat.leb_refl|apply Nat.ltb_lt; lia]).
    rewrite Nat.sub_diag in B.
    replace (e * nth 0 xs 0 - c k * nth 0 xs 0)%Qc with ((e - c k) * nth 0 xs 0)%Qc in B by ring.
    rewrite Qcabs_Qcmult, xs_first, Qcmult_1_r in B. destruct Hck as [H1 H2].
    destruct He as [->| ->]; auto.
  - exfalso. destruct (other_row_big r e Hr h Ha) as [j B]. pose proof (Hkeep row Hd j) as K.
    rewrite Hrow, B in K. qclra.
Qed.

Definition D (v : vec) (r : nat) : Qc := dot (P r) (ins pre v).

Lemma C_dot v r : path pre post v -> dot (C r) (ins pre v) = (c r * D v k)%Qc.
Proof.
  intros Hv. unfold D. destruct (HC r) as [HL HE].
  assert (X : C r = vscale (c r) (P k)).
  { apply (nth_ext _ _ 0%Qc 0%Qc).
    - rewrite vscale_length, HL, P_length by assumption. reflexivity.
    - intros j _. rewrite HE, nth_vscale. reflexivity. }
  rewrite X, dot_vscale. reflexivity.
Qed.

Lemma template_poly v : path pre post v ->
  ((forall row, In row (map (del pre) (filter keep (map U (seq 0 N) ++ map L (seq 0 N)))) -> (dot row v <= 0)%Qc)
   <-> forall r, r < N -> (Qcabs (D v r) <= c r * D v k)%Qc).
Proof.
  intros Hv. pose proof Hv as Hlen. unfold path in Hlen.
  assert (LC : forall r, length (C r) = n) by (intros r; apply (HC r)).
  assert (DU : forall r, r < N -> dot (del pre (U r)) v = (D v r - c r * D v k)%Qc).
  { intros r Hr. rewrite dot_del by (try lia; unfold U; rewrite vsub_length; rewrite P_length; rewrite ?LC; unfold n; lia).
    unfold U. rewrite dot_vsub by (rewrite P_length, LC by assumption; reflexivity).
    rewrite C_dot by assumption. reflexivity. }
  assert (DL : forall r, r < N -> dot (del pre (L r)) v = (- D v r - c r * D v k)%Qc).
  { intros r Hr. rewrite dot_del by (try lia; unfold L; rewrite vsub_length; rewrite vopp_length, P_length; rewrite ?LC; unfold n; lia).
    unfold L. rewrite dot_vsub by (rewrite vopp_length, P_length, LC by assumption; reflexivity).
    rewrite C_dot, dot_vopp by assumption. reflexivity. }
  assert (NU : forall r j, r < N -> (nth j (U r) 0 = 1 * nth j (P r) 0 - c r * nth j (P k) 0)%Qc).
  { intros r j Hr. unfold U. rewrite nth_vsub by (rewrite P_length, LC by assumption; reflexivity).
    rewrite (proj2 (HC r)). unfold P. ring. }
  assert (NL : forall r j, r < N -> (nth j (L r) 0 = - (1) * nth j (P r) 0 - c r * nth j (P k) 0)%Qc).
  { intros r j Hr. unfold L. rewrite nth_vsub by (rewrite vopp_length, P_length, LC by assumption; reflexivity).
    rewrite nth_vopp, (proj2 (HC r)). unfold P. ring. }
  split.
  - intros K r Hr. apply abs_le_iff. split.
    + destruct (keep (U r)) eqn:E.
      * assert (X : (dot (del pre (U r)) v <= 0)%Qc).
        { apply K, in_map, filter_In. split; [|exact E]. apply in_or_app; left. apply in_map, in_seq. lia. }
        rewrite DU in X by assumption. qclra.
      * destruct (dropped_zero r 1%Qc (U r) Hr (or_introl eq_refl) (fun j => NU r j Hr) E) as [-> ->].
        replace (1 * D v k)%Qc with (D v k) by ring. apply Qcle_refl.
    + destruct (keep (L r)) eqn:E.
      * assert (X : (dot (del pre (L r)) v <= 0)%Qc).
        { apply K, in_map, filter_In. split; [|exact E]. apply in_or_app; right. apply in_map, in_seq. lia. }
        rewrite DL in X by assumption. qclra.
      * destruct (dropped_zero r (- (1))%Qc (L r) Hr (or_intror eq_refl) (fun j => NL r j Hr) E) as [-> ->].
        replace (- (1) * D v k)%Qc with (- D v k)%Qc by ring. apply Qcle_refl.
  - intros K row H. apply in_map_iff in H as (row0 & <- & H). apply filter_In in H as [H _].
    apply in_app_or in H as [H|H]; apply in_map_iff in H as (r & <- & H); apply in_seq in H;
      specialize (K r ltac:(lia)); apply abs_le_iff in K as [K1 K2].
    + rewrite DU by lia. qclra.
    + rewrite DL by lia. qclra.
Qed.
End Template.
