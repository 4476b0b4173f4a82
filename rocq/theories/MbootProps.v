(** C28 (clustered multiplier bootstrap), C40 (bootstrap standard errors and uniform critical value), C41 (distributed bootstrap). *)
From Coq Require Import Reals Lra Lia Permutation Sorted.
From Verif Require Import Base ListLib ReduceModel MbootModel MbootSpec MbootProofs MbootProofs2 MbootProofs3.
Local Open Scope R_scope.
Local Open Scope list_scope.

(** ** C28 *)
(** The clustered bootstrap is the unclustered one on one row per distinct cluster: the average of its members' rows. *)
Theorem C28_cluster_averages :
  forall k n batch alp M cl W, length cl = n -> length M = n -> (1 <= batch)%nat ->
  exists labels M', StronglySorted Z.lt labels /\ (forall c, In c labels <-> In c cl) /\
    Forall2 (is_cluster_average k M cl) labels M' /\
    mboot k n batch alp M (Some cl) W = mboot k (length labels) batch alp M' None W.
Proof. exact cluster_averages. Qed.
Print Assumptions C28_cluster_averages.
(** The order of the units is irrelevant. *)
Theorem C28_unit_order :
  forall k n batch alp M cl M' cl' W, length cl = n -> length M = n -> length cl' = n -> length M' = n ->
  Permutation (combine M cl) (combine M' cl') -> mboot k n batch alp M (Some cl) W = mboot k n batch alp M' (Some cl') W.
Proof. exact unit_order. Qed.
Print Assumptions C28_unit_order.
(** Renaming the clusters only reorders which cluster gets which multiplier, and changes nothing if the order of labels is kept. *)
Theorem C28_relabelling :
  forall k n batch alp M cl f, length cl = n -> length M = n -> (1 <= batch)%nat ->
  (forall x y, In x cl -> In y cl -> f x = f y -> x = y) ->
  exists s, reordering (length (zuniq cl)) s /\ forall W, draws_ok (length (zuniq cl)) W ->
    mboot k n batch alp M (Some (map f cl)) (map (reorder s) W) = mboot k n batch alp M (Some cl) W.
Proof. exact relabel. Qed.
Print Assumptions C28_relabelling.
Theorem C28_monotone_relabelling :
  forall k n batch alp M cl f W, length cl = n -> length M = n -> (1 <= batch)%nat ->
  (forall x y, In x cl -> In y cl -> (x < y)%Z -> (f x < f y)%Z) ->
  mboot k n batch alp M (Some (map f cl)) W = mboot k n batch alp M (Some cl) W.
Proof. exact relabel_monotone. Qed.
Print Assumptions C28_monotone_relabelling.
(** A cluster vector is rejected exactly when its length is not the number of units or not the number of influence rows. *)
Theorem C28_cluster_length_checked :
  forall k n batch alp M cl W, mboot k n batch alp M (Some cl) W = None <-> length cl <> n \/ length cl <> length M.
Proof.
  intros. cbn [mboot]. destruct (Nat.eqb_spec (length cl) n), (Nat.eqb_spec (length cl) (length M)); cbn [negb orb]; split; intros X; try discriminate X; try reflexivity; tauto.
Qed.
Print Assumptions C28_cluster_length_checked.
(** One unit per cluster: the unclustered bootstrap. *)
Theorem C28_singletons :
  forall k n batch alp M cl, length cl = n -> length M = n -> (1 <= batch)%nat -> NoDup cl -> (forall r, In r M -> length r = k) ->
  exists s, reordering n s /\ forall W, draws_ok n W ->
    mboot k n batch alp M (Some cl) (map (reorder s) W) = mboot k n batch alp M None W.
Proof. exact singletons. Qed.
Print Assumptions C28_singletons.
(** The batch size used to draw the multipliers is unobservable. *)
Theorem C28_batches :
  forall k n batch batch' alp M cl W, (1 <= batch)%nat -> (1 <= batch')%nat -> mboot k n batch alp M cl W = mboot k n batch' alp M cl W.
Proof. intros k n batch batch' alp M [cl|] W H H'; cbn; rewrite !(batches _ _ batch), !(batches _ _ batch') by assumption; reflexivity. Qed.
Print Assumptions C28_batches.
(** Each draw has mean 0 and, over the draws, the covariance of two parameters is the average product of their influence values. *)
Theorem C28_draw_moments :
  forall k n batch alp M, length M = n -> (0 < n)%nat -> (1 <= batch)%nat ->
  exists result, (forall W, option_map b_res (mboot k n batch alp M None W) = Some (map result W)) /\
  forall j l, (j < k)%nat -> (l < k)%nat ->
    expect n (fun d => nth j (result d) 0) = 0 /\
    expect n (fun d => nth j (result d) 0 * nth l (result d) 0) = rsum (map (fun i => entry M i j * entry M i l) (seq 0 n)) / INR n.
Proof. exact moments. Qed.
Print Assumptions C28_draw_moments.
(** The multipliers: mean 0, variance 1, third moment 1 (Mammen). *)
Theorem C28_mammen :
  0 < p_kappa < 1 /\
  p_kappa * mammen true + (1 - p_kappa) * mammen false = 0 /\
  p_kappa * mammen true ^ 2 + (1 - p_kappa) * mammen false ^ 2 = 1 /\ p_kappa * mammen true ^ 3 + (1 - p_kappa) * mammen false ^ 3 = 1.
Proof. destruct mammen_moments as (H1 & H2 & H3 & H4). exact (conj H4 (conj H1 (conj H2 H3))). Qed.
Print Assumptions C28_mammen.
(** With clusters of equal size the bootstrap variance is the cluster-robust variance of the mean influence value. *)
Theorem C28_equal_clusters_variance :
  forall k n batch alp M cl size, length cl = n -> length M = n -> (0 < n)%nat -> (1 <= batch)%nat ->
  (forall c, In c cl -> length (units_of cl c) = size) ->
  exists labels result, StronglySorted Z.lt labels /\ (forall c, In c labels <-> In c cl) /\
  (forall W, option_map b_res (mboot k n batch alp M (Some cl) W) = Some (map result W)) /\
  forall j l, (j < k)%nat -> (l < k)%nat ->
    expect (length labels) (fun d => nth j (result d) 0) = 0 /\
    expect (length labels) (fun d => nth j (result d) 0 * nth l (result d) 0) / INR (length labels) =
    rsum (map (fun c => total_over M (units_of cl c) j * total_over M (units_of cl c) l) labels) / INR n ^ 2.
Proof. exact cluster_variance. Qed.
Print Assumptions C28_equal_clusters_variance.

Definition c28_M : rmatrix := [[1]; [1]; [1]].
Lemma c28_cluster_inf : cluster_inf 1 c28_M [1; 2; 2]%Z = [[1]; [1]].
Proof.
  unfold cluster_inf. change (zuniq [1; 2; 2]%Z) with [1; 2]%Z. cbn [map seq]. change (members c28_M [1; 2; 2]%Z 1%Z) with [[1]]. change (members c28_M [1; 2; 2]%Z 2%Z) with [[1]; [1]]. unfold col, rsum. cbn. f_equal; [|f_equal]; f_equal; lra.
Qed.
(** With clusters of different sizes it is not: influence 1 for every unit, clusters of one and of two units (1/2 instead of 5/9). *)
Theorem C28_unequal_clusters_refuted :
  exists k n batch alp M cl result, length cl = n /\ length M = n /\ (1 <= batch)%nat /\
  (forall W, option_map b_res (mboot k n batch alp M (Some cl) W) = Some (map result W)) /\
  expect (length (zuniq cl)) (fun d => nth 0 (result d) 0 * nth 0 (result d) 0) / INR (length (zuniq cl)) <>
  rsum (map (fun c => total_over M (units_of cl c) 0 * total_over M (units_of cl c) 0) (zuniq cl)) / INR n ^ 2.
Proof.
  destruct (moments 1 2 1 0 [[1]; [1]] eq_refl ltac:(lia) ltac:(lia)) as (result & HR & HM).
  exists 1%nat, 3%nat, 1%nat, 0, c28_M, [1; 2; 2]%Z, result. split; [reflexivity|]. split; [reflexivity|]. split; [lia|]. split.
  - intros W. rewrite <- HR. f_equal. cbn [mboot length c28_M Nat.eqb negb orb]. rewrite c28_cluster_inf. reflexivity.
  - change (length (zuniq [1; 2; 2]%Z)) with 2%nat. destruct (HM 0%nat 0%nat ltac:(lia) ltac:(lia)) as [_ E]. rewrite E. unfold entry, total_over, rsum. cbn. lra.
Qed.
Print Assumptions C28_unequal_clusters_refuted.
Example c28_clusters_used : forall W, mboot 1 3 1 0 c28_M (Some [1; 2; 2]%Z) W = mboot 1 2 1 0 [[1]; [1]] None W.
Proof. intros W. cbn [mboot length c28_M Nat.eqb negb orb]. rewrite c28_cluster_inf. reflexivity. Qed.

(** ** C40 *)
(** The standard error is the normalised interquartile range over sqrt(n), or missing when the draws do not vary. *)
Theorem C40_standard_error :
  forall k n batch alp M W out j, mboot k n batch alp M None W = Some out -> (j < k)%nat ->
  nth j (b_se out) None =
  if Rlt_dec (10 / 2 ^ 26) (rsum (map (fun x => x ^ 2) (col j (b_res out))))
  then Some ((percentile (75 / 100) (col j (b_res out)) - percentile (25 / 100) (col j (b_res out))) / 1.3489795 / sqrt (INR n)) else None.
Proof. intros k n batch alp M W out j H Hj. cbn in H. injection H as <-. apply (se_values k n alp _ j Hj). Qed.
Print Assumptions C40_standard_error.
(** Percentiles separate the sample: at least floor(q(n-1)) + 1 values at or below, at least n - 1 - floor(q(n-1)) at or above; monotone
    in q. *)
Theorem C40_percentile :
  forall q l, 0 <= q <= 1 -> l <> [] ->
  let f := Z.to_nat (Int_part (q * INR (length l - 1))) in
  (f + 1 <= length (filter (fun x => if Rle_dec x (percentile q l) then true else false) l))%nat /\
  (length l - 1 - f <= length (filter (fun x => if Rle_dec (percentile q l) x then true else false) l))%nat.
Proof. exact percentile_counts. Qed.
Print Assumptions C40_percentile.
(** Every standard error is non-negative. *)
Theorem C40_standard_error_nonneg :
  forall k n batch alp M W out s, mboot k n batch alp M None W = Some out -> In (Some s) (b_se out) -> 0 <= s.
Proof.
  intros k n batch alp M W out s H Hs. cbn in H. injection H as <-. cbn in Hs. apply in_map_iff in Hs as (j & E & _). destruct (ndg _ j); [|discriminate]. injection E as <-.
  destruct n as [|n]; [cbn [INR]; rewrite sqrt_0; unfold Rdiv; rewrite Rinv_0; lra|].
  apply Rmult_le_pos; [apply sigma_nonneg|]. apply Rlt_le, Rinv_0_lt_compat, sqrt_lt_R0, lt_0_INR. lia.
Qed.
Print Assumptions C40_standard_error_nonneg.
(** The uniform band: for at least floor((1-alpha)(B-1)) + 1 of the B draws, all parameters at once lie within crit_val standard errors. *)
Theorem C40_uniform_band :
  forall k n batch alp M W out c, (0 < n)%nat -> 0 <= alp <= 1 -> mboot k n batch alp M None W = Some out -> b_crit out = Some c ->
  exists pos, NoDup pos /\ length pos = (Z.to_nat (Int_part ((1 - alp) * INR (length (b_res out) - 1))) + 1)%nat /\
    forall b, In b pos -> (b < length (b_res out))%nat /\
      forall j s, nth_error (b_se out) j = Some (Some s) -> Rabs (nth j (nth b (b_res out) []) 0) / sqrt (INR n) <= c * s.
Proof.
  intros k n batch alp M W out c Hn Ha H Hc. cbn in H. injection H as <-. destruct (uniform_band k n alp _ c Ha Hc) as (pos & H1 & H2 & H3). exists pos. split; [exact H1|]. split; [exact H2|].
  intros b Hb. destruct (H3 b Hb) as [L I]. split; [exact L|]. intros j s Hj. cbn [b_res b_se boot_finish] in *. set (bres := rscale _ _) in *.
  assert (Lj : (j < k)%nat). { assert (N : nth_error (map (fun j => if ndg bres j then Some (sigma bres j / sqrt (INR n)) else None) (seq 0 k)) j <> None) by (rewrite Hj; discriminate). apply nth_error_Some in N. rewrite map_length, seq_length in N. exact N. }
  apply nth_error_nth with (d := None) in Hj. rewrite nth_map_seq in Hj by exact Lj. destruct (ndg bres j) eqn:En; [|discriminate]. injection Hj as <-.
  assert (P : 0 < sqrt (INR n)) by (apply sqrt_lt_R0, lt_0_INR, Hn). specialize (I j ltac:(apply filter_In; split; [apply in_seq; lia|exact En])).
  replace (c * (sigma bres j / sqrt (INR n))) with (c * sigma bres j * / sqrt (INR n)) by (unfold Rdiv; ring). apply Rmult_le_compat_r; [apply Rlt_le, Rinv_0_lt_compat, P|exact I].
Qed.
Print Assumptions C40_uniform_band.
(** Measuring each parameter in other units rescales its standard error and leaves the critical value alone (as long as the same columns count
    as non-degenerate: that test uses an absolute threshold). *)
Theorem C40_units_of_measurement :
  forall k n batch alp M W c out, (1 <= batch)%nat -> (forall j, (j < k)%nat -> 0 < c j) ->
  mboot k n batch alp M None W = Some out ->
  exists out', mboot k n batch alp (map (fun r => map (fun j => c j * nth j r 0) (seq 0 k)) M) None W = Some out' /\
  b_res out' = map (fun r => map (fun j => c j * nth j r 0) (seq 0 k)) (b_res out) /\
  ((forall j, (j < k)%nat -> ndg (b_res out') j = ndg (b_res out) j) ->
   b_se out' = map (fun j => option_map (Rmult (c j)) (nth j (b_se out) None)) (seq 0 k) /\ b_crit out' = b_crit out).
Proof. exact units_of_measurement. Qed.
Print Assumptions C40_units_of_measurement.
(** The absolute threshold is observable: an estimate whose draws are small in absolute size has no standard error, in other units it has. *)
Theorem C40_tiny_scale_refuted :
  exists M W c out out', 0 < c /\ mboot 1 1 1 0 M None W = Some out /\ mboot 1 1 1 0 (map (map (Rmult c)) M) None W = Some out' /\
  nth 0 (b_se out) None <> None /\ nth 0 (b_se out') None = None.
Proof.
  assert (Pk : 0 < k2 ^ 2 < 9). { unfold k2. pose proof sqrt5_pos. pose proof sqrt5_sq. split; nra. }
  exists [[1]], [[false]], (/ 2 ^ 26). eexists. eexists. split; [apply Rinv_0_lt_compat; lra|]. split; [reflexivity|]. split; [reflexivity|].
  assert (S1 : sqrt (INR 1) = 1) by (cbn; apply sqrt_1).
  assert (V : forall x, rsum (map (fun x => x ^ 2) (col 0 (rscale (sqrt (INR 1)) (multiplier_bootstrap 1 [[x]] 1 [[false]])))) = (x * k2) ^ 2).
  { intros x. rewrite S1. unfold rsum, col, rscale, multiplier_bootstrap, boot_impl, boot_row, rmean, rsum. cbn. field. }
  split.
  - rewrite (se_values 1 1 0 _ 0) by lia. rewrite V. destruct (Rlt_dec _ _) as [|N]; [discriminate|]. exfalso. apply N. unfold thr. unfold k2. pose proof sqrt5_pos. pose proof sqrt5_sq. nra.
  - rewrite (se_values 1 1 0 _ 0) by lia. cbn [map]. rewrite V. destruct (Rlt_dec _ _) as [N|]; [|reflexivity]. exfalso. unfold thr in N.
    replace ((/ 2 ^ 26 * 1 * k2) ^ 2) with (/ 2 ^ 52 * k2 ^ 2) in N by field. lra.
Qed.
Print Assumptions C40_tiny_scale_refuted.

(** ** C41 *)
(** The distributed bootstrap of the partitions is the local bootstrap of the whole matrix with the partitions' draws side by side: same
    draws always, same standard errors and critical value when no reported column has a spread below 10 sqrt(eps). *)
Theorem C41_distributed_equals_local :
  forall fuel fan_in k n batch alp B parts, parts <> [] -> (2 <= fan_in)%nat -> (length parts <= fuel)%nat -> (1 <= batch)%nat -> parts_ok B parts ->
  n = length (concat (map fst parts)) -> (0 < n)%nat ->
  exists out local, dist_mboot fuel fan_in k n alp parts = Some out /\ mboot k n batch alp (concat (map fst parts)) None (joined B parts) = Some local /\
    b_res out = b_res local /\
    ((forall j, (j < k)%nat -> ndg (b_res local) j = true -> thr < sigma (b_res local) j) -> out = local).
Proof. exact distributed_draws. Qed.
Print Assumptions C41_distributed_equals_local.
(** The driver's row partition loses and duplicates nothing, for every number of partitions. *)
Theorem C41_array_split :
  forall (A : Type) parts (l : list A), (1 <= parts)%nat ->
  concat (filter nonempty (array_split parts l)) = l /\ length (array_split parts l) = parts /\
  forall p, In p (array_split parts l) -> length p = (length l / parts)%nat \/ length p = S (length l / parts).
Proof. intros A parts l H. exact (array_split_ok parts l H). Qed.
Print Assumptions C41_array_split.
Example c41_parts : parts_ok 2 [([[1; 2]], [[true]; [false]]); ([[3; 4]; [5; 6]], [[true; false]; [true; true]])] /\
  joined 2 [([[1; 2]], [[true]; [false]]); ([[3; 4]; [5; 6]], [[true; false]; [true; true]])] = [[true; true; false]; [false; true; true]] /\
  array_split 2 [1; 2; 3]%nat = [[1; 2]; [3]]%nat.
Proof. split; [|split; reflexivity]. intros p [<-|[<-|[]]]; (split; [reflexivity|]); intros d Hd; cbn in Hd; intuition (subst; reflexivity). Qed.
