(** Proofs for C40 (units of measurement, missing standard errors) and C41 (distributed bootstrap). *)
From Coq Require Import Reals Lra Lia Permutation Sorted.
From Verif Require Import Base ListLib ReduceModel ReduceProofs MbootModel MbootSpec MbootProofs MbootProofs2.
Local Open Scope R_scope.
Local Open Scope list_scope.

Lemma crit_ext z z' sg sg' cols alp bres bres' : map (tstat z sg cols) bres = map (tstat z' sg' cols) bres' -> crit z sg cols alp bres = crit z' sg' cols alp bres'.
Proof. intros H. unfold crit. destruct cols; [reflexivity|]. rewrite H. reflexivity. Qed.
(** ** rescaling the columns *)
Section Scale.
Context (k : nat) (c : nat -> R) (Hc : forall j, (j < k)%nat -> 0 < c j).
Definition rescale (M : rmatrix) : rmatrix := map (fun r => map (fun j => c j * nth j r 0) (seq 0 k)) M.
Lemma boot_row_rescale M d : boot_row k (rescale M) d = map (fun j => c j * nth j (boot_row k M d) 0) (seq 0 k).
Proof.
  unfold boot_row, rescale. apply map_ext_in. intros j Hj. apply in_seq in Hj. rewrite nth_map_seq by lia. unfold rmean. rewrite !map_length, combine_map_l, map_map, map_length.
  cbn [fst snd]. rewrite (rsum_ext _ (fun p => c j * (nth j (fst p) 0 * mammen (snd p)))); [rewrite rsum_mul; unfold Rdiv; ring|].
  intros p _. rewrite nth_map_seq by lia. ring.
Qed.
Lemma col_rescale j M : (j < k)%nat -> col j (rescale M) = map (Rmult (c j)) (col j M).
Proof. intros Hj. unfold col, rescale. rewrite !map_map. apply map_ext. intros r. rewrite nth_map_seq by exact Hj. reflexivity. Qed.
Lemma sigma_rescale j M : (j < k)%nat -> sigma (rescale M) j = c j * sigma M j.
Proof. intros Hj. unfold sigma. rewrite col_rescale, !percentile_scale by auto. unfold Rdiv. ring. Qed.
Lemma rscale_rescale s M : rscale s (rescale M) = rescale (rscale s M).
Proof.
  unfold rscale, rescale. rewrite !map_map. apply map_ext. intros r. rewrite map_map. apply map_ext. intros j.
  pose proof (map_nth (Rmult s) r 0 j) as E. rewrite Rmult_0_r in E. rewrite E. ring.
Qed.
Lemma maxstat_rescale bres row cols : (forall j, In j cols -> (j < k)%nat) ->
  maxstat (sigma (rescale bres)) cols (map (fun j => c j * nth j row 0) (seq 0 k)) = maxstat (sigma bres) cols row.
Proof.
  intros H. unfold maxstat. f_equal. apply map_ext_in. intros j Hj. apply H in Hj. rewrite nth_map_seq, sigma_rescale by exact Hj. f_equal.
  pose proof (Hc j Hj). destruct (Req_EM_T (sigma bres j) 0) as [->|N]; [rewrite Rmult_0_r; unfold Rdiv; rewrite Rinv_0; ring|]. field. split; lra.
Qed.
Lemma finish_rescale n alp bres : (forall j, (j < k)%nat -> ndg (rescale bres) j = ndg bres j) ->
  b_se (boot_finish k n alp (rescale bres)) = map (fun j => option_map (Rmult (c j)) (nth j (b_se (boot_finish k n alp bres)) None)) (seq 0 k) /\
  b_crit (boot_finish k n alp (rescale bres)) = b_crit (boot_finish k n alp bres).
Proof.
  intros H. split.
  - cbn. apply map_ext_in. intros j Hj. apply in_seq in Hj. rewrite nth_map_seq, H by lia. destruct (ndg bres j); cbn; [|reflexivity]. rewrite sigma_rescale by lia. f_equal. unfold Rdiv. ring.
  - cbn. assert (EK : kept k (rescale bres) = kept k bres) by (unfold kept; apply filter_ext_in; intros j Hj; apply in_seq in Hj; apply H; lia). rewrite EK. apply crit_ext.
    assert (HK : forall j, In j (kept k bres) -> (j < k)%nat) by (intros j Hj; apply filter_In in Hj as [Hj _]; apply in_seq in Hj; lia).
    assert (EZ : existsb (fun j => is0 (sigma (rescale bres) j)) (kept k bres) = existsb (fun j => is0 (sigma bres j)) (kept k bres)).
    { revert HK. generalize (kept k bres). induction l as [|j l IH]; intros HK; [reflexivity|]. cbn. rewrite IH by (intros i Hi; apply HK; right; exact Hi). f_equal.
      assert (Hj : (j < k)%nat) by (apply HK; left; reflexivity). rewrite sigma_rescale by exact Hj. pose proof (Hc j Hj). unfold is0. destruct (Req_EM_T (c j * sigma bres j) 0), (Req_EM_T (sigma bres j) 0); try reflexivity; exfalso; nra. }
    assert (MR := fun row => maxstat_rescale bres row (kept k bres) HK). set (sg' := sigma (rescale bres)) in *. unfold rescale. rewrite map_map. apply map_ext. intros row. unfold tstat. rewrite EZ. destruct (existsb (fun j => is0 (sigma bres j)) (kept k bres)); [reflexivity|]. f_equal. exact (MR row).
Qed.
End Scale.
Lemma units_of_measurement k n batch alp M W c out : (1 <= batch)%nat -> (forall j, (j < k)%nat -> 0 < c j) ->
  mboot k n batch alp M None W = Some out ->
  exists out', mboot k n batch alp (rescale k c M) None W = Some out' /\ b_res out' = rescale k c (b_res out) /\
  ((forall j, (j < k)%nat -> ndg (b_res out') j = ndg (b_res out) j) ->
   b_se out' = map (fun j => option_map (Rmult (c j)) (nth j (b_se out) None)) (seq 0 k) /\ b_crit out' = b_crit out).
Proof.
  intros Hb Hc H. cbn in *. injection H as <-. eexists. split; [reflexivity|]. rewrite !batches by exact Hb.
  assert (E : rscale (sqrt (INR n)) (boot_impl k (rescale k c M) W) = rescale k c (rscale (sqrt (INR n)) (boot_impl k M W))).
  { rewrite <- rscale_rescale. f_equal. unfold boot_impl, rescale at 2. rewrite map_map. apply map_ext. intros d. apply boot_row_rescale. }
  rewrite E. split; [reflexivity|]. cbn [b_res boot_finish]. intros H. apply finish_rescale; assumption.
Qed.
Lemma se_values k n alp bres j : (j < k)%nat ->
  nth j (b_se (boot_finish k n alp bres)) None =
  if Rlt_dec thr (rsum (map (fun x => x ^ 2) (col j bres))) then Some ((percentile (75 / 100) (col j bres) - percentile (25 / 100) (col j bres)) / 1.3489795 / sqrt (INR n)) else None.
Proof. intros H. cbn. rewrite nth_map_seq by exact H. unfold ndg. destruct (Rlt_dec _ _); reflexivity. Qed.

(** ** distributed *)
Lemma sum_pair_assoc A B C : sum_pair A (sum_pair B C) = sum_pair (sum_pair A B) C.
Proof.
  unfold sum_pair. revert B C. induction A as [|a A IH]; intros [|b B] [|c C]; try reflexivity. cbn [combine map fst snd]. f_equal; [|apply IH]. clear.
  revert b c. induction a as [|x a IH]; intros [|y b] [|z c]; try reflexivity. cbn [combine map fst snd]. f_equal; [ring|apply IH].
Qed.
Definition join2 (W W' : list (list bool)) : list (list bool) := map (fun p => fst p ++ snd p) (combine W W').
Lemma combine_app' {A B} (l1 : list A) : forall (m1 : list B) l2 m2, length l1 = length m1 -> combine (l1 ++ l2) (m1 ++ m2) = combine l1 m1 ++ combine l2 m2.
Proof. induction l1 as [|x l1 IH]; intros [|y m1] l2 m2 H; cbn in *; try discriminate; [reflexivity|]. f_equal. apply IH. congruence. Qed.
Lemma local_join k P W P' W' : draws_ok (length P) W -> sum_pair (local_bootstrap k P W) (local_bootstrap k P' W') = local_bootstrap k (P ++ P') (join2 W W').
Proof.
  intros H. unfold sum_pair, local_bootstrap, join2. rewrite map_map. revert W' H. induction W as [|d W IH]; intros [|d' W'] H; try reflexivity. cbn [map combine fst snd]. f_equal.
  - unfold local_row. rewrite combine_map_same, map_map. cbn [fst snd]. apply map_ext. intros j. rewrite combine_app' by (symmetry; apply H; left; reflexivity). rewrite map_app, rsum_app. reflexivity.
  - apply IH. intros e He. apply H. right. exact He.
Qed.
Lemma join2_joined B p parts : length (snd p) = B -> join2 (snd p) (joined B parts) = joined B (p :: parts).
Proof.
  intros H. unfold join2, joined. rewrite (list_as_nth [] (snd p)) at 1. rewrite H, combine_map_same, map_map. reflexivity.
Qed.
Lemma join2_assoc A B C : join2 A (join2 B C) = join2 (join2 A B) C.
Proof. unfold join2. revert B C. induction A as [|a A IH]; intros [|b B] [|c C]; try reflexivity. cbn. rewrite app_assoc. f_equal. apply IH. Qed.
Lemma joined_single B W : length W = B -> forall P, joined B [(P, W)] = W.
Proof. intros H P. unfold joined. rewrite (list_as_nth [] W), H. rewrite <- H, <- (list_as_nth [] W). rewrite (list_as_nth [] W) at 2. apply map_ext. intros b. cbn. apply app_nil_r. Qed.
Lemma join2_ok n n' W W' : draws_ok n W -> draws_ok n' W' -> draws_ok (n + n') (join2 W W').
Proof. intros H H' d Hd. apply in_map_iff in Hd as ([a b] & <- & Hd). cbn. rewrite app_length, (H a), (H' b); [reflexivity|eapply in_combine_r, Hd|eapply in_combine_l, Hd]. Qed.
Lemma join2_len W W' B : length W = B -> length W' = B -> length (join2 W W') = B.
Proof. intros H H'. unfold join2. rewrite map_length, combine_length, H, H'. apply Nat.min_id. Qed.
Lemma fold_parts k B : forall parts P W, length W = B -> draws_ok (length P) W -> parts_ok B parts ->
  fold_left sum_pair (map (fun p => local_bootstrap k (fst p) (snd p)) parts) (local_bootstrap k P W) =
  local_bootstrap k (P ++ concat (map fst parts)) (joined B ((P, W) :: parts)).
Proof.
  induction parts as [|[Q V] parts IH]; intros P W HB HW HP.
  - cbn. rewrite app_nil_r. f_equal. symmetry. apply joined_single, HB.
  - destruct (HP (Q, V) (or_introl eq_refl)) as [H1 H2]. cbn in H1, H2. cbn [map fold_left fst snd]. rewrite local_join by exact HW.
    rewrite IH; [|apply join2_len; assumption|rewrite app_length; apply join2_ok; assumption|intros p Hp; apply HP; right; exact Hp].
    cbn [concat]. rewrite app_assoc. f_equal. rewrite <- !join2_joined by (cbn [snd]; try apply join2_len; assumption). cbn [snd]. rewrite join2_assoc. reflexivity.
Qed.
Lemma local_to_mean k M W n : length M = n -> (0 < n)%nat -> draws_ok n W ->
  map (map (fun x => sqrt (INR n) * x / INR n)) (local_bootstrap k M W) = rscale (sqrt (INR n)) (boot_impl k M W).
Proof.
  intros HM Hn HW. unfold local_bootstrap, rscale, boot_impl. rewrite !map_map. apply map_ext_in. intros d Hd. unfold local_row, boot_row. rewrite !map_map. apply map_ext. intros j.
  unfold rmean. rewrite map_length, combine_length, HM, (HW d Hd), Nat.min_id. unfold Rdiv. ring.
Qed.
Lemma draws_joined B parts : parts_ok B parts -> draws_ok (length (concat (map fst parts))) (joined B parts).
Proof.
  intros H d Hd. apply in_map_iff in Hd as (b & <- & Hb). apply in_seq in Hb. induction parts as [|p parts IH]; [reflexivity|]. cbn. rewrite !app_length. f_equal.
  - destruct (H p (or_introl eq_refl)) as [L D]. apply D, nth_In. lia.
  - apply IH. intros q Hq. apply H. right. exact Hq.
Qed.
Lemma distributed_draws fuel fan k n batch alp B parts : parts <> [] -> (2 <= fan)%nat -> (length parts <= fuel)%nat -> (1 <= batch)%nat -> parts_ok B parts ->
  n = length (concat (map fst parts)) -> (0 < n)%nat ->
  exists out local, dist_mboot fuel fan k n alp parts = Some out /\ mboot k n batch alp (concat (map fst parts)) None (joined B parts) = Some local /\
    b_res out = b_res local /\
    ((forall j, (j < k)%nat -> ndg (b_res local) j = true -> thr < sigma (b_res local) j) -> out = local).
Proof.
  intros NE Hf HF Hb HP Hn Hp. destruct parts as [|[P W] parts]; [congruence|]. destruct (HP (P, W) (or_introl eq_refl)) as [H1 H2]. cbn in H1, H2.
  assert (ET : tree_reduce fuel sum_pair fan (map (fun p => local_bootstrap k (fst p) (snd p)) ((P, W) :: parts)) = TROk (local_bootstrap k (concat (map fst ((P, W) :: parts))) (joined B ((P, W) :: parts)))).
  { cbn [map fst snd]. rewrite (tree_reduce_ok sum_pair sum_pair_assoc fan Hf) by (rewrite map_length; cbn in HF; lia). f_equal. apply fold_parts; auto. intros p Hq. apply HP. right. exact Hq. }
  unfold dist_mboot. rewrite ET. eexists. eexists. split; [reflexivity|]. split; [reflexivity|]. rewrite batches by exact Hb.
  unfold dist_finish. rewrite (local_to_mean k _ _ n) by (auto; rewrite Hn; apply draws_joined, HP). cbn [b_res boot_finish]. split; [reflexivity|].
  set (bres := rscale _ _). intros HS. unfold boot_finish.
  assert (EZ : forall j, In j (kept k bres) -> small (sigma bres j) = false /\ is0 (sigma bres j) = false).
  { intros j Hj. apply filter_In in Hj as [Hj1 Hj2]. apply in_seq in Hj1. specialize (HS j ltac:(lia) Hj2). unfold small, is0. assert (0 < thr) by (unfold thr; lra).
    destruct (Rle_dec (sigma bres j) thr); [lra|]. destruct (Req_EM_T (sigma bres j) 0); [lra|]. split; reflexivity. }
  f_equal.
  - apply map_ext_in. intros j Hj. apply in_seq in Hj. destruct (ndg bres j) eqn:E; [|reflexivity]. destruct (EZ j) as [E1 _]; [apply filter_In; split; [apply in_seq; lia|exact E]|]. rewrite E1. reflexivity.
  - apply crit_ext. assert (EX : existsb (fun j => small (sigma bres j)) (kept k bres) = existsb (fun j => is0 (sigma bres j)) (kept k bres)).
    { revert EZ. generalize (kept k bres). induction l as [|j l IH]; intros EZ; [reflexivity|]. cbn. destruct (EZ j (or_introl eq_refl)) as [-> ->]. apply IH. intros i Hi. apply EZ. right. exact Hi. }
    apply map_ext. intros row. unfold tstat. rewrite EX. reflexivity.
Qed.
(** np.array_split *)
Lemma split_sizes_concat {A} sizes : forall l : list A, list_sum sizes = length l -> concat (split_sizes sizes l) = l.
Proof.
  induction sizes as [|s ss IH]; intros l H; cbn in *; [destruct l; [reflexivity|discriminate]|]. rewrite IH; [apply firstn_skipn|]. rewrite skipn_length. unfold list_sum in *. lia.
Qed.
Lemma list_sum_repeat a n : list_sum (repeat a n) = (n * a)%nat.
Proof. induction n as [|n IH]; cbn; [reflexivity|]. unfold list_sum in IH. rewrite IH. reflexivity. Qed.
Lemma concat_nonempty {A} (ls : list (list A)) : concat (filter nonempty ls) = concat ls.
Proof. induction ls as [|[|x l] ls IH]; cbn; [reflexivity|exact IH|]. rewrite IH. reflexivity. Qed.
Lemma array_split_ok {A} parts (l : list A) : (1 <= parts)%nat ->
  concat (filter nonempty (array_split parts l)) = l /\ length (array_split parts l) = parts /\ forall p, In p (array_split parts l) -> length p = (length l / parts)%nat \/ length p = S (length l / parts).
Proof.
  intros H. pose proof (Nat.div_mod (length l) parts ltac:(lia)) as E. pose proof (Nat.mod_upper_bound (length l) parts ltac:(lia)) as U.
  set (sz := repeat (length l / parts + 1)%nat (length l mod parts) ++ repeat (length l / parts)%nat (parts - length l mod parts)).
  assert (ES : list_sum sz = length l). { unfold sz. rewrite list_sum_app, !list_sum_repeat. nia. }
  split; [|split].
  - rewrite concat_nonempty. apply split_sizes_concat, ES.
  - unfold array_split. fold sz. assert (L : length sz = parts) by (unfold sz; rewrite app_length, !repeat_length; lia). rewrite <- L. generalize sz, l. clear. induction sz as [|s ss IH]; intros l; cbn; [reflexivity|]. f_equal. apply IH.
  - intros p. unfold array_split. fold sz. assert (Q : forall s, In s sz -> s = (length l / parts)%nat \/ s = S (length l / parts)).
    { intros s Hs. unfold sz in Hs. apply in_app_or in Hs as [Hs|Hs]; apply repeat_spec in Hs; lia. }
    clearbody sz. remember (length l / parts)%nat as q. clear Heqq E. revert ES Q. clear. revert l. induction sz as [|s ss IH]; intros l ES Q Hp; cbn in *; [contradiction|]. destruct Hp as [<-|Hp].
    + rewrite firstn_length. specialize (Q s (or_introl eq_refl)). lia.
    + apply (IH (skipn s l)); auto. rewrite skipn_length. unfold list_sum in *. lia.
Qed.
(** ** variance with clusters *)
Lemma sum_sizes labels cl : NoDup labels -> (forall c, In c cl -> In c labels) -> list_sum (map (fun c => length (filter (Z.eqb c) cl)) labels) = length cl.
Proof.
  intros N. induction cl as [|x cl IH]; intros H.
  - clear. induction labels as [|c l IH]; cbn; [reflexivity|exact IH].
  - cbn [length]. rewrite <- IH by (intros c Hc; apply H; right; exact Hc). specialize (H x (or_introl eq_refl)). clear IH. induction N as [|c l Hc N IH]; [destruct H|].
    cbn [map]. change (list_sum (length (filter (Z.eqb c) (x :: cl)) :: map (fun c => length (filter (Z.eqb c) (x :: cl))) l)) with (length (filter (Z.eqb c) (x :: cl)) + list_sum (map (fun c => length (filter (Z.eqb c) (x :: cl))) l))%nat.
    change (list_sum (length (filter (Z.eqb c) cl) :: map (fun c => length (filter (Z.eqb c) cl)) l)) with (length (filter (Z.eqb c) cl) + list_sum (map (fun c => length (filter (Z.eqb c) cl)) l))%nat.
    cbn [filter]. destruct (Z.eqb_spec c x) as [->|NE].
    + cbn [length]. assert (E : map (fun c => length (if (c =? x)%Z then x :: filter (Z.eqb c) cl else filter (Z.eqb c) cl)) l = map (fun c => length (filter (Z.eqb c) cl)) l).
      { apply map_ext_in. intros c Hc'. destruct (Z.eqb_spec c x) as [->|]; [contradiction|reflexivity]. }
      rewrite E. reflexivity.
    + destruct H as [->|H]; [congruence|]. specialize (IH H). cbn [filter] in IH. rewrite IH. lia.
Qed.
Lemma Forall2_nth {A B} (P : A -> B -> Prop) l l' a b : Forall2 P l l' -> forall i, (i < length l)%nat -> P (nth i l a) (nth i l' b).
Proof. induction 1 as [|x y l l' H H' IH]; intros i Hi; [cbn in Hi; lia|]. destruct i as [|i]; cbn; [exact H|apply IH; cbn in Hi; lia]. Qed.
Lemma cluster_variance k n batch alp M cl size : length cl = n -> length M = n -> (0 < n)%nat -> (1 <= batch)%nat ->
  (forall c, In c cl -> length (units_of cl c) = size) ->
  exists labels result, StronglySorted Z.lt labels /\ (forall c, In c labels <-> In c cl) /\
  (forall W, option_map b_res (mboot k n batch alp M (Some cl) W) = Some (map result W)) /\
  forall j l, (j < k)%nat -> (l < k)%nat ->
    expect (length labels) (fun d => nth j (result d) 0) = 0 /\
    expect (length labels) (fun d => nth j (result d) 0 * nth l (result d) 0) / INR (length labels) =
    rsum (map (fun c => total_over M (units_of cl c) j * total_over M (units_of cl c) l) labels) / INR n ^ 2.
Proof.
  intros H1 H2 Hn Hb HS. set (M' := cluster_inf k M cl). set (labels := zuniq cl).
  assert (F : Forall2 (is_cluster_average k M cl) labels M') by (unfold M', labels; rewrite cluster_inf_rows; induction (zuniq cl) as [|c l IH]; cbn; constructor; [apply mean_row_ok; congruence|exact IH]).
  assert (EM : length M' = length labels) by (unfold M'; rewrite cluster_inf_rows, map_length; reflexivity).
  assert (Hnc : (0 < length labels)%nat). { destruct cl as [|c cl']; [cbn in H1; lia|]. assert (In c labels) by (apply zuniq_in; left; reflexivity). destruct labels; [contradiction|cbn; lia]. }
  assert (EN : (length labels * size)%nat = n).
  { rewrite <- H1, <- (sum_sizes labels cl) by (try apply zuniq_nodup; intros c Hc; apply zuniq_in, Hc).
    assert (G : forall ls, (forall c, In c ls -> In c cl) -> list_sum (map (fun c => length (filter (Z.eqb c) cl)) ls) = (length ls * size)%nat).
    { induction ls as [|c ls IH]; intros H; [reflexivity|]. cbn [map length]. change (length (filter (Z.eqb c) cl) + list_sum (map (fun c => length (filter (Z.eqb c) cl)) ls) = S (length ls) * size)%nat. rewrite IH by (intros x Hx; apply H; right; exact Hx). rewrite count_units, HS by (apply H; left; reflexivity). lia. }
    symmetry. apply G. intros c Hc. apply zuniq_in, Hc. }
  destruct (moments k (length labels) batch alp M' EM Hnc Hb) as (result & HR & HM). exists labels, result. split; [apply zuniq_sorted|]. split; [intros c; apply zuniq_in|]. split.
  - intros W. rewrite <- HR. f_equal. cbn. rewrite H1, H2, Nat.eqb_refl. reflexivity.
  - intros j l Hj Hl. destruct (HM j l Hj Hl) as [E1 E2]. split; [exact E1|]. rewrite E2. clear E1 E2.
    assert (PS : (0 < size)%nat) by nia. assert (PI : 0 < INR size) by (apply lt_0_INR; exact PS). assert (PL : 0 < INR (length labels)) by (apply lt_0_INR; exact Hnc).
    assert (EI : INR n = INR (length labels) * INR size) by (rewrite <- mult_INR, EN; reflexivity).
    assert (ES : rsum (map (fun i => entry M' i j * entry M' i l) (seq 0 (length labels))) = / INR size ^ 2 * rsum (map (fun c => total_over M (units_of cl c) j * total_over M (units_of cl c) l) labels)).
    { rewrite <- rsum_mul. pose proof (list_as_nth 0%Z labels) as EL. rewrite EL at 2. rewrite map_map. apply rsum_ext. intros i Hi. apply in_seq in Hi.
      destruct (Forall2_nth _ _ _ 0%Z [] F i ltac:(lia)) as [_ Q]. unfold entry. rewrite (Q j Hj), (Q l Hl).
      rewrite HS by (apply (proj1 (zuniq_in _ _)); fold labels; apply nth_In; lia). field. lra. }
    rewrite ES, EI. field. lra.
Qed.
