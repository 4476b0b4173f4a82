(** Proofs for C28 (moments), C40 (standard errors, critical value) and C41 (distributed bootstrap). *)
From Coq Require Import Reals Lra Lia Permutation Sorted.
From Verif Require Import Base ListLib ReduceModel ReduceProofs MbootModel MbootSpec MbootProofs.
Local Open Scope R_scope.
Local Open Scope list_scope.

(** ** Mammen weights *)
Lemma sqrt5_pos : 0 < sqrt 5. Proof. apply sqrt_lt_R0. lra. Qed.
Lemma sqrt5_sq : sqrt 5 * sqrt 5 = 5. Proof. apply sqrt_def. lra. Qed.
Lemma mammen_moments : p_kappa * k1 + (1 - p_kappa) * k2 = 0 /\ p_kappa * k1 ^ 2 + (1 - p_kappa) * k2 ^ 2 = 1 /\ p_kappa * k1 ^ 3 + (1 - p_kappa) * k2 ^ 3 = 1 /\ 0 < p_kappa < 1.
Proof.
  unfold p_kappa, k1, k2. pose proof sqrt5_pos as P. pose proof sqrt5_sq as Q. set (s := sqrt 5) in *.
  assert (E : / s = s / 5) by (apply Rmult_eq_reg_l with s; [field_simplify; [nra|lra]|lra]).
  unfold Rdiv at 1 2 3 4 5 6 7 8. rewrite E. unfold Rdiv. repeat split; try nra.
  assert (s ^ 3 = 5 * s) by (rewrite <- Q; ring). assert (s ^ 4 = 25) by (replace (s ^ 4) with ((s * s) * (s * s)) by ring; rewrite Q; ring).
  assert (s ^ 5 = 25 * s) by (replace (s ^ 5) with (s ^ 4 * s) by ring; nra). lra.
Qed.

(** ** moments of the draws *)
Lemma expect_ext n f g : (forall d, length d = n -> f d = g d) -> expect n f = expect n g.
Proof.
  revert f g. induction n as [|n IH]; intros f g H; cbn; [apply H; reflexivity|].
  rewrite (IH (fun d => f (true :: d)) (fun d => g (true :: d))), (IH (fun d => f (false :: d)) (fun d => g (false :: d))); [reflexivity| |]; intros d Hd; apply H; cbn; congruence.
Qed.
Lemma expect_lin n a b f g : expect n (fun d => a * f d + b * g d) = a * expect n f + b * expect n g.
Proof.
  revert f g. induction n as [|n IH]; intros f g; cbn; [reflexivity|].
  rewrite (IH (fun d => f (true :: d)) (fun d => g (true :: d))), (IH (fun d => f (false :: d)) (fun d => g (false :: d))). ring.
Qed.
Lemma expect_const n c : expect n (fun _ => c) = c.
Proof. induction n as [|n IH]; cbn; [reflexivity|]. rewrite IH. ring. Qed.
Definition wsum (a : list R) (d : list bool) : R := rsum (map (fun p => fst p * mammen (snd p)) (combine a d)).
Lemma wsum_cons x a b d : wsum (x :: a) (b :: d) = x * mammen b + wsum a d.
Proof. reflexivity. Qed.
Lemma expect_wsum a : expect (length a) (wsum a) = 0.
Proof.
  destruct mammen_moments as (E1 & _). induction a as [|x a IH]; cbn [length expect]; [reflexivity|].
  rewrite (expect_ext _ (fun d => wsum (x :: a) (true :: d)) (fun d => (x * k1) * 1 + 1 * wsum a d)) by (intros d _; rewrite wsum_cons; cbn; ring).
  rewrite (expect_ext _ (fun d => wsum (x :: a) (false :: d)) (fun d => (x * k2) * 1 + 1 * wsum a d)) by (intros d _; rewrite wsum_cons; cbn; ring).
  rewrite !(expect_lin _ _ 1 (fun _ => 1)), expect_const, IH. replace (p_kappa * (x * k1 * 1 + 1 * 0) + (1 - p_kappa) * (x * k2 * 1 + 1 * 0)) with (x * (p_kappa * k1 + (1 - p_kappa) * k2)) by ring. rewrite E1. ring.
Qed.
Lemma expect_wsum2 a : forall b, length b = length a -> expect (length a) (fun d => wsum a d * wsum b d) = rsum (map (fun p => fst p * snd p) (combine a b)).
Proof.
  destruct mammen_moments as (E1 & E2 & _). induction a as [|x a IH]; intros [|y b] L; cbn [length expect] in *; try discriminate; [unfold wsum; cbn; ring|].
  injection L as L.
  assert (S : forall v k, (forall d, wsum (x :: a) (v :: d) = x * k + wsum a d) -> (forall d, wsum (y :: b) (v :: d) = y * k + wsum b d) ->
    expect (length a) (fun d => wsum (x :: a) (v :: d) * wsum (y :: b) (v :: d)) = x * y * k ^ 2 + rsum (map (fun p => fst p * snd p) (combine a b))).
  { intros v k Ha Hb. rewrite (expect_ext _ _ (fun d => 1 * ((x * y * k ^ 2) * 1 + 1 * (wsum a d * wsum b d)) + k * (x * wsum b d + y * wsum a d))) by (intros d _; rewrite Ha, Hb; ring).
    rewrite expect_lin, (expect_lin _ _ 1 (fun _ => 1)), (expect_lin _ x y), expect_const, IH, expect_wsum by exact L. rewrite <- L, expect_wsum. ring. }
  rewrite (S true k1), (S false k2) by (intros d; apply wsum_cons). cbn [combine map]. change (rsum (fst (x, y) * snd (x, y) :: map (fun p => fst p * snd p) (combine a b))) with (x * y + rsum (map (fun p : R * R => fst p * snd p) (combine a b))).
  set (r := rsum _). replace (p_kappa * (x * y * k1 ^ 2 + r) + (1 - p_kappa) * (x * y * k2 ^ 2 + r)) with (x * y * (p_kappa * k1 ^ 2 + (1 - p_kappa) * k2 ^ 2) + r) by ring. rewrite E2. ring.
Qed.
Definition draw_result (k n : nat) (M : rmatrix) (d : list bool) : list R := map (Rmult (sqrt (INR n))) (boot_row k M d).
Lemma combine_map_l {A B C} (f : A -> B) (l : list A) (l' : list C) : combine (map f l) l' = map (fun p => (f (fst p), snd p)) (combine l l').
Proof. revert l'. induction l as [|x l IH]; intros [|y l']; cbn; try reflexivity. rewrite IH. reflexivity. Qed.
Lemma draw_entry k n M d j : length M = n -> length d = n -> (0 < n)%nat -> (j < k)%nat -> nth j (draw_result k n M d) 0 = / sqrt (INR n) * wsum (col j M) d.
Proof.
  intros HM Hd Hn Hj. unfold draw_result, boot_row. rewrite map_map, nth_map_seq by exact Hj. unfold rmean, wsum, col. rewrite combine_map_l, !map_map, map_length, combine_length, HM, Hd, Nat.min_id. cbn [fst snd].
  assert (P : 0 < INR n) by (apply lt_0_INR; exact Hn). pose proof (sqrt_lt_R0 _ P) as PS. rewrite <- (sqrt_sqrt (INR n)) at 2 by lra. field. lra.
Qed.
Lemma moments k n batch alp M : length M = n -> (0 < n)%nat -> (1 <= batch)%nat ->
  exists result, (forall W, option_map b_res (mboot k n batch alp M None W) = Some (map result W)) /\
  forall j l, (j < k)%nat -> (l < k)%nat ->
    expect n (fun d => nth j (result d) 0) = 0 /\
    expect n (fun d => nth j (result d) 0 * nth l (result d) 0) = rsum (map (fun i => entry M i j * entry M i l) (seq 0 n)) / INR n.
Proof.
  intros HM Hn Hb. exists (draw_result k n M). split.
  - intros W. cbn. rewrite batches by exact Hb. unfold boot_impl, rscale. rewrite map_map. reflexivity.
  - intros j l Hj Hl. assert (P : 0 < INR n) by (apply lt_0_INR; exact Hn). pose proof (sqrt_lt_R0 _ P) as PS.
    assert (LC : forall j, length (col j M) = n) by (intros; unfold col; rewrite map_length; exact HM). split.
    + rewrite (expect_ext _ _ (fun d => / sqrt (INR n) * wsum (col j M) d + 0 * 1)) by (intros d Hd; rewrite draw_entry by auto; ring).
      rewrite expect_lin. pose proof (expect_wsum (col j M)) as E. rewrite (LC j) in E. rewrite E. ring.
    + rewrite (expect_ext _ _ (fun d => / INR n * (wsum (col j M) d * wsum (col l M) d) + 0 * 1)).
      2:{ intros d Hd. rewrite !draw_entry by auto. rewrite <- (sqrt_sqrt (INR n)) at 3 by lra. field. lra. }
      rewrite expect_lin. pose proof (expect_wsum2 (col j M) (col l M) ltac:(rewrite !LC; reflexivity)) as E. rewrite (LC j) in E. rewrite E.
      unfold col. rewrite combine_map_same, map_map. cbn [fst snd].
      assert (EM : rsum (map (fun x => nth j x 0 * nth l x 0) M) = rsum (map (fun i => entry M i j * entry M i l) (seq 0 n))).
      { rewrite (list_as_nth [] M) at 1. rewrite map_map, HM. reflexivity. }
      rewrite EM. unfold Rdiv. ring.
Qed.

(** ** percentiles *)
Lemma rinsert_perm x l : Permutation (rinsert x l) (x :: l).
Proof. induction l as [|y l IH]; cbn; [reflexivity|]. destruct (Rle_dec x y); [reflexivity|]. rewrite IH. apply perm_swap. Qed.
Lemma rsort_perm l : Permutation (rsort l) l.
Proof. induction l as [|x l IH]; [reflexivity|]. change (rsort (x :: l)) with (rinsert x (rsort l)). rewrite rinsert_perm, IH. reflexivity. Qed.
Lemma rinsert_sorted x l : StronglySorted Rle l -> StronglySorted Rle (rinsert x l).
Proof.
  induction 1 as [|y l S IH F]; cbn; [repeat constructor|]. destruct (Rle_dec x y) as [L|L].
  - constructor; [constructor; assumption|]. constructor; [exact L|]. rewrite Forall_forall in *. intros z Hz. apply F in Hz. lra.
  - constructor; [exact IH|]. rewrite Forall_forall in *. intros z Hz. apply (Permutation_in _ (rinsert_perm x l)) in Hz. destruct Hz as [<-|Hz]; [lra|apply F, Hz].
Qed.
Lemma rsort_sorted l : StronglySorted Rle (rsort l).
Proof. induction l as [|x l IH]; [constructor|]. apply rinsert_sorted, IH. Qed.
Lemma sorted_nth l i j : StronglySorted Rle l -> (i <= j)%nat -> (j < length l)%nat -> nth i l 0 <= nth j l 0.
Proof.
  intros S. revert i j. induction S as [|x l S IH F]; intros i j H L; [cbn in L; lia|]. destruct i as [|i], j as [|j]; cbn in *; try lra; [|lia|apply IH; lia].
  rewrite Forall_forall in F. apply F, nth_In. lia.
Qed.
Lemma floor_bounds h n : 0 <= h -> h <= INR n -> IZR (Int_part h) <= h < IZR (Int_part h) + 1 /\ (0 <= Int_part h <= Z.of_nat n)%Z.
Proof.
  intros H0 Hn. destruct (base_Int_part h) as [A B]. split; [lra|]. split.
  - assert (IZR (Int_part h) > -1) by lra. apply Z.lt_succ_r. apply lt_IZR. rewrite succ_IZR. lra.
  - apply le_IZR. rewrite <- INR_IZR_INZ. lra.
Qed.
(** the value sits between two consecutive order statistics *)
Lemma percentile_between q l : 0 <= q <= 1 -> l <> [] ->
  let s := rsort l in let i := Z.to_nat (Int_part (q * INR (length l - 1))) in
  (i < length l)%nat /\ nth i s 0 <= percentile q l /\ ((i + 1 < length l)%nat -> percentile q l <= nth (i + 1) s 0) /\ ((i + 1 >= length l)%nat -> percentile q l = nth i s 0).
Proof.
  intros Hq Hl s i. assert (L : (0 < length l)%nat) by (destruct l; [congruence|cbn; lia]). set (n := (length l - 1)%nat) in *.
  assert (Hn : 0 <= INR n) by apply pos_INR. destruct (floor_bounds (q * INR n) n) as [F1 F2]; [nra|nra|].
  assert (Hi : (i <= n)%nat) by (unfold i; lia). assert (LS : length s = length l) by (apply Permutation_length, rsort_perm).
  assert (P : percentile q l = nth i s 0 + (q * INR n - IZR (Int_part (q * INR n))) * (nth (i + 1) s (nth i s 0) - nth i s 0)) by reflexivity.
  assert (M : (i + 1 < length l)%nat -> nth i s 0 <= nth (i + 1) s 0) by (intros H; apply sorted_nth; [apply rsort_sorted|lia|lia]).
  split; [lia|]. rewrite P. destruct (Nat.ltb_spec (i + 1) (length l)) as [H|H].
  - rewrite (nth_indep s (nth i s 0) 0) by lia. specialize (M H). set (a := nth i s 0) in *. set (b := nth (i + 1) s 0) in *. split; [nra|]. split; [intros _; nra|lia].
  - rewrite (nth_overflow s (n := i + 1)) by lia. split; [lra|]. split; [lia|]. intros _. lra.
Qed.
Lemma count_le_sorted c : forall s i, StronglySorted Rle s -> (i < length s)%nat -> nth i s 0 <= c -> (i + 1 <= length (filter (fun x => if Rle_dec x c then true else false) s))%nat.
Proof.
  intros s i S. revert i. induction S as [|x l S IH F]; intros i L H; [cbn in L; lia|]. cbn in L.
  assert (HX : x <= c). { destruct i as [|i]; [exact H|]. cbn in H. rewrite Forall_forall in F. assert (x <= nth i l 0) by (apply F, nth_In; lia). lra. }
  cbn [filter]. destruct (Rle_dec x c); [|lra]. cbn [length]. destruct i as [|i]; [lia|]. cbn in H. specialize (IH i ltac:(lia) H). lia.
Qed.
Lemma count_ge_sorted c : forall s i, StronglySorted Rle s -> (i <= length s)%nat -> (forall j, (i <= j < length s)%nat -> c <= nth j s 0) -> (length s - i <= length (filter (fun x => if Rle_dec c x then true else false) s))%nat.
Proof.
  intros s. induction s as [|x l IH]; intros i SS L H; cbn [length filter] in *; [lia|]. inversion SS as [|? ? S' F]; subst. destruct i as [|i].
  - pose proof (H 0%nat ltac:(lia)) as H0. cbn in H0. destruct (Rle_dec c x); [|lra]. cbn [length].
    specialize (IH 0%nat S' ltac:(lia)). assert (K : (length l - 0 <= length (filter (fun x => if Rle_dec c x then true else false) l))%nat) by (apply IH; intros j Hj; apply (H (S j)); lia). lia.
  - assert (K : (length l - i <= length (filter (fun x => if Rle_dec c x then true else false) l))%nat) by (apply IH; [exact S'|lia|]; intros j Hj; apply (H (S j)); lia).
    destruct (Rle_dec c x); cbn [length]; lia.
Qed.
Lemma filter_length_perm {A} (p : A -> bool) l l' : Permutation l l' -> length (filter p l) = length (filter p l').
Proof. intros H. apply Permutation_length, filter_perm, H. Qed.
(** at least floor(q (n-1)) + 1 observations lie at or below it and at least n - 1 - floor(q (n-1)) at or above *)
Lemma percentile_counts q l : 0 <= q <= 1 -> l <> [] ->
  let f := Z.to_nat (Int_part (q * INR (length l - 1))) in
  (f + 1 <= length (filter (fun x => if Rle_dec x (percentile q l) then true else false) l))%nat /\
  (length l - 1 - f <= length (filter (fun x => if Rle_dec (percentile q l) x then true else false) l))%nat.
Proof.
  intros Hq Hl f. destruct (percentile_between q l Hq Hl) as (B1 & B2 & B3 & B4). fold f in B1, B2, B3, B4.
  assert (LS : length (rsort l) = length l) by (apply Permutation_length, rsort_perm). split.
  - rewrite <- (filter_length_perm _ _ _ (rsort_perm l)). apply count_le_sorted; [apply rsort_sorted|lia|exact B2].
  - rewrite <- (filter_length_perm _ _ _ (rsort_perm l)). replace (length l - 1 - f)%nat with (length (rsort l) - (f + 1))%nat by lia.
    apply count_ge_sorted; [apply rsort_sorted|lia|]. intros j Hj. apply Rle_trans with (nth (f + 1) (rsort l) 0); [apply B3; lia|]. apply sorted_nth; [apply rsort_sorted|lia|lia].
Qed.
(** positive scaling *)
Lemma rinsert_map g x l : (forall a b, g a <= g b <-> a <= b) -> rinsert (g x) (map g l) = map g (rinsert x l).
Proof.
  intros H. induction l as [|y l IH]; cbn; [reflexivity|]. destruct (Rle_dec (g x) (g y)) as [L|L], (Rle_dec x y) as [L'|L']; cbn; try reflexivity; [apply (proj1 (H x y)) in L; contradiction|apply (proj2 (H x y)) in L'; contradiction|rewrite IH; reflexivity].
Qed.
Lemma rsort_map g l : (forall a b, g a <= g b <-> a <= b) -> rsort (map g l) = map g (rsort l).
Proof. intros H. induction l as [|x l IH]; [reflexivity|]. change (rsort (map g (x :: l))) with (rinsert (g x) (rsort (map g l))). rewrite IH. apply rinsert_map, H. Qed.
Lemma percentile_scale q c l : 0 < c -> percentile q (map (Rmult c) l) = c * percentile q l.
Proof.
  intros Hc. unfold percentile. rewrite map_length, rsort_map by (intros a b; split; intros H; [apply Rmult_le_reg_l with c; assumption|apply Rmult_le_compat_l; lra]).
  set (i := Z.to_nat _). pose proof (map_nth (Rmult c) (rsort l) 0 i) as E0. rewrite Rmult_0_r in E0. rewrite E0, map_nth. ring.
Qed.

Lemma percentile_mono q q' l : 0 <= q -> q <= q' -> q' <= 1 -> percentile q l <= percentile q' l.
Proof.
  intros H0 H1 H2. destruct l as [|x l0] eqn:El; [unfold percentile; change (rsort []) with (@nil R); rewrite !nth_overflow by (cbn; lia); lra|]. rewrite <- El. assert (Hl : l <> []) by (rewrite El; discriminate). clear El.
  destruct (percentile_between q l ltac:(lra) Hl) as (B1 & B2 & B3 & B4). destruct (percentile_between q' l ltac:(lra) Hl) as (C1 & C2 & C3 & C4).
  set (n := (length l - 1)%nat) in *. assert (Hn : 0 <= INR n) by apply pos_INR.
  destruct (floor_bounds (q * INR n) n) as [F1 F2]; [nra|nra|]. destruct (floor_bounds (q' * INR n) n) as [F1' F2']; [nra|nra|].
  assert (Hle : q * INR n <= q' * INR n) by (apply Rmult_le_compat_r; lra).
  assert (HI : (Int_part (q * INR n) <= Int_part (q' * INR n))%Z) by (apply Z.lt_succ_r, lt_IZR; rewrite succ_IZR; lra).
  assert (LS : length (rsort l) = length l) by (apply Permutation_length, rsort_perm).
  destruct (Z.eq_dec (Int_part (q * INR n)) (Int_part (q' * INR n))) as [E|E].
  - unfold percentile. fold n. rewrite <- E. set (i := Z.to_nat (Int_part (q * INR n))). set (a := nth i (rsort l) 0).
    assert (a <= nth (i + 1) (rsort l) a).
    { destruct (Nat.ltb_spec (i + 1) (length l)) as [K|K]; [|rewrite nth_overflow by lia; lra]. rewrite (nth_indep _ a 0) by lia. apply sorted_nth; [apply rsort_sorted|lia|lia]. }
    nra.
  - set (i := Z.to_nat (Int_part (q * INR n))) in *. set (i' := Z.to_nat (Int_part (q' * INR n))) in *. assert ((i < i')%nat) by (unfold i, i'; lia).
    apply Rle_trans with (nth (i + 1) (rsort l) 0); [apply B3; lia|]. apply Rle_trans with (nth i' (rsort l) 0); [|exact C2]. apply sorted_nth; [apply rsort_sorted|lia|lia].
Qed.
Lemma sigma_nonneg bres j : 0 <= sigma bres j.
Proof. unfold sigma. pose proof (percentile_mono (25 / 100) (75 / 100) (col j bres) ltac:(lra) ltac:(lra) ltac:(lra)). apply Rmult_le_pos; [lra|]. apply Rlt_le, Rinv_0_lt_compat. lra. Qed.

(** ** critical value *)
Lemma somes_all_none {A B} (f : A -> option B) l : (forall x, f x = None) -> somes (map f l) = [].
Proof. intros H. unfold somes. induction l as [|x l IH]; cbn; [reflexivity|]. rewrite H. exact IH. Qed.
Lemma somes_all_some {A B} (f : A -> option B) (g : A -> B) l : (forall x, f x = Some (g x)) -> somes (map f l) = map g l.
Proof. intros H. unfold somes. induction l as [|x l IH]; cbn; [reflexivity|]. rewrite H. cbn. f_equal. exact IH. Qed.
Definition maxstat (sg : nat -> R) (cols : list nat) (row : list R) : R := rmax (map (fun j => Rabs (nth j row 0 / sg j)) cols).
Lemma crit_some zero sg cols alp bres c : crit zero sg cols alp bres = Some c ->
  cols <> [] /\ bres <> [] /\ existsb zero cols = false /\ c = percentile (1 - alp) (map (maxstat sg cols) bres).
Proof.
  unfold crit. destruct cols as [|j0 cols'] eqn:Ec; [discriminate|]. rewrite <- Ec. destruct (existsb zero cols) eqn:Ez.
  - rewrite somes_all_none by (intros x; unfold tstat; rewrite Ez; reflexivity). discriminate.
  - rewrite (somes_all_some _ (maxstat sg cols)) by (intros x; unfold tstat; rewrite Ez; reflexivity). destruct bres as [|r b]; [discriminate|]. intros H. injection H as <-.
    split; [rewrite Ec; discriminate|]. split; [discriminate|]. split; reflexivity.
Qed.
Lemma rmax_ge x l : In x l -> x <= rmax l.
Proof. induction l as [|y l IH]; [contradiction|]. cbn. intros [<-|H]; [apply Rmax_l|]. apply IH in H. eapply Rle_trans; [exact H|apply Rmax_r]. Qed.
Lemma rmax_le l c : 0 <= c -> (forall x, In x l -> x <= c) -> rmax l <= c.
Proof. intros Hc. induction l as [|y l IH]; cbn; intros H; [exact Hc|]. apply Rmax_lub; [apply H; left; reflexivity|apply IH; intros x Hx; apply H; right; exact Hx]. Qed.
Lemma inside_of_max sg cols c row : (forall j, In j cols -> 0 < sg j) -> maxstat sg cols row <= c -> inside_band cols sg c row.
Proof.
  intros Hs H j Hj. assert (K : Rabs (nth j row 0 / sg j) <= c) by (eapply Rle_trans; [|exact H]; unfold maxstat; apply rmax_ge, in_map_iff; exists j; auto).
  specialize (Hs j Hj). unfold Rdiv in K. rewrite Rabs_mult, (Rabs_pos_eq (/ sg j)) in K by (apply Rlt_le, Rinv_0_lt_compat, Hs).
  apply Rmult_le_reg_r with (/ sg j); [apply Rinv_0_lt_compat, Hs|]. replace (c * sg j * / sg j) with c by (field; lra). exact K.
Qed.
Lemma positions_of {A} (a : A) (p : A -> bool) l : exists pos, NoDup pos /\ length pos = length (filter p l) /\ forall i, In i pos -> (i < length l)%nat /\ p (nth i l a) = true.
Proof.
  exists (filter (fun i => p (nth i l a)) (seq 0 (length l))). split; [apply NoDup_filter, seq_NoDup|]. split.
  - pose proof (f_equal (fun z => length (filter p z)) (list_as_nth a l)) as E. cbv beta in E. rewrite filter_map_comm, map_length in E. symmetry. exact E.
  - intros i H. apply filter_In in H as [H1 H2]. apply in_seq in H1. split; [lia|exact H2].
Qed.
Lemma nodup_firstn {A} m (l : list A) : NoDup l -> NoDup (firstn m l).
Proof.
  intros H. revert m. induction H as [|x l Hx N IH]; intros [|m]; cbn; try constructor; [|apply IH]. intros K. apply Hx. rewrite <- (firstn_skipn m l). apply in_or_app. left. exact K.
Qed.
Lemma uniform_band k n alp bres c : 0 <= alp <= 1 -> b_crit (boot_finish k n alp bres) = Some c ->
  exists pos, NoDup pos /\ length pos = (Z.to_nat (Int_part ((1 - alp) * INR (length bres - 1))) + 1)%nat /\
    forall b, In b pos -> (b < length bres)%nat /\ inside_band (kept k bres) (sigma bres) c (nth b bres []).
Proof.
  intros Ha H. cbn in H. apply crit_some in H as (H1 & H2 & H3 & ->). set (mx := map (maxstat (sigma bres) (kept k bres)) bres). set (c := percentile (1 - alp) mx).
  assert (Hm : mx <> []) by (unfold mx; destruct bres; [congruence|discriminate]). destruct (percentile_counts (1 - alp) mx ltac:(lra) Hm) as [K _]. fold c in K.
  unfold mx in K. rewrite filter_map_comm, !map_length in K.
  destruct (positions_of [] (fun row => if Rle_dec (maxstat (sigma bres) (kept k bres) row) c then true else false) bres) as (pos & P1 & P2 & P3).
  set (m := (Z.to_nat (Int_part ((1 - alp) * INR (length bres - 1))) + 1)%nat) in *. exists (firstn m pos). split; [|split].
  - apply nodup_firstn, P1.
  - rewrite firstn_length. lia.
  - intros b Hb. assert (Hb' : In b pos) by (rewrite <- (firstn_skipn m pos); apply in_or_app; left; exact Hb). destruct (P3 b Hb') as [L T]. split; [exact L|].
    destruct (Rle_dec (maxstat (sigma bres) (kept k bres) (nth b bres [])) c) as [T'|]; [|discriminate]. apply inside_of_max; [|exact T'].
    intros j Hj. pose proof (sigma_nonneg bres j). assert (is0 (sigma bres j) = false).
    { destruct (is0 (sigma bres j)) eqn:E; [|reflexivity]. exfalso. rewrite <- not_true_iff_false in H3. apply H3, existsb_exists. exists j. auto. }
    unfold is0 in H0. destruct (Req_EM_T (sigma bres j) 0); [discriminate|]. lra.
Qed.
