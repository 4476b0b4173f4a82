(** Proofs for C28: clustering, reordering, batches, moments. *)
From Coq Require Import Reals Lra Lia Permutation.
From Verif Require Import Base ListLib ReduceModel ReduceProofs DistDrvProofs2 MbootModel MbootSpec.
Local Open Scope R_scope.
Local Open Scope list_scope.

(** ** sums *)
Lemma rsum_app l l' : rsum (l ++ l') = rsum l + rsum l'.
Proof. unfold rsum. induction l as [|x l IH]; cbn; [lra|]. rewrite IH. lra. Qed.
Lemma rsum_perm l l' : Permutation l l' -> rsum l = rsum l'.
Proof. unfold rsum. induction 1; cbn; lra. Qed.
Lemma rsum_mul {A} c (f : A -> R) l : rsum (map (fun x => c * f x) l) = c * rsum (map f l).
Proof. unfold rsum. induction l as [|x l IH]; cbn; [lra|]. rewrite IH. lra. Qed.
Lemma rsum_ext {A} (f g : A -> R) l : (forall x, In x l -> f x = g x) -> rsum (map f l) = rsum (map g l).
Proof. intros H. f_equal. apply map_ext_in, H. Qed.
Lemma rmean_perm l l' : Permutation l l' -> rmean l = rmean l'.
Proof. intros H. unfold rmean. rewrite (rsum_perm _ _ H), (Permutation_length H). reflexivity. Qed.
Lemma combine_map_same {A B C} (f : A -> B) (g : A -> C) l : combine (map f l) (map g l) = map (fun x => (f x, g x)) l.
Proof. induction l as [|x l IH]; cbn; congruence. Qed.
Lemma list_as_nth {A} (d : A) l : l = map (fun i => nth i l d) (seq 0 (length l)).
Proof.
  induction l as [|x l IH]; [reflexivity|]. cbn. f_equal. rewrite <- seq_shift, map_map. exact IH.
Qed.
Lemma combine_nth' {A B} (a : A) (b : B) (l : list A) (l' : list B) : length l = length l' -> combine l l' = map (fun i => (nth i l a, nth i l' b)) (seq 0 (length l)).
Proof. intros H. rewrite (list_as_nth a l) at 1. rewrite (list_as_nth b l'), <- H. rewrite combine_map_same. apply map_ext. intros i. f_equal. rewrite H, <- list_as_nth. reflexivity. Qed.

(** ** reordering rows together with draws *)
Lemma boot_row_perm k M M' d d' : Permutation (combine M d) (combine M' d') -> boot_row k M d = boot_row k M' d'.
Proof. intros H. unfold boot_row. apply map_ext. intros j. apply rmean_perm, Permutation_map, H. Qed.
Lemma reorder_combine {A} (a : A) n s (M : list A) d : length M = n -> length d = n -> reordering n s ->
  Permutation (combine (map (fun i => nth i M a) s) (reorder s d)) (combine M d).
Proof.
  intros HM Hd Hs. unfold reorder. rewrite combine_map_same, (combine_nth' a false) by congruence. rewrite HM. apply Permutation_map, Hs.
Qed.
Lemma perm_reordering {A} (a : A) M M' : Permutation M M' -> exists s, reordering (length M) s /\ M' = map (fun i => nth i M a) s.
Proof.
  intros H. symmetry in H. rewrite (list_as_nth a M) in H. apply Permutation_map_inv in H as (s & E & P). exists s. split; [apply Permutation_sym, P|exact E].
Qed.
Lemma boot_impl_reorder k n s M W : length M = n -> draws_ok n W -> reordering n s ->
  boot_impl k (map (fun i => nth i M []) s) (map (reorder s) W) = boot_impl k M W.
Proof.
  intros HM HW Hs. unfold boot_impl. rewrite map_map. apply map_ext_in. intros d Hd. apply boot_row_perm. apply (reorder_combine [] n); auto.
Qed.

(** ** batches *)
Lemma batches k M batch W : (1 <= batch)%nat -> multiplier_bootstrap k M batch W = boot_impl k M W.
Proof.
  intros H. unfold multiplier_bootstrap. destruct (length W <=? batch)%nat; [reflexivity|]. unfold boot_impl.
  rewrite <- (map_map (fun s => firstn batch (skipn s W)) (map (boot_row k M))), <- concat_map. f_equal.
  destruct (slices_facts batch W H) as [E _]. exact E.
Qed.

(** ** clusters *)
Lemma map_snd_combine {A B} (l : list A) (l' : list B) : length l = length l' -> map snd (combine l l') = l'.
Proof. revert l'. induction l as [|x l IH]; intros [|y l'] H; cbn in *; try discriminate; [reflexivity|]. f_equal. apply IH. congruence. Qed.
Lemma map_fst_combine {A B} (l : list A) (l' : list B) : length l = length l' -> map fst (combine l l') = l.
Proof. revert l'. induction l as [|x l IH]; intros [|y l'] H; cbn in *; try discriminate; [reflexivity|]. f_equal. apply IH. congruence. Qed.
Definition mean_row (k : nat) (M : rmatrix) (cl : list Z) (c : Z) : list R :=
  map (fun j => rsum (col j (members M cl c)) / INR (length (filter (Z.eqb c) cl))) (seq 0 k).
Lemma cluster_inf_rows k M cl : cluster_inf k M cl = map (mean_row k M cl) (zuniq cl).
Proof. reflexivity. Qed.
Lemma filter_map_comm {A B} (p : B -> bool) (f : A -> B) l : filter p (map f l) = map f (filter (fun x => p (f x)) l).
Proof. induction l as [|x l IH]; cbn; [reflexivity|]. destruct (p (f x)); cbn; congruence. Qed.
Lemma members_units M cl c : length M = length cl -> members M cl c = map (fun i => nth i M []) (units_of cl c).
Proof.
  intros H. unfold members, units_of. rewrite (combine_nth' [] 0%Z) by exact H. rewrite filter_map_comm, map_map. cbn. rewrite H. reflexivity.
Qed.
Lemma count_units cl c : length (filter (Z.eqb c) cl) = length (units_of cl c).
Proof.
  unfold units_of. rewrite (list_as_nth 0%Z cl) at 1. rewrite filter_map_comm, map_length. f_equal. apply filter_ext. intros i. apply Z.eqb_sym.
Qed.
Lemma nth_map_seq {A} (f : nat -> A) (d : A) k j : (j < k)%nat -> nth j (map f (seq 0 k)) d = f j.
Proof. intros H. rewrite nth_indep with (d' := f 0%nat) by (rewrite map_length, seq_length; exact H). rewrite map_nth, seq_nth by exact H. reflexivity. Qed.
Lemma mean_row_ok k M cl c : length M = length cl -> is_cluster_average k M cl c (mean_row k M cl c).
Proof.
  intros H. split; [unfold mean_row; rewrite map_length, seq_length; reflexivity|]. intros j Hj. unfold mean_row.
  rewrite nth_map_seq by exact Hj. rewrite count_units, members_units by exact H. unfold col, total_over. rewrite map_map. reflexivity.
Qed.
Lemma cluster_averages k n batch alp M cl W : length cl = n -> length M = n -> (1 <= batch)%nat ->
  exists labels M', Sorted.StronglySorted Z.lt labels /\ (forall c, In c labels <-> In c cl) /\
    Forall2 (is_cluster_average k M cl) labels M' /\
    mboot k n batch alp M (Some cl) W = mboot k (length labels) batch alp M' None W.
Proof.
  intros H1 H2 Hb. exists (zuniq cl), (cluster_inf k M cl). split; [apply zuniq_sorted|]. split; [intros c; apply zuniq_in|]. split.
  - rewrite cluster_inf_rows. induction (zuniq cl) as [|c l IH]; cbn; constructor; [apply mean_row_ok; congruence|exact IH].
  - cbn. rewrite H1, H2, Nat.eqb_refl. reflexivity.
Qed.
Lemma mean_row_perm k M cl M' cl' c : length M = length cl -> length M' = length cl' -> Permutation (combine M cl) (combine M' cl') -> mean_row k M cl c = mean_row k M' cl' c.
Proof.
  intros H H' P. unfold mean_row. apply map_ext. intros j. f_equal.
  - apply rsum_perm. unfold col. apply Permutation_map. unfold members. apply Permutation_map, filter_perm, P.
  - f_equal. apply Permutation_length, filter_perm. apply (Permutation_map snd) in P. rewrite !map_snd_combine in P by assumption. exact P.
Qed.

Lemma unit_order k n batch alp M cl M' cl' W : length cl = n -> length M = n -> length cl' = n -> length M' = n ->
  Permutation (combine M cl) (combine M' cl') -> mboot k n batch alp M (Some cl) W = mboot k n batch alp M' (Some cl') W.
Proof.
  intros H1 H2 H3 H4 P. cbn. rewrite H1, H2, H3, H4, Nat.eqb_refl. cbn.
  assert (E : zuniq cl = zuniq cl').
  { apply zuniq_ext. apply (Permutation_map snd) in P. rewrite !map_snd_combine in P by congruence. intros x. split; apply Permutation_in; [exact P|apply Permutation_sym, P]. }
  rewrite !cluster_inf_rows, E. rewrite (map_ext _ _ (fun c => mean_row_perm k M cl M' cl' c ltac:(congruence) ltac:(congruence) P)). reflexivity.
Qed.
Lemma mean_row_map k M cl f c : (forall x y, In x cl -> In y cl -> f x = f y -> x = y) -> In c cl -> mean_row k M (map f cl) (f c) = mean_row k M cl c.
Proof.
  intros Inj Hc. unfold mean_row. apply map_ext. intros j. f_equal.
  - f_equal. f_equal. unfold members. clear - Inj Hc. assert (G : forall cl', incl cl' cl -> forall M, filter (fun p : list R * Z => (snd p =? f c)%Z) (combine M (map f cl')) = map (fun p => (fst p, f (snd p))) (filter (fun p => (snd p =? c)%Z) (combine M cl'))).
    { induction cl' as [|y cl' IH]; intros I [|r M']; cbn; try reflexivity.
      assert (E : (f y =? f c)%Z = (y =? c)%Z).
      { destruct (Z.eqb_spec y c) as [->|N]; [apply Z.eqb_refl|]. apply Z.eqb_neq. intros E. apply N, Inj; [apply I; left; reflexivity|exact Hc|exact E]. }
      rewrite E. rewrite IH by (intros z Hz; apply I; right; exact Hz). destruct (y =? c)%Z; reflexivity. }
    rewrite (G cl (incl_refl _)), map_map. reflexivity.
  - f_equal. rewrite filter_map_comm, map_length. f_equal. apply filter_ext_in. intros y Hy.
    destruct (Z.eqb_spec c y) as [->|N]; [apply Z.eqb_refl|]. apply Z.eqb_neq. intros E. apply N, Inj; auto.
Qed.
Lemma finish_eq k n batch alp M cl W nc : length cl = n -> length M = n -> (1 <= batch)%nat -> length (zuniq cl) = nc ->
  mboot k n batch alp M (Some cl) W = Some (boot_finish k nc alp (rscale (sqrt (INR nc)) (boot_impl k (cluster_inf k M cl) W))).
Proof. intros H1 H2 Hb E. cbn. rewrite H1, H2, Nat.eqb_refl. cbn. rewrite batches, E by exact Hb. reflexivity. Qed.
Lemma zuniq_map_perm f cl : (forall x y, In x cl -> In y cl -> f x = f y -> x = y) -> Permutation (map f (zuniq cl)) (zuniq (map f cl)).
Proof.
  intros Inj. apply NoDup_Permutation.
  - apply NoDup_map_inj; [|apply zuniq_nodup]. intros x y Hx Hy. apply (proj1 (zuniq_in _ _)) in Hx; apply (proj1 (zuniq_in _ _)) in Hy. apply Inj; assumption.
  - apply zuniq_nodup.
  - intros x. rewrite zuniq_in, !in_map_iff. split; intros (y & E & Hy); exists y; (split; [exact E|]); apply zuniq_in; exact Hy.
Qed.
Lemma relabel k n batch alp M cl f : length cl = n -> length M = n -> (1 <= batch)%nat ->
  (forall x y, In x cl -> In y cl -> f x = f y -> x = y) ->
  exists s, reordering (length (zuniq cl)) s /\ forall W, draws_ok (length (zuniq cl)) W ->
    mboot k n batch alp M (Some (map f cl)) (map (reorder s) W) = mboot k n batch alp M (Some cl) W.
Proof.
  intros H1 H2 Hb Inj. set (nc := length (zuniq cl)).
  assert (P : Permutation (cluster_inf k M cl) (cluster_inf k M (map f cl))).
  { rewrite !cluster_inf_rows. rewrite <- (zuniq_map_perm f cl Inj), map_map. erewrite map_ext_in; [apply Permutation_refl|].
    intros c Hc. cbv beta. symmetry. apply mean_row_map; [exact Inj|apply zuniq_in, Hc]. }
  destruct (perm_reordering [] _ _ P) as (s & Hs & E).
  assert (LN : length (cluster_inf k M cl) = nc) by (rewrite cluster_inf_rows, map_length; reflexivity). rewrite LN in Hs.
  exists s. split; [exact Hs|]. intros W HW.
  rewrite (finish_eq k n batch alp M (map f cl) _ nc), (finish_eq k n batch alp M cl _ nc); auto.
  - rewrite E, (boot_impl_reorder k nc s) by auto. reflexivity.
  - rewrite map_length. exact H1.
  - unfold nc. rewrite <- (Permutation_length (zuniq_map_perm f cl Inj)), map_length. reflexivity.
Qed.
Lemma zuniq_map_mono f cl : (forall x y, In x cl -> In y cl -> (x < y)%Z -> (f x < f y)%Z) -> zuniq (map f cl) = map f (zuniq cl).
Proof.
  intros Mono. apply ssorted_lt_ext.
  - apply zuniq_sorted.
  - assert (S : Sorted.StronglySorted Z.lt (zuniq cl)) by apply zuniq_sorted. assert (I : incl (zuniq cl) cl) by (intros x Hx; apply zuniq_in, Hx).
    induction S as [|x l S IH F]; cbn; constructor.
    + apply IH. intros z Hz. apply I. right. exact Hz.
    + apply Forall_map. rewrite Forall_forall in *. intros y Hy. apply Mono; [apply I; left; reflexivity|apply I; right; exact Hy|apply F, Hy].
  - intros x. rewrite zuniq_in, !in_map_iff. split; intros (y & E & Hy); exists y; (split; [exact E|]); apply zuniq_in; exact Hy.
Qed.
Lemma relabel_monotone k n batch alp M cl f W : length cl = n -> length M = n -> (1 <= batch)%nat ->
  (forall x y, In x cl -> In y cl -> (x < y)%Z -> (f x < f y)%Z) ->
  mboot k n batch alp M (Some (map f cl)) W = mboot k n batch alp M (Some cl) W.
Proof.
  intros H1 H2 Hb Mono.
  assert (Inj : forall x y, In x cl -> In y cl -> f x = f y -> x = y).
  { intros x y Hx Hy E. destruct (Z.lt_trichotomy x y) as [L|[L|L]]; [|exact L|]; apply Mono in L; auto; lia. }
  rewrite (finish_eq k n batch alp M (map f cl) W (length (zuniq cl))), (finish_eq k n batch alp M cl W (length (zuniq cl))); auto.
  - rewrite !cluster_inf_rows, (zuniq_map_mono f cl Mono), map_map. do 4 f_equal. apply map_ext_in. intros c Hc. apply mean_row_map; [exact Inj|apply zuniq_in, Hc].
  - rewrite map_length; exact H1.
  - rewrite (zuniq_map_mono f cl Mono), map_length. reflexivity.
Qed.

(** ** singleton clusters *)
Lemma nodup_filter_eqb c cl : NoDup cl -> In c cl -> filter (Z.eqb c) cl = [c].
Proof.
  induction 1 as [|x l Hx N IH]; intros Hc; [destruct Hc|]. cbn. destruct (Z.eqb_spec c x) as [->|E].
  - f_equal. apply filter_none. intros y Hy. apply Z.eqb_neq. intros ->. contradiction.
  - destruct Hc as [->|Hc]; [congruence|]. apply IH, Hc.
Qed.
Lemma members_single : forall cl M r c, NoDup cl -> In (r, c) (combine M cl) -> members M cl c = [r].
Proof.
  unfold members. induction cl as [|x cl IH]; intros [|r0 M] r c N H; cbn in *; try contradiction. inversion N as [|? ? Hx N']; subst.
  destruct H as [H|H].
  - injection H as -> ->. rewrite Z.eqb_refl. cbn. f_equal. rewrite filter_none; [reflexivity|]. intros [r' c'] H'. cbn. apply Z.eqb_neq. intros ->. apply in_combine_r in H'. contradiction.
  - assert (E : (x =? c)%Z = false) by (apply Z.eqb_neq; intros ->; apply in_combine_r in H; contradiction). rewrite E. apply IH; assumption.
Qed.
Lemma row_seq k r : length r = k -> map (fun j => rsum (col j [r]) / INR 1) (seq 0 k) = r.
Proof.
  intros H. transitivity (map (fun j => nth j r 0) (seq 0 (length r))); [|symmetry; apply list_as_nth]. rewrite H. apply map_ext. intros j. unfold col, rsum. cbn. field.
Qed.
Lemma singletons k n batch alp M cl : length cl = n -> length M = n -> (1 <= batch)%nat -> NoDup cl -> (forall r, In r M -> length r = k) ->
  exists s, reordering n s /\ forall W, draws_ok n W ->
    mboot k n batch alp M (Some cl) (map (reorder s) W) = mboot k n batch alp M None W.
Proof.
  intros H1 H2 Hb N HR.
  assert (PZ : Permutation cl (zuniq cl)) by (apply NoDup_Permutation; [exact N|apply zuniq_nodup|intros x; symmetry; apply zuniq_in]).
  assert (EN : length (zuniq cl) = n) by (rewrite <- (Permutation_length PZ); exact H1).
  assert (P : Permutation M (cluster_inf k M cl)).
  { rewrite cluster_inf_rows, <- PZ. rewrite <- (map_snd_combine M cl) at 2 by congruence. rewrite map_map.
    rewrite <- (map_fst_combine M cl) at 1 by congruence. erewrite map_ext_in; [apply Permutation_refl|]. intros [r c] Hp. cbn.
    unfold mean_row. rewrite (members_single cl M r c N Hp), nodup_filter_eqb by (try exact N; eapply in_combine_r, Hp). cbn [length].
    symmetry. apply row_seq. apply HR. eapply in_combine_l, Hp. }
  destruct (perm_reordering [] _ _ P) as (s & Hs & E). rewrite H2 in Hs. exists s. split; [exact Hs|]. intros W HW.
  rewrite (finish_eq k n batch alp M cl _ n) by auto. cbn [mboot]. rewrite batches by exact Hb. rewrite E, (boot_impl_reorder k n s) by auto. reflexivity.
Qed.
