(** Proofs for C05: pooling of the partition statistics. *)
From Verif Require Import Base ListLib ReduceModel ReduceProofs ReduceProofs2 DrdidModel DrdidSpec DrdidProofs DrdidProofs2 DrdidProofs3 DrdidProofs4 DrdidProofs7 DistDidModel.
Local Open Scope Qc_scope.

Lemma vadd_vec k f g : vadd (vec_of k f) (vec_of k g) = vec_of k (fun j => f j + g j).
Proof. apply vadd_map. Qed.
Lemma vec_of_ext k f g : (forall j, f j = g j) -> vec_of k f = vec_of k g.
Proof. intros H. apply map_ext. exact H. Qed.
Lemma madd_mat k f g : madd (mat_of k f) (mat_of k g) = mat_of k (fun i j => f i j + g i j).
Proof. unfold mat_of. rewrite madd_map. apply map_ext. intros i. apply vadd_map. Qed.
Lemma mat_of_ext k f g : (forall i j, f i j = g i j) -> mat_of k f = mat_of k g.
Proof. intros H. apply map_ext. intros i. apply map_ext. intros j. apply H. Qed.

Lemma add_gstats_assoc a b c : add_gstats a (add_gstats b c) = add_gstats (add_gstats a b) c.
Proof.
  unfold add_gstats. cbn. rewrite !vadd_assoc, !madd_assoc, !Qcplus_assoc, Nat.add_assoc. reflexivity.
Qed.
Lemma sum_global_assoc a b c : sum_global_stats a (sum_global_stats b c) = sum_global_stats (sum_global_stats a b) c.
Proof. destruct a, b, c; cbn; try reflexivity. rewrite add_gstats_assoc. reflexivity. Qed.
Lemma gram_or_none_assoc a b c : sum_gram_pair_or_none a (sum_gram_pair_or_none b c) = sum_gram_pair_or_none (sum_gram_pair_or_none a b) c.
Proof. destruct a, b, c; cbn [sum_gram_pair_or_none]; try reflexivity. rewrite sum_gram_assoc. reflexivity. Qed.

Lemma stats_app m mu k tl g b l1 l2 :
  sum_global_stats (partition_stats m mu k tl g b l1) (partition_stats m mu k tl g b l2) = partition_stats m mu k tl g b (l1 ++ l2).
Proof.
  destruct l1 as [|u1 l1]; [reflexivity|]. destruct l2 as [|u2 l2]; [rewrite app_nil_r; reflexivity|].
  unfold partition_stats. cbn [app]. change (u1 :: l1 ++ u2 :: l2) with ((u1 :: l1) ++ (u2 :: l2)).
  set (a := u1 :: l1). set (c := u2 :: l2). clearbody a c. cbn [sum_global_stats]. f_equal. unfold add_gstats. cbn [s_wt s_wc s_rt s_rc s_n s_wtX s_wcX s_wcrX s_xpx s_info].
  unfold sum_col, wgram. rewrite !sumf_app, app_length, !vadd_vec, !madd_mat. f_equal.
  - apply vec_of_ext. intros; symmetry; apply sumf_app.
  - apply vec_of_ext. intros; symmetry; apply sumf_app.
  - apply vec_of_ext. intros; symmetry; apply sumf_app.
  - apply mat_of_ext. intros; symmetry; apply sumf_app.
  - destruct m; rewrite ?madd_mat; apply mat_of_ext; intros; try (symmetry; apply sumf_app); ring.
Qed.
Lemma fold_pool {A B} (op : A -> A -> A) (S : list B -> A) (H : forall a b, op (S a) (S b) = S (a ++ b)) ls l0 :
  fold_left op (map S ls) (S l0) = S (l0 ++ concat ls).
Proof. revert l0. induction ls as [|l ls IH]; intros l0; cbn; [rewrite app_nil_r; reflexivity|]. rewrite H, IH, app_assoc. reflexivity. Qed.
Lemma stats_pooled m mu k tl g b fan parts : (2 <= fan)%nat -> parts <> [] ->
  tree_reduce (length parts) sum_global_stats fan (map (partition_stats m mu k tl g b) parts) = TROk (partition_stats m mu k tl g b (concat parts)).
Proof.
  intros Hf Hp. destruct parts as [|p parts]; [congruence|]. cbn [map concat].
  rewrite tree_reduce_ok; [|exact sum_global_assoc|exact Hf|rewrite map_length; cbn; lia].
  f_equal. apply (fold_pool sum_global_stats). apply stats_app.
Qed.
Lemma or_gram_app k l1 l2 : sum_gram_pair_or_none (or_gram k l1) (or_gram k l2) = or_gram k (l1 ++ l2).
Proof.
  unfold or_gram. rewrite filter_app'. destruct (filter _ l1) as [|u1 c1]; [reflexivity|].
  destruct (filter _ l2) as [|u2 c2]; [cbn [sum_gram_pair_or_none]; rewrite app_nil_r; reflexivity|].
  change ((u1 :: c1) ++ u2 :: c2) with (u1 :: (c1 ++ u2 :: c2)). cbv beta iota. cbn [sum_gram_pair_or_none]. f_equal.
  change (u1 :: c1 ++ u2 :: c2) with ((u1 :: c1) ++ (u2 :: c2)). rewrite map_app. symmetry. apply gram_app.
Qed.
Lemma wls_pooled o k fan parts : (2 <= fan)%nat -> parts <> [] ->
  dist_wls o k fan parts = match or_gram k (concat parts) with Some (a, b, _) => d_solve o a b | None => None end.
Proof.
  intros Hf Hp. unfold dist_wls. destruct parts as [|p parts]; [congruence|]. cbn [map concat].
  rewrite tree_reduce_ok; [|exact gram_or_none_assoc|exact Hf|rewrite map_length; cbn; lia].
  rewrite (fold_pool sum_gram_pair_or_none (or_gram k) (or_gram_app k)). destruct (or_gram k (p ++ concat parts)) as [[[a b] n]|]; reflexivity.
Qed.

(** writes by unit identifier *)
Fixpoint lookup (i : Z) (w : list (Z * Qc)) : Qc := match w with [] => 0 | (j, v) :: w' => if (i =? j)%Z then v else lookup i w' end.
Lemma write_map ids (f : Z -> Qc) p : write_id ids (map f ids) p = map (fun i => if (i =? fst p)%Z then snd p else f i) ids.
Proof. unfold write_id. induction ids as [|i ids IH]; cbn; [reflexivity|]. rewrite IH. reflexivity. Qed.
Lemma lookup_notin i w : ~ In i (map fst w) -> lookup i w = 0.
Proof.
  induction w as [|[j v] w IH]; cbn; [reflexivity|]. intros H. destruct (Z.eqb_spec i j); [exfalso; apply H; left; congruence|].
  apply IH. intros K. apply H. right. exact K.
Qed.
Lemma writes_ok ids w : forall f : Z -> Qc, NoDup (map fst w) ->
  fold_left (write_id ids) w (map f ids) = map (fun i => if existsb (Z.eqb i) (map fst w) then lookup i w else f i) ids.
Proof.
  induction w as [|p w IH]; intros f Hd; cbn [fold_left map existsb]; [reflexivity|]. inversion Hd as [|? ? Hn Hd']; subst.
  rewrite write_map, IH by exact Hd'. apply map_ext. intros i. destruct p as [j v]. cbn [fst snd lookup].
  destruct (Z.eqb_spec i j) as [->|Hij]; cbn [orb]; [|reflexivity].
  destruct (existsb (Z.eqb j) (map fst w)) eqn:E; [|reflexivity]. apply existsb_exists in E. destruct E as (x & Hx & Ex). apply Z.eqb_eq in Ex. subst x. contradiction.
Qed.
Lemma writes_zero ids w : NoDup (map fst w) -> fold_left (write_id ids) w (map (fun _ => 0) ids) = map (fun i => lookup i w) ids.
Proof.
  intros Hd. rewrite (writes_ok ids w (fun _ => 0) Hd). apply map_ext. intros i. destruct (existsb (Z.eqb i) (map fst w)) eqn:E; [reflexivity|].
  symmetry. apply lookup_notin. intros H. assert (existsb (Z.eqb i) (map fst w) = true) by (apply existsb_exists; exists i; split; [exact H|apply Z.eqb_refl]). congruence.
Qed.
Lemma lookup_in i v w : NoDup (map fst w) -> In (i, v) w -> lookup i w = v.
Proof.
  induction w as [|[j x] w IH]; cbn; [intros _ []|]. intros Hd [E|H].
  - injection E as -> ->. rewrite Z.eqb_refl. reflexivity.
  - inversion Hd as [|? ? Hn Hd']; subst. destruct (Z.eqb_spec i j) as [->|_]; [exfalso; apply Hn; change j with (fst (j, v)); apply in_map; exact H|]. apply IH; assumption.
Qed.
Lemma lookup_perm i w w' : NoDup (map fst w) -> Permutation w w' -> lookup i w = lookup i w'.
Proof.
  intros Hd HP. assert (Hd' : NoDup (map fst w')) by (eapply Permutation_NoDup; [apply Permutation_map; exact HP|exact Hd]).
  destruct (in_dec Z.eq_dec i (map fst w)) as [Hi|Hi].
  - apply in_map_iff in Hi. destruct Hi as ([j v] & Hj & Hin). cbn in Hj. subst j. rewrite (lookup_in i v w Hd Hin).
    symmetry. apply lookup_in; [exact Hd'|]. eapply Permutation_in; eassumption.
  - rewrite (lookup_notin _ _ Hi). symmetry. apply lookup_notin. intros K. apply Hi. eapply Permutation_in; [apply Permutation_map, Permutation_sym, HP|exact K].
Qed.
Lemma flat_map_map {A B} (f : A -> B) ls : flat_map (map f) ls = map f (concat ls).
Proof. induction ls; cbn; [reflexivity|]. rewrite map_app, IHls. reflexivity. Qed.
Lemma concat_perm {A} (ls ls' : list (list A)) : Permutation ls ls' -> Permutation (concat ls) (concat ls').
Proof.
  induction 1; cbn; [constructor|apply Permutation_app_head; assumption| |etransitivity; eassumption].
  rewrite !app_assoc. apply Permutation_app_tail, Permutation_app_comm.
Qed.

(** inverses *)
Lemma inverse_scaled k A B M X s : is_inverse k A M -> is_inverse k B X -> (forall i j, (i < k)%nat -> (j < k)%nat -> mget A i j = s * mget B i j) ->
  forall i j, (i < k)%nat -> (j < k)%nat -> mget X i j = s * mget M i j.
Proof.
  intros HA HB HS i j Hi Hj.
  transitivity (sumf (fun l => mget X i l * ind (l =? j)%nat) (seq 0 k)).
  { symmetry. rewrite <- (ind_eqb_sum k j (fun l => mget X i l) Hj). apply sumf_ext. intros l _. rewrite Nat.eqb_sym. ring. }
  transitivity (sumf (fun l => mget X i l * sumf (fun p => s * mget B l p * mget M p j) (seq 0 k)) (seq 0 k)).
  { apply sumf_ext. intros l Hl. apply in_seq in Hl. f_equal. rewrite <- (proj1 (HA l j ltac:(lia) Hj)). unfold mat_mul.
    apply sumf_ext. intros p Hp. apply in_seq in Hp. rewrite HS by lia. reflexivity. }
  transitivity (sumf (fun p => s * sumf (fun l => mget X i l * mget B l p) (seq 0 k) * mget M p j) (seq 0 k)).
  { rewrite (sumf_ext _ (fun l => sumf (fun p => mget X i l * (s * mget B l p * mget M p j)) (seq 0 k))) by (intros; rewrite sumf_mul_l; reflexivity).
    rewrite sumf_swap. apply sumf_ext. intros p _. rewrite <- sumf_mul_l, <- sumf_mul_r. apply sumf_ext. intros; ring. }
  transitivity (sumf (fun p => ind (i =? p)%nat * (s * mget M p j)) (seq 0 k)).
  { apply sumf_ext. intros p Hp. apply in_seq in Hp. pose proof (proj2 (HB i p Hi ltac:(lia))) as E. unfold mat_mul in E. rewrite E. ring. }
  apply (ind_eqb_sum k i (fun p => s * mget M p j) Hi).
Qed.
Lemma mv_scaled k X M v v' s t : (forall i j, (i < k)%nat -> (j < k)%nat -> mget X i j = s * mget M i j) ->
  (forall j, (j < k)%nat -> nth j v' 0 = t * nth j v 0) -> forall i, (i < k)%nat -> nth i (mv k X v') 0 = s * t * nth i (mv k M v) 0.
Proof.
  intros HX HV i Hi. unfold mv. rewrite !nth_map_seq by exact Hi. rewrite <- sumf_mul_l. apply sumf_ext. intros j Hj. apply in_seq in Hj.
  rewrite HX, HV by lia. ring.
Qed.
Lemma dot_mv_scaled k X M v v' s t y : (forall i j, (i < k)%nat -> (j < k)%nat -> mget X i j = s * mget M i j) ->
  (forall j, (j < k)%nat -> nth j v' 0 = t * nth j v 0) -> dotk k y (mv k X v') = s * t * dotk k y (mv k M v).
Proof.
  intros HX HV. unfold dotk. rewrite <- sumf_mul_l. apply sumf_ext. intros i Hi. apply in_seq in Hi.
  rewrite (mv_scaled k X M v v' s t HX HV) by lia. ring.
Qed.
Lemma inverse_exists_scaled k A B M s : s <> 0 -> is_inverse k A M -> (forall i j, (i < k)%nat -> (j < k)%nat -> mget B i j = s * mget A i j) -> is_inverse k B (mscale (/ s) M).
Proof.
  intros Hs HA HB i j Hi Hj. destruct (HA i j Hi Hj) as [H1 H2]. unfold mat_mul in *. split; [rewrite <- H1|rewrite <- H2]; apply sumf_ext; intros l Hl; apply in_seq in Hl;
    rewrite mget_mscale, HB by lia; field; exact Hs.
Qed.
