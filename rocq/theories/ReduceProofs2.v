(** Bridging lemmas from the reduction model to [ReduceSpec]. *)
From Verif Require Import Base ReduceModel ReduceSpec ReduceProofs.

Lemma nth_map_seq {A} (f : nat -> A) k i d : (i < k)%nat -> nth i (map f (seq 0 k)) d = f i.
Proof.
  intros H. rewrite (nth_indep _ d (f 0%nat)) by (rewrite map_length, seq_length; exact H).
  rewrite map_nth, seq_nth by exact H. reflexivity.
Qed.

Lemma partition_gram_spec k rows : is_gram_of k rows (partition_gram k rows).
Proof.
  unfold is_gram_of, partition_gram. split; [|split; [|reflexivity]].
  - intros i j Hi Hj. unfold mget, gram_mat. rewrite nth_map_seq, nth_map_seq by assumption.
    unfold sumf, xat. f_equal. apply map_ext. intros; ring.
  - intros i Hi. unfold gram_rhs. rewrite nth_map_seq by assumption.
    unfold sumf, xat. f_equal. apply map_ext. intros; ring.
Qed.

Lemma is_gram_perm k r1 r2 g : Permutation r1 r2 -> is_gram_of k r1 g -> is_gram_of k r2 g.
Proof.
  intros P. destruct g as [[m v] n]. intros [H1 [H2 H3]]. split; [|split].
  - intros i j Hi Hj. rewrite H1 by assumption. apply sumf_perm, P.
  - intros i Hi. rewrite H2 by assumption. apply sumf_perm, P.
  - rewrite H3. apply Permutation_length, P.
Qed.

Lemma distributed_gram_spec k s p parts rows : (2 <= s)%nat -> Permutation rows (concat (p :: parts)) ->
  exists g, tree_reduce (length parts) sum_gram_pair s (map (partition_gram k) (p :: parts)) = TROk g
            /\ is_gram_of k rows g.
Proof.
  intros Hs P. exists (partition_gram k (p ++ concat parts)).
  split; [apply distributed_gram_ok, Hs|].
  apply (is_gram_perm _ (p ++ concat parts)); [symmetry; exact P | apply partition_gram_spec].
Qed.

Lemma masked_gram_spec k mask parts rows : Permutation rows (concat parts) ->
  (filter mask rows = [] -> reduce_gram_list (map (masked_gram k mask) parts) = None) /\
  (filter mask rows <> [] -> exists g, reduce_gram_list (map (masked_gram k mask) parts) = Some g
      /\ is_gram_of k (filter mask rows) g).
Proof.
  intros P. rewrite reduce_masked. unfold masked_gram.
  assert (PF := filter_perm mask _ _ P). destruct (filter mask (concat parts)) as [|r l] eqn:E.
  - apply Permutation_sym, Permutation_nil in PF. rewrite PF. split; [reflexivity|congruence].
  - split.
    + intros H. rewrite H in PF. apply Permutation_nil in PF. discriminate.
    + intros _. eexists. split; [reflexivity|].
      apply (is_gram_perm _ (r :: l)); [symmetry; exact PF | apply partition_gram_spec].
Qed.

Lemma weighted_gram_spec rows k b : (1 <= b)%nat ->
  (forall p q, (p < k)%nat -> (q < k)%nat ->
     fst (weighted_gram rows k b) p q = qsum (map (fun r => dw r * (nth p (dx r) 0 * nth q (dx r) 0)) rows)
     /\ fst (weighted_gram rows k b) p q = fst (weighted_gram rows k b) q p) /\
  (forall p, (p < k)%nat -> snd (weighted_gram rows k b) p = qsum (map (fun r => dw r * (nth p (dx r) 0 * dy r)) rows)).
Proof.
  intros Hb. destruct (weighted_gram_ok rows k b Hb) as [H1 H2]. split.
  - intros p q Hp Hq. split; [|rewrite !H1 by assumption; apply inner_sym].
    rewrite H1 by assumption. unfold inner, sumf, xat. f_equal. apply map_ext. intros; ring.
  - intros p Hp. rewrite H2 by assumption. unfold rhs_entry, sumf, xat. f_equal. apply map_ext. intros; ring.
Qed.

Lemma wls_partition_perm solve k mask parts parts' :
  Permutation (concat parts) (concat parts') ->
  wls_from_partition_list solve (masked_gram k mask) parts
  = wls_from_partition_list solve (masked_gram k mask) parts'.
Proof.
  intros P. unfold wls_from_partition_list. rewrite !reduce_masked. unfold masked_gram.
  assert (PF := filter_perm mask _ _ P).
  destruct (filter mask (concat parts)) as [|r l] eqn:E.
  - apply Permutation_nil in PF. rewrite PF. reflexivity.
  - destruct (filter mask (concat parts')) as [|r' l'];
      [apply Permutation_sym, Permutation_nil in PF; discriminate|].
    rewrite (gram_perm k _ _ PF). reflexivity.
Qed.

Lemma irls_partition_perm n solve close k mu parts parts' :
  Permutation (concat parts) (concat parts') -> forall beta,
  irls_loop n solve close (pscore_gram k mu) parts beta
  = irls_loop n solve close (pscore_gram k mu) parts' beta.
Proof.
  intros P beta. rewrite irls_partition_invariant, (irls_partition_invariant n solve close k mu parts').
  revert beta. induction n as [|n IH]; intros beta; [reflexivity|]. cbn [irls_loop map].
  assert (E : pscore_gram k mu beta (concat parts) = pscore_gram k mu beta (concat parts')).
  { unfold pscore_gram. destruct (concat parts) as [|r l].
    - apply Permutation_nil in P. rewrite P. reflexivity.
    - destruct (concat parts') as [|r' l']; [apply Permutation_sym, Permutation_nil in P; discriminate|].
      f_equal. apply gram_perm, Permutation_map, P. }
  rewrite E. destruct (reduce_gram_list [pscore_gram k mu beta (concat parts')]) as [[[m v] c]|]; [|reflexivity].
  destruct (solve m v) as [b|]; [|reflexivity]. destruct (close b beta); [reflexivity|apply IH].
Qed.

(** The IRLS step of the distributed logit is the Newton step of the pooled likelihood. *)
Lemma dot_seq x b k : length x = k -> length b = k -> dot x b = sumf (fun j => nth j x 0 * nth j b 0) (seq 0 k).
Proof.
  revert b k. induction x as [|a x IH]; intros [|c b] k Hx Hb; subst k; try discriminate; [reflexivity|].
  cbn [length seq]. rewrite sumf_cons. cbn [nth]. unfold dot. cbn [combine map qsum fold_right fst snd].
  fold (qsum (map (fun p : Qc * Qc => fst p * snd p) (combine x b))). fold (dot x b).
  rewrite (IH b (length x)) by (cbn in Hb; lia). rewrite <- seq_shift, sumf_map. reflexivity.
Qed.
Lemma newton_step k mu beta parts : concat parts <> [] -> length beta = k ->
  (forall r, In r (concat parts) -> length (dx r) = k /\ mu (dot (dx r) beta) <> 0 /\ mu (dot (dx r) beta) <> 1) ->
  exists m v n, reduce_gram_list (map (pscore_gram k mu beta) parts) = Some (m, v, n) /\
  (forall i j, (i < k)%nat -> (j < k)%nat ->
     mget m i j = sumf (fun r => dw r * mu (dot (dx r) beta) * (1 - mu (dot (dx r) beta)) * (nth i (dx r) 0 * nth j (dx r) 0)) (concat parts)) /\
  (forall i, (i < k)%nat ->
     nth i v 0 = sumf (fun j => mget m i j * nth j beta 0) (seq 0 k)
               + sumf (fun r => dw r * (dy r - mu (dot (dx r) beta)) * nth i (dx r) 0) (concat parts)).
Proof.
  intros N Lb H. unfold pscore_gram. rewrite (reduce_mapped k (irls_row mu beta) parts). destruct (concat parts) as [|r0 rs] eqn:E; [congruence|].
  rewrite <- E in *. clear E r0 rs. set (rows := concat parts) in *.
  set (g := partition_gram k (map (irls_row mu beta) rows)).
  assert (G := partition_gram_spec k (map (irls_row mu beta) rows)). fold g in G. destruct g as [[m v] n] eqn:Eg. destruct G as [G1 [G2 _]].
  exists m, v, n. split; [reflexivity|].
  assert (A : forall i j, (i < k)%nat -> (j < k)%nat ->
     mget m i j = sumf (fun r => dw r * mu (dot (dx r) beta) * (1 - mu (dot (dx r) beta)) * (nth i (dx r) 0 * nth j (dx r) 0)) rows).
  { intros i j Hi Hj. rewrite G1 by assumption. rewrite map_map. reflexivity. }
  split; [exact A|]. intros i Hi. rewrite G2 by exact Hi. rewrite map_map.
  rewrite (sumf_ext (fun j => mget m i j * nth j beta 0)
     (fun j => sumf (fun r => dw r * mu (dot (dx r) beta) * (1 - mu (dot (dx r) beta)) * (nth i (dx r) 0 * nth j (dx r) 0) * nth j beta 0) rows)).
  2:{ intros j Hj. apply in_seq in Hj. rewrite A by lia. rewrite sumf_mul_r. reflexivity. }
  rewrite sumf_swap, <- sumf_add. change (qsum (map ?f rows)) with (sumf f rows). apply sumf_ext. intros r Hr. destruct (H r Hr) as [L [M0 M1]].
  cbn [irls_row dw dx dy].
  rewrite (sumf_ext _ (fun j => (dw r * mu (dot (dx r) beta) * (1 - mu (dot (dx r) beta)) * nth i (dx r) 0) * (nth j (dx r) 0 * nth j beta 0)))
    by (intros; ring).
  rewrite sumf_mul_l, <- (dot_seq (dx r) beta k L Lb). set (e := dot (dx r) beta) in *. set (q := mu e) in *. field.
  split; [|exact M0]. intros h. apply M1. transitivity (1 - (1 - q)); [ring|]. change (1 - q = 0) in h. rewrite h. ring.
Qed.
