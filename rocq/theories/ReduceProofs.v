From Verif Require Import Base ReduceModel.
Local Open Scope nat_scope.

(** * parallel_map *)
Lemma set_nth_length {A} i (v : A) l : length (set_nth i v l) = length l.
Proof. revert i; induction l as [|a l IH]; intros [|i]; cbn; auto. Qed.
Lemma nth_error_set_nth {A} i j (v : A) l :
  nth_error (set_nth i v l) j = if i =? j then (match nth_error l i with Some _ => Some v | None => None end)
                                else nth_error l j.
Proof.
  revert i j; induction l as [|a l IH]; intros [|i] [|j]; cbn; auto.
  destruct (i =? j); reflexivity.
Qed.

Definition val {A B E} (f : A -> outcome B E) (a : A) : option B :=
  match f a with Ret b => Some b | Raise _ => None end.

Lemma seq_map_ok {A B E} (f : A -> outcome B E) args :
  (forall a, In a args -> exists b, f a = Ret b) -> seq_map f args = Ret (map (val f) args).
Proof.
  induction args as [|a args IH]; intros H; [reflexivity|]. cbn.
  destruct (H a (or_introl eq_refl)) as [b Hb]. unfold val at 1. rewrite Hb.
  rewrite IH; [reflexivity|]. intros; apply H; right; assumption.
Qed.

Lemma loop_ok {A B E} (f : A -> outcome B E) args order res :
  (forall a, In a args -> exists b, f a = Ret b) ->
  length res = length args -> (forall i, In i order -> i < length args) ->
  exists res', as_completed_loop f args order res = Ret res' /\ length res' = length args /\
    forall i, nth_error res' i = if existsb (Nat.eqb i) order then option_map (val f) (nth_error args i)
                                 else nth_error res i.
Proof.
  revert res. induction order as [|i order IH]; intros res H L B'.
  - exists res. cbn. auto.
  - cbn [as_completed_loop].
    assert (Hi : i < length args) by (apply B'; left; reflexivity).
    destruct (nth_error args i) as [a|] eqn:Ea; [|apply nth_error_None in Ea; lia].
    destruct (H a) as [b Hb]; [eapply nth_error_In; eauto|]. rewrite Hb.
    destruct (IH (set_nth i (Some b) res) H) as [res' [Eq1 [L' N]]].
    + rewrite set_nth_length. exact L.
    + intros; apply B'; right; assumption.
    + exists res'. split; [exact Eq1|]. split; [exact L'|]. intros j. rewrite N. cbn [existsb].
      destruct (Nat.eqb_spec j i) as [->|D]; cbn [orb].
      * destruct (existsb (Nat.eqb i) order); [reflexivity|].
        rewrite nth_error_set_nth, Nat.eqb_refl, Ea. cbn. unfold val. rewrite Hb.
        destruct (nth_error res i) eqn:Er; [reflexivity|]. apply nth_error_None in Er. lia.
      * destruct (existsb (Nat.eqb j) order); [reflexivity|].
        rewrite nth_error_set_nth. destruct (Nat.eqb_spec i j); [congruence|reflexivity].
Qed.

Lemma nth_error_ext' {A} (l l' : list A) : (forall i, nth_error l i = nth_error l' i) -> l = l'.
Proof.
  revert l'; induction l as [|a l IH]; intros [|b l'] H; auto.
  - specialize (H 0); discriminate.
  - specialize (H 0); discriminate.
  - f_equal. { specialize (H 0); cbn in H; congruence. } apply IH. intros i. apply (H (S i)).
Qed.

Lemma parallel_ok {A B E} (f : A -> outcome B E) args n order :
  (forall a, In a args -> exists b, f a = Ret b) ->
  Permutation order (seq 0 (length args)) ->
  parallel_map f args n order = Ret (map (val f) args).
Proof.
  intros H P. unfold parallel_map. destruct (n =? 1)%Z; [apply seq_map_ok, H|].
  destruct (loop_ok f args order (repeat None (length args)) H) as [res' [E1 [L N]]].
  - apply repeat_length.
  - intros i Hi. apply (Permutation_in i P), in_seq in Hi. lia.
  - rewrite E1. f_equal. apply nth_error_ext'. intros i. rewrite N, nth_error_map.
    destruct (existsb (Nat.eqb i) order) eqn:Ex; [reflexivity|].
    assert (Hi : ~ i < length args).
    { intros Hi. assert (In i order) by (apply (Permutation_in i (Permutation_sym P)), in_seq; lia).
      assert (existsb (Nat.eqb i) order = true); [|congruence].
      apply existsb_exists. exists i. split; [assumption|apply Nat.eqb_refl]. }
    rewrite (proj2 (nth_error_None args i)) by lia. cbn.
    apply nth_error_None. rewrite repeat_length. lia.
Qed.

Lemma seq_map_raise {A B E} (f : A -> outcome B E) args :
  (exists a e, In a args /\ f a = Raise e) -> exists a e, In a args /\ f a = Raise e /\ seq_map f args = Raise e.
Proof.
  induction args as [|a args IH]; intros [x [e [Hin He]]]; [destruct Hin|].
  cbn. destruct (f a) as [b|e'] eqn:Ea.
  - destruct Hin as [->|Hin]; [congruence|].
    destruct IH as [y [e2 [H1 [H2 H3]]]]; [eauto|]. exists y, e2. rewrite H3. auto.
  - exists a, e'. auto.
Qed.

Lemma loop_raise {A B E} (f : A -> outcome B E) args order res :
  (exists i a e, In i order /\ nth_error args i = Some a /\ f a = Raise e) ->
  exists a e, In a args /\ f a = Raise e /\ as_completed_loop f args order res = Raise e.
Proof.
  revert res; induction order as [|j order IH]; intros res [i [a [e [Hi [Ha He]]]]]; [destruct Hi|].
  cbn. destruct (nth_error args j) as [a'|] eqn:Ej.
  - destruct (f a') as [b|e'] eqn:Ef.
    + destruct Hi as [->|Hi]; [congruence|]. apply IH. eauto 6.
    + exists a', e'. split; [eapply nth_error_In; eauto|auto].
  - destruct Hi as [->|Hi]; [congruence|]. apply IH. eauto 6.
Qed.

Lemma parallel_raise {A B E} (f : A -> outcome B E) args n order :
  (exists a e, In a args /\ f a = Raise e) ->
  Permutation order (seq 0 (length args)) ->
  exists a e, In a args /\ f a = Raise e /\ parallel_map f args n order = Raise e.
Proof.
  intros H P. unfold parallel_map. destruct (n =? 1)%Z; [apply seq_map_raise, H|].
  destruct H as [a [e [Ha He]]]. apply In_nth_error in Ha as [i Hi].
  apply loop_raise. exists i, a, e. split; [|auto].
  apply (Permutation_in i (Permutation_sym P)), in_seq.
  assert (i < length args) by (apply nth_error_Some; congruence). lia.
Qed.

(** * tree_reduce *)
Lemma py_range_len n k : 1 <= k -> length (py_range n k) = (n + k - 1) / k.
Proof. intros. unfold py_range. rewrite map_length, seq_length. reflexivity. Qed.

Definition slices {A} (k : nat) (l : list A) : list (list A) :=
  map (fun i => firstn k (skipn i l)) (py_range (length l) k).

Lemma py_range_0 k : py_range 0 k = [].
Proof.
  unfold py_range. destruct k as [|k]; [reflexivity|].
  rewrite Nat.div_small by lia. reflexivity.
Qed.
Lemma py_range_step n k : 1 <= k -> 1 <= n -> py_range n k = 0 :: map (fun i => i + k) (py_range (n - k) k).
Proof.
  intros Hk Hn. unfold py_range.
  assert (E : (n + k - 1) / k = S ((n - k + k - 1) / k)).
  { destruct (Nat.le_gt_cases k n).
    - replace (n + k - 1) with ((n - k + k - 1) + 1 * k) by lia. rewrite Nat.div_add by lia. lia.
    - replace (n - k) with 0 by lia. rewrite (Nat.div_small (0 + k - 1)) by lia.
      replace (n + k - 1) with ((n - 1) + 1 * k) by lia.
      rewrite Nat.div_add by lia. rewrite (Nat.div_small (n - 1)) by lia. reflexivity. }
  rewrite E. cbn [seq map]. f_equal. rewrite <- seq_shift, !map_map. apply map_ext. intros; lia.
Qed.

Lemma skipn_skipn' {A} x y (l : list A) : skipn x (skipn y l) = skipn (x + y) l.
Proof.
  revert l; induction y as [|y IH]; intros l; [rewrite Nat.add_0_r; reflexivity|].
  rewrite Nat.add_succ_r. destruct l as [|a l]; [destruct x; reflexivity|]. apply IH.
Qed.
Lemma slices_step {A} k (l : list A) : 1 <= k -> l <> [] ->
  slices k l = firstn k l :: slices k (skipn k l).
Proof.
  intros Hk Hl. unfold slices. rewrite py_range_step; [|lia|destruct l; [congruence|cbn; lia]].
  cbn [map]. f_equal. rewrite skipn_length, map_map. apply map_ext. intros i.
  rewrite skipn_skipn'. reflexivity.
Qed.

Lemma slices_facts {A} k (l : list A) : 1 <= k ->
  concat (slices k l) = l /\ Forall (fun g => g <> []) (slices k l) /\
  Forall (fun g => length g <= k) (slices k l) /\
  (2 <= k -> 2 <= length l -> length (slices k l) < length l).
Proof.
  intros Hk. remember (length l) as n eqn:En. revert l En.
  induction n as [n IH] using lt_wf_ind. intros l En.
  destruct l as [|a l].
  - unfold slices. cbn [length]. rewrite py_range_0. cbn. repeat split; try constructor. cbn in *. lia.
  - rewrite slices_step by (auto; discriminate).
    set (l2 := skipn k (a :: l)).
    assert (L2 : length l2 = n - k) by (unfold l2; rewrite skipn_length; lia).
    assert (1 <= n) by (subst; cbn; lia).
    destruct (IH (n - k) ltac:(lia) l2 ltac:(lia)) as [C [F [G Len]]].
    repeat split.
    + cbn [concat]. rewrite C. unfold l2. apply firstn_skipn.
    + constructor; [|exact F]. destruct k; [lia|discriminate].
    + constructor; [|exact G]. rewrite firstn_length. lia.
    + intros H2 Hn. cbn [length].
      destruct (Nat.le_gt_cases 2 (length l2)) as [h|h].
      * specialize (Len H2 ltac:(lia)). rewrite <- L2 in Len. lia.
      * assert (length (slices k l2) <= 1).
        { destruct l2 as [|x [|y l2']]; [| |cbn in h; lia].
          - unfold slices. cbn [length]. rewrite py_range_0. cbn. lia.
          - rewrite slices_step by (auto; discriminate).
            replace (skipn k [x]) with (@nil A) by (destruct k as [|[|k]]; [lia|reflexivity|reflexivity]).
            unfold slices. cbn [length]. rewrite py_range_0. cbn. lia. }
        destruct (Nat.eq_dec (length l2) 0) as [Z0|NZ].
        -- destruct l2; [|discriminate]. unfold slices. cbn [length]. rewrite py_range_0. cbn. lia.
        -- lia.
Qed.

Lemma tree_pass_eq {A} (c : A -> A -> A) k l : 1 <= k ->
  tree_pass c k l = flat_map (fun g => match reduce_group c g with Some v => [v] | None => [] end) (slices k l).
Proof.
  intros Hk. unfold tree_pass, slices. rewrite flat_map_concat_map, (flat_map_concat_map _ (map _ _)), map_map.
  f_equal. apply map_ext. intros i.
  destruct (firstn k (skipn i l)) as [|x [|y g]]; reflexivity.
Qed.

Lemma fold_assoc {A} (c : A -> A -> A) (assoc : forall x y z, c x (c y z) = c (c x y) z) l x y :
  fold_left c l (c x y) = c x (fold_left c l y).
Proof. revert y; induction l as [|a l IH]; intros y; cbn; [reflexivity|]. rewrite <- assoc. apply IH. Qed.

Lemma fold_groups {A} (c : A -> A -> A) (assoc : forall x y z, c x (c y z) = c (c x y) z) gs :
  Forall (fun g => g <> []) gs ->
  reduce_group c (flat_map (fun g => match reduce_group c g with Some v => [v] | None => [] end) gs)
  = reduce_group c (concat gs).
Proof.
  induction 1 as [|g gs Hg Hgs IH]; [reflexivity|].
  destruct g as [|x g]; [congruence|]. cbn [flat_map reduce_group concat app].
  set (t := flat_map (fun g => match reduce_group c g with Some v => [v] | None => [] end) gs) in *.
  cbn [reduce_group] in *. f_equal. rewrite fold_left_app.
  destruct t as [|v t]; destruct (concat gs) as [|w ws]; cbn [reduce_group] in IH; try discriminate.
  - reflexivity.
  - cbn [fold_left]. rewrite !fold_assoc by exact assoc. injection IH as ->. reflexivity.
Qed.

Lemma tree_pass_length {A} (c : A -> A -> A) k l : 1 <= k ->
  length (tree_pass c k l) = length (slices k l).
Proof.
  intros Hk. rewrite tree_pass_eq by exact Hk. destruct (slices_facts k l Hk) as [_ [F _]].
  induction F as [|g gs Hg _ IH]; [reflexivity|]. destruct g as [|x g]; [congruence|].
  cbn. rewrite IH. reflexivity.
Qed.

Lemma tree_pass_reduce {A} (c : A -> A -> A) (assoc : forall x y z, c x (c y z) = c (c x y) z) k l :
  1 <= k -> reduce_group c (tree_pass c k l) = reduce_group c l.
Proof.
  intros Hk. rewrite tree_pass_eq by exact Hk. destruct (slices_facts k l Hk) as [C [F _]].
  rewrite fold_groups by assumption. rewrite C. reflexivity.
Qed.

Lemma tree_reduce_ok {A} (c : A -> A -> A) (assoc : forall x y z, c x (c y z) = c (c x y) z) k :
  2 <= k -> forall fuel x l, length l <= fuel -> tree_reduce fuel c k (x :: l) = TROk (fold_left c l x).
Proof.
  intros Hk. induction fuel as [|fuel IH]; intros x l Hl.
  - destruct l; [reflexivity|cbn in Hl; lia].
  - cbn [tree_reduce]. destruct (Nat.ltb_spec 1 (length (x :: l))) as [h|h].
    + assert (HR : reduce_group c (tree_pass c k (x :: l)) = Some (fold_left c l x))
        by (rewrite tree_pass_reduce by (auto; lia); reflexivity).
      assert (HL := tree_pass_length c k (x :: l) ltac:(lia)).
      destruct (slices_facts k (x :: l) ltac:(lia)) as [_ [_ [_ LL]]]. specialize (LL Hk h).
      destruct (tree_pass c k (x :: l)) as [|y t]; [discriminate|].
      cbn [reduce_group] in HR. injection HR as HR. rewrite <- HR. apply IH.
      cbn [length] in *. lia.
    + destruct l; [reflexivity|cbn in h; lia].
Qed.

Lemma slices_1 {A} (l : list A) : slices 1 l = map (fun x => [x]) l.
Proof.
  induction l as [|a l IH]; [unfold slices; cbn [length]; rewrite py_range_0; reflexivity|].
  rewrite slices_step by (auto; discriminate). cbn [firstn skipn map]. f_equal. exact IH.
Qed.
Lemma tree_pass_1 {A} (c : A -> A -> A) l : tree_pass c 1 l = l.
Proof.
  rewrite tree_pass_eq, slices_1 by lia. induction l as [|a l IH]; [reflexivity|]. cbn in *. f_equal. exact IH.
Qed.
Lemma tree_reduce_1_runs {A} (c : A -> A -> A) l : 2 <= length l ->
  forall fuel, tree_reduce fuel c 1 l = TRRunning.
Proof.
  intros H. induction fuel as [|fuel IH]; cbn [tree_reduce];
    (destruct (Nat.ltb_spec 1 (length l)); [|lia]); [reflexivity|].
  rewrite tree_pass_1. exact IH.
Qed.

(** * Gram statistics *)
Lemma vadd_map {A} (f g : A -> Qc) l : vadd (map f l) (map g l) = map (fun a => (f a + g a)%Qc) l.
Proof. unfold vadd. induction l as [|a l IH]; [reflexivity|]. cbn in *. f_equal. exact IH. Qed.
Lemma madd_map {A} (f g : A -> list Qc) l : madd (map f l) (map g l) = map (fun a => vadd (f a) (g a)) l.
Proof. unfold madd. induction l as [|a l IH]; [reflexivity|]. cbn in *. f_equal. exact IH. Qed.

Lemma gram_app k r1 r2 : partition_gram k (r1 ++ r2) = sum_gram_pair (partition_gram k r1) (partition_gram k r2).
Proof.
  unfold partition_gram, sum_gram_pair, gram_mat, gram_rhs. rewrite madd_map, vadd_map, app_length.
  f_equal. f_equal.
  - apply map_ext. intros i. rewrite vadd_map. apply map_ext. intros j. apply sumf_app.
  - apply map_ext. intros i. apply sumf_app.
Qed.

Lemma gram_perm k r1 r2 : Permutation r1 r2 -> partition_gram k r1 = partition_gram k r2.
Proof.
  intros P. unfold partition_gram, gram_mat, gram_rhs. rewrite (Permutation_length P). f_equal. f_equal.
  - apply map_ext. intros i. apply map_ext. intros j. apply sumf_perm, P.
  - apply map_ext. intros i. apply sumf_perm, P.
Qed.

Lemma gram_concat k parts x :
  fold_left sum_gram_pair (map (partition_gram k) parts) (partition_gram k x) = partition_gram k (x ++ concat parts).
Proof.
  revert x. induction parts as [|p parts IH]; intros x; cbn [map fold_left concat].
  - rewrite app_nil_r. reflexivity.
  - rewrite <- gram_app, IH, app_assoc. reflexivity.
Qed.

(** The per-partition statistics need not form an associative algebra on arbitrary lists, but
    [vadd]/[madd] are associative, hence so is [sum_gram_pair]. *)
Lemma vadd_assoc a b c : vadd a (vadd b c) = vadd (vadd a b) c.
Proof.
  unfold vadd. revert b c; induction a as [|x a IH]; intros [|y b] [|z c]; cbn; try reflexivity.
  f_equal; [apply Qcplus_assoc | apply IH].
Qed.
Lemma madd_assoc a b c : madd a (madd b c) = madd (madd a b) c.
Proof.
  unfold madd. revert b c; induction a as [|x a IH]; intros [|y b] [|z c]; cbn; try reflexivity.
  f_equal; [apply vadd_assoc | apply IH].
Qed.
Lemma sum_gram_assoc x y z : sum_gram_pair x (sum_gram_pair y z) = sum_gram_pair (sum_gram_pair x y) z.
Proof.
  destruct x as [[m1 v1] n1], y as [[m2 v2] n2], z as [[m3 v3] n3]. cbn.
  rewrite madd_assoc, vadd_assoc, Nat.add_assoc. reflexivity.
Qed.

Lemma reduce_masked_from k mask parts : forall acc, acc <> [] ->
  fold_left (fun result item =>
      match item with
      | None => result
      | Some g => match result with None => Some g | Some r => Some (sum_gram_pair r g) end
      end) (map (masked_gram k mask) parts) (Some (partition_gram k acc))
  = Some (partition_gram k (acc ++ filter mask (concat parts))).
Proof.
  induction parts as [|p parts IH]; intros acc Hacc.
  - cbn. rewrite app_nil_r. reflexivity.
  - cbn [map fold_left concat]. unfold masked_gram at 2. rewrite filter_app'.
    destruct (filter mask p) as [|r l] eqn:E.
    + rewrite IH by exact Hacc. reflexivity.
    + rewrite <- gram_app, IH; [rewrite app_assoc; reflexivity|].
      destruct acc; [congruence|discriminate].
Qed.

Lemma reduce_masked k mask parts :
  reduce_gram_list (map (masked_gram k mask) parts) = masked_gram k mask (concat parts).
Proof.
  unfold reduce_gram_list. induction parts as [|p parts IH]; [reflexivity|].
  cbn [map fold_left concat]. unfold masked_gram at 2 3. rewrite filter_app'.
  destruct (filter mask p) as [|r l] eqn:E.
  - rewrite IH. reflexivity.
  - rewrite reduce_masked_from by discriminate. reflexivity.
Qed.

Lemma reduce_mapped k (h : drow -> drow) parts :
  reduce_gram_list (map (fun p => match p with [] => None | _ => Some (partition_gram k (map h p)) end) parts)
  = match concat parts with [] => None | _ => Some (partition_gram k (map h (concat parts))) end.
Proof.
  assert (E : forall p, match p with [] => None | _ => Some (partition_gram k (map h p)) end
              = masked_gram k (fun _ => true) (map h p)).
  { intros p. unfold masked_gram. rewrite filter_all by auto. destruct p; reflexivity. }
  rewrite (map_ext _ (fun p => masked_gram k (fun _ => true) (map h p)) E).
  rewrite <- (map_map (map h) (masked_gram k (fun _ => true))), reduce_masked, <- concat_map. symmetry. apply E.
Qed.

Lemma wls_partition_invariant solve k mask parts :
  wls_from_partition_list solve (masked_gram k mask) parts
  = wls_from_partition_list solve (masked_gram k mask) [concat parts].
Proof.
  unfold wls_from_partition_list. rewrite !reduce_masked. cbn [concat]. rewrite app_nil_r. reflexivity.
Qed.

Lemma irls_partition_invariant n solve close k mu parts : forall beta,
  irls_loop n solve close (pscore_gram k mu) parts beta
  = irls_loop n solve close (pscore_gram k mu) [concat parts] beta.
Proof.
  induction n as [|n IH]; intros beta; [reflexivity|]. cbn [irls_loop].
  assert (E : reduce_gram_list (map (pscore_gram k mu beta) parts)
            = reduce_gram_list (map (pscore_gram k mu beta) [concat parts])).
  { etransitivity; [apply (reduce_mapped k (irls_row mu beta) parts)|].
    symmetry; etransitivity; [apply (reduce_mapped k (irls_row mu beta) [concat parts])|].
    cbn [concat]. rewrite app_nil_r. reflexivity. }
  rewrite E. clear E. destruct (reduce_gram_list (map (pscore_gram k mu beta) [concat parts])) as [[[m v] c]|]; [|reflexivity].
  destruct (solve m v) as [b|]; [|reflexivity]. destruct (close b beta); [reflexivity|apply IH].
Qed.

(** distributed_gram via tree_reduce *)
Lemma distributed_gram_ok k s parts p : 2 <= s ->
  tree_reduce (length parts) sum_gram_pair s (map (partition_gram k) (p :: parts))
  = TROk (partition_gram k (p ++ concat parts)).
Proof.
  intros Hs. cbn [map]. rewrite tree_reduce_ok; [|exact sum_gram_assoc|exact Hs|rewrite map_length; lia].
  rewrite gram_concat. reflexivity.
Qed.

(** * Tiled weighted_gram *)
Lemma in_blk_spec lo len i : reflect (lo <= i < lo + len) (in_blk lo len i).
Proof.
  unfold in_blk. apply iff_reflect. rewrite andb_true_iff, Nat.leb_le, Nat.ltb_lt. lia.
Qed.

Lemma inner_sym rows p q : inner rows p q = inner rows q p.
Proof. unfold inner. apply sumf_ext. intros. ring. Qed.

Lemma py_range_in n b i : 1 <= b -> (In i (py_range n b) <-> i < n /\ i mod b = 0).
Proof.
  intros Hb. unfold py_range. rewrite in_map_iff. split.
  - intros [j [<- Hj]]. apply in_seq in Hj. split; [|apply Nat.mod_mul; lia].
    assert (j < (n + b - 1) / b) by lia.
    assert (b * ((n + b - 1) / b) <= n + b - 1) by (apply Nat.mul_div_le; lia). nia.
  - intros [Hi Hm]. exists (i / b). split.
    + rewrite Nat.mul_comm. symmetry. apply Nat.div_exact; lia.
    + apply in_seq. split; [lia|]. cbn.
      assert (Hd : i = b * (i / b)) by (apply Nat.div_exact; lia).
      apply Nat.div_lt_upper_bound in Hi || idtac.
      assert (i / b < (n + b - 1) / b); [|lia].
      assert (n <= b * ((n + b - 1) / b)).
      { assert (n + b - 1 < b * S ((n + b - 1) / b)) by (apply Nat.mul_succ_div_gt; lia). nia. }
      nia.
Qed.

(** every column index lies in the block starting at the multiple of b below it *)
Definition blk (b p : nat) := b * (p / b).
Lemma blk_in k b p : 1 <= b -> p < k -> In (blk b p) (py_range k b) /\ in_blk (blk b p) (Nat.min b (k - blk b p)) p = true.
Proof.
  intros Hb Hp. unfold blk. assert (H1 := Nat.mul_div_le p b ltac:(lia)).
  assert (H2 := Nat.mul_succ_div_gt p b ltac:(lia)). split.
  - apply py_range_in; [lia|]. split; [lia|]. rewrite Nat.mul_comm. apply Nat.mod_mul. lia.
  - destruct (in_blk_spec (b * (p / b)) (Nat.min b (k - b * (p / b))) p) as [|n]; [reflexivity|]. exfalso. apply n. lia.
Qed.

(** Invariant: every entry written so far is right; [D] is the set of written entries. *)
Definition good (rows : list drow) (D : nat -> nat -> Prop) (G : bmat) : Prop :=
  forall p q, D p q -> G p q = inner rows p q.

Lemma put_block_good rows D G i bi j bj : good rows D G ->
  good rows (fun p q => D p q \/ (in_blk i bi p = true /\ in_blk j bj q = true)) (put_block rows i bi j bj G).
Proof.
  intros H p q Hpq. unfold put_block.
  destruct (in_blk i bi p && in_blk j bj q) eqn:E; [reflexivity|].
  apply H. destruct Hpq as [h|[h1 h2]]; [exact h|]. rewrite h1, h2 in E. discriminate.
Qed.
Lemma put_transpose_good rows D G i bi j bj : good rows D G ->
  (forall p q, in_blk i bi p = true -> in_blk j bj q = true -> D p q) ->
  good rows (fun p q => D p q \/ (in_blk j bj p = true /\ in_blk i bi q = true)) (put_transpose i bi j bj G).
Proof.
  intros H HD p q Hpq. unfold put_transpose.
  destruct (in_blk j bj p && in_blk i bi q) eqn:E.
  - apply andb_true_iff in E as [E1 E2]. rewrite (H q p) by (apply HD; assumption). apply inner_sym.
  - apply H. destruct Hpq as [h|[h1 h2]]; [exact h|]. rewrite h1, h2 in E. discriminate.
Qed.

Lemma good_weaken rows (D D' : nat -> nat -> Prop) G : (forall p q, D' p q -> D p q) -> good rows D G -> good rows D' G.
Proof. intros H HG p q Hpq. apply HG, H, Hpq. Qed.

Definition W_ij b k i j : nat -> nat -> Prop := fun p q =>
  (in_blk i (Nat.min b (k - i)) p = true /\ in_blk j (Nat.min b (k - j)) q = true) \/
  (in_blk j (Nat.min b (k - j)) p = true /\ in_blk i (Nat.min b (k - i)) q = true).

Lemma tile_inner_good rows k b i js : forall D G, good rows D G ->
  good rows (fun p q => D p q \/ exists j, In j js /\ W_ij b k i j p q)
    (fold_left (fun G j =>
      let bj := Nat.min b (k - j) in
      let G1 := put_block rows i (Nat.min b (k - i)) j bj G in
      if (i =? j)%nat then G1 else put_transpose i (Nat.min b (k - i)) j bj G1) js G).
Proof.
  induction js as [|j js IH]; intros D G HG.
  - cbn. eapply good_weaken; [|exact HG]. intros p q [h|[j [[] _]]]. exact h.
  - cbn [fold_left]. set (bi := Nat.min b (k - i)). set (bj := Nat.min b (k - j)).
    assert (H1 := put_block_good rows D G i bi j bj HG).
    assert (H2 : good rows (fun p q => D p q \/ W_ij b k i j p q)
      (if i =? j then put_block rows i bi j bj G else put_transpose i bi j bj (put_block rows i bi j bj G))).
    { destruct (Nat.eqb_spec i j) as [->|Hn].
      - eapply good_weaken; [|exact H1]. unfold W_ij. subst bi bj. intros p q; cbn. intuition.
      - assert (H2 := put_transpose_good rows _ _ i bi j bj H1 ltac:(intros; right; auto)).
        eapply good_weaken; [|exact H2]. unfold W_ij. subst bi bj. intros p q; cbn. intuition. }
    specialize (IH _ _ H2). eapply good_weaken; [|exact IH].
    intros p q [h|[j' [[<-|Hj] Hw]]]; [left; left; exact h|left; right; exact Hw|right; exists j'; auto].
Qed.

Lemma tile_outer_good rows k b is : forall D G, good rows D G ->
  good rows (fun p q => D p q \/ exists i j, In i is /\ In j (py_range_from i k b) /\ W_ij b k i j p q)
    (fold_left (fun G i => tile_inner_loop rows k b i G) is G).
Proof.
  induction is as [|i is IH]; intros D G HG.
  - cbn. eapply good_weaken; [|exact HG]. intros p q [h|[i [j [[] _]]]]. exact h.
  - cbn [fold_left]. specialize (IH _ _ (tile_inner_good rows k b i (py_range_from i k b) D G HG)).
    eapply good_weaken; [|exact IH].
    intros p q [h|[i' [j [[<-|Hi] [Hj Hw]]]]]; [left; left; exact h|left; right; exists j; auto|].
    right. exists i', j. auto.
Qed.

Lemma py_range_from_in i k b j : 1 <= b -> In i (py_range k b) -> In j (py_range k b) -> i <= j ->
  In j (py_range_from i k b).
Proof.
  intros Hb Hi Hj Hij. unfold py_range_from. apply in_map_iff. exists (j - i).
  apply py_range_in in Hi as [Hi1 Hi2]; [|lia]. apply py_range_in in Hj as [Hj1 Hj2]; [|lia].
  split; [lia|]. apply py_range_in; [lia|]. split; [lia|].
  apply Nat.div_exact in Hi2; [|lia]. apply Nat.div_exact in Hj2; [|lia].
  replace (j - i) with ((j / b - i / b) * b) by nia. apply Nat.mod_mul. lia.
Qed.

Lemma tile_gram_ok rows k b p q : 1 <= b -> p < k -> q < k -> tile_gram rows k b p q = inner rows p q.
Proof.
  intros Hb Hp Hq. unfold tile_gram.
  apply (tile_outer_good rows k b (py_range k b) (fun _ _ => False)); [intros ? ? []|].
  right. destruct (blk_in k b p Hb Hp) as [P1 P2], (blk_in k b q Hb Hq) as [Q1 Q2].
  destruct (Nat.le_gt_cases (blk b p) (blk b q)) as [h|h].
  - exists (blk b p), (blk b q). repeat split; auto; [apply py_range_from_in; auto|]. left. auto.
  - exists (blk b q), (blk b p). repeat split; auto; [apply py_range_from_in; auto; lia|]. right. auto.
Qed.

Lemma tile_rhs_fold rows k b is : forall v (D : nat -> Prop),
  (forall p, D p -> v p = rhs_entry rows p) ->
  forall p, D p \/ (exists i, In i is /\ in_blk i (Nat.min b (k - i)) p = true) ->
  fold_left (fun v i => let bi := Nat.min b (k - i) in
     fun p => if in_blk i bi p then rhs_entry rows p else v p) is v p = rhs_entry rows p.
Proof.
  induction is as [|i is IH]; intros v D Hv p Hp.
  - cbn. apply Hv. destruct Hp as [h|[i [[] _]]]. exact h.
  - cbn [fold_left]. apply (IH _ (fun p => D p \/ in_blk i (Nat.min b (k - i)) p = true)).
    + intros p' [h|h]; cbn; [destruct (in_blk i _ p'); auto | rewrite h; reflexivity].
    + destruct Hp as [h|[i' [[<-|Hi] h]]]; [left; auto|left; auto|right; exists i'; auto].
Qed.
Lemma tile_rhs_ok rows k b p : 1 <= b -> p < k -> tile_rhs rows k b p = rhs_entry rows p.
Proof.
  intros Hb Hp. unfold tile_rhs. apply (tile_rhs_fold rows k b _ _ (fun _ => False)); [intros ? []|].
  right. destruct (blk_in k b p Hb Hp) as [P1 P2]. exists (blk b p). auto.
Qed.

Lemma weighted_gram_ok rows k b : 1 <= b ->
  (forall p q, p < k -> q < k -> fst (weighted_gram rows k b) p q = inner rows p q) /\
  (forall p, p < k -> snd (weighted_gram rows k b) p = rhs_entry rows p).
Proof.
  intros Hb. unfold weighted_gram. destruct (k <=? b); cbn; [auto|].
  split; intros; [apply tile_gram_ok | apply tile_rhs_ok]; auto.
Qed.
