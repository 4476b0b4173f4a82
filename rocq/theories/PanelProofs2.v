From Verif Require Import Base ListLib PanelModel PanelSpec PanelProofs.
Local Open Scope nat_scope.
Local Open Scope list_scope.

(** ** Deduplication *)
Lemma filter_none {A} (p : A -> bool) l : (forall a, In a l -> p a = false) -> filter p l = [].
Proof.
  induction l as [|a l IH]; intros H; [reflexivity|]. cbn. rewrite H by (left; reflexivity).
  apply IH. intros; apply H; right; assumption.
Qed.
Lemma filter_head_split {A} (p : A -> bool) l r rest : filter p l = r :: rest ->
  exists l1 l2, l = l1 ++ r :: l2 /\ (forall a, In a l1 -> p a = false) /\ p r = true /\ rest = filter p l2.
Proof.
  induction l as [|a l IH]; [discriminate|]. cbn. destruct (p a) eqn:P; intros E.
  - inversion E; subst. exists [], l. split; [reflexivity|split; [intros ? []|split; [exact P|reflexivity]]].
  - destruct (IH E) as [l1 [l2 [-> [H1 [H2 H3]]]]]. exists (a :: l1), l2.
    split; [reflexivity|split; [|split; assumption]]. intros b [<-|Hb]; [exact P|apply H1, Hb].
Qed.
Lemma pkey_pair {A} (r : prow A) : pkey r = (r_id r, r_t r). Proof. reflexivity. Qed.

Lemma dedup_first_in {A} keys (df : list (prow A)) r :
  enumerates keys (fun k => observed df (fst k) (snd k)) ->
  (In r (dedup_first keys df) <->
   exists l1 l2, df = l1 ++ r :: l2 /\ forall q, In q l1 -> pkey q <> pkey r).
Proof.
  intros [N H]. unfold dedup_first. rewrite in_flat_map. split.
  - intros [k [Hk Hr]]. destruct (rows_at df k) as [|r0 rest] eqn:E; [destruct Hr|].
    destruct Hr as [->|[]]. apply filter_head_split in E as [l1 [l2 [-> [H1 [H2 _]]]]].
    exists l1, l2. split; [reflexivity|]. intros q Hq. specialize (H1 q Hq).
    destruct (pair_eqb_spec (pkey q) k); [discriminate|]. destruct (pair_eqb_spec (pkey r) k); congruence.
  - intros [l1 [l2 [-> H1]]]. exists (pkey r). split.
    + apply H. exists r. split; [apply in_elt|auto].
    + unfold rows_at. rewrite filter_app, filter_none.
      * cbn. destruct (pair_eqb_spec (pkey r) (pkey r)); [left; reflexivity|congruence].
      * intros q Hq. specialize (H1 q Hq). destruct (pair_eqb_spec (pkey q) (pkey r)); congruence.
Qed.
Lemma filter_rev {A} (p : A -> bool) l : filter p (rev l) = rev (filter p l).
Proof.
  induction l as [|a l IH]; [reflexivity|]. cbn. rewrite filter_app, IH. cbn. destruct (p a); cbn; [reflexivity|apply app_nil_r].
Qed.
Lemma observed_perm {A} (df df' : list (prow A)) i t : (forall r, In r df <-> In r df') -> (observed df i t <-> observed df' i t).
Proof. intros H. split; intros [r [h1 h2]]; exists r; (split; [apply H, h1|exact h2]). Qed.
Lemma dedup_last_rev {A} keys (df : list (prow A)) : dedup_last keys df = dedup_first keys (rev df).
Proof. unfold dedup_last, dedup_first. rewrite !flat_map_concat_map. f_equal. apply map_ext. intros k. unfold rows_at. rewrite filter_rev. reflexivity. Qed.
Lemma enum_rev {A} keys (df : list (prow A)) :
  enumerates keys (fun k => observed df (fst k) (snd k)) ->
  enumerates keys (fun k => observed (rev df) (fst k) (snd k)).
Proof.
  intros [N H]. split; [exact N|]. intros k. rewrite H. apply observed_perm. intros r. apply in_rev.
Qed.
Lemma dedup_last_in {A} keys (df : list (prow A)) r :
  enumerates keys (fun k => observed df (fst k) (snd k)) ->
  (In r (dedup_last keys df) <->
   exists l1 l2, df = l1 ++ r :: l2 /\ forall q, In q l2 -> pkey q <> pkey r).
Proof.
  intros H. rewrite dedup_last_rev, dedup_first_in by (apply enum_rev, H). split.
  - intros [l1 [l2 [E Hq]]]. exists (rev l2), (rev l1). split.
    + rewrite <- (rev_involutive df), E, rev_app_distr. cbn. rewrite <- app_assoc. reflexivity.
    + intros q h. apply Hq, in_rev, h.
  - intros [l1 [l2 [-> Hq]]]. exists (rev l2), (rev l1). split.
    + rewrite rev_app_distr. cbn. rewrite <- app_assoc. reflexivity.
    + intros q h. apply Hq, in_rev, h.
Qed.

Lemma pick_keys {A B} (f : Z * Z -> list (prow A)) (df : list (prow B)) keys :
  (forall k, In k keys -> exists r, f k = [r] /\ pkey r = k) -> map pkey (flat_map f keys) = keys.
Proof.
  induction keys as [|k keys IH]; intros H; [reflexivity|]. cbn.
  destruct (H k (or_introl eq_refl)) as [r [-> E]]. cbn. rewrite E. f_equal. apply IH. intros; apply H; right; assumption.
Qed.
Lemma dedup_first_keys {A} keys (df : list (prow A)) :
  enumerates keys (fun k => observed df (fst k) (snd k)) -> map pkey (dedup_first keys df) = keys.
Proof.
  intros [N H]. apply (pick_keys _ df). intros k Hk.
  apply H in Hk as [r [Hr [E1 E2]]].
  assert (X : In r (rows_at df k)) by (apply in_rows_at; split; [exact Hr|]; unfold pkey; destruct k; cbn in *; congruence).
  destruct (rows_at df k) as [|r0 rs] eqn:E; [destruct X|]. exists r0. split; [reflexivity|].
  apply (in_rows_at df). rewrite E. left; reflexivity.
Qed.
Lemma dedup_last_keys {A} keys (df : list (prow A)) :
  enumerates keys (fun k => observed df (fst k) (snd k)) -> map pkey (dedup_last keys df) = keys.
Proof. intros H. rewrite dedup_last_rev. apply dedup_first_keys, enum_rev, H. Qed.
Lemma dedup_mean_keys {B} n keys (df : list (prow (list (option Qc) * B))) :
  enumerates keys (fun k => observed df (fst k) (snd k)) -> map pkey (dedup_mean n keys df) = keys.
Proof.
  intros [N H]. apply (pick_keys _ df). intros k Hk.
  apply H in Hk as [r [Hr [E1 E2]]].
  assert (X : In r (rows_at df k)) by (apply in_rows_at; split; [exact Hr|]; unfold pkey; destruct k; cbn in *; congruence).
  destruct (rows_at df k) as [|r0 rs] eqn:E; [destruct X|]. eexists. split; [reflexivity|]. destruct k; reflexivity.
Qed.
Lemma keys_obs {A} (df : list (prow A)) keys (out : list (prow A)) :
  enumerates keys (fun k => observed df (fst k) (snd k)) -> map pkey out = keys ->
  unique_pairs out /\ (forall i t, observed out i t <-> observed df i t).
Proof.
  intros [N H] E. split; [unfold unique_pairs; rewrite E; exact N|].
  intros i t. rewrite <- in_pkey, E, H. reflexivity.
Qed.
Lemma enum_unique {A} (df : list (prow A)) keys :
  enumerates keys (fun k => observed df (fst k) (snd k)) -> unique_pairs df ->
  Permutation keys (map pkey df).
Proof.
  intros [N H] U. apply NoDup_Permutation; [exact N|exact U|]. intros [i t]. rewrite H, in_pkey. reflexivity.
Qed.
Lemma rows_at_unique {A} (df : list (prow A)) r : unique_pairs df -> In r df -> rows_at df (pkey r) = [r].
Proof.
  intros U H. apply in_split in H as [l1 [l2 ->]]. unfold unique_pairs in U. rewrite map_app in U. cbn in U.
  apply NoDup_remove_2 in U. unfold rows_at. rewrite filter_app. cbn.
  destruct (pair_eqb_spec (pkey r) (pkey r)) as [_|]; [|congruence].
  rewrite !filter_none; [reflexivity| |]; intros q Hq; destruct (pair_eqb_spec (pkey q) (pkey r)) as [E|]; try reflexivity;
    exfalso; apply U; rewrite <- E; apply in_app_iff; [right|left]; apply in_map, Hq.
Qed.
Lemma dedup_first_unique {A} keys (df : list (prow A)) :
  enumerates keys (fun k => observed df (fst k) (snd k)) -> unique_pairs df -> Permutation (dedup_first keys df) df.
Proof.
  intros H U. unfold dedup_first.
  rewrite (enum_unique df keys H U).
  assert (E : flat_map (fun k => firstn 1 (rows_at df k)) (map pkey df) = df); [|rewrite E; reflexivity].
  rewrite flat_map_concat_map, map_map.
  rewrite (map_ext_in _ (fun r => [r])).
  - induction df as [|r df' IH]; [reflexivity|]. cbn. f_equal. clear. induction df' as [|r df' IH]; [reflexivity|]. cbn. f_equal. exact IH.
  - intros r Hr. rewrite rows_at_unique by assumption. reflexivity.
Qed.
Lemma unique_rev {A} (df : list (prow A)) : unique_pairs df -> unique_pairs (rev df).
Proof. unfold unique_pairs. rewrite map_rev. apply NoDup_rev. Qed.
Lemma dedup_last_unique {A} keys (df : list (prow A)) :
  enumerates keys (fun k => observed df (fst k) (snd k)) -> unique_pairs df -> Permutation (dedup_last keys df) df.
Proof.
  intros H U. rewrite dedup_last_rev, dedup_first_unique; [symmetry; apply Permutation_rev|apply enum_rev, H|apply unique_rev, U].
Qed.

(** the mean strategy *)
Lemma dedup_mean_in {B} n keys (df : list (prow (list (option Qc) * B))) q :
  enumerates keys (fun k => observed df (fst k) (snd k)) -> In q (dedup_mean n keys df) ->
  length (fst (r_val q)) = n /\
  (forall j, j < n ->
     nth j (fst (r_val q)) None = pl_mean (map (fun r => nth j (fst (r_val r)) None) (rows_at df (pkey q)))) /\
  (exists l1 l2 r, df = l1 ++ r :: l2 /\ pkey r = pkey q /\ (forall s, In s l1 -> pkey s <> pkey q)
     /\ snd (r_val q) = snd (r_val r)).
Proof.
  intros [N H] Hq. unfold dedup_mean in Hq. apply in_flat_map in Hq as [k [Hk Hq]].
  destruct (rows_at df k) as [|r0 rs] eqn:E; [destruct Hq|]. destruct Hq as [<-|[]].
  assert (Ek : forall v : list (option Qc) * B, pkey (PRow (fst k) (snd k) v) = k) by (intros; destruct k; reflexivity).
  rewrite !Ek. cbn [r_val fst snd].
  split; [rewrite map_length, seq_length; reflexivity|]. split.
  - intros j Hj. rewrite E.
    set (g := fun j0 => pl_mean (map (fun q => nth j0 (fst (r_val q)) None) (r0 :: rs))).
    rewrite (nth_indep _ None (g 0)) by (rewrite map_length, seq_length; exact Hj).
    rewrite (map_nth g). rewrite seq_nth by exact Hj. reflexivity.
  - apply filter_head_split in E as [l1 [l2 [-> [H1 [H2 _]]]]]. exists l1, l2, r0.
    split; [reflexivity|]. destruct (pair_eqb_spec (pkey r0) k) as [->|]; [|discriminate].
    split; [reflexivity|]. split; [|reflexivity].
    intros s Hs. specialize (H1 s Hs). destruct (pair_eqb_spec (pkey s) k); congruence.
Qed.

(** ** get_group *)
Lemma treated_spec {A} (treat : A -> option Qc) r :
  treated treat r = true <-> exists d, treat (r_val r) = Some d /\ (0 < d)%Qc.
Proof.
  unfold treated. destruct (treat (r_val r)) as [d|].
  - rewrite negb_true_iff. unfold Qcleb. split.
    + intros E. exists d. split; [reflexivity|]. apply Qclt_alt. unfold Qcle in *.
      destruct (Qccompare 0 d) eqn:X; [| reflexivity|]; exfalso.
      * apply Qceq_alt in X. subst d. discriminate E.
      * apply Qcgt_alt in X. apply Qclt_le_weak in X. unfold Qcle in X.
        apply Qle_bool_iff in X. congruence.
    + intros [d' [E H]]. inversion E; subst d'. destruct (Qle_bool d (Q2Qc 0)) eqn:X; [|reflexivity].
      apply Qle_bool_iff in X. exfalso. apply (Qclt_not_le _ _ H). exact X.
  - split; [discriminate|]. intros [d [E _]]. discriminate.
Qed.
Lemma treated_at_iff {A} (treat : A -> option Qc) df i t :
  treated_at treat df i t <-> exists r, In r df /\ r_id r = i /\ r_t r = t /\ treated treat r = true.
Proof.
  split.
  - intros [r [d [h1 [h2 [h3 [h4 h5]]]]]]. exists r. split; [exact h1|split; [exact h2|split; [exact h3|]]].
    apply treated_spec. exists d. auto.
  - intros [r [h1 [h2 [h3 h4]]]]. apply treated_spec in h4 as [d [h4 h5]]. exists r, d. auto.
Qed.

Lemma first_treat_in {A} (treat : A -> option Qc) seen l r :
  In r (first_treat_rows treat seen l) <->
  exists l1 l2, l = l1 ++ r :: l2 /\ treated treat r = true /\
    forall s, In s seen \/ In s l1 -> r_id s = r_id r -> treated treat s = false.
Proof.
  revert seen. induction l as [|a l IH]; intros seen.
  - cbn. split; [intros []|]. intros [l1 [l2 [E _]]]. destruct l1; discriminate.
  - cbn [first_treat_rows]. cbv zeta.
    set (c := length (filter (fun s => (r_id s =? r_id a)%Z && treated treat s) seen)).
    assert (Hc : c = 0 <-> forall s, In s seen -> r_id s = r_id a -> treated treat s = false).
    { unfold c. split.
      - intros E s Hs Ei. apply length_zero_iff_nil in E. destruct (treated treat s) eqn:T; [|reflexivity].
        assert (X : In s (filter (fun s => (r_id s =? r_id a)%Z && treated treat s) seen)).
        { apply filter_In. split; [exact Hs|]. rewrite Ei, Z.eqb_refl, T. reflexivity. }
        rewrite E in X. destruct X.
      - intros H. rewrite filter_none; [reflexivity|]. intros s Hs. destruct (Z.eqb_spec (r_id s) (r_id a)); [|reflexivity].
        cbn. apply H; assumption. }
    assert (Hb : (c + (if treated treat a then 1 else 0) =? 1) && treated treat a = true <-> c = 0 /\ treated treat a = true).
    { destruct (treated treat a); rewrite ?andb_false_r, ?andb_true_r, ?Nat.eqb_eq; intuition (try lia; try discriminate). }
    assert (IH' := IH (a :: seen)).
    assert (R : In r (first_treat_rows treat (a :: seen) l) <->
      exists l1 l2, a :: l = (a :: l1) ++ r :: l2 /\ treated treat r = true /\
      forall s, In s seen \/ In s (a :: l1) -> r_id s = r_id r -> treated treat s = false).
    { rewrite IH'. split; intros [l1 [l2 [E [h1 h2]]]]; exists l1, l2.
      - subst l. split; [reflexivity|split; [exact h1|]]. intros s [h|[<-|h]]; apply h2; cbn; auto.
      - inversion E. split; [reflexivity|split; [exact h1|]]. intros s [[<-|h]|h]; apply h2; cbn; auto. }
    clear IH IH'.
    assert (D : In r (first_treat_rows treat (a :: seen) l) ->
      exists l1 l2, a :: l = l1 ++ r :: l2 /\ treated treat r = true /\
      forall s, In s seen \/ In s l1 -> r_id s = r_id r -> treated treat s = false).
    { intros h. apply R in h as [l1 [l2 h]]. exists (a :: l1), l2. exact h. }
    destruct ((c + (if treated treat a then 1 else 0) =? 1) && treated treat a) eqn:B.
    + apply proj1 in Hb. destruct (Hb eq_refl) as [C T]. split.
      * intros [<-|h]; [|exact (D h)]. exists [], l. split; [reflexivity|split; [exact T|]].
        intros s [h|[]]. apply Hc; [exact C|exact h].
      * intros [l1 [l2 [E [h1 h2]]]]. destruct l1 as [|b l1].
        -- inversion E. left. reflexivity.
        -- inversion E as [[E1 E2]]. subst b. rewrite <- E2. right. apply R. exists l1, l2. split; [exact E|split; assumption].
    + split; [exact D|]. intros [l1 [l2 [E [h1 h2]]]]. apply R. destruct l1 as [|b l1].
      * inversion E; subst a l2. exfalso. assert (X : false = true); [|discriminate]. apply Hb. split; [|exact h1].
        apply Hc. intros s Hs. apply h2. left; exact Hs.
      * inversion E as [[E1 E2]]. subst b. exists l1, l2. split; [reflexivity|split; assumption].
Qed.

Lemma ssorted_mid {A} (R : A -> A -> Prop) l1 r l2 : StronglySorted R (l1 ++ r :: l2) -> forall q, In q l2 -> R r q.
Proof.
  induction l1 as [|a l1 IH]; intros S; inversion S as [|? ? S1 F]; subst; [|apply IH, S1].
  rewrite Forall_forall in F. exact F.
Qed.
(** first element satisfying a decidable test *)
Lemma first_split {A} (p : A -> bool) l : (exists a, In a l /\ p a = true) ->
  exists l1 r l2, l = l1 ++ r :: l2 /\ p r = true /\ forall s, In s l1 -> p s = false.
Proof.
  induction l as [|a l IH]; intros [b [Hb Pb]]; [destruct Hb|]. destruct (p a) eqn:P.
  - exists [], a, l. split; [reflexivity|split; [exact P|intros ? []]].
  - destruct Hb as [->|Hb]; [congruence|]. destruct IH as [l1 [r [l2 [-> [h1 h2]]]]]; [exists b; auto|].
    exists (a :: l1), r, l2. split; [reflexivity|split; [exact h1|]]. intros s [<-|h]; [exact P|apply h2, h].
Qed.

Lemma get_group_spec {A} (treat : A -> option Qc) sorted df r g :
  sorted_version sorted df -> In (r, g) (get_group treat sorted df) -> In r df /\ is_group treat df (r_id r) g.
Proof.
  intros [P S] H. unfold get_group in H. apply in_map_iff in H as [r' [E H]]. inversion E; subst r'. clear E. rename H2 into Eg.
  split; [exact H|].
  assert (M : forall i t, treated_at treat df i t <-> exists q, In q sorted /\ r_id q = i /\ r_t q = t /\ treated treat q = true).
  { intros i t. rewrite treated_at_iff. split; intros [q [h1 h2]]; exists q; (split; [|exact h2]).
    - eapply Permutation_in; [symmetry; exact P|exact h1].
    - eapply Permutation_in; [exact P|exact h1]. }
  destruct (find (fun f => (r_id f =? r_id r)%Z) (first_treat_rows treat [] sorted)) as [f|] eqn:F; subst g.
  - left. apply find_some in F as [F1 F2]. apply Z.eqb_eq in F2.
    apply first_treat_in in F1 as [l1 [l2 [E [T N]]]]. split.
    + apply M. exists f. rewrite E. split; [apply in_elt|auto].
    + intros t Ht. apply M in Ht as [q [Hq [Eq [Et Tq]]]]. rewrite E in Hq.
      apply in_app_iff in Hq as [Hq|[->|Hq]].
      * rewrite N in Tq; [discriminate|right; exact Hq|congruence].
      * rewrite Et. reflexivity.
      * rewrite E in S. pose proof (ssorted_mid _ _ _ _ S q Hq) as [h|h]; lia.
  - right. split; [|reflexivity]. intros t Ht. apply M in Ht as [q [Hq [Eq [Et Tq]]]].
    destruct (first_split (fun s => (r_id s =? r_id r)%Z && treated treat s) sorted) as [l1 [f [l2 [E [h1 h2]]]]].
    { exists q. split; [exact Hq|]. rewrite Eq, Z.eqb_refl, Tq. reflexivity. }
    apply andb_true_iff in h1 as [h1 h3]. apply Z.eqb_eq in h1.
    assert (X : In f (first_treat_rows treat [] sorted)).
    { apply first_treat_in. exists l1, l2. split; [exact E|split; [exact h3|]].
      intros s [[]|Hs] Es. specialize (h2 s Hs). cbn in h2. rewrite Es, h1, Z.eqb_refl in h2. exact h2. }
    pose proof (find_none _ _ F f X) as Y. cbn in Y. rewrite h1, Z.eqb_refl in Y. discriminate.
Qed.
Lemma get_group_rows {A} (treat : A -> option Qc) sorted df : map fst (get_group treat sorted df) = df.
Proof. unfold get_group. rewrite map_map. cbn. apply map_id. Qed.
Lemma is_group_unique {A} (treat : A -> option Qc) df i g g' :
  is_group treat df i g -> is_group treat df i g' -> g = g'.
Proof.
  intros [[T L]|[N ->]] [[T' L']|[N' ->]].
  - pose proof (L _ T'). pose proof (L' _ T). lia.
  - exfalso. eapply N', T.
  - exfalso. eapply N, T'.
  - reflexivity.
Qed.
Lemma get_group_total {A} (treat : A -> option Qc) sorted df r :
  sorted_version sorted df -> In r df -> exists g, In (r, g) (get_group treat sorted df).
Proof. intros _ H. unfold get_group. eexists. apply in_map_iff. exists r. split; [reflexivity|exact H]. Qed.
Lemma treated_at_perm {A} (treat : A -> option Qc) df df' i t : Permutation df df' ->
  treated_at treat df i t -> treated_at treat df' i t.
Proof. intros P [r [d [h1 h2]]]. exists r, d. split; [eapply Permutation_in; eassumption|exact h2]. Qed.
Lemma is_group_perm {A} (treat : A -> option Qc) df df' i g : Permutation df df' ->
  is_group treat df i g -> is_group treat df' i g.
Proof.
  intros P [[T L]|[N ->]].
  - left. split; [eapply treated_at_perm; eassumption|]. intros t Ht. apply L. eapply treated_at_perm; [symmetry; exact P|exact Ht].
  - right. split; [|reflexivity]. intros t Ht. eapply N, treated_at_perm; [symmetry; exact P|exact Ht].
Qed.

Lemma get_group_static_spec {A} (treat : A -> option Qc) tp df r g :
  In (r, g) (get_group_static treat tp df) ->
  In r df /\ ((exists t, treated_at treat df (r_id r) t) /\ g = tp \/ never_treated treat df (r_id r) /\ g = 0%Z).
Proof.
  intros H. unfold get_group_static in H. apply in_map_iff in H as [r' [E H]]. inversion E; subst r'. clear E. rename H2 into Eg.
  split; [exact H|]. destruct (existsb (treated treat) (unit_rows df (r_id r))) eqn:X; subst g.
  - left. split; [|reflexivity]. apply existsb_exists in X as [q [Hq Tq]]. apply in_unit_rows in Hq as [Hq Eq].
    exists (r_t q). apply treated_at_iff. exists q. auto.
  - right. split; [|reflexivity]. intros t Ht. apply treated_at_iff in Ht as [q [Hq [Eq [Et Tq]]]].
    assert (Y : existsb (treated treat) (unit_rows df (r_id r)) = true); [|congruence].
    apply existsb_exists. exists q. split; [apply in_unit_rows; auto|exact Tq].
Qed.

(** ** first differences *)
Lemma fd_rows_fst {A} (y : A -> option Qc) seen l : map fst (fd_rows y seen l) = l.
Proof. revert seen; induction l as [|r l IH]; intros seen; [reflexivity|]. cbn. f_equal. apply IH. Qed.
Lemma fd_rows_in {A} (y : A -> option Qc) seen l r v : In (r, v) (fd_rows y seen l) ->
  exists l1 l2, l = l1 ++ r :: l2 /\
    v = osub (y (r_val r)) (match find (fun s => (r_id s =? r_id r)%Z) (rev l1 ++ seen) with Some s => y (r_val s) | None => None end).
Proof.
  revert seen; induction l as [|a l IH]; intros seen H; [destruct H|]. cbn [fd_rows] in H. destruct H as [H|H].
  - inversion H; subst. exists [], l. split; reflexivity.
  - apply IH in H as [l1 [l2 [-> Hv]]]. exists (a :: l1), l2. split; [reflexivity|]. cbn [rev]. rewrite <- app_assoc. exact Hv.
Qed.
Lemma ssorted_mid_l {A} (R : A -> A -> Prop) l1 r l2 : StronglySorted R (l1 ++ r :: l2) -> forall q, In q l1 -> R q r.
Proof.
  induction l1 as [|a l1 IH]; intros S q; [intros []|]. inversion S as [|? ? S1 F]; subst. intros [<-|Hq]; [|apply IH; assumption].
  rewrite Forall_forall in F. apply F. apply in_elt.
Qed.
Lemma find_rev_split {A} (p : A -> bool) l f : find p (rev l) = Some f ->
  exists l1 l2, l = l1 ++ f :: l2 /\ p f = true /\ forall s, In s l2 -> p s = false.
Proof.
  induction l as [|a l IH] using rev_ind; [discriminate|]. rewrite rev_app_distr. cbn.
  destruct (p a) eqn:P; intros E.
  - inversion E; subst. exists l, []. split; [reflexivity|split; [exact P|intros ? []]].
  - destruct (IH E) as [l1 [l2 [-> [h1 h2]]]]. exists l1, (l2 ++ [a]).
    split; [rewrite <- app_assoc; reflexivity|split; [exact h1|]]. intros s Hs. apply in_app_iff in Hs as [Hs|[<-|[]]]; [apply h2, Hs|exact P].
Qed.
Lemma first_difference_spec {A} (y : A -> option Qc) sorted df r v :
  sorted_version sorted df -> unique_pairs df -> In (r, v) (first_difference y sorted) ->
  In r df /\
  ((exists p, In p df /\ r_id p = r_id r /\ prev_period df (r_id r) (r_t r) (r_t p) /\ v = osub (y (r_val r)) (y (r_val p)))
   \/ ((forall u, observed df (r_id r) u -> (r_t r <= u)%Z) /\ v = None)).
Proof.
  intros [P S] U H. unfold first_difference in H. apply fd_rows_in in H as [l1 [l2 [E Hv]]].
  rewrite app_nil_r in Hv.
  assert (I : forall q, In q df <-> In q sorted) by (intros; split; apply Permutation_in; [symmetry|]; exact P).
  assert (Us : unique_pairs sorted).
  { unfold unique_pairs in *. eapply Permutation_NoDup; [apply Permutation_map; symmetry; exact P|exact U]. }
  assert (Hr : In r df) by (apply I; rewrite E; apply in_elt).
  split; [exact Hr|]. rewrite E in S.
  (* earlier rows of the unit in the frame are exactly the rows of l1 *)
  assert (B : forall q, In q sorted -> r_id q = r_id r -> (r_t q < r_t r)%Z <-> In q l1).
  { intros q Hq Eq. split.
    - intros L. rewrite E in Hq. apply in_app_iff in Hq as [Hq|[->|Hq]]; [exact Hq|lia|].
      pose proof (ssorted_mid _ _ _ _ S q Hq) as [h|h]; lia.
    - intros Hq1. pose proof (ssorted_mid_l _ _ _ _ S q Hq1) as [h|[h1 h2]]; [lia|].
      destruct (Z.eq_dec (r_t q) (r_t r)) as [Et|]; [|lia]. exfalso.
      unfold unique_pairs in Us. rewrite E, map_app in Us. cbn in Us. apply NoDup_remove_2 in Us.
      apply Us. apply in_app_iff. left. replace (pkey r) with (pkey q) by (unfold pkey; congruence). apply in_map, Hq1. }
  destruct (find (fun s => (r_id s =? r_id r)%Z) (rev l1)) as [p|] eqn:F.
  - left. apply find_rev_split in F as [m1 [m2 [El1 [Ep Hm]]]]. apply Z.eqb_eq in Ep. exists p.
    assert (Hp1 : In p l1) by (rewrite El1; apply in_elt).
    assert (Hp : In p sorted) by (rewrite E; apply in_app_iff; left; exact Hp1).
    split; [apply I, Hp|split; [exact Ep|split; [|exact Hv]]].
    split; [exists p; split; [apply I, Hp|auto]|]. split; [apply B; assumption|].
    intros u [q [Hq [Eq Eu]]] Lu. apply I in Hq. subst u. apply B in Lu; [|exact Hq|exact Eq].
    rewrite El1 in Lu. apply in_app_iff in Lu as [Lu|[->|Lu]].
    + assert (S1 : StronglySorted row_le (m1 ++ p :: m2 ++ r :: l2)).
      { rewrite El1, <- app_assoc in S. exact S. }
      pose proof (ssorted_mid_l _ _ _ _ S1 q Lu) as [h|h]; lia.
    + lia.
    + specialize (Hm q Lu). cbn in Hm. rewrite Eq, Z.eqb_refl in Hm. discriminate.
  - right. split; [|rewrite Hv; destruct (y (r_val r)); reflexivity].
    intros u [q [Hq [Eq Eu]]]. apply I in Hq. subst u. destruct (Z.lt_ge_cases (r_t q) (r_t r)) as [L|L]; [|exact L].
    apply B in L; [|exact Hq|exact Eq]. pose proof (find_none _ _ F q) as X. cbn in X. rewrite Eq, Z.eqb_refl in X.
    exfalso. assert (true = false); [apply X|discriminate]. apply in_rev. rewrite rev_involutive. exact L.
Qed.
