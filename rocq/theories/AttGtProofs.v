From Verif Require Import Base ListLib PreprocessModel PreprocessSpec PreprocessProofs PreprocessProofs2 AttGtModel AttGtSpec.
Local Open Scope nat_scope.

(** * last_before *)
Lemma last_snoc {A} (l : list A) a d : last (l ++ [a]) d = a.
Proof. induction l as [|b l IH]; [reflexivity|]. cbn [app]. destruct (l ++ [a]) eqn:E; [destruct l; discriminate|]. exact IH. Qed.
Lemma last_filter_seq (p : nat -> bool) n :
  match last (map Some (filter p (seq 0 n))) None with
  | Some i => i < n /\ p i = true /\ forall j, i < j < n -> p j = false
  | None => forall j, j < n -> p j = false
  end.
Proof.
  induction n as [|n IH]; [cbn; intros; lia|]. rewrite seq_S, filter_app'. cbn [Nat.add filter].
  destruct (p n) eqn:E.
  - rewrite map_app. cbn [map]. rewrite last_snoc. split; [lia|]. split; [exact E|]. intros; lia.
  - rewrite app_nil_r. destruct (last (map Some (filter p (seq 0 n))) None) as [i|].
    + destruct IH as [A [B C]]. split; [lia|]. split; [exact B|]. intros j Hj.
      destruct (Nat.eq_dec j n) as [->|]; [exact E|]. apply C. lia.
    + intros j Hj. destruct (Nat.eq_dec j n) as [->|]; [exact E|]. apply IH. lia.
Qed.
Lemma last_before_spec tps bound :
  match last_before tps bound with
  | Some i => is_last_before tps bound i
  | None => forall j, j < length tps -> (bound <= nth j tps 0)%Z
  end.
Proof.
  unfold last_before, is_last_before.
  assert (H := last_filter_seq (fun i => (nth i tps 0 <? bound)%Z) (length tps)).
  destruct (last _ None) as [i|].
  - destruct H as [A [B C]]. apply Z.ltb_lt in B. split; [exact A|]. split; [exact B|].
    intros j Hj. specialize (C j Hj). apply Z.ltb_ge in C. exact C.
  - intros j Hj. specialize (H j Hj). apply Z.ltb_ge in H. exact H.
Qed.

(** sorted periods *)
Lemma ssorted_nth l i j : StronglySorted Z.lt l -> i < j -> j < length l -> (nth i l 0 < nth j l 0)%Z.
Proof.
  intros H. revert i j. induction H as [|a l Hs IH Hf]; intros i j Hij Hj; [cbn in Hj; lia|].
  cbn in Hj. destruct j as [|j]; [lia|]. destruct i as [|i]; cbn.
  - rewrite Forall_forall in Hf. apply Hf, nth_In. lia.
  - apply IH; lia.
Qed.
Lemma ssorted_nth_le l i j : StronglySorted Z.lt l -> i <= j -> j < length l -> (nth i l 0 <= nth j l 0)%Z.
Proof.
  intros H Hij Hj. destruct (Nat.eq_dec i j) as [->|n]; [lia|].
  assert (nth i l 0 < nth j l 0)%Z by (apply ssorted_nth; auto; lia). lia.
Qed.
Lemma ssorted_nth_inv l i j : StronglySorted Z.lt l -> i < length l -> j < length l ->
  (nth i l 0 < nth j l 0)%Z -> i < j.
Proof.
  intros H Hi Hj Hlt. destruct (Nat.lt_ge_cases i j) as [h|h]; [exact h|].
  assert (nth j l 0 <= nth i l 0)%Z by (apply ssorted_nth_le; auto). lia.
Qed.

(** * Base index *)
Lemma base_index_in_range ant d b g t i : t + time_factor b < length (d_times d) ->
  base_index ant d b g t = Base i -> i < length (d_times d).
Proof.
  unfold base_index. intros Ht. assert (HL := last_before_spec (d_times d) (nth g (d_groups d) 0 - ant)%Z).
  destruct b.
  - destruct (last_before _ _) as [k|]; [|discriminate]. intros H; injection H as <-. apply HL.
  - destruct (is_post d Varying g t).
    + destruct (last_before _ _) as [k|]; [|discriminate]. intros H; injection H as <-. apply HL.
    + intros H; injection H as <-. cbn in Ht. lia.
Qed.
Lemma base_index_varying_le ant d g t i : StronglySorted Z.lt (d_times d) -> (0 <= ant)%Z ->
  t + 1 < length (d_times d) -> base_index ant d Varying g t = Base i -> i <= t.
Proof.
  intros S Ha Ht. unfold base_index. assert (HL := last_before_spec (d_times d) (nth g (d_groups d) 0 - ant)%Z).
  destruct (is_post d Varying g t) eqn:P; [|intros H; injection H as <-; lia].
  destruct (last_before _ _) as [k|]; [|discriminate]. intros H; injection H as <-.
  destruct HL as [A [B _]]. unfold is_post in P. apply Z.leb_le in P. cbn [time_factor] in P.
  assert (k < t + 1); [|lia]. apply (ssorted_nth_inv (d_times d)); auto. lia.
Qed.
Lemma later_period ant d b g t i : StronglySorted Z.lt (d_times d) -> (0 <= ant)%Z ->
  t + time_factor b < length (d_times d) -> base_index ant d b g t = Base i ->
  nth (Nat.max t i + time_factor b) (d_times d) 0%Z
  = Z.max (nth (t + time_factor b) (d_times d) 0%Z) (nth i (d_times d) 0%Z).
Proof.
  intros S Ha Ht HB. assert (Hi := base_index_in_range ant d b g t i Ht HB). destruct b; cbn [time_factor] in *.
  - rewrite !Nat.add_0_r in *. destruct (Nat.max_spec t i) as [[h ->]|[h ->]].
    + rewrite Z.max_r; [reflexivity|]. apply ssorted_nth_le; auto; lia.
    + rewrite Z.max_l; [reflexivity|]. apply ssorted_nth_le; auto; lia.
  - assert (i <= t) by (eapply base_index_varying_le; eauto). rewrite Nat.max_l by lia.
    rewrite Z.max_l; [reflexivity|]. apply ssorted_nth_le; auto; lia.
Qed.

(** * set_range and blocks *)
Lemma nth_error_combine_seq {A} (l : list A) s j :
  nth_error (combine (seq s (length l)) l) j = match nth_error l j with Some a => Some (s + j, a) | None => None end.
Proof.
  revert s j. induction l as [|a l IH]; intros s [|j]; cbn; auto.
  - rewrite Nat.add_0_r. reflexivity.
  - rewrite IH. replace (s + S j) with (S s + j) by lia. reflexivity.
Qed.
Lemma nth_error_set_range {A} s e (v : A) l j :
  nth_error (set_range s e v l) j =
  match nth_error l j with Some a => Some (if (s <=? j) && (j <? e) then v else a) | None => None end.
Proof.
  unfold set_range. rewrite nth_error_map, nth_error_combine_seq. destruct (nth_error l j); reflexivity.
Qed.
Lemma set_range_length {A} s e (v : A) l : length (set_range s e v l) = length l.
Proof. unfold set_range. rewrite map_length, combine_length, seq_length. lia. Qed.

Lemma block_start_cons a l k : block_start (a :: l) (S k) = a + block_start l k. Proof. reflexivity. Qed.
Lemma block_key (bs : list (grp * list row)) (dflt : row) :
  (forall p r, In p bs -> In r (snd p) -> r_g r = fst p) -> NoDup (map fst bs) ->
  forall j k, j < length (concat (map snd bs)) -> k < length bs ->
   ((block_start (map (fun p => length (snd p)) bs) k <= j < block_start (map (fun p => length (snd p)) bs) (S k))
    <-> r_g (nth j (concat (map snd bs)) dflt) = nth k (map fst bs) Inf).
Proof.
  induction bs as [|[g bl] bs IH]; intros HK N j k Hj Hk; [cbn in Hk; lia|].
  cbn [map concat fst snd] in *. inversion N as [|? ? Ng Nb]; subst.
  assert (HKb : forall p r, In p bs -> In r (snd p) -> r_g r = fst p) by (intros; apply HK; [right; assumption|assumption]).
  destruct (Nat.lt_ge_cases j (length bl)) as [h|h].
  - rewrite app_nth1 by exact h.
    assert (E : r_g (nth j bl dflt) = g) by (apply (HK (g, bl)); [left; reflexivity|apply nth_In, h]).
    rewrite E. destruct k as [|k].
    + cbn. unfold block_start. cbn. split; [reflexivity|lia].
    + cbn [nth map]. unfold block_start. cbn [firstn map sum_nat fold_right].
      fold (sum_nat (firstn k (map (fun p => length (snd p)) bs))). cbn [snd]. split; [lia|].
      intros E2. exfalso. cbn [fst] in Ng. apply Ng. rewrite E2. apply nth_In. rewrite map_length. cbn in Hk. lia.
  - rewrite app_nth2 by exact h. rewrite app_length in Hj. destruct k as [|k].
    + cbn [nth]. unfold block_start. cbn. split; [lia|]. intros E2. exfalso. cbn [fst] in Ng. apply Ng. rewrite <- E2.
      assert (Hin : In (nth (j - length bl) (concat (map snd bs)) dflt) (concat (map snd bs))) by (apply nth_In; lia).
      apply in_concat in Hin as [x [Hx Hr]]. apply in_map_iff in Hx as [p [<- Hp]].
      rewrite (HKb p _ Hp Hr). apply in_map, Hp.
    + cbn [nth]. rewrite <- (IH HKb Nb (j - length bl) k) by (cbn in Hk; lia).
      rewrite !block_start_cons. lia.
Qed.

(** * Cohort index of a list of units sorted by group *)
Section CohortIndex.
  Context (units : list row) (sorted : StronglySorted (fun a b => grp_leb (r_g a) (r_g b) = true) units).
  Let ks := uniq grp_eqb (map r_g units).
  Let bs := map (fun g => (g, filter (fun r => grp_eqb (r_g r) g) units)) ks.

  Lemma bs_units : concat (map snd bs) = units.
  Proof.
    unfold bs. rewrite map_map. cbn. rewrite <- flat_map_concat_map. symmetry.
    apply (sorted_blocks grp_eqb grp_eqb_spec (fun a b => grp_leb a b = true)); [apply grp_leb_anti|exact sorted].
  Qed.
  Lemma bs_keys : map fst bs = ks. Proof. unfold bs. rewrite map_map. apply map_id. Qed.
  Lemma bs_sizes : map (fun p => length (snd p)) bs = map snd (cohort_counts units).
  Proof. unfold bs, cohort_counts. rewrite !map_map. reflexivity. Qed.
  Lemma cohorts_keys : map fst (cohort_counts units) = ks.
  Proof. unfold cohort_counts. rewrite map_map. apply map_id. Qed.

  Lemma in_block j k dflt : j < length units -> k < length ks ->
    ((block_start (map snd (cohort_counts units)) k <= j < block_start (map snd (cohort_counts units)) (S k))
     <-> r_g (nth j units dflt) = nth k ks Inf).
  Proof.
    intros Hj Hk. rewrite <- bs_sizes, <- bs_keys. rewrite <- bs_units at 1. apply block_key.
    - intros [g bl] r Hp Hr. unfold bs in Hp. apply in_map_iff in Hp as [g' [E _]]. injection E as <- <-.
      cbn in Hr. apply filter_In in Hr as [_ Hr]. destruct (grp_eqb_spec (r_g r) g'); [assumption|discriminate].
    - rewrite bs_keys. apply (uniq_nodup grp_eqb grp_eqb_spec).
    - rewrite bs_units. exact Hj.
    - unfold bs. rewrite map_length. exact Hk.
  Qed.

  Lemma control_fold (cond : grp -> bool) j dflt : j < length units ->
    forall m, m <= length ks -> forall ix, nth_error ix j <> None ->
    nth_error (fold_left (fun ix k => if cond (nth k ks Inf)
                then set_range (block_start (map snd (cohort_counts units)) k) (block_start (map snd (cohort_counts units)) (S k)) (Some false) ix else ix)
              (seq 0 m) ix) j
    = if existsb (fun k => cond (nth k ks Inf) && grp_eqb (r_g (nth j units dflt)) (nth k ks Inf)) (seq 0 m)
      then Some (Some false) else nth_error ix j.
  Proof.
    intros Hj. induction m as [|m IH]; intros Hm ix Hix; [reflexivity|].
    rewrite seq_S, fold_left_app. cbn [Nat.add fold_left]. rewrite existsb_app. cbn [existsb].
    specialize (IH ltac:(lia) ix Hix).
    set (F := fold_left _ (seq 0 m) ix) in *. clearbody F.
    destruct (cond (nth m ks Inf)) eqn:Ec; cbn [andb].
    - rewrite nth_error_set_range, IH.
      assert (IB := in_block j m dflt Hj ltac:(lia)).
      destruct (grp_eqb_spec (r_g (nth j units dflt)) (nth m ks Inf)) as [e|n].
      + apply IB in e. rewrite orb_true_r.
        destruct (Nat.leb_spec (block_start (map snd (cohort_counts units)) m) j); [|lia].
        destruct (Nat.ltb_spec j (block_start (map snd (cohort_counts units)) (S m))); [|lia]. cbn [andb].
        destruct (existsb _ (seq 0 m)); [reflexivity|]. destruct (nth_error ix j); [reflexivity|congruence].
      + rewrite !orb_false_r.
        replace ((block_start (map snd (cohort_counts units)) m <=? j) && (j <? block_start (map snd (cohort_counts units)) (S m))) with false.
        * destruct (existsb _ (seq 0 m)); [reflexivity|]. destruct (nth_error ix j); reflexivity.
        * symmetry. apply andb_false_iff. rewrite Nat.leb_gt, Nat.ltb_ge.
          destruct (Nat.lt_ge_cases j (block_start (map snd (cohort_counts units)) m)); [auto|].
          destruct (Nat.lt_ge_cases j (block_start (map snd (cohort_counts units)) (S m))); [|auto].
          exfalso. apply n, IB. lia.
    - rewrite !orb_false_r. exact IH.
  Qed.

  Lemma find_index_spec {A} (p : A -> bool) l d :
    match find_index p l with
    | Some k => k < length l /\ p (nth k l d) = true
    | None => forall x, In x l -> p x = false
    end.
  Proof.
    induction l as [|a l IH]; cbn; [intros ? []|]. destruct (p a) eqn:E; [split; [lia|exact E]|].
    destruct (find_index p l) as [k|]; cbn.
    - destruct IH. split; [lia|assumption].
    - intros x [<-|h]; auto.
  Qed.

  Lemma nth_keys j dflt : j < length units -> exists k, k < length ks /\ nth k ks Inf = r_g (nth j units dflt).
  Proof.
    intros Hj. assert (H : In (r_g (nth j units dflt)) ks).
    { unfold ks. apply (uniq_in grp_eqb grp_eqb_spec). apply in_map, nth_In, Hj. }
    apply (In_nth _ _ Inf) in H as [k [A B]]. eauto.
  Qed.

  Lemma index_general (cond : grp -> bool) (g0 : grp) j dflt n : j < length units -> n = length units ->
    nth_error
     (let ix := fold_left (fun ix k => if cond (nth k ks Inf)
                then set_range (block_start (map snd (cohort_counts units)) k) (block_start (map snd (cohort_counts units)) (S k)) (Some false) ix else ix)
              (seq 0 (length ks)) (repeat None n) in
      match find_index (fun g => grp_eqb g g0) ks with
      | Some k => set_range (block_start (map snd (cohort_counts units)) k) (block_start (map snd (cohort_counts units)) (S k)) (Some true) ix
      | None => ix
      end) j
    = Some (if grp_eqb (r_g (nth j units dflt)) g0 then Some true
            else if cond (r_g (nth j units dflt)) then Some false else None).
  Proof.
    intros Hj ->. cbn zeta.
    assert (HR : nth_error (repeat (@None bool) (length units)) j = Some None).
    { rewrite (nth_error_nth' _ None) by (rewrite repeat_length; exact Hj). rewrite nth_repeat. reflexivity. }
    assert (HF := control_fold cond j dflt Hj (length ks) (le_n _) (repeat None (length units)) ltac:(rewrite HR; discriminate)).
    rewrite HR in HF. set (F := fold_left _ _ _) in *. clearbody F.
    assert (HF' : nth_error F j = Some (if cond (r_g (nth j units dflt)) then Some false else None)).
    { rewrite HF. destruct (nth_keys j dflt Hj) as [k [Hk Ek]].
      destruct (existsb _ (seq 0 (length ks))) eqn:Ex.
      - apply existsb_exists in Ex as [k' [_ H]]. apply andb_true_iff in H as [H1 H2].
        destruct (grp_eqb_spec (r_g (nth j units dflt)) (nth k' ks Inf)) as [e|]; [|discriminate]. rewrite e, H1. reflexivity.
      - destruct (cond (r_g (nth j units dflt))) eqn:Ec; [|reflexivity].
        assert (X : existsb (fun k => cond (nth k ks Inf) && grp_eqb (r_g (nth j units dflt)) (nth k ks Inf)) (seq 0 (length ks)) = true).
        { apply existsb_exists. exists k. split; [apply in_seq; lia|]. rewrite Ek, Ec. cbn.
          destruct (grp_eqb_spec (r_g (nth j units dflt)) (r_g (nth j units dflt))); [reflexivity|congruence]. }
        congruence. }
    assert (FI := find_index_spec (fun g => grp_eqb g g0) ks Inf).
    destruct (find_index (fun g => grp_eqb g g0) ks) as [k|].
    - destruct FI as [Hk Eg]. destruct (grp_eqb_spec (nth k ks Inf) g0) as [e|]; [|discriminate].
      rewrite nth_error_set_range, HF'. assert (IB := in_block j k dflt Hj Hk). rewrite e in IB.
      destruct (grp_eqb_spec (r_g (nth j units dflt)) g0) as [e'|n].
      + apply IB in e'.
        destruct (Nat.leb_spec (block_start (map snd (cohort_counts units)) k) j); [|lia].
        destruct (Nat.ltb_spec j (block_start (map snd (cohort_counts units)) (S k))); [|lia]. reflexivity.
      + replace ((block_start (map snd (cohort_counts units)) k <=? j) && (j <? block_start (map snd (cohort_counts units)) (S k))) with false; [reflexivity|].
        symmetry. apply andb_false_iff. rewrite Nat.leb_gt, Nat.ltb_ge.
        destruct (Nat.lt_ge_cases j (block_start (map snd (cohort_counts units)) k)); [auto|].
        destruct (Nat.lt_ge_cases j (block_start (map snd (cohort_counts units)) (S k))); [|auto].
        exfalso. apply n, IB. lia.
    - rewrite HF'. destruct (grp_eqb_spec (r_g (nth j units dflt)) g0) as [e|n]; [|reflexivity].
      destruct (nth_keys j dflt Hj) as [k [Hk Ek]]. specialize (FI (nth k ks Inf) (nth_In _ _ Hk)).
      rewrite Ek, e in FI. destruct (grp_eqb_spec g0 g0); [discriminate|congruence].
  Qed.

  Lemma ks_sorted : StronglySorted (fun a b => grp_leb a b = true) ks.
  Proof. apply (uniq_sorted grp_eqb grp_eqb_spec (fun a b => grp_leb a b = true)). apply ssorted_map. exact sorted. Qed.
End CohortIndex.

(** * Control bounds *)
Lemma ssorted_last_grp l : StronglySorted (fun a b => grp_leb a b = true) l -> forall x, In x l -> grp_leb x (last l Inf) = true.
Proof.
  assert (R : forall a, grp_leb a a = true) by (intros [z|]; cbn; [apply Z.leb_refl|reflexivity]).
  induction 1 as [|a l Hs IH Hf]; intros x Hx; [destruct Hx|]. destruct l as [|b l].
  - destruct Hx as [->|[]]. apply R.
  - change (last (a :: b :: l) Inf) with (last (b :: l) Inf). destruct Hx as [<-|Hx]; [|apply IH, Hx].
    rewrite Forall_forall in Hf. apply Hf. apply last_in. discriminate.
Qed.
Lemma grp_leb_inf g : grp_leb g Inf = true. Proof. destruct g; reflexivity. Qed.

Lemma max_control_ge d g : StronglySorted (fun a b => grp_leb a b = true) (map fst (d_cohorts d)) ->
  In g (map fst (d_cohorts d)) -> grp_leb g (max_control d) = true.
Proof.
  intros S Hg. unfold max_control. destruct (existsb _ _); [apply grp_leb_inf|]. apply ssorted_last_grp; assumption.
Qed.

Lemma min_control_spec c d b t pre g :
  StronglySorted (fun a b => grp_leb a b = true) (map fst (d_cohorts d)) -> In g (map fst (d_cohorts d)) ->
  grp_leb (min_control c d b t pre) g
  = if c_never c then grp_is_inf g
    else grp_gtz g (nth (Nat.max t pre + time_factor b) (d_times d) 0 + c_ant c)%Z.
Proof.
  intros S Hg. unfold min_control. destruct (c_never c); [destruct g; reflexivity|].
  set (rel := (nth _ (d_times d) 0 + c_ant c)%Z).
  destruct (filter (fun g => grp_gtz g rel) (map fst (d_cohorts d))) as [|g1 rest] eqn:F.
  - assert (X : grp_gtz g rel = false).
    { destruct (grp_gtz g rel) eqn:E; [|reflexivity]. assert (In g []); [|contradiction]. rewrite <- F. apply filter_In. auto. }
    rewrite X. destruct g; [reflexivity|discriminate].
  - assert (S' : StronglySorted (fun a b => grp_leb a b = true) (g1 :: rest)) by (rewrite <- F; apply ssorted_filter, S).
    assert (H1 : grp_gtz g1 rel = true).
    { assert (In g1 (g1 :: rest)) by (left; reflexivity). rewrite <- F in H. apply filter_In in H. apply H. }
    destruct (grp_gtz g rel) eqn:E.
    + assert (In g (g1 :: rest)) by (rewrite <- F; apply filter_In; auto).
      inversion S' as [|? ? _ Hf]; subst. rewrite Forall_forall in Hf.
      destruct H as [<-|H]; [destruct g1; cbn; [apply Z.leb_refl|reflexivity]|apply Hf, H].
    + destruct g1 as [a|], g as [z|]; cbn in *; try reflexivity; try discriminate.
      apply Z.leb_gt. apply Z.ltb_lt in H1. apply Z.ltb_ge in E. lia.
Qed.

Lemma fold_left_ext_in {A B} (f g : A -> B -> A) l : (forall a b, In b l -> f a b = g a b) -> forall a, fold_left f l a = fold_left g l a.
Proof.
  induction l as [|b l IH]; intros H a; [reflexivity|]. cbn. rewrite H by (left; reflexivity). apply IH.
  intros; apply H; right; assumption.
Qed.

(** Role of position [j], computed. *)
Definition role_of (c : pconfig) (d : did_data) (b : base_mode) (g_idx t_idx pre : nat) (g : grp) : option bool :=
  if grp_eqb g (Fin (nth g_idx (d_groups d) 0%Z)) then Some true
  else if (if c_never c then grp_is_inf g
           else grp_gtz g (nth (Nat.max t_idx pre + time_factor b) (d_times d) 0 + c_ant c)%Z)
       then Some false else None.

Lemma cohort_index_role c l b g_idx t_idx pre j dflt (d := build_did_data c l) :
  StronglySorted (fun a b => grp_leb (r_g a) (r_g b) = true) (d_units d) ->
  d_ids d = length (d_units d) -> j < length (d_units d) ->
  nth_error (cohort_index_panel c d b g_idx t_idx pre) j = Some (role_of c d b g_idx t_idx pre (r_g (nth j (d_units d) dflt))).
Proof.
  intros S Hn Hj. set (u := d_units d) in *.
  set (cond := fun g => grp_leb (min_control c d b t_idx pre) g && grp_leb g (max_control d)).
  assert (HI := index_general u S cond (Fin (nth g_idx (d_groups d) 0%Z)) j dflt (length u) Hj eq_refl).
  unfold cohort_index_panel.
  assert (EC : d_cohorts d = cohort_counts u) by reflexivity.
  rewrite EC, (cohorts_keys u). fold u. cbn zeta in HI.
  replace (if c_unbal c then length u else d_ids d) with (length u) by (rewrite Hn; destruct (c_unbal c); reflexivity).
  etransitivity; [exact HI|]. f_equal. unfold role_of. destruct (grp_eqb _ _); [reflexivity|].
  assert (KS : StronglySorted (fun a b => grp_leb a b = true) (map fst (d_cohorts d))).
  { rewrite EC, (cohorts_keys u). apply ks_sorted. exact S. }
  assert (KI : In (r_g (nth j u dflt)) (map fst (d_cohorts d))).
  { rewrite EC, (cohorts_keys u). apply (uniq_in grp_eqb grp_eqb_spec). apply in_map, nth_In, Hj. }
  unfold cond. rewrite (min_control_spec c d b t_idx pre _ KS KI), (max_control_ge d _ KS KI), andb_true_r. reflexivity.
Qed.

Lemma role_of_spec c d b g_idx t_idx pre g : StronglySorted Z.lt (d_times d) -> (0 <= c_ant c)%Z ->
  t_idx + time_factor b < length (d_times d) -> base_index (c_ant c) d b g_idx t_idx = Base pre ->
  let g0 := nth g_idx (d_groups d) 0%Z in
  let year := nth (t_idx + time_factor b) (d_times d) 0%Z in
  let base := nth pre (d_times d) 0%Z in
  (role_of c d b g_idx t_idx pre g = Some true <-> is_treated g0 g) /\
  (role_of c d b g_idx t_idx pre g = Some false <-> is_comparison (c_never c) (c_ant c) g0 year base g) /\
  (role_of c d b g_idx t_idx pre g = None <-> ~ is_treated g0 g /\ ~ is_comparison (c_never c) (c_ant c) g0 year base g).
Proof.
  intros S Ha Ht HB. cbn zeta. unfold role_of, is_treated, is_comparison.
  rewrite (later_period (c_ant c) d b g_idx t_idx pre S Ha Ht HB).
  set (year := nth (t_idx + time_factor b) (d_times d) 0%Z). set (base := nth pre (d_times d) 0%Z).
  set (g0 := nth g_idx (d_groups d) 0%Z).
  assert (X : forall P : bool, (if c_never c then grp_is_inf g else grp_gtz g (Z.max year base + c_ant c)) = P ->
     (P = true <-> if c_never c then g = Inf else not_treated_until g (Z.max year base) (c_ant c))).
  { intros P <-. destruct (c_never c).
    - destruct g; cbn; split; congruence.
    - destruct g as [z|]; cbn; [apply Z.ltb_lt|tauto]. }
  specialize (X _ eq_refl).
  destruct (grp_eqb_spec g (Fin g0)) as [e|n].
  - split; [intuition|]. split; [intuition discriminate|]. split; [discriminate|]. intros [h _]. contradiction.
  - destruct (if c_never c then grp_is_inf g else grp_gtz g (Z.max year base + c_ant c)) eqn:E.
    + split; [intuition congruence|]. split; [intuition|]. split; [discriminate|]. intros [_ h]. exfalso. apply h. intuition.
    + split; [intuition congruence|]. split; [intuition discriminate|]. split; [|reflexivity]. intros _. split; [exact n|].
      intros [_ h]. apply X in h. discriminate.
Qed.
