(** did_multiplegt: the balanced panel and its cells, as a function of the kept rows. *)
From Verif Require Import Base ListLib PreprocessModel InterModel InterSpec InterProofs1 InterProofs2 InterProofs3 InterProofs4.

Lemma cw_perm (c : icfg) (h tmax : Z) valid cs cs' (Hp : Permutation cs cs') :
  (forall x, n_control c tmax cs x = n_control c tmax cs' x)
  /\ (forall x, eligible c h tmax valid cs x = eligible c h tmax valid cs' x)
  /\ (forall x, ctrl c tmax cs x = ctrl c tmax cs' x).
Proof.
  assert (A : forall x, n_control c tmax cs x = n_control c tmax cs' x).
  { intros x. apply sumf_perm. now apply filter_perm. }
  split; [exact A|]. split; intros x.
  - unfold eligible. now rewrite A.
  - unfold ctrl. rewrite A. f_equal. apply sumf_perm. now apply filter_perm.
Qed.

Lemma filter_one (l : list Z) m : NoDup l -> In m l -> filter (fun t => (t =? m)%Z) l = [m].
Proof.
  induction 1 as [|x l Hx Hl IH]; intros Hm; [destruct Hm|]. cbn. destruct (Z.eqb_spec x m) as [->|n].
  - f_equal. apply filter_none. intros y Hy. apply Z.eqb_neq. intros ->. contradiction.
  - apply IH. destruct Hm; [contradiction|assumption].
Qed.

Section Bal.
  Context (c : icfg) (L : list srow) (HL : NoDup (map (fun s => (s_g s, s_t s)) L)).
  Definition gs := zuniq (map s_g L).
  Definition ts := zuniq (map s_t L).
  Definition keys := list_prod gs ts.
  Definition brow (k : Z * Z) : srow :=
    match find (fun s => (s_g s =? fst k)%Z && (s_t s =? snd k)%Z) L with
    | Some s => s
    | None => match find (fun s => (s_g s =? fst k)%Z) L with
              | Some u => {| s_row := blank (fst k) (snd k); s_F := s_F u; s_dsq := s_dsq u; s_dfg := None; s_S := s_S u; s_L := s_L u |}
              | None => {| s_row := blank (fst k) (snd k); s_F := Inf; s_dsq := None; s_dfg := None; s_S := 0; s_L := 0 |}
              end
    end.
  Lemma balance_eq : balance L = map brow keys. Proof. reflexivity. Qed.
  Lemma brow_g k : s_g (brow k) = fst k.
  Proof.
    unfold brow. destruct (find _ L) as [s|] eqn:E.
    - apply find_some in E as [_ E]. apply andb_true_iff in E as [E _]. now apply Z.eqb_eq.
    - destruct (find (fun s => (s_g s =? fst k)%Z) L); reflexivity.
  Qed.
  Lemma brow_t k : s_t (brow k) = snd k.
  Proof.
    unfold brow. destruct (find _ L) as [s|] eqn:E.
    - apply find_some in E as [_ E]. apply andb_true_iff in E as [_ E]. now apply Z.eqb_eq.
    - destruct (find (fun s => (s_g s =? fst k)%Z) L); reflexivity.
  Qed.
  Definition skey (s : srow) : Z * Z := (s_g s, s_t s).
  Lemma brow_key k : skey (brow k) = k.
  Proof. unfold skey. rewrite brow_g, brow_t. now destruct k. Qed.
  Lemma brow_in s : In s L -> brow (skey s) = s.
  Proof.
    intros Hs. unfold brow. cbn. pose proof (proj2 (row_at_some s_g s_t L (s_g s) (s_t s) s HL) (conj Hs (conj eq_refl eq_refl))) as E.
    unfold row_at in E. now rewrite E.
  Qed.
  Definition mem (k : Z * Z) : bool := existsb (fun s => (s_g s =? fst k)%Z && (s_t s =? snd k)%Z) L.
  Lemma mem_iff k : mem k = true <-> exists s, In s L /\ skey s = k.
  Proof.
    unfold mem. rewrite existsb_exists. unfold skey. split; intros (s & h1 & h2); exists s; (split; [exact h1|]).
    - apply andb_true_iff in h2 as [h2 h3]. apply Z.eqb_eq in h2, h3. destruct k; cbn in *; congruence.
    - subst k. cbn. now rewrite !Z.eqb_refl.
  Qed.
  Lemma brow_out k : mem k = false -> s_row (brow k) = blank (fst k) (snd k).
  Proof.
    intros H. unfold brow. destruct (find _ L) as [s|] eqn:E.
    - apply find_some in E as [E1 E2]. exfalso. assert (mem k = true); [|congruence]. unfold mem. apply existsb_exists. eauto.
    - destruct (find (fun s => (s_g s =? fst k)%Z) L); reflexivity.
  Qed.
  Lemma gs_nodup : NoDup gs. Proof. apply zuniq_nodup. Qed.
  Lemma ts_nodup : NoDup ts. Proof. apply zuniq_nodup. Qed.
  Lemma keys_nodup : NoDup keys. Proof. apply NoDup_prod; [apply gs_nodup|apply ts_nodup]. Qed.
  Lemma keys_in g t : In (g, t) keys <-> In g gs /\ In t ts. Proof. apply in_prod_iff. Qed.
  Lemma skey_in s : In s L -> In (skey s) keys.
  Proof. intros H. apply keys_in. unfold gs, ts. rewrite !zuniq_in. split; now apply in_map. Qed.
  Definition B := map brow keys.
  Lemma B_keys : map (fun s => (s_g s, s_t s)) B = keys.
  Proof. unfold B. rewrite map_map. rewrite <- map_id. apply map_ext. intros k. apply brow_key. Qed.
  Lemma B_nodup : NoDup (map (fun s => (s_g s, s_t s)) B). Proof. rewrite B_keys. apply keys_nodup. Qed.
  Lemma B_in s : In s B <-> exists k, In k keys /\ s = brow k.
  Proof. unfold B. rewrite in_map_iff. split; intros (k & h1 & h2); exists k; auto. Qed.
  Lemma B_unit_t g t : In g gs -> (In t (map s_t (filter (fun s => (s_g s =? g)%Z) B)) <-> In t ts).
  Proof.
    intros Hg. rewrite in_map_iff. setoid_rewrite filter_In. setoid_rewrite Z.eqb_eq. split.
    - intros (s & <- & Hs & _). apply B_in in Hs as ((g' & t') & Hk & ->). rewrite brow_t. now apply keys_in in Hk.
    - intros Ht. exists (brow (g, t)). rewrite brow_t, brow_g. repeat split. apply B_in. exists (g, t). split; [now apply keys_in|reflexivity].
  Qed.

  Definition pk (k : Z * Z) : prow :=
    {| p_s := brow k; p_w := gt_weight c (s_row (brow k));
       p_first := match zmin ts with Some m => (snd k =? m)%Z | None => false end;
       p_T := match zmax (map (f_trunc (sort_gt s_g s_t B)) (filter (same_base (brow k)) (sort_gt s_g s_t B))) with Some m => (m - 1)%Z | None => 0%Z end |}.
  Lemma pk_g k : p_g (pk k) = fst k. Proof. apply brow_g. Qed.
  Lemma pk_t k : p_t (pk k) = snd k. Proof. apply brow_t. Qed.
  Lemma prepare_eq : prepare c (balance L) = map (fun s => pk (skey s)) (sort_gt s_g s_t B).
  Proof.
    unfold prepare. rewrite balance_eq. fold B. apply map_ext_in. intros s Hs. rewrite sort_gt_in in Hs.
    apply B_in in Hs as (k & Hk & ->). rewrite brow_key. unfold pk. rewrite brow_t, brow_g. f_equal.
    rewrite (zmin_ext _ ts); [reflexivity|]. intros t.
    rewrite <- (B_unit_t (fst k)); [|now destruct k; apply keys_in in Hk].
    rewrite !in_map_iff. setoid_rewrite filter_In. setoid_rewrite sort_gt_in. reflexivity.
  Qed.
  Lemma prepare_perm : Permutation (prepare c (balance L)) (map pk keys).
  Proof.
    rewrite prepare_eq. rewrite (Permutation_map _ (sort_gt_perm s_g s_t B)). unfold B. rewrite map_map.
    erewrite map_ext; [apply Permutation_refl|]. intros k. cbn. now rewrite brow_key.
  Qed.
  Lemma prepare_in p : In p (prepare c (balance L)) <-> exists k, In k keys /\ p = pk k.
  Proof.
    split.
    - intros H. apply (Permutation_in _ prepare_perm) in H. apply in_map_iff in H as (k & <- & H). eauto.
    - intros (k & H & ->). apply (Permutation_in _ (Permutation_sym prepare_perm)). now apply in_map.
  Qed.
  Lemma prepare_nodup : NoDup (map (fun p => (p_g p, p_t p)) (prepare c (balance L))).
  Proof.
    eapply Permutation_NoDup; [apply Permutation_map, Permutation_sym, prepare_perm|]. rewrite map_map.
    erewrite map_ext; [rewrite map_id; apply keys_nodup|]. intros k. cbn. rewrite pk_g, pk_t. now destruct k.
  Qed.
  (** outcome of key k, and the outcome change *)
  Definition yk (g t : Z) : option Qc := i_y (s_row (brow (g, t))).
  Definition dk (placebo : bool) (h : nat) (k : Z * Z) : option Qc :=
    if placebo then
      match prev_period ts (2 * h) (snd k), prev_period ts h (snd k) with Some a, Some b => osub (yk (fst k) a) (yk (fst k) b) | _, _ => None end
    else match prev_period ts h (snd k) with Some b => osub (yk (fst k) (snd k)) (yk (fst k) b) | None => None end.
  Definition ck (placebo : bool) (h : nat) (k : Z * Z) : cell := {| c_p := pk k; c_diff := dk placebo h k |}.
  Lemma lag_pk k hist j : In (pk k, hist) (with_hist p_g [] (sort_gt p_g p_t (prepare c (balance L)))) -> In k keys ->
    lag_row j hist = match prev_period ts j (snd k) with Some t => Some (pk (fst k, t)) | None => None end.
  Proof.
    intros H Hk. rewrite (lag_lookup p_g p_t (prepare c (balance L)) ts (pk k) hist j prepare_nodup); [|apply zuniq_sorted|exact H|].
    - rewrite pk_t, pk_g. destruct (prev_period ts j (snd k)) as [t|] eqn:E; [|reflexivity].
      apply row_at_some; [apply prepare_nodup|]. rewrite pk_g, pk_t. repeat split. apply prepare_in. exists (fst k, t). split; [|reflexivity].
      apply keys_in. split; [now destruct k; apply keys_in in Hk|]. unfold prev_period in E. apply nth_error_In in E. rewrite <- in_rev in E.
      apply filter_In in E. tauto.
    - intros t. rewrite pk_g. split.
      + intros Ht. exists (pk (fst k, t)). rewrite pk_g, pk_t. repeat split. apply prepare_in. exists (fst k, t). split; [|reflexivity].
        apply keys_in. split; [now destruct k; apply keys_in in Hk|exact Ht].
      + intros (p & Hp & _ & <-). apply prepare_in in Hp as ((g' & t') & Hk' & ->). rewrite pk_t. now apply keys_in in Hk'.
  Qed.
  Lemma cells_perm placebo h : Permutation (cells placebo h (prepare c (balance L))) (map (ck placebo h) keys).
  Proof.
    unfold cells. set (P := prepare c (balance L)). set (W := with_hist p_g [] (sort_gt p_g p_t P)).
    assert (E : map (fun a => {| c_p := fst a; c_diff := diff_of placebo h a |}) W = map (ck placebo h) (map (fun p => (p_g p, p_t p)) (map fst W))).
    { rewrite !map_map. apply map_ext_in. intros a Ha.
      assert (Hf : In (fst a) P). { rewrite <- (sort_gt_in p_g p_t), <- (with_hist_fst p_g (sort_gt p_g p_t P) []). now apply in_map. }
      apply prepare_in in Hf as (k & Hk & Ef). destruct a as [p hist]. cbn in Ef. subst p. cbn [fst]. rewrite pk_g, pk_t.
      replace (fst k, snd k) with k by now destruct k. unfold ck. f_equal. unfold diff_of, dk. cbn [fst snd].
      destruct placebo.
      - rewrite (lag_pk k hist (2 * h) Ha Hk), (lag_pk k hist h Ha Hk).
        destruct (prev_period ts (2 * h) (snd k)), (prev_period ts h (snd k)); reflexivity.
      - rewrite (lag_pk k hist h Ha Hk). destruct (prev_period ts h (snd k)); [|reflexivity]. unfold yk. now destruct k. }
    rewrite E. apply Permutation_map. unfold W. rewrite with_hist_fst.
    rewrite (Permutation_map _ (sort_gt_perm p_g p_t P)). unfold P. rewrite (Permutation_map _ prepare_perm), map_map.
    erewrite map_ext; [rewrite map_id; apply Permutation_refl|]. intros k. cbn. rewrite pk_g, pk_t. now destruct k.
  Qed.
  Definition rest := filter (fun k => negb (mem k)) keys.
  Lemma keys_split : Permutation keys (map skey L ++ rest).
  Proof.
    apply NoDup_Permutation; [apply keys_nodup| |].
    - apply NoDup_app_intro; [exact HL|apply NoDup_filter, keys_nodup|]. intros k Hk Hr. apply filter_In in Hr as [_ Hr]. apply negb_true_iff in Hr.
      apply in_map_iff in Hk as (s & <- & Hs). assert (mem (skey s) = true) by (apply mem_iff; eauto). congruence.
    - intros k. rewrite in_app_iff. unfold rest. rewrite filter_In, in_map_iff, negb_true_iff. split.
      + intros Hk. destruct (mem k) eqn:E; [|auto]. apply mem_iff in E as (s & h1 & h2). left; eauto.
      + intros [(s & <- & Hs)|[H _]]; [now apply skey_in|exact H].
  Qed.
  Definition lcell (placebo : bool) (h : nat) (s : srow) : cell := ck placebo h (skey s).
  Lemma cells_split placebo h : Permutation (cells placebo h (prepare c (balance L))) (map (lcell placebo h) L ++ map (ck placebo h) rest).
  Proof.
    rewrite cells_perm, (Permutation_map _ keys_split), map_app, map_map. apply Permutation_refl.
  Qed.
  Lemma rest_w placebo h k : In k rest -> c_w (ck placebo h k) = 0.
  Proof.
    intros H. apply filter_In in H as [_ H]. apply negb_true_iff in H. unfold c_w. cbn. rewrite (brow_out k H). reflexivity.
  Qed.
  Lemma rest_diff h k : In k rest -> c_diff (ck false h k) = None.
  Proof.
    intros H. apply filter_In in H as [_ H]. apply negb_true_iff in H. cbn. unfold yk.
    replace (fst k, snd k) with k by now destruct k. rewrite (brow_out k H). now destruct (prev_period ts h (snd k)).
  Qed.
  Lemma lcell_p placebo h s : In s L -> p_s (c_p (lcell placebo h s)) = s.
  Proof. intros H. cbn. now apply brow_in. Qed.
  Lemma lcell_w placebo h s : In s L -> c_w (lcell placebo h s) = gt_weight c (s_row s).
  Proof. intros H. unfold c_w. cbn. now rewrite brow_in. Qed.
  Lemma mates_keys placebo h k : In k keys ->
    Permutation (filter (mate (ck placebo h k)) (map (ck placebo h) keys)) (map (fun t => ck placebo h (fst k, t)) ts).
  Proof.
    intros Hk. rewrite filter_map_swap, <- (map_map (fun t => (fst k, t)) (ck placebo h)). apply Permutation_map.
    apply NoDup_Permutation.
    - apply NoDup_filter, keys_nodup.
    - apply FinFun.Injective_map_NoDup; [|apply ts_nodup]. intros a b [= ->]. reflexivity.
    - intros (g, t). rewrite filter_In, in_map_iff. unfold mate. cbn [c_p ck]. rewrite !pk_g. cbn. rewrite Z.eqb_eq, keys_in.
      destruct k as [g0 t0]. apply keys_in in Hk as [Hg _]. cbn. split.
      + intros ((h1 & h2) & <-). eauto.
      + intros (t' & [= <- <-] & h'). auto.
  Qed.
  Lemma cells_one_first placebo h : one_first (cells placebo h (prepare c (balance L))).
  Proof.
    intros x Hx. apply (Permutation_in _ (cells_perm placebo h)) in Hx. apply in_map_iff in Hx as (k & <- & Hk).
    rewrite (sumf_perm _ _ _ (filter_perm _ _ _ (cells_perm placebo h))), (sumf_perm _ _ _ (mates_keys placebo h k Hk)), sumf_map.
    cbn. destruct (zmin ts) as [m|] eqn:E.
    - apply zmin_some in E as [E _]. rewrite (sumf_ext _ (fun t => ind (t =? m)%Z * 1)) by (intros; ring).
      rewrite <- (sumf_filter (fun _ => 1) (fun t => (t =? m)%Z)).
      replace (filter (fun t => (t =? m)%Z) ts) with [m]; [cbn; ring|].
      symmetry. apply filter_one; [apply ts_nodup|exact E].
    - apply zmin_none in E. destruct k as [g t]. apply keys_in in Hk as [_ Hk]. rewrite E in Hk. destruct Hk.
  Qed.
End Bal.
