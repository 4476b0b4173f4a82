From Verif Require Import Base ListLib PreprocessModel PreprocessSpec PreprocessProofs PreprocessProofs2 PreprocessProofs3 AttGtModel AttGtSpec AttGtProofs.
Local Open Scope nat_scope.

(** * Select / scatter *)
Lemma nth_error_ext {A} : forall l l' : list A, (forall j, nth_error l j = nth_error l' j) -> l = l'.
Proof.
  induction l as [|a l IH]; intros [|b l'] H; auto.
  - specialize (H 0). discriminate.
  - specialize (H 0). discriminate.
  - f_equal; [specialize (H 0); cbn in H; congruence|]. apply IH. intros j. exact (H (S j)).
Qed.
Lemma select_map {A B} (f : A -> B) ix l : select ix (map f l) = map f (select ix l).
Proof. revert l. induction ix as [|[b|] ix IH]; intros [|a l]; cbn; auto. f_equal. apply IH. Qed.
Lemma select_length {A} ix (l : list A) : length l = length ix -> length (select ix l) = length (flags ix).
Proof. revert l. induction ix as [|[b|] ix IH]; intros [|a l] H; cbn in *; auto; try discriminate. Qed.
Lemma select_in {A} ix (l : list A) a : In a (select ix l) -> In a l.
Proof. revert l. induction ix as [|[b|] ix IH]; intros [|x l] H; cbn in *; auto; try contradiction. destruct H; auto. Qed.
Lemma select_role {A} (f : A -> option bool) l : select (map f l) l = filter (fun a => match f a with Some _ => true | None => false end) l.
Proof. induction l as [|a l IH]; [reflexivity|]. cbn. destruct (f a); cbn; rewrite IH; reflexivity. Qed.
Lemma flags_role {A} (f : A -> option bool) l :
  flags (map f l) = map (fun a => match f a with Some b => b | None => false end) (select (map f l) l).
Proof. induction l as [|a l IH]; [reflexivity|]. cbn. destruct (f a) eqn:E; cbn; rewrite ?E, IH; reflexivity. Qed.
Lemma scatter_length ix v : length (scatter ix v) = length ix.
Proof. revert v. induction ix as [|[b|] ix IH]; intros v; cbn; auto. destruct v; cbn; rewrite IH; reflexivity. Qed.
Lemma scatter_outside ix v j : nth_error ix j = Some None -> nth j (scatter ix v) 0%Qc = 0%Qc.
Proof.
  revert v j. induction ix as [|[b|] ix IH]; intros v [|j] H; cbn in *; try discriminate; auto.
  destruct v; cbn; apply IH, H.
Qed.
Lemma select_scatter ix v : length v = length (flags ix) -> select ix (scatter ix v) = v.
Proof.
  revert v. induction ix as [|[b|] ix IH]; intros v H; cbn in *.
  - destruct v; [reflexivity|discriminate].
  - destruct v as [|x v]; [discriminate|]. cbn. f_equal. apply IH. cbn in H. lia.
  - apply IH, H.
Qed.
Lemma scatter_sum ix v : length v = length (flags ix) -> qsum (scatter ix v) = qsum v.
Proof.
  revert v. induction ix as [|[b|] ix IH]; intros v H; cbn in *.
  - destruct v; [reflexivity|discriminate].
  - destruct v as [|x v]; [discriminate|]. cbn. f_equal. apply IH. cbn in H. lia.
  - rewrite IH by exact H. ring.
Qed.
Lemma scale_sum k v : qsum (scale k v) = (k * qsum v)%Qc.
Proof. unfold scale. induction v as [|x v IH]; [cbn; ring|]. cbn [map qsum fold_right] in *. unfold qsum in IH. rewrite IH. ring. Qed.
Lemma scale_length k v : length (scale k v) = length v. Proof. apply map_length. Qed.
Lemma mean_id l : mean (fun x => x) l = (qsum l / qn (length l))%Qc.
Proof. unfold mean, sumf. rewrite map_id. reflexivity. Qed.
Lemma scatter_mean ix psi : flags ix <> [] -> length psi = length (flags ix) ->
  mean (fun x => x) (scatter ix (scale (qn (length ix) / qn (length (flags ix))) psi)) = mean (fun x => x) psi.
Proof.
  intros Hf Hp. rewrite !mean_id, scatter_sum, scale_sum, scatter_length, Hp by (rewrite scale_length; exact Hp).
  assert (qn (length (flags ix)) <> 0%Qc).
  { apply qn_neq0. destruct (flags ix); [congruence|cbn; lia]. }
  assert (qn (length ix) <> 0%Qc).
  { apply qn_neq0. destruct ix; [cbn in Hf; congruence|cbn; lia]. }
  field. auto.
Qed.

(** * Pipeline output facts *)
Lemma pipeline_nonempty c d out : c_panel c = true -> c_unbal c = false -> c_has_id c = true ->
  did_pipeline c d = Some out -> out <> [].
Proof.
  intros H1 H2 H3 HP. apply pipeline_stages in HP as [_ [bb [Hb ->]]]. rewrite rc_handler_panel by exact H1.
  destruct (balance_filter c _ bb H1 H2 H3 Hb) as [_ Hn]. intros E. apply Hn.
  apply Permutation_nil. rewrite <- E. apply data_sorter_perm.
Qed.
Lemma tlist_sorted l : StronglySorted Z.lt (tlist l). Proof. apply zuniq_sorted. Qed.

Section Pipe.
  Context (c : pconfig) (d : list raw) (out : list row).
  Context (H1 : c_panel c = true) (H2 : c_unbal c = false) (H3 : c_has_id c = true) (V : valid_panel d)
          (HP : did_pipeline c d = Some out) (Ha : (0 <= c_ant c)%Z).
  Let D := build_did_data c out.

  Lemma pipe_units_sorted : StronglySorted (fun a b => grp_leb (r_g a) (r_g b) = true) (d_units D).
  Proof.
    assert (B := pipeline_balanced c d out H1 H2 H3 V HP). assert (S := pipeline_sorted c d out HP).
    assert (Hne := pipeline_nonempty c d out H1 H2 H3 HP).
    change (d_units D) with (time_invariant out). rewrite (time_invariant_block out 0%Z B S Hne).
    assert (X := block_sorted out (hd 0%Z (tlist out)) S). revert X. generalize (block out (hd 0%Z (tlist out))).
    clear. intros l X. 
    assert (Y : StronglySorted (fun a b => gid_le (gid a) (gid b)) l).
    { induction l as [|a l IH]; [constructor|]. cbn in X. inversion X as [|? ? Xs Xf]; subst. constructor; [apply IH, Xs|].
      rewrite Forall_forall in *. intros b Hb. apply Xf, in_map, Hb. }
    revert Y. apply ssorted_impl. intros a b _ _ [[p _]|[q _]]; [exact p|]. cbn in q. rewrite q.
    destruct (r_g b); cbn; [apply Z.leb_refl|reflexivity].
  Qed.
  Lemma pipe_ids : d_ids D = length (d_units D).
  Proof.
    assert (B := pipeline_balanced c d out H1 H2 H3 V HP). assert (S := pipeline_sorted c d out HP).
    symmetry. apply (proj1 (units_facts out B S (pipeline_nonempty c d out H1 H2 H3 HP))).
  Qed.
  Lemma pipe_index b g t pre :
    cohort_index_panel c D b g t pre = map (fun u => role_of c D b g t pre (r_g u)) (d_units D).
  Proof.
    assert (L : length (cohort_index_panel c D b g t pre) = length (d_units D)).
    { unfold cohort_index_panel. rewrite H2, pipe_ids. cbn zeta.
      assert (F : forall l ix, length ix = length (d_units D) -> length (fold_left (fun ix k =>
                if grp_leb (min_control c D b t pre) (nth k (map fst (d_cohorts D)) Inf) && grp_leb (nth k (map fst (d_cohorts D)) Inf) (max_control D)
                then set_range (block_start (map snd (d_cohorts D)) k) (block_start (map snd (d_cohorts D)) (S k)) (Some false) ix else ix) l ix) = length (d_units D)).
      { induction l as [|k l IH]; intros ix Hix; [exact Hix|]. cbn [fold_left]. apply IH. destruct (_ && _); [rewrite set_range_length|]; exact Hix. }
      destruct (find_index _ _); [rewrite set_range_length|]; apply F, repeat_length. }
    apply nth_error_ext. intros j. rewrite nth_error_map. destruct (Nat.lt_ge_cases j (length (d_units D))) as [h|h].
    - etransitivity; [exact (cohort_index_role c out b g t pre j drow0 pipe_units_sorted pipe_ids h)|]. fold D.
      rewrite (nth_error_nth' _ drow0 h). reflexivity.
    - rewrite !(proj2 (nth_error_None _ _)) by lia. reflexivity.
  Qed.
End Pipe.

Lemma roles_exact c d out b g_idx t_idx pre j :
  c_panel c = true -> c_unbal c = false -> c_has_id c = true -> valid_panel d -> did_pipeline c d = Some out -> (0 <= c_ant c)%Z ->
  let D := build_did_data c out in
  let ix := cohort_index_panel c D b g_idx t_idx pre in
  let g0 := nth g_idx (d_groups D) 0%Z in
  let year := nth (t_idx + time_factor b) (d_times D) 0%Z in
  let base := nth pre (d_times D) 0%Z in
  let u := nth j (d_units D) drow0 in
  t_idx + time_factor b < length (d_times D) -> base_index (c_ant c) D b g_idx t_idx = Base pre -> j < d_ids D ->
  length ix = d_ids D /\
  (nth_error ix j = Some (Some true) <-> is_treated g0 (r_g u)) /\
  (nth_error ix j = Some (Some false) <-> is_comparison (c_never c) (c_ant c) g0 year base (r_g u)) /\
  (nth_error ix j = Some None <-> ~ is_treated g0 (r_g u) /\ ~ is_comparison (c_never c) (c_ant c) g0 year base (r_g u)).
Proof.
  intros H1 H2 H3 V HP Ha. cbn zeta. intros Ht HB Hj. set (D := build_did_data c out) in *.
  assert (PI := pipe_ids c d out H1 H2 H3 V HP : d_ids D = length (d_units D)).
  assert (PX := pipe_index c d out H1 H2 H3 V HP b g_idx t_idx pre). fold D in PX. rewrite PX. split; [rewrite map_length; symmetry; exact PI|].
  rewrite nth_error_map, (nth_error_nth' _ drow0) by lia. cbn [option_map].
  destruct (role_of_spec c D b g_idx t_idx pre (r_g (nth j (d_units D) drow0)) (tlist_sorted out) Ha Ht HB) as [A [B C]].
  cbn zeta in *. split; [rewrite <- A|split; [rewrite <- B|rewrite <- C]]; (split; intros E; [injection E; auto|rewrite E; reflexivity]).
Qed.

(** * What the 2x2 estimator receives *)
Lemma has_flag_role (f : row -> option bool) v l : has_flag v (map f l) = true <-> exists u, In u l /\ f u = Some v.
Proof.
  unfold has_flag. rewrite existsb_exists. split.
  - intros [o [Ho E]]. apply in_map_iff in Ho as [u [<- Hu]]. destruct (f u) as [b|] eqn:F; [|discriminate].
    apply Bool.eqb_prop in E as ->. eauto.
  - intros [u [Hu E]]. exists (Some v). split; [apply in_map_iff; eauto|]. destruct v; reflexivity.
Qed.
Lemma select_gid ix l l' : map gid l = map gid l' -> map gid (select ix l) = map gid (select ix l').
Proof. intros E. rewrite <- !select_map, E. reflexivity. Qed.

Lemma map_filter_nodup {A B} (f : A -> B) p l : NoDup (map f l) -> NoDup (map f (filter p l)).
Proof.
  induction l as [|a l IH]; intros N; [constructor|]. cbn in *. inversion N as [|? ? Na Nl]; subst.
  destruct (p a); [|apply IH, Nl]. cbn. constructor; [|apply IH, Nl]. intros H. apply Na.
  apply in_map_iff in H as [b [E Hb]]. apply filter_In in Hb as [Hb _]. apply in_map_iff. eauto.
Qed.
Lemma units_nodup_ids l : NoDup (map r_id (time_invariant l)).
Proof. unfold time_invariant. apply (firsts_nodup Z.eqb Z.eqb_spec). Qed.

Lemma estimator_inputs c d out b e g_idx t_idx pre :
  c_panel c = true -> c_unbal c = false -> c_has_id c = true -> valid_panel d -> did_pipeline c d = Some out -> (0 <= c_ant c)%Z ->
  let D := build_did_data c out in
  let g0 := nth g_idx (d_groups D) 0%Z in
  let year := nth (t_idx + time_factor b) (d_times D) 0%Z in
  let base := nth pre (d_times D) 0%Z in
  let in_sample u := is_treated g0 (r_g u) \/ is_comparison (c_never c) (c_ant c) g0 year base (r_g u) in
  t_idx + time_factor b < length (d_times D) -> base_index (c_ant c) D b g_idx t_idx = Base pre ->
  (b = Universal -> base <> year) ->
  (exists u, In u (d_units D) /\ is_treated g0 (r_g u)) ->
  (exists u, In u (d_units D) /\ is_comparison (c_never c) (c_ant c) g0 year base (r_g u)) ->
  exists U A B X,
    (forall u, In u U <-> In u (d_units D) /\ in_sample u) /\ NoDup (map r_id U) /\
    map gid A = map gid U /\ map gid B = map gid U /\ map gid X = map gid U /\
    (forall r, In r A -> In r out /\ r_t r = year) /\ (forall r, In r B -> In r out /\ r_t r = base) /\
    (forall r, In r X -> In r out /\ r_t r = nth (Nat.min pre t_idx) (d_times D) 0%Z) /\
    match e (map r_y A) (map r_y B) (map (fun u => grp_eqb (r_g u) (Fin g0)) U) (map (fun r => 1%Qc :: r_x r) X) (map r_w U) with
    | None => run_att_gt (EPanel e) c D b g_idx t_idx = CNone
    | Some (att, psi) => exists inf, run_att_gt (EPanel e) c D b g_idx t_idx = CEst att inf /\ length inf = d_ids D /\
        (forall j, j < d_ids D -> ~ in_sample (nth j (d_units D) drow0) -> nth j inf 0%Qc = 0%Qc) /\
        (length psi = length U ->
           select (cohort_index_panel c D b g_idx t_idx pre) inf = scale (qn (d_ids D) / qn (length U)) psi /\
           mean (fun x => x) inf = mean (fun x => x) psi)
    end.
Proof.
  intros H1 H2 H3 V HP Ha. cbn zeta. set (D := build_did_data c out). intros Ht HB HU [ut [Hut Iut]] [uc [Huc Iuc]].
  assert (BP := pipeline_balanced c d out H1 H2 H3 V HP). assert (SR := pipeline_sorted c d out HP).
  assert (Hne := pipeline_nonempty c d out H1 H2 H3 HP).
  destruct (units_facts out BP SR Hne) as [U1 U2].
  assert (PI := pipe_ids c d out H1 H2 H3 V HP : d_ids D = length (d_units D)).
  assert (PX := pipe_index c d out H1 H2 H3 V HP b g_idx t_idx pre : cohort_index_panel c D b g_idx t_idx pre = map (fun u => role_of c D b g_idx t_idx pre (r_g u)) (d_units D)).
  assert (Hpre := base_index_in_range (c_ant c) D b g_idx t_idx pre Ht HB).
  assert (RS := fun g => role_of_spec c D b g_idx t_idx pre g (tlist_sorted out) Ha Ht HB). cbn zeta in RS.
  set (g0 := nth g_idx (d_groups D) 0%Z) in *. set (year := nth (t_idx + time_factor b) (d_times D) 0%Z) in *.
  set (base := nth pre (d_times D) 0%Z) in *. set (ix := cohort_index_panel c D b g_idx t_idx pre) in *.
  set (n := length (zuniq (map r_id out))) in *.
  set (R := fun i => slice i n out).
  assert (YE : d_outcomes D = Some (map (fun i => map r_y (R i)) (seq 0 (length (d_times D))))).
  { unfold D, build_did_data. cbn. rewrite H1, H2. reflexivity. }
  assert (XE : d_covs D = Some (map (fun i => map (fun r => 1%Qc :: r_x r) (R i)) (seq 0 (length (d_times D))))).
  { unfold D, build_did_data. cbn. rewrite H1, H2. reflexivity. }
  assert (NT : forall {A} (f : nat -> list A) i, i < length (d_times D) -> nth i (map f (seq 0 (length (d_times D)))) [] = f i).
  { intros A f i Hi. rewrite (nth_map_in _ _ _ 0) by (rewrite seq_length; exact Hi). rewrite seq_nth by exact Hi. reflexivity. }
  assert (F1 : has_flag true ix = true).
  { rewrite PX. apply has_flag_role. exists ut. split; [exact Hut|]. apply (proj1 (RS (r_g ut))). exact Iut. }
  assert (F0 : has_flag false ix = true).
  { rewrite PX. apply has_flag_role. exists uc. split; [exact Huc|]. apply (proj1 (proj2 (RS (r_g uc)))). exact Iuc. }
  exists (select ix (d_units D)), (select ix (R (t_idx + time_factor b))), (select ix (R pre)), (select ix (R (Nat.min pre t_idx))).
  assert (LU : length (select ix (d_units D)) = length (flags ix)) by (apply select_length; rewrite PX, map_length; reflexivity).
  assert (LX : length ix = d_ids D) by (rewrite PX, map_length; symmetry; exact PI).
  assert (SI : forall u, In u (d_units D) -> (is_treated g0 (r_g u) \/ is_comparison (c_never c) (c_ant c) g0 year base (r_g u))
             <-> role_of c D b g_idx t_idx pre (r_g u) <> None).
  { intros u _. destruct (RS (r_g u)) as [A [B C]]. rewrite <- A, <- B.
    destruct (role_of c D b g_idx t_idx pre (r_g u)) as [[|]|]; split; intros; try discriminate; auto; [|congruence].
    destruct H; discriminate. }
  assert (GS : forall i, i < length (d_times D) -> map gid (select ix (R i)) = map gid (select ix (d_units D))).
  { intros i Hi. apply select_gid. apply (proj1 (U2 i Hi)). }
  assert (Hm : Nat.min pre t_idx < length (d_times D)) by lia.
  split; [|split; [|split; [|split; [|split; [|split; [|split; [|split]]]]]]].
  - intros u. rewrite PX, select_role, filter_In. split.
    + intros [Hu E]. split; [exact Hu|]. apply SI; [exact Hu|]. destruct (role_of _ _ _ _ _ _ _); [discriminate|discriminate].
    + intros [Hu E]. split; [exact Hu|]. apply SI in E; [|exact Hu]. destruct (role_of _ _ _ _ _ _ _); [reflexivity|congruence].
  - rewrite PX, select_role. apply map_filter_nodup. apply units_nodup_ids.
  - apply GS. exact Ht.
  - apply GS. exact Hpre.
  - apply GS. exact Hm.
  - intros r Hr. apply select_in in Hr. apply (proj2 (U2 _ Ht)), Hr.
  - intros r Hr. apply select_in in Hr. apply (proj2 (U2 _ Hpre)), Hr.
  - intros r Hr. apply select_in in Hr. apply (proj2 (U2 _ Hm)), Hr.
  - assert (EF : flags ix = map (fun u => grp_eqb (r_g u) (Fin g0)) (select ix (d_units D))).
    { rewrite PX. rewrite flags_role. apply map_ext_in. intros u _. unfold role_of. fold g0.
      destruct (grp_eqb (r_g u) (Fin g0)); [reflexivity|]. destruct (if c_never c then _ else _); reflexivity. }
    assert (RA : run_att_gt (EPanel e) c D b g_idx t_idx =
       run_drdid_panel e ix (map r_y (R (t_idx + time_factor b))) (map r_y (R pre)) (map (fun r => 1%Qc :: r_x r) (R (Nat.min pre t_idx))) (d_weights D)).
    { unfold run_att_gt. rewrite HB. fold year. fold base.
      replace (match b with Universal => (base =? year)%Z | Varying => false end) with false.
      2: { destruct b; [|reflexivity]. symmetry. apply Z.eqb_neq. apply HU. reflexivity. }
      fold ix. rewrite F1, F0. cbn [andb negb]. rewrite YE, XE. rewrite !NT by assumption. reflexivity. }
    rewrite RA. unfold run_drdid_panel. rewrite !select_map, <- EF.
    change (d_weights D) with (map r_w (d_units D)). rewrite select_map.
    destruct (e _ _ _ _ _) as [[att psi]|]; [|reflexivity].
    eexists. split; [reflexivity|]. split; [rewrite scatter_length; exact LX|]. split.
    + intros j Hj Hns. apply scatter_outside. rewrite PX, nth_error_map, (nth_error_nth' _ drow0) by lia. cbn [option_map].
      destruct (role_of c D b g_idx t_idx pre (r_g (nth j (d_units D) drow0))) eqn:E; [|reflexivity].
      exfalso. apply Hns. apply SI; [apply nth_In; lia|congruence].
    + intros Hl. rewrite LU in Hl. rewrite LX, LU. split.
      * rewrite select_scatter; [reflexivity|rewrite scale_length; exact Hl].
      * rewrite <- LX. apply scatter_mean; [|exact Hl]. intros E. rewrite PX in F1. apply has_flag_role in F1 as [u [Hu Er]].
        rewrite E in LU. cbn [length] in LU. apply length_zero_iff_nil in LU.
        assert (In u (select ix (d_units D))); [|rewrite LU in H; contradiction].
        rewrite PX, select_role. apply filter_In. split; [exact Hu|]. rewrite Er. reflexivity.
Qed.
