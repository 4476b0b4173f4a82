(** End-to-end facts about the pipeline and the panel tensors. *)
From Verif Require Import Base ListLib PreprocessModel PreprocessSpec PreprocessProofs.

(** * Provenance *)
Lemma clean_in c d r : In r (clean c d) <-> exists q, In q d /\ clean_row c q = Some r.
Proof.
  unfold clean. rewrite in_flat_map. split.
  - intros [q [Hq H]]. exists q. destruct (clean_row c q); [|destruct H]. destruct H as [->|[]]. auto.
  - intros [q [Hq H]]. exists q. rewrite H. cbn. auto.
Qed.
Lemma clean_row_fields c q r : clean_row c q = Some r ->
  raw_t q = Some (r_t r) /\ raw_g q = Some (r_g r) /\ raw_y q = Some (r_y r) /\
  sequence (raw_x q) = Some (r_x r) /\
  (c_has_id c = true -> raw_id q = Some (r_id r)) /\ (c_has_w c = true -> raw_w q = Some (r_w r)).
Proof.
  unfold clean_row. destruct (if c_has_id c then raw_id q else Some 0%Z) as [i|] eqn:Ei; [|discriminate].
  destruct (raw_t q) as [t|]; [|discriminate]. destruct (raw_g q) as [g|]; [|discriminate].
  destruct (raw_y q) as [y|]; [|discriminate].
  destruct (if c_has_w c then raw_w q else Some 1) as [w|] eqn:Ew; [|discriminate].
  destruct (sequence (raw_x q)) as [x|]; [|discriminate]. intros H. injection H as <-. cbn.
  repeat split; intros E; [rewrite E in Ei; exact Ei|rewrite E in Ew; exact Ew].
Qed.

Lemma clean_nodup c d : c_has_id c = true -> NoDup (map (fun q => (raw_id q, raw_t q)) d) ->
  NoDup (map (fun r => (r_id r, r_t r)) (clean c d)).
Proof.
  intros Hid. induction d as [|q d IH]; intros N; [constructor|]. cbn [map] in N. inversion N as [|? ? Nq Nd]; subst.
  unfold clean in *. cbn [flat_map]. destruct (clean_row c q) as [r|] eqn:E; [|apply IH, Nd].
  cbn [app map]. constructor; [|apply IH, Nd]. intros H. apply in_map_iff in H as [r' [Er Hr']].
  apply (clean_in c d) in Hr' as [q' [Hq' E']].
  apply clean_row_fields in E as [E1 [_ [_ [_ [E2 _]]]]]. apply clean_row_fields in E' as [E1' [_ [_ [_ [E2' _]]]]].
  apply Nq. apply in_map_iff. exists q'. split; [|exact Hq']. rewrite E1, E1', E2, E2' by exact Hid. congruence.
Qed.

(** rows of the encoded stage: a clean row with normalised weight and encoded group *)
Lemma encoded_in c d r : In r (did_stage_encoded c d) <->
  exists r0, In r0 (clean c d) /\ r_id r = r_id r0 /\ r_t r = r_t r0 /\ r_y r = r_y r0 /\ r_x r = r_x r0 /\
     r_w r = r_w r0 / mean r_w (clean c d) /\ r_g r = enc_g (last (tlist (clean c d)) 0%Z) (r_g r0).
Proof.
  unfold did_stage_encoded. rewrite encode_map, normalize_tlist. unfold normalize_weights. rewrite map_map, in_map_iff.
  split.
  - intros [r0 [<- H]]. exists r0. cbn. auto 8.
  - intros [r0 [H [E1 [E2 [E3 [E4 [E5 E6]]]]]]]. exists r0. split; [|exact H].
    destruct r; cbn in *. subst. reflexivity.
Qed.
Lemma encoded_keys c d : map (fun r => (r_id r, r_t r)) (did_stage_encoded c d) = map (fun r => (r_id r, r_t r)) (clean c d).
Proof. unfold did_stage_encoded. rewrite encode_map. unfold normalize_weights. rewrite !map_map. reflexivity. Qed.
Lemma encoded_tlist c d : tlist (did_stage_encoded c d) = tlist (clean c d).
Proof. unfold did_stage_encoded. rewrite encode_tlist, normalize_tlist. reflexivity. Qed.
Lemma encoded_nil c d : did_stage_encoded c d = [] <-> clean c d = [].
Proof. unfold did_stage_encoded. rewrite encode_nil, normalize_nil. reflexivity. Qed.

Definition g_const (l : list row) : Prop := forall r r', In r l -> In r' l -> r_id r = r_id r' -> r_g r = r_g r'.

Lemma encoded_gconst c d : c_has_id c = true -> valid_panel d -> g_const (did_stage_encoded c d).
Proof.
  intros Hid [_ HG] r r' Hr Hr' E. apply encoded_in in Hr as [a [Ha [A1 [_ [_ [_ [_ A2]]]]]]].
  apply encoded_in in Hr' as [b [Hb [B1 [_ [_ [_ [_ B2]]]]]]]. rewrite A2, B2. f_equal.
  apply clean_in in Ha as [q [Hq Eq]]. apply clean_in in Hb as [q' [Hq' Eq']].
  apply clean_row_fields in Eq as [_ [G1 [_ [_ [I1 _]]]]]. apply clean_row_fields in Eq' as [_ [G2 [_ [_ [I2 _]]]]].
  specialize (HG q q' Hq Hq'). rewrite I1, I2, G1, G2 in HG by exact Hid.
  assert (X : Some (r_id a) = Some (r_id b)) by congruence. specialize (HG X). congruence.
Qed.

Lemma early_filter_sub c l : exists p, early_filter c l = filter p l.
Proof. unfold early_filter. destruct (c_has_id c); eexists; reflexivity. Qed.
Lemma early_filter_nodup c l : NoDup (map (fun r => (r_id r, r_t r)) l) -> NoDup (map (fun r => (r_id r, r_t r)) (early_filter c l)).
Proof. intros N. destruct (early_filter_sub c l) as [p ->]. apply NoDup_map_filter, N. Qed.

Lemma control_in c l r : In r (control_creator c l) -> exists r0, In r0 l /\ r_id r = r_id r0 /\ r_t r = r_t r0 /\
   r_y r = r_y r0 /\ r_x r = r_x r0 /\ r_w r = r_w r0 /\
   (r_g r = r_g r0 \/ (c_never c = true /\ no_never l /\ r_g r = Inf /\ exists z, r_g r0 = Fin z /\ latest_cohort l z /\ (r_t r0 < z - c_ant c)%Z)).
Proof.
  intros H. destruct (control_creator_cases c l) as [[_ E]|[[_ E]|[Hn [z [Hz E]]]]]; rewrite E in H.
  - exists r. auto 9.
  - destruct H.
  - cbn zeta in H. destruct (c_never c).
    + apply in_map_iff in H as [r0 [<- H]]. apply filter_In in H as [H Ht]. apply Z.ltb_lt in Ht. exists r0. cbn.
      split; [exact H|]. repeat (split; [reflexivity|]).
      destruct (grp_eqb_spec (r_g r0) (Fin z)) as [e|n]; [|auto]. right. eauto 9.
    + apply filter_In in H as [H _]. exists r. auto 9.
Qed.
Lemma control_nodup c l : NoDup (map (fun r => (r_id r, r_t r)) l) -> NoDup (map (fun r => (r_id r, r_t r)) (control_creator c l)).
Proof.
  intros N. destruct (control_creator_cases c l) as [[_ ->]|[[_ ->]|[Hn [z [Hz ->]]]]]; [exact N|constructor|].
  cbn zeta. destruct (c_never c); [rewrite map_map; cbn|]; apply NoDup_map_filter, N.
Qed.
Lemma control_gconst c l : g_const l -> g_const (control_creator c l).
Proof.
  intros H. destruct (control_creator_cases c l) as [[_ ->]|[[_ ->]|[Hn [z [Hz ->]]]]]; [exact H|intros r r' []|].
  cbn zeta. destruct (c_never c); intros r r' Hr Hr' E.
  - apply in_map_iff in Hr as [a [<- Ha]]. apply in_map_iff in Hr' as [b [<- Hb]]. cbn in *.
    apply filter_In in Ha as [Ha _]. apply filter_In in Hb as [Hb _]. rewrite (H a b Ha Hb E). reflexivity.
  - apply filter_In in Hr as [Hr _]. apply filter_In in Hr' as [Hr' _]. apply H; assumption.
Qed.
Lemma balance_sub c l out : balance c l = Some out -> exists p, out = filter p l.
Proof.
  unfold balance. destruct (_ || _ || _).
  - intros H; injection H as <-. exists (fun _ => true). rewrite filter_all; auto.
  - destruct (filter _ l) eqn:E; [discriminate|]. intros H; injection H as <-. eexists. symmetry. exact E.
Qed.
Lemma g_const_sub l l' : incl l' l -> g_const l -> g_const l'.
Proof. intros I H r r' Hr Hr'. apply H; apply I; assumption. Qed.

(** the stages of a successful run *)
Lemma pipeline_stages c d out : did_pipeline c d = Some out ->
  clean c d <> [] /\ exists b, balance c (control_creator c (early_filter c (did_stage_encoded c d))) = Some b /\
  out = data_sorter (rc_handler c b).
Proof.
  unfold did_pipeline. destruct (clean c d) as [|r l] eqn:E; [discriminate|].
  destruct (balance c _) as [b|] eqn:Eb; [|discriminate]. intros H; injection H as <-.
  split; [discriminate|]. exists b. auto.
Qed.
Lemma rc_handler_panel c l : c_panel c = true -> rc_handler c l = l.
Proof. intros H. unfold rc_handler. rewrite H. reflexivity. Qed.
Lemma rc_handler_id c l : c_has_id c = true -> rc_handler c l = l.
Proof. intros H. unfold rc_handler. rewrite H. destruct (c_panel c); reflexivity. Qed.

Lemma combine_seq_in {A} (l : list A) : forall s i r, In (i, r) (combine (seq s (length l)) l) -> In r l.
Proof. intros s i r H. apply in_combine_r in H. exact H. Qed.
Lemma rc_handler_in c l r : In r (rc_handler c l) -> exists r0, In r0 l /\ r_t r = r_t r0 /\ r_g r = r_g r0 /\
  r_y r = r_y r0 /\ r_x r = r_x r0 /\ r_w r = r_w r0 /\ (c_panel c = true \/ c_has_id c = true -> r_id r = r_id r0).
Proof.
  unfold rc_handler. destruct (c_panel c); [intros H; exists r; auto 9|].
  destruct (c_has_id c); [intros H; exists r; auto 9|]. intros H. unfold with_row_index in H.
  apply in_map_iff in H as [[i r0] [<- H]]. exists r0. cbn. split; [eapply combine_seq_in; exact H|].
  repeat (split; [reflexivity|]). intros [h|h]; discriminate.
Qed.

(** every output row comes from a clean input row *)
Lemma pipeline_provenance c d out r : did_pipeline c d = Some out -> In r out ->
  exists q r0, In q d /\ clean_row c q = Some r0 /\ r_t r = r_t r0 /\ r_y r = r_y r0 /\ r_x r = r_x r0 /\
   r_w r = r_w r0 / mean r_w (clean c d) /\ (c_panel c = true \/ c_has_id c = true -> r_id r = r_id r0) /\
   let e := enc_g (last (tlist (clean c d)) 0%Z) (r_g r0) in
   (r_g r = e \/ (c_never c = true /\ no_never (early_filter c (did_stage_encoded c d)) /\ r_g r = Inf /\
      exists z, e = Fin z /\ latest_cohort (early_filter c (did_stage_encoded c d)) z /\ (r_t r < z - c_ant c)%Z)).
Proof.
  intros H Hr. apply pipeline_stages in H as [_ [b [Hb ->]]].
  apply data_sorter_in, rc_handler_in in Hr as [r1 [Hr1 [T1 [G1 [Y1 [X1 [W1 I1]]]]]]].
  destruct (balance_sub _ _ _ Hb) as [p ->]. apply filter_In in Hr1 as [Hr1 _].
  apply control_in in Hr1 as [r2 [Hr2 [I2 [T2 [Y2 [X2 [W2 G2]]]]]]].
  apply early_filter_in in Hr2 as [Hr2 _]. apply encoded_in in Hr2 as [r3 [Hr3 [I3 [T3 [Y3 [X3 [W3 G3]]]]]]].
  apply clean_in in Hr3 as [q [Hq Eq]]. exists q, r3. split; [exact Hq|]. split; [exact Eq|].
  split; [congruence|]. split; [congruence|]. split; [congruence|]. split; [congruence|].
  split; [intros h; rewrite I1 by exact h; congruence|]. cbn zeta. rewrite <- G3.
  destruct G2 as [G2|[N [NN [G2 Hz]]]]; [left; congruence|]. right. split; [exact N|]. split; [exact NN|].
  split; [congruence|]. destruct Hz as [z [Hz1 [Hz2 Hz3]]]. exists z. split; [exact Hz1|]. split; [exact Hz2|]. rewrite T1, T2. exact Hz3.
Qed.

Lemma pipeline_balanced c d out : c_panel c = true -> c_unbal c = false -> c_has_id c = true ->
  valid_panel d -> did_pipeline c d = Some out -> balanced_panel out.
Proof.
  intros H1 H2 H3 V H. apply pipeline_stages in H as [_ [b [Hb ->]]]. rewrite rc_handler_panel by exact H1.
  set (e := did_stage_encoded c d) in *.
  assert (Ne : NoDup (map (fun r => (r_id r, r_t r)) e)).
  { unfold e. rewrite encoded_keys. apply clean_nodup; [exact H3|apply V]. }
  assert (Nc := control_nodup c _ (early_filter_nodup c _ Ne)).
  assert (Gc : g_const (control_creator c (early_filter c e))).
  { apply control_gconst. eapply g_const_sub; [|apply (encoded_gconst c d H3 V)].
    intros r Hr. apply early_filter_in in Hr. apply Hr. }
  split; [|split].
  - eapply Permutation_NoDup; [apply Permutation_map, Permutation_sym, data_sorter_perm|].
    eapply balance_nodup; eassumption.
  - intros r r' Hr Hr'. apply Gc.
    + apply (proj1 (data_sorter_in _ _)) in Hr. apply (balance_in c _ b H1 H2 H3 Nc Hb) in Hr. apply Hr.
    + apply (proj1 (data_sorter_in _ _)) in Hr'. apply (balance_in c _ b H1 H2 H3 Nc Hb) in Hr'. apply Hr'.
  - intros r Hr s Hs. apply (proj1 (data_sorter_in _ _)) in Hr. apply (proj1 (data_sorter_in _ _)) in Hs.
    destruct (balance_balanced c _ b H1 H2 H3 Nc Hb r Hr s Hs) as [r' [A [B C]]].
    exists r'. split; [apply data_sorter_in, A|auto].
Qed.
Lemma pipeline_sorted c d out : did_pipeline c d = Some out -> StronglySorted (fun a b => row_leb a b = true) out.
Proof. intros H. apply pipeline_stages in H as [_ [b [_ ->]]]. apply data_sorter_sorted. Qed.

(** * Base periods *)
Lemma pipeline_not_early c d out r : did_pipeline c d = Some out -> In r out ->
  ~ treated_by (r_g r) (hd 0%Z (tlist (clean c d)) + c_ant c).
Proof.
  intros H Hr. apply pipeline_stages in H as [_ [b [Hb ->]]].
  apply data_sorter_in, rc_handler_in in Hr as [r1 [Hr1 [_ [G1 _]]]].
  destruct (balance_sub _ _ _ Hb) as [p ->]. apply filter_In in Hr1 as [Hr1 _].
  apply control_in in Hr1 as [r2 [Hr2 [_ [_ [_ [_ [_ G2]]]]]]]. rewrite G1.
  destruct G2 as [->|[_ [_ [-> _]]]]; [|intros [z [e _]]; discriminate].
  apply early_filter_not_treated in Hr2. rewrite encoded_tlist in Hr2. exact Hr2.
Qed.

(** if a not-early row is observed in the first period, the first period survives control-group creation *)
Lemma control_keeps_first c l p : (forall r, In r l -> ~ treated_by (r_g r) (p + c_ant c)) ->
  (exists r, In r l /\ r_t r = p) -> exists r, In r (control_creator c l) /\ r_t r = p.
Proof.
  intros HN [r [Hr E]]. destruct (control_creator_cases c l) as [[_ ->]|[[-> _]|[Hn [z [[[s [Hs Ez]] Hz] ->]]]]];
    [eauto|destruct Hr|].
  assert (Hlt : (p + c_ant c < z)%Z).
  { specialize (HN s Hs). destruct (Z.lt_ge_cases (p + c_ant c) z) as [h|h]; [exact h|].
    exfalso. apply HN. exists z. auto. }
  assert (HF : In r (filter (fun r => (r_t r <? z - c_ant c)%Z) l)).
  { apply filter_In. split; [exact Hr|]. apply Z.ltb_lt. lia. }
  cbn zeta. destruct (c_never c); [|exists r; auto].
  eexists. split; [apply in_map, HF|]. exact E.
Qed.

Lemma pipeline_first_kept c d out : did_pipeline c d = Some out ->
  (c_panel c = true -> c_has_id c = true) ->
  (c_panel c = true -> valid_panel d) ->
  (exists r, In r (early_filter c (did_stage_encoded c d)) /\ r_t r = hd 0%Z (tlist (clean c d))) ->
  In (hd 0%Z (tlist (clean c d))) (tlist out).
Proof.
  intros H Hpid V Hex. apply pipeline_stages in H as [Hne [b [Hb ->]]].
  set (e := did_stage_encoded c d) in *.
  assert (HK : exists r, In r (control_creator c (early_filter c e)) /\ r_t r = hd 0%Z (tlist (clean c d))).
  { apply control_keeps_first; [|exact Hex]. intros r Hr. apply early_filter_not_treated in Hr.
    unfold e in Hr. rewrite encoded_tlist in Hr. exact Hr. }
  assert (HB : In (hd 0%Z (tlist (clean c d))) (tlist b)).
  { destruct (c_panel c) eqn:P.
    - destruct (c_unbal c) eqn:U.
      + unfold balance in Hb. rewrite P, U in Hb. cbn in Hb. injection Hb as <-. apply tlist_in. exact HK.
      + assert (Ne : NoDup (map (fun r => (r_id r, r_t r)) e)).
        { unfold e. rewrite encoded_keys. apply clean_nodup; [auto|apply V; reflexivity]. }
        rewrite (balance_same_periods c _ b P U (Hpid eq_refl) (control_nodup c _ (early_filter_nodup c _ Ne)) Hb).
        apply tlist_in. exact HK.
    - unfold balance in Hb. rewrite P in Hb. cbn in Hb. injection Hb as <-. apply tlist_in. exact HK. }
  apply tlist_in in HB as [r [Hr E]]. apply tlist_in.
  assert (X : exists r', In r' (rc_handler c b) /\ r_t r' = hd 0%Z (tlist (clean c d))).
  { unfold rc_handler. destruct (c_panel c); [eauto|]. destruct (c_has_id c); [eauto|].
    unfold with_row_index. clear -Hr E. revert Hr. generalize 0%nat as s.
    induction b as [|a b IH]; intros s Hr; [destruct Hr|]. cbn. destruct Hr as [->|Hr].
    - eexists. split; [left; reflexivity|exact E].
    - destruct (IH (S s) Hr) as [r' [A B]]. exists r'. split; [right; exact A|exact B]. }
  destruct X as [r' [A B]]. exists r'. split; [apply data_sorter_in, A|exact B].
Qed.

(** * Alignment of sorted balanced panels *)
Definition sorted_rows (l : list row) : Prop := StronglySorted (fun a b => row_leb a b = true) l.
Definition gid (r : row) : grp * Z := (r_g r, r_id r).
Definition block (l : list row) (t : Z) : list row := filter (fun r => (r_t r =? t)%Z) l.

Lemma sorted_by_t l : sorted_rows l -> StronglySorted (fun a b => (r_t a <= r_t b)%Z) l.
Proof. apply ssorted_impl. intros a b _ _ H. apply row_leb_iff in H. lia. Qed.

Lemma uniq_tlist l : sorted_rows l -> uniq Z.eqb (map r_t l) = tlist l.
Proof.
  intros H. apply sorted_by_t in H. unfold tlist. apply ssorted_lt_ext; [|apply zuniq_sorted|].
  - assert (S : StronglySorted Z.le (uniq Z.eqb (map r_t l))).
    { apply (uniq_sorted Z.eqb Z.eqb_spec Z.le). apply ssorted_map. exact H. }
    assert (N := uniq_nodup Z.eqb Z.eqb_spec (map r_t l)).
    revert S N. generalize (uniq Z.eqb (map r_t l)). clear. induction 1 as [|a m Hm IH Hf]; intros N; constructor.
    + apply IH. inversion N; assumption.
    + inversion N as [|? ? Na _]; subst. rewrite Forall_forall in *. intros b Hb. specialize (Hf b Hb).
      assert (a <> b) by (intros ->; contradiction). lia.
  - intros x. rewrite (uniq_in Z.eqb Z.eqb_spec), zuniq_in. reflexivity.
Qed.

Lemma sorted_blocks_t l : sorted_rows l -> l = flat_map (block l) (tlist l).
Proof.
  intros H. rewrite <- (uniq_tlist l H).
  apply (sorted_blocks Z.eqb Z.eqb_spec Z.le); [intros; lia|]. apply sorted_by_t, H.
Qed.

Lemma block_gid_nodup l t : NoDup (map (fun r => (r_id r, r_t r)) l) -> NoDup (map gid (block l t)).
Proof.
  intros N. assert (NI : NoDup (map r_id (block l t))).
  { unfold block. clear -N. induction l as [|a l IH]; [constructor|]. cbn in *. inversion N as [|? ? Na Nl]; subst.
    destruct (Z.eqb_spec (r_t a) t) as [e|n]; [|apply IH, Nl]. cbn. constructor; [|apply IH, Nl].
    intros H. apply in_map_iff in H as [b [Eb Hb]]. apply filter_In in Hb as [Hb1 Hb2]. apply Z.eqb_eq in Hb2.
    apply Na. apply in_map_iff. exists b. split; [congruence|exact Hb1]. }
  replace (map r_id (block l t)) with (map snd (map gid (block l t))) in NI by (rewrite map_map; reflexivity).
  revert NI. generalize (map gid (block l t)). clear. intros m. induction m as [|a m IH]; intros N; [constructor|].
  inversion N as [|? ? Na Nm]; subst. constructor; [|apply IH, Nm]. intros H. apply Na, in_map, H.
Qed.

Definition gid_le (a b : grp * Z) : Prop :=
  (grp_leb (fst a) (fst b) = true /\ fst a <> fst b) \/ (fst a = fst b /\ (snd a <= snd b)%Z).
Lemma gid_le_anti a b : gid_le a b -> gid_le b a -> a = b.
Proof.
  destruct a as [g i], b as [h j]. unfold gid_le; cbn. intros [[A B]|[A B]] [[C D]|[C D]].
  - exfalso. apply B. apply grp_leb_anti; assumption.
  - congruence.
  - congruence.
  - f_equal; [congruence|lia].
Qed.
Lemma block_sorted l t : sorted_rows l -> StronglySorted gid_le (map gid (block l t)).
Proof.
  intros H. apply ssorted_map. apply (ssorted_impl (fun a b => row_leb a b = true)); [|apply ssorted_filter, H].
  intros a b Ha Hb R. apply filter_In in Ha as [_ Ha]. apply filter_In in Hb as [_ Hb].
  apply Z.eqb_eq in Ha, Hb. apply row_leb_iff in R as [R|[_ R]]; [lia|exact R].
Qed.
Lemma block_in_gid l t x : balanced_panel l -> In t (tlist l) ->
  (In x (map gid (block l t)) <-> exists r, In r l /\ gid r = x).
Proof.
  intros [N [G B]] Ht. rewrite in_map_iff. split.
  - intros [r [E Hr]]. apply filter_In in Hr as [Hr _]. eauto.
  - intros [r [Hr E]]. apply tlist_in in Ht as [s [Hs Es]]. destruct (B r Hr s Hs) as [r' [A [A1 A2]]].
    exists r'. split; [|apply filter_In; split; [exact A|apply Z.eqb_eq; congruence]].
    rewrite <- E. unfold gid. rewrite A1, (G r' r A Hr A1). reflexivity.
Qed.
Lemma blocks_equal l t t' : balanced_panel l -> sorted_rows l -> In t (tlist l) -> In t' (tlist l) ->
  map gid (block l t) = map gid (block l t').
Proof.
  intros B S Ht Ht'. apply (ssorted_ext gid_le gid_le_anti).
  - apply block_sorted, S.
  - apply block_sorted, S.
  - apply block_gid_nodup, B.
  - apply block_gid_nodup, B.
  - intros x. rewrite !block_in_gid by assumption. reflexivity.
Qed.
Lemma block_length l t : balanced_panel l -> In t (tlist l) -> length (block l t) = length (zuniq (map r_id l)).
Proof.
  intros B Ht. rewrite <- (map_length r_id (block l t)).
  assert (P : Permutation (map r_id (block l t)) (zuniq (map r_id l))); [|apply Permutation_length, P].
  apply NoDup_Permutation; [|apply zuniq_nodup|].
  - assert (N := block_gid_nodup l t (proj1 B)).
    assert (NI : NoDup (map r_id (block l t))).
    { destruct B as [N0 _]. unfold block. clear -N0. induction l as [|a l IH]; [constructor|]. cbn in *. inversion N0 as [|? ? Na Nl]; subst.
      destruct (Z.eqb_spec (r_t a) t) as [e|n]; [|apply IH, Nl]. cbn. constructor; [|apply IH, Nl].
      intros H. apply in_map_iff in H as [b [Eb Hb]]. apply filter_In in Hb as [Hb1 Hb2]. apply Z.eqb_eq in Hb2.
      apply Na. apply in_map_iff. exists b. split; [congruence|exact Hb1]. }
    exact NI.
  - intros i. rewrite zuniq_in, !in_map_iff. split.
    + intros [r [E Hr]]. apply filter_In in Hr as [Hr _]. eauto.
    + intros [r [E Hr]]. assert (X := proj2 (block_in_gid l t (gid r) B Ht) (ex_intro _ r (conj Hr eq_refl))).
      apply in_map_iff in X as [r' [E' Hr']]. exists r'. split; [|exact Hr']. unfold gid in E'. congruence.
Qed.

Lemma slice_flat_map {A B} (f : A -> list B) n ts : (forall t, In t ts -> length (f t) = n) ->
  forall i d, (i < length ts)%nat -> slice i n (flat_map f ts) = f (nth i ts d).
Proof.
  intros H. induction ts as [|t ts IH]; intros i d Hi; [cbn in Hi; lia|]. unfold slice in *. cbn [flat_map].
  assert (Lt : length (f t) = n) by (apply H; left; reflexivity). destruct i as [|i].
  - cbn [Nat.mul skipn nth]. rewrite firstn_app, Lt, Nat.sub_diag. cbn. rewrite app_nil_r, <- Lt. apply firstn_all.
  - cbn [nth]. rewrite <- (IH (fun s Hs => H s (or_intror Hs)) i d) by (cbn in Hi; lia).
    f_equal. cbn [Nat.mul]. rewrite skipn_app, Lt, (skipn_all2 (f t)) by lia. cbn. f_equal. lia.
Qed.

Lemma slice_block l i d : balanced_panel l -> sorted_rows l -> (i < length (tlist l))%nat ->
  slice i (length (zuniq (map r_id l))) l = block l (nth i (tlist l) d).
Proof.
  intros B S Hi. rewrite (sorted_blocks_t l S) at 2. apply slice_flat_map; [|exact Hi].
  intros t Ht. apply block_length; assumption.
Qed.

Lemma time_invariant_block l d : balanced_panel l -> sorted_rows l -> l <> [] ->
  time_invariant l = block l (hd d (tlist l)).
Proof.
  intros B S Hne. unfold time_invariant, firsts. rewrite (sorted_blocks_t l S) at 1.
  destruct (tlist l) as [|t0 ts] eqn:ET; [exfalso; apply (tlist_nonempty l Hne ET)|].
  cbn [flat_map hd]. rewrite firsts_from_app.
  assert (E1 : firsts_from Z.eqb r_id [] (block l t0) = block l t0).
  { apply (firsts_from_nodup_id Z.eqb Z.eqb_spec); [|intros a _ []].
    assert (N := block_gid_nodup l t0 (proj1 B)). destruct B as [N0 _].
    unfold block. clear -N0. induction l as [|a l IH]; [constructor|]. cbn in *. inversion N0 as [|? ? Na Nl]; subst.
    destruct (Z.eqb_spec (r_t a) t0) as [e|n]; [|apply IH, Nl]. cbn. constructor; [|apply IH, Nl].
    intros H. apply in_map_iff in H as [b [Eb Hb]]. apply filter_In in Hb as [Hb1 Hb2]. apply Z.eqb_eq in Hb2.
    apply Na. apply in_map_iff. exists b. split; [congruence|exact Hb1]. }
  rewrite E1. rewrite (firsts_from_all_seen Z.eqb Z.eqb_spec); [apply app_nil_r|].
  intros r Hr. rewrite app_nil_r, <- in_rev. apply in_flat_map in Hr as [t [Ht Hr]].
  apply filter_In in Hr as [Hr _].
  assert (X := proj2 (block_in_gid l t0 (gid r) B ltac:(rewrite ET; left; reflexivity)) (ex_intro _ r (conj Hr eq_refl))).
  apply in_map_iff in X as [r' [E' Hr']]. apply in_map_iff. exists r'. split; [|exact Hr']. unfold gid in E'. congruence.
Qed.

Lemma units_facts l : balanced_panel l -> sorted_rows l -> l <> [] ->
  length (time_invariant l) = length (zuniq (map r_id l)) /\
  forall i, (i < length (tlist l))%nat ->
    map gid (slice i (length (zuniq (map r_id l))) l) = map gid (time_invariant l) /\
    forall r, In r (slice i (length (zuniq (map r_id l))) l) -> In r l /\ r_t r = nth i (tlist l) 0%Z.
Proof.
  intros B S Hne.
  assert (H0 : In (hd 0%Z (tlist l)) (tlist l)) by (apply hd_in, tlist_nonempty, Hne).
  rewrite (time_invariant_block l 0%Z B S Hne). split.
  - apply block_length; assumption.
  - intros i Hi. rewrite (slice_block l i 0%Z B S Hi).
    assert (Hi' : In (nth i (tlist l) 0%Z) (tlist l)) by (apply nth_In, Hi).
    split; [apply blocks_equal; assumption|].
    intros r Hr. apply filter_In in Hr as [Hr E]. apply Z.eqb_eq in E. auto.
Qed.

Definition drow0 : row := {| r_id := 0; r_t := 0; r_g := Inf; r_y := 0; r_w := 0; r_x := [] |}.

Lemma nth_map_in {A B} (f : A -> B) l n d d' : (n < length l)%nat -> nth n (map f l) d' = f (nth n l d).
Proof. intros H. rewrite (nth_indep _ d' (f d)) by (rewrite map_length; exact H). apply map_nth. Qed.

Lemma alignment c d out (b := build_did_data c out) :
  c_panel c = true -> c_unbal c = false -> c_has_id c = true ->
  valid_panel d -> did_pipeline c d = Some out ->
  length (d_units b) = d_ids b /\ length (d_weights b) = d_ids b /\
  exists Y X, d_outcomes b = Some Y /\ d_covs b = Some X /\ length Y = length (d_times b) /\ length X = length (d_times b) /\
  (forall i, (i < length (d_times b))%nat -> length (nth i Y []) = d_ids b /\ length (nth i X []) = d_ids b) /\
  forall i j, (i < length (d_times b))%nat -> (j < d_ids b)%nat ->
    exists r, In r out /\ r_t r = nth i (d_times b) 0%Z /\
      r_id r = r_id (nth j (d_units b) drow0) /\ r_g r = r_g (nth j (d_units b) drow0) /\
      nth j (nth i Y []) 0 = r_y r /\ nth j (nth i X []) [] = 1 :: r_x r /\
      (i = 0%nat -> nth j (d_weights b) 0 = r_w r).
Proof.
  intros H1 H2 H3 V HP. assert (B := pipeline_balanced c d out H1 H2 H3 V HP).
  assert (S := pipeline_sorted c d out HP : sorted_rows out).
  assert (Hne : out <> []).
  { apply pipeline_stages in HP as [_ [bb [Hb ->]]]. rewrite rc_handler_panel by exact H1.
    destruct (balance_filter c _ bb H1 H2 H3 Hb) as [_ Hn]. intros E. apply Hn.
    apply Permutation_nil. rewrite <- E. apply data_sorter_perm. }
  destruct (units_facts out B S Hne) as [U1 U2]. unfold b, build_did_data. cbn -[slice]. rewrite H1, H2. cbn [negb orb andb].
  split; [exact U1|]. split; [rewrite map_length; exact U1|]. eexists. eexists.
  split; [reflexivity|]. split; [reflexivity|]. rewrite !map_length, seq_length. split; [reflexivity|]. split; [reflexivity|].
  set (n := length (zuniq (map r_id out))) in *.
  assert (SL : forall i, (i < length (tlist out))%nat -> length (slice i n out) = n).
  { intros i Hi. destruct (U2 i Hi) as [E _]. rewrite <- (map_length gid), E, map_length. exact U1. }
  split.
  - intros i Hi. rewrite !(nth_map_in _ _ _ 0%nat) by (rewrite seq_length; exact Hi). rewrite !map_length, seq_nth by exact Hi.
    split; apply SL; exact Hi.
  - intros i j Hi Hj. rewrite !(nth_map_in _ _ _ 0%nat) by (rewrite seq_length; exact Hi). rewrite seq_nth by exact Hi. cbn [Nat.add].
    destruct (U2 i Hi) as [E HR]. exists (nth j (slice i n out) drow0).
    assert (Hj' : (j < length (slice i n out))%nat) by (rewrite SL; assumption).
    destruct (HR _ (nth_In _ drow0 Hj')) as [R1 R2].
    assert (EG : gid (nth j (slice i n out) drow0) = gid (nth j (time_invariant out) drow0)).
    { rewrite <- !(map_nth gid), E. reflexivity. }
    unfold gid in EG. injection EG as EG1 EG2.
    rewrite !(nth_map_in _ _ _ drow0) by (try assumption; rewrite U1; assumption).
    repeat split; auto. intros ->. f_equal. unfold n.
    rewrite (time_invariant_block out 0%Z B S Hne), (slice_block out 0 0%Z B S Hi).
    destruct (tlist out); reflexivity.
Qed.
