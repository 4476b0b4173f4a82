(** did_multiplegt: the pipeline identifies the documented switching dates. *)
From Verif Require Import Base ListLib PreprocessModel InterModel InterSpec InterProofs1 InterProofs2.

Definition ikey (r : irow) : Z * Z := (i_g r, i_t r).

Lemma min_of_zmin l : min_of l = zmin l.
Proof.
  unfold min_of. destruct (zuniq l) as [|x u] eqn:E; symmetry.
  - apply zmin_none. destruct l as [|y l]; [reflexivity|]. exfalso. apply (in_nil (a := y)). rewrite <- E, zuniq_in. now left.
  - apply zmin_some. pose proof (zuniq_sorted l) as Hs. rewrite E in Hs. inversion Hs as [|? ? _ Hx]; subst. rewrite Forall_forall in Hx. split.
    + rewrite <- zuniq_in, E. now left.
    + intros y Hy. rewrite <- zuniq_in, E in Hy. destruct Hy as [->|Hy]; [lia|]. specialize (Hx y Hy). lia.
Qed.
Lemma in_periods rows g t : In t (periods_of rows g) <-> exists r, In r rows /\ i_g r = g /\ i_t r = t.
Proof.
  unfold periods_of. rewrite in_map_iff. setoid_rewrite filter_In. setoid_rewrite Z.eqb_eq. split.
  - intros (r & h1 & h2 & h3). eauto.
  - intros (r & h1 & h2 & h3). exists r. auto.
Qed.
Lemma obs_row_at rows g t : obs rows g t = row_at i_g i_t rows g t.
Proof. reflexivity. Qed.
Lemma obs_some rows g t r : one_row_per_period rows -> (obs rows g t = Some r <-> In r rows /\ i_g r = g /\ i_t r = t).
Proof. intros H. apply row_at_some. exact H. Qed.
Lemma obs_in rows r : one_row_per_period rows -> In r rows -> obs rows (i_g r) (i_t r) = Some r.
Proof. intros H Hr. apply obs_some; auto. Qed.
Lemma obs_none rows g t : obs rows g t = None <-> ~ In t (periods_of rows g).
Proof.
  rewrite obs_row_at, (row_at_none i_g i_t). rewrite in_periods. split.
  - intros H (r & h1 & h2 & h3). eauto.
  - intros H r h1 h2 h3. apply H. eauto.
Qed.
Lemma obs_is_in rows g t r : obs rows g t = Some r -> In r rows /\ i_g r = g /\ i_t r = t.
Proof. unfold obs. intros H. apply find_some in H as [H1 H2]. rewrite andb_true_iff, !Z.eqb_eq in H2. tauto. Qed.

(** ** everything about a unit depends on its rows only *)
Definition ueq (g : Z) (l l' : list irow) : Prop := forall r, i_g r = g -> (In r l <-> In r l').
Section Ueq.
  Context (g : Z) (l l' : list irow) (Hn : one_row_per_period l) (Hn' : one_row_per_period l') (H : ueq g l l').
  Lemma ueq_obs t : obs l g t = obs l' g t.
  Proof.
    destruct (obs l g t) as [r|] eqn:E.
    - symmetry. apply obs_some in E as (h1 & h2 & h3); [|exact Hn]. apply obs_some; [exact Hn'|]. rewrite <- (H r h2). auto.
    - symmetry. apply obs_none. apply obs_none in E. intros h. apply E. rewrite in_periods in *. destruct h as (r & h1 & h2 & h3).
      exists r. rewrite (H r h2). auto.
  Qed.
  Lemma ueq_periods t : In t (periods_of l g) <-> In t (periods_of l' g).
  Proof.
    rewrite !in_periods. split; intros (r & h1 & h2 & h3); exists r; [rewrite <- (H r h2)|rewrite (H r h2)]; auto.
  Qed.
  Lemma ueq_d_at t : d_at l g t = d_at l' g t. Proof. unfold d_at. now rewrite ueq_obs. Qed.
  Lemma ueq_baseline : baseline l g = baseline l' g.
  Proof. unfold baseline. rewrite !min_of_zmin, (zmin_ext _ _ ueq_periods). destruct (zmin _); [apply ueq_d_at|reflexivity]. Qed.
  Lemma ueq_changed t : changed l g t = changed l' g t. Proof. unfold changed. now rewrite ueq_d_at, ueq_baseline. Qed.
  Lemma ueq_switch_date : switch_date l g = switch_date l' g.
  Proof.
    unfold switch_date. rewrite !min_of_zmin. rewrite (zmin_ext _ (filter (changed l' g) (periods_of l' g))); [reflexivity|].
    intros t. rewrite !filter_In, ueq_periods, ueq_changed. reflexivity.
  Qed.
  Lemma ueq_in : switches_in l g = switches_in l' g.
  Proof. unfold switches_in. rewrite ueq_switch_date, ueq_baseline. destruct (switch_date l' g); [|reflexivity]. now rewrite ueq_d_at. Qed.
  Lemma ueq_out : switches_out l g = switches_out l' g.
  Proof. unfold switches_out. rewrite ueq_switch_date, ueq_baseline. destruct (switch_date l' g); [|reflexivity]. now rewrite ueq_d_at. Qed.
  Lemma ueq_crossed t : crossed l g t = crossed l' g t.
  Proof.
    unfold crossed. rewrite ueq_baseline.
    f_equal; apply Bool.eq_true_iff_eq; rewrite !existsb_exists; split; intros (s & h1 & h2); exists s; rewrite ueq_d_at in *; split;
      auto; now apply ueq_periods.
  Qed.
End Ueq.
Lemma ueq_refl g l : ueq g l l. Proof. intros r _. reflexivity. Qed.
Lemma ueq_perm g l l' : Permutation l l' -> ueq g l l'.
Proof. intros H r _. split; apply Permutation_in; [exact H|now apply Permutation_sym]. Qed.

Lemma base_treat_spec l g : base_treat l g = baseline l g.
Proof. unfold base_treat, baseline. rewrite min_of_zmin. unfold periods_of. fold (of_unit g). reflexivity. Qed.

(** ** the switching date *)
Section Ident.
  Context (R : list irow) (Hn : one_row_per_period R) (Hd : complete_treatment R).
  Let l0 := with_hist i_g [] (sort_gt i_g i_t R).
  Lemma l0_fst : map fst l0 = sort_gt i_g i_t R. Proof. apply with_hist_fst. Qed.
  Lemma l0_in a : In a l0 -> In (fst a) R.
  Proof. intros H. rewrite <- (sort_gt_in i_g i_t), <- l0_fst. now apply in_map. Qed.
  Lemma l0_hist a s : In a l0 -> (In s (snd a) <-> In s R /\ i_g s = i_g (fst a) /\ (i_t s < i_t (fst a))%Z).
  Proof. destruct a as [r hist]. intros H. destruct (hist_spec i_g i_t R r hist Hn H) as (_ & h & _). apply h. Qed.
  Lemma l0_ex r : In r R -> exists hist, In (r, hist) l0.
  Proof. apply with_hist_exists. Qed.
  Lemma srt_one : one_row_per_period (sort_gt i_g i_t R).
  Proof. unfold one_row_per_period. eapply Permutation_NoDup; [|exact Hn]. apply Permutation_sym, Permutation_map, sort_gt_perm. Qed.

  Lemma base_of_row r : In r R -> exists b, baseline R (i_g r) = Some b.
  Proof.
    intros Hr. unfold baseline. rewrite min_of_zmin.
    destruct (zmin_in_some (periods_of R (i_g r)) (i_t r)) as [m Em]; [apply in_periods; eauto|]. rewrite Em.
    apply zmin_some in Em as [Em _]. apply in_periods in Em as (s & h1 & h2 & h3).
    unfold d_at. rewrite (proj2 (obs_some R (i_g r) m s Hn)) by auto. now apply Hd.
  Qed.
  Lemma unchanged_d r b : In r R -> baseline R (i_g r) = Some b -> (changed R (i_g r) (i_t r) = false <-> i_d r = Some b).
  Proof.
    intros Hr Hb. unfold changed, d_at. rewrite (obs_in R r Hn Hr), Hb. destruct (Hd r Hr) as [x ->].
    destruct (Qceqb_spec x b); cbn; split; intros h; try congruence; reflexivity.
  Qed.
  Lemma first_row_unchanged r : In r R -> (forall s, In s R -> i_g s = i_g r -> (i_t r <= i_t s)%Z) -> baseline R (i_g r) = i_d r.
  Proof.
    intros Hr Hmin. unfold baseline. rewrite min_of_zmin.
    replace (zmin (periods_of R (i_g r))) with (Some (i_t r)).
    - unfold d_at. now rewrite (obs_in R r Hn Hr).
    - symmetry. apply zmin_some. split; [apply in_periods; eauto|]. intros t Ht. apply in_periods in Ht as (s & h1 & h2 & <-). auto.
  Qed.

  (** a row before the first change, or at it *)
  Lemma switches_unchanged a : In a l0 ->
    (forall t, In t (periods_of R (i_g (fst a))) -> (t <= i_t (fst a))%Z -> changed R (i_g (fst a)) t = false) -> switches a = false.
  Proof.
    intros Ha Hu. pose proof (l0_in a Ha) as Hr. destruct (base_of_row _ Hr) as [b Hb].
    assert (E : i_d (fst a) = Some b).
    { apply (unchanged_d _ b Hr Hb). apply Hu; [apply in_periods; eauto|lia]. }
    unfold switches, d_diff, lag_row. destruct (nth_error (snd a) (1 - 1)) as [p|] eqn:Ep; [|reflexivity].
    apply nth_error_In in Ep. apply (l0_hist a p Ha) in Ep as (h1 & h2 & h3).
    assert (E' : i_d p = Some b).
    { rewrite <- h2 in Hb. apply (unchanged_d p b h1 Hb). rewrite h2. apply Hu; [apply in_periods; eauto|lia]. }
    rewrite E, E'. cbn. destruct (Qceqb_spec (b - b) 0) as [_|h]; [reflexivity|]. exfalso. apply h. ring.
  Qed.
  Lemma at_first_change a F : In a l0 -> switch_date R (i_g (fst a)) = Fin F -> i_t (fst a) = F ->
    exists x b, i_d (fst a) = Some x /\ baseline R (i_g (fst a)) = Some b /\ x <> b /\ d_diff a = Some (x - b).
  Proof.
    intros Ha HF Ht. pose proof (l0_in a Ha) as Hr. destruct (base_of_row _ Hr) as [b Hb]. destruct (Hd _ Hr) as [x Hx].
    unfold switch_date in HF. rewrite min_of_zmin in HF.
    destruct (zmin (filter (changed R (i_g (fst a))) (periods_of R (i_g (fst a))))) as [m|] eqn:Em; [|discriminate].
    injection HF as ->. apply zmin_some in Em as [Em1 Em2]. apply filter_In in Em1 as [_ Hch].
    assert (Hne : x <> b). { intros ->. subst F. apply (unchanged_d _ b Hr Hb) in Hx. congruence. }
    exists x, b. repeat split; auto.
    assert (Hnh : snd a <> []).
    { intros E. assert (Hb' : baseline R (i_g (fst a)) = i_d (fst a)); [|congruence].
      apply first_row_unchanged; [exact Hr|]. intros s Hs Hg. destruct (Z.le_gt_cases (i_t (fst a)) (i_t s)) as [h|h]; [exact h|].
      exfalso. apply (in_nil (a := s)). rewrite <- E. apply (l0_hist a s Ha). auto. }
    unfold d_diff, lag_row. destruct (snd a) as [|p hist] eqn:E; [congruence|]. cbn.
    assert (Hp : In p (snd a)) by (rewrite E; now left). apply (l0_hist a p Ha) in Hp as (h1 & h2 & h3).
    assert (E' : i_d p = Some b).
    { rewrite <- h2 in Hb. apply (unchanged_d p b h1 Hb). rewrite h2. destruct (changed R (i_g (fst a)) (i_t p)) eqn:Ec; [|reflexivity].
      assert (Hle : (F <= i_t p)%Z); [|lia]. apply Em2. apply filter_In. split; [apply in_periods; eauto|exact Ec]. }
    now rewrite Hx, E'.
  Qed.
  Lemma switch_date_row g F : switch_date R g = Fin F -> exists r, In r R /\ i_g r = g /\ i_t r = F.
  Proof.
    unfold switch_date. rewrite min_of_zmin. destruct (zmin _) as [m|] eqn:E; [|discriminate]. intros [= ->].
    apply zmin_some in E as [E _]. apply filter_In in E as [E _]. now apply in_periods in E.
  Qed.
  Lemma switch_date_min g F t : switch_date R g = Fin F -> In t (periods_of R g) -> (t < F)%Z -> changed R g t = false.
  Proof.
    unfold switch_date. rewrite min_of_zmin. destruct (zmin _) as [m|] eqn:E; [|discriminate]. intros [= ->] Ht Hlt.
    apply zmin_some in E as [_ E]. destruct (changed R g t) eqn:Ec; [|reflexivity].
    assert ((F <= t)%Z); [|lia]. apply E. now apply filter_In.
  Qed.
  Lemma switch_date_inf g t : switch_date R g = Inf -> In t (periods_of R g) -> changed R g t = false.
  Proof.
    unfold switch_date. rewrite min_of_zmin. destruct (zmin _) as [m|] eqn:E; [discriminate|]. intros _ Ht.
    apply zmin_none in E. destruct (changed R g t) eqn:Ec; [|reflexivity]. exfalso. apply (in_nil (a := t)). rewrite <- E. now apply filter_In.
  Qed.

  (** [l]: a part of [l0] that keeps the rows at the switching dates *)
  Section Part.
    Context (l : list arow) (Hl : forall a, In a l -> In a l0)
            (Hkeep : forall a, In a l0 -> switch_date R (i_g (fst a)) = Fin (i_t (fst a)) -> In a l).
    Lemma first_switch_spec g : first_switch l g = switch_date R g.
    Proof.
      unfold first_switch. set (ts := map _ _).
      destruct (switch_date R g) as [F|] eqn:EF.
      - assert (E : zmin ts = Some F); [|now rewrite E].
        apply zmin_some. split.
        + destruct (switch_date_row g F EF) as (r & h1 & h2 & h3). destruct (l0_ex r h1) as [hist Ha].
          unfold ts. apply in_map_iff. exists (r, hist). split; [exact h3|]. apply filter_In. split.
          * apply Hkeep; [exact Ha|]. cbn. congruence.
          * unfold of_unit. cbn [fst]. rewrite h2, Z.eqb_refl. cbn.
            destruct (at_first_change (r, hist) F Ha) as (x & b & _ & _ & Hne & Hdd); [cbn; congruence|exact h3|].
            unfold switches. rewrite Hdd. destruct (Qceqb_spec (x - b) 0) as [e|e]; [|reflexivity].
            exfalso. apply Hne. rewrite <- (Qcplus_0_r b), <- e. ring.
        + intros t Ht. unfold ts in Ht. apply in_map_iff in Ht as (a & <- & Ha). apply filter_In in Ha as [Ha Hsw].
          apply andb_true_iff in Hsw as [Hg Hsw]. unfold of_unit in Hg. apply Z.eqb_eq in Hg.
          destruct (Z.le_gt_cases F (i_t (fst a))) as [h|h]; [exact h|]. exfalso.
          rewrite (switches_unchanged a (Hl a Ha)) in Hsw; [discriminate|].
          intros t Ht Hle. rewrite Hg in *. apply (switch_date_min g F); auto. lia.
      - assert (E : zmin ts = None); [|now rewrite E]. apply zmin_none. unfold ts. rewrite filter_none; [reflexivity|].
        intros a Ha. destruct (of_unit g (fst a)) eqn:Eg; [|reflexivity]. cbn. unfold of_unit in Eg. apply Z.eqb_eq in Eg.
        apply switches_unchanged; [now apply Hl|]. intros t Ht _. rewrite Eg in *. now apply (switch_date_inf g).
    Qed.
    Context (Hls : StronglySorted (fun a b => key_lt i_g i_t (fst a) (fst b)) l).
    Lemma find_sorted_min (p : arow -> bool) a : find p l = Some a -> forall b, In b l -> p b = true -> b = a \/ key_lt i_g i_t (fst a) (fst b).
    Proof.
      clear Hl Hkeep. induction Hls as [|x m Hs IH Hx]; cbn; [discriminate|]. destruct (p x) eqn:Ex.
      - intros [= ->] b [->|Hb] _; [now left|right]. rewrite Forall_forall in Hx. now apply Hx.
      - intros Hf b [->|Hb] Hpb; [congruence|]. apply (IH Hs Hf b Hb Hpb).
    Qed.
    Lemma switch_sign_spec g : switch_sign l g = (if switches_in R g then 1 else if switches_out R g then -1 else 0)%Z.
    Proof.
      unfold switch_sign. rewrite first_switch_spec. unfold switches_in, switches_out.
      destruct (switch_date R g) as [F|] eqn:EF; [|reflexivity].
      destruct (switch_date_row g F EF) as (r & h1 & h2 & h3). destruct (l0_ex r h1) as [hist Ha].
      destruct (at_first_change (r, hist) F Ha) as (x & b & Hx & Hb & Hne & Hdd); [cbn; congruence|exact h3|]. cbn in Hx, Hb.
      assert (Hal : In (r, hist) l) by (apply Hkeep; [exact Ha|]; cbn; congruence).
      assert (Hsw : switches (r, hist) = true).
      { unfold switches. rewrite Hdd. destruct (Qceqb_spec (x - b) 0) as [e|e]; [|reflexivity].
        exfalso. apply Hne. rewrite <- (Qcplus_0_r b), <- e. ring. }
      assert (Hp : (of_unit g (fst (r, hist)) && switches (r, hist))%bool = true).
      { rewrite Hsw. unfold of_unit. cbn [fst]. now rewrite h2, Z.eqb_refl. }
      unfold d_at. rewrite (proj2 (obs_some R g F r Hn)) by auto. rewrite Hx. rewrite <- h2, Hb.
      destruct (find (fun a => of_unit (i_g r) (fst a) && switches a) l) as [a|] eqn:Ef.
      2:{ eapply find_none in Ef; [|exact Hal]. rewrite <- h2 in Hp. cbn beta in Ef. congruence. }
      assert (Ea : a = (r, hist)).
      { rewrite <- h2 in Hp. destruct (find_sorted_min _ a Ef (r, hist) Hal Hp) as [e|e]; [auto|]. exfalso.
        apply find_some in Ef as [Ef1 Ef2]. apply andb_true_iff in Ef2 as [Eg Es]. unfold of_unit in Eg. apply Z.eqb_eq in Eg.
        rewrite (switches_unchanged a (Hl a Ef1)) in Es; [discriminate|].
        intros t Ht Hle. rewrite Eg in *. rewrite h2 in *. apply (switch_date_min g F); auto. unfold key_lt in e. cbn in e. lia. }
      subst a. rewrite Hdd.
      assert (E1 : Qcltb 0 (x - b) = Qcltb b x).
      { apply Bool.eq_true_iff_eq. destruct (Qcltb_spec 0 (x - b)), (Qcltb_spec b x); split; try congruence; intros _; exfalso.
        - apply n. qclra. - apply n. qclra. }
      assert (E2 : Qcltb (x - b) 0 = Qcltb x b).
      { apply Bool.eq_true_iff_eq. destruct (Qcltb_spec (x - b) 0), (Qcltb_spec x b); split; try congruence; intros _; exfalso.
        - apply n. qclra. - apply n. qclra. }
      rewrite E1, E2. reflexivity.
    Qed.
  End Part.

  (** crossing the baseline *)
  Lemma ever_crossed a : In a l0 -> forall b, baseline R (i_g (fst a)) = b ->
    (ever (above_base b) a && ever (below_base b) a)%bool = crossed R (i_g (fst a)) (i_t (fst a)).
  Proof.
    intros Ha b Hb. unfold crossed. rewrite Hb. pose proof (l0_in a Ha) as Hr.
    assert (G : forall (p : irow -> bool) (q : option Qc -> bool), (forall r, In r R -> i_g r = i_g (fst a) -> p r = q (i_d r)) ->
      ever p a = existsb (fun s => (s <=? i_t (fst a))%Z && q (d_at R (i_g (fst a)) s)) (periods_of R (i_g (fst a)))).
    { intros p q Hpq. apply Bool.eq_true_iff_eq. unfold ever. rewrite !existsb_exists. split.
      - intros (r & h1 & h2).
        assert (HrR : In r R /\ i_g r = i_g (fst a) /\ (i_t r <= i_t (fst a))%Z).
        { destruct h1 as [<-|h1]; [repeat split; auto; lia|]. apply (l0_hist a r Ha) in h1. intuition lia. }
        destruct HrR as (k1 & k2 & k3). exists (i_t r). split; [apply in_periods; eauto|]. apply andb_true_iff. split; [now apply Z.leb_le|].
        unfold d_at. rewrite <- k2, (obs_in R r Hn k1). rewrite <- Hpq by auto. exact h2.
      - intros (t & h1 & h2). apply in_periods in h1 as (r & k1 & k2 & <-). apply andb_true_iff in h2 as [h2 h3]. apply Z.leb_le in h2.
        exists r. unfold d_at in h3. rewrite <- k2, (obs_in R r Hn k1) in h3. rewrite Hpq by auto. split; [|exact h3].
        destruct (Z.eq_dec (i_t r) (i_t (fst a))) as [e|e].
        + left. assert (Some (fst a) = Some r); [|congruence]. rewrite <- (obs_in R (fst a) Hn Hr), <- (obs_in R r Hn k1). congruence.
        + right. apply (l0_hist a r Ha). repeat split; auto. lia. }
    f_equal.
    - rewrite (G _ (fun o => match o, b with Some x, Some b0 => Qcltb b0 x | _, _ => false end)); [reflexivity|].
      intros r HrR _. unfold above_base. destruct (i_d r) as [x|], b as [b|]; cbn; try reflexivity. apply Bool.eq_true_iff_eq.
      destruct (Qcltb_spec 0 (x - b)), (Qcltb_spec b x); split; try congruence; intros _; exfalso; apply n; qclra.
    - rewrite (G _ (fun o => match o, b with Some x, Some b0 => Qcltb x b0 | _, _ => false end)); [reflexivity|].
      intros r HrR _. unfold below_base. destruct (i_d r) as [x|], b as [b|]; cbn; try reflexivity. apply Bool.eq_true_iff_eq.
      destruct (Qcltb_spec (x - b) 0), (Qcltb_spec x b); split; try congruence; intros _; exfalso; apply n; qclra.
  Qed.
  (** no crossing up to the first change *)
  Lemma not_crossed_by_switch r : In r R ->
    (forall F, switch_date R (i_g r) = Fin F -> (i_t r <= F)%Z) -> crossed R (i_g r) (i_t r) = false.
  Proof.
    intros Hr HF. destruct (base_of_row r Hr) as [b Hb].
    assert (U : forall s, In s R -> i_g s = i_g r -> (i_t s <= i_t r)%Z -> i_d s <> Some b -> s = r).
    { intros s hs hg ht hd. assert (Hc : changed R (i_g s) (i_t s) = true).
      { destruct (changed R (i_g s) (i_t s)) eqn:E; [reflexivity|]. exfalso. apply hd. apply unchanged_d; auto. now rewrite hg. }
      assert (Et : i_t s = i_t r).
      { destruct (switch_date R (i_g r)) as [F|] eqn:EF.
        - specialize (HF F eq_refl). destruct (Z.eq_dec (i_t s) (i_t r)) as [e|e]; [exact e|].
          rewrite hg in Hc. rewrite (switch_date_min (i_g r) F) in Hc; [discriminate|exact EF|apply in_periods; eauto|lia].
        - rewrite hg in Hc. rewrite (switch_date_inf (i_g r)) in Hc; [discriminate|exact EF|apply in_periods; eauto]. }
      assert (Some s = Some r); [|congruence]. rewrite <- (obs_in R s Hn hs), <- (obs_in R r Hn Hr). congruence. }
    unfold crossed. rewrite Hb. apply andb_false_iff.
    destruct (existsb _ (periods_of R (i_g r))) eqn:E1 in |- * at 1; [right|left; reflexivity].
    apply existsb_exists in E1 as (t1 & h1 & h2). apply andb_true_iff in h2 as [h2 h3]. apply Z.leb_le in h2.
    apply in_periods in h1 as (s1 & k1 & k2 & <-). unfold d_at in h3. rewrite <- k2, (obs_in R s1 Hn k1) in h3.
    destruct (Hd s1 k1) as [x1 Ex1]. rewrite Ex1 in h3. destruct (Qcltb_spec b x1) as [hlt|]; [|discriminate].
    assert (s1 = r). { apply U; auto. intros e. rewrite e in Ex1. injection Ex1 as <-. revert hlt. apply Qcle_not_lt, Qcle_refl. }
    subst s1. clear k2 h2 h3.
    destruct (existsb _ (periods_of R (i_g r))) eqn:E2; [|reflexivity]. exfalso.
    apply existsb_exists in E2 as (t2 & h1 & h2). apply andb_true_iff in h2 as [h2 h3]. apply Z.leb_le in h2.
    apply in_periods in h1 as (s2 & j1 & j2 & <-). unfold d_at in h3. rewrite <- j2, (obs_in R s2 Hn j1) in h3.
    destruct (Hd s2 j1) as [x2 Ex2]. rewrite Ex2 in h3. destruct (Qcltb_spec x2 b) as [hlt2|]; [|discriminate].
    assert (s2 = r). { apply U; auto. intros e. rewrite e in Ex2. injection Ex2 as <-. revert hlt2. apply Qcle_not_lt, Qcle_refl. }
    subst s2. rewrite Ex1 in Ex2. injection Ex2 as <-. revert hlt2. apply Qcle_not_lt, Qclt_le_weak, hlt.
  Qed.
End Ident.
