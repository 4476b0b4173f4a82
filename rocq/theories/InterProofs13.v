(** did_multiplegt: the standard error when there is one experiment (InterSpec.one_experiment). *)
From Verif Require Import Base ListLib PreprocessModel InterModel InterSpec InterProofs1 InterProofs2 InterProofs3 InterProofs4 InterProofs5 InterProofs6 InterProofs7.

Lemma sumf_prod {A B} (f : A * B -> Qc) (a : list A) (b : list B) : sumf f (list_prod a b) = sumf (fun x => sumf (fun y => f (x, y)) b) a.
Proof.
  induction a as [|x a IH]; [reflexivity|]. cbn [list_prod]. rewrite sumf_app, sumf_map, IH, sumf_cons. reflexivity.
Qed.
Lemma sumf_single (f : Z -> Qc) l m : NoDup l -> In m l -> (forall t, In t l -> t <> m -> f t = 0) -> sumf f l = f m.
Proof.
  intros Hn Hm Hf. induction l as [|t l IH]; [destruct Hm|]. inversion_clear Hn as [|? ? Ht Hl]. rewrite sumf_cons.
  destruct Hm as [->|Hm].
  - rewrite (sumf_zero f l); [ring|]. intros t' Ht'. apply Hf; [now right|]. intros ->. contradiction.
  - rewrite IH; [|assumption|assumption|intros; apply Hf; [now right|assumption]]. rewrite (Hf t); [ring|now left|]. intros ->. contradiction.
Qed.

Lemma filter_andb {A} (p q : A -> bool) l : filter p (filter q l) = filter (fun a => q a && p a) l.
Proof. induction l as [|a l IH]; [reflexivity|]. cbn. destruct (q a) eqn:E; cbn; [|exact IH]. rewrite IH. reflexivity. Qed.

Section SE.
  Context (c : icfg) (rt : Qc -> Qc) (rows : list irow) (Hn : one_row_per_period rows) (Hd : complete_treatment rows)
    (Hgap : gapless (used rows c)) (Hsame : ic_same c = false) (Hunw : ic_weighted c = false).
  Context (placebo : bool) (h : nat) (Hh : (1 <= h)%nat) (valid : prow -> bool) (f : Z).
  Notation u := (used rows c).
  Notation Kr := (K c rows).
  Notation an := (ann rows).
  Notation L := (map an Kr).
  Notation hz := (Z.of_nat h).
  Notation tmx := (tmx c rows).
  Notation cs := (cells placebo h (prepare c (balance L))).
  Notation lc r := (lcell c L placebo h (an r)).
  Notation t0 := (f - 1 + hz)%Z.
  Context (Hexp : one_experiment c rows placebo hz f).
  Notation A1 := (arm c rows hz f (Fin f)).
  Notation A0 := (arm c rows hz f Inf).
  Context (N1 : (2 <= length A1)%nat) (N0 : (2 <= length A0)%nat).
  Notation Y r := (val (h_change u placebo hz r)).

  Let Hf2 := proj1 Hexp.
  Let Hb := proj1 (proj2 Hexp).
  Let HF := proj1 (proj2 (proj2 Hexp)).
  Let Hdf := proj1 (proj2 (proj2 (proj2 Hexp))).
  Let Hobs := proj2 (proj2 (proj2 (proj2 Hexp))).

  Lemma ck_t k : p_t (c_p (ck c L placebo h k)) = snd k. Proof. apply brow_t. Qed.
  Lemma uK r : In r u -> In r Kr.
  Proof. apply (Permutation_in _ (Permutation_sym (HKu c rows Hn Hd))). Qed.
  Lemma Ku r : In r Kr -> In r u.
  Proof. apply (Permutation_in _ (HKu c rows Hn Hd)). Qed.
  (** rows of period t0 are observed, with weight one *)
  Lemma at_t0 r : In r u -> i_t r = t0 -> (exists v, h_change u placebo hz r = Some v) /\ obs_weight c r = 1.
  Proof.
    intros Hr Ht. destruct (Hobs r Hr) as (r' & k1 & k2 & k3 & k4 & k5).
    assert (r' = r).
    { pose proof (obs_in u r (u_one c rows Hn) Hr) as e1. pose proof (obs_in u r' (u_one c rows Hn) k1) as e2. rewrite k2, k3, <- Ht in e2. congruence. }
    subst r'. split.
    - destruct (h_change u placebo hz r); [eauto|discriminate].
    - unfold obs_weight. rewrite Hunw, k4. destruct (Hd r) as [x ->]; [|reflexivity]. now apply (u_rows c rows).
  Qed.
  Lemma t0_key g : In g (gs L) -> exists r, In r u /\ i_g r = g /\ i_t r = t0.
  Proof.
    unfold gs. rewrite zuniq_in, map_map, in_map_iff. intros (r & <- & Hr). apply Ku in Hr. destruct (Hobs r Hr) as (r' & k1 & k2 & k3 & _). eauto.
  Qed.
  Lemma key_cell k : In k (keys L) -> snd k = t0 -> exists r, In r u /\ i_t r = t0 /\ ck c L placebo h k = lc r.
  Proof.
    destruct k as [g t]. cbn. intros Hk ->. apply keys_in in Hk as [Hg _]. destruct (t0_key g Hg) as (r & h1 & h2 & h3). exists r. repeat split; auto.
    unfold lcell, skey, s_g, s_t. cbn [s_row ann]. now rewrite h2, h3.
  Qed.
  Lemma brow_F k : In k (keys L) -> s_F (brow L k) = Fin f \/ s_F (brow L k) = Inf.
  Proof.
    intros Hk. unfold brow. destruct (find _ L) as [s|] eqn:E.
    - apply find_some in E as [E _]. apply in_map_iff in E as (r & <- & Hr). apply HF. now apply Ku.
    - destruct (find (fun s => (s_g s =? fst k)%Z) L) as [s|] eqn:E'; [|auto].
      apply find_some in E' as [E' _]. apply in_map_iff in E' as (r & <- & Hr). cbn. apply HF. now apply Ku.
  Qed.
  Lemma cell_key x : In x cs -> exists k, In k (keys L) /\ x = ck c L placebo h k.
  Proof. intros H. apply (Permutation_in _ (cells_perm c L placebo h)), in_map_iff in H as (k & <- & Hk). eauto. Qed.
  Lemma at_target_t0 x : In x cs -> at_target hz x = true -> p_t (c_p x) = t0.
  Proof.
    intros Hx. destruct (cell_key x Hx) as (k & Hk & ->). unfold at_target, p_F. cbn [c_p ck p_s pk].
    destruct (brow_F k Hk) as [-> | ->]; [|discriminate]. apply Z.eqb_eq.
  Qed.
  (** membership at t0 *)
  Lemma lc_in r : In r u -> In (lc r) cs.
  Proof.
    intros Hr. apply (Permutation_in _ (Permutation_sym (cells_perm c L placebo h))). unfold lcell. apply (in_map (ck c L placebo h)), skey_in. now apply in_map, uK.
  Qed.
  (** a class of cells of period t0 is a class of rows *)
  Lemma filter_cs (P : cell -> bool) : (forall x, In x cs -> P x = true -> p_t (c_p x) = t0) ->
    Permutation (filter P cs) (map (fun r => lc r) (filter (fun r => P (lc r)) u)).
  Proof.
    intros HP. rewrite (filter_perm _ _ _ (cells_split c L (KL_nodup c rows Hn Hd) placebo h)), filter_app.
    rewrite (filter_none P (map (ck c L placebo h) (rest L))), app_nil_r.
    - rewrite filter_map_swap. rewrite filter_map_swap. rewrite map_map. apply Permutation_map. apply filter_perm, HKu; auto.
    - intros x Hx. apply in_map_iff in Hx as (k & <- & Hk). destruct (P (ck c L placebo h k)) eqn:E; [|reflexivity]. exfalso.
      apply filter_In in Hk as [Hk Hm]. apply negb_true_iff in Hm.
      assert (Hx : In (ck c L placebo h k) cs) by (apply (Permutation_in _ (Permutation_sym (cells_perm c L placebo h))); now apply in_map).
      specialize (HP _ Hx E). rewrite ck_t in HP. destruct k as [g t]. cbn in HP. subst t. apply keys_in in Hk as [Hg _].
      destruct (t0_key g Hg) as (r & h1 & h2 & h3). assert (Ht : mem L (g, t0) = true); [|congruence].
      apply mem_iff. exists (an r). split; [now apply in_map, uK|]. unfold skey, s_g, s_t. cbn. congruence.
  Qed.
  Lemma filter_cs_arm (P : cell -> bool) g : (forall x, In x cs -> P x = true -> p_t (c_p x) = t0) ->
    (forall r, In r u -> i_t r = t0 -> P (lc r) = grp_eqb (switch_date rows (i_g r)) g) ->
    Permutation (filter P cs) (map (fun r => lc r) (arm c rows hz f g)).
  Proof.
    intros HP Hg. rewrite (filter_cs P HP). apply Permutation_map. unfold arm. erewrite filter_ext_in; [apply Permutation_refl|].
    intros r Hr. cbn. destruct (Z.eqb_spec (i_t r) t0) as [e|ne]; [now apply Hg|].
    destruct (P (lc r)) eqn:E; [|reflexivity]. apply HP in E; [|now apply lc_in]. exfalso. apply ne. rewrite <- E. unfold p_t. now rewrite lcell_an.
  Qed.
  Lemma arm_in r g : In r (arm c rows hz f g) <-> In r u /\ i_t r = t0 /\ switch_date rows (i_g r) = g.
  Proof. unfold arm. rewrite filter_In, andb_true_iff, Z.eqb_eq, grp_eqb_iff. reflexivity. Qed.
  Lemma sum_arm (F : cell -> Qc) (G : irow -> Qc) g l : Permutation l (map (fun r => lc r) (arm c rows hz f g)) ->
    (forall r, In r (arm c rows hz f g) -> F (lc r) = G r) -> sumf F l = sumf G (arm c rows hz f g).
  Proof. intros Hp HG. rewrite (sumf_perm _ _ _ Hp), sumf_map. now apply sumf_ext. Qed.

  Lemma lc_F r : In r u -> p_F (c_p (lc r)) = switch_date rows (i_g r).
  Proof. intros Hr. unfold p_F. now rewrite lcell_an. Qed.
  Lemma lc_t r : In r u -> p_t (c_p (lc r)) = i_t r.
  Proof. intros Hr. unfold p_t. now rewrite lcell_an. Qed.
  Lemma peers_ok r r' : In r u -> In r' u -> i_t r = t0 -> i_t r' = t0 -> peer (lc r) (lc r') = true.
  Proof. intros k1 k2 e1 e2. rewrite peer_spec by assumption. rewrite e1, e2, Z.eqb_refl. now apply Hb. Qed.
  Lemma not_yet_t0 r : In r u -> i_t r = t0 -> not_yet c rows r = grp_eqb (switch_date rows (i_g r)) Inf.
  Proof.
    intros Hr Ht. unfold not_yet. destruct (HF r Hr) as [-> | ->]; [|reflexivity]. rewrite Ht. replace (t0 <? f)%Z with false; [reflexivity|].
    symmetry. apply Z.ltb_ge. lia.
  Qed.
  Lemma comps r : In r u -> i_t r = t0 -> comparisons c rows placebo hz r = A0.
  Proof.
    intros Hr Ht. unfold comparisons, arm. apply filter_ext_in. intros r' Hr'. rewrite Ht. destruct (Z.eqb_spec (i_t r') t0) as [e|]; [|reflexivity].
    rewrite (Hb r r' Hr Hr'), (not_yet_t0 r' Hr' e). destruct (at_t0 r' Hr' e) as [[v ->] _]. now rewrite andb_true_r.
  Qed.
  Lemma w_arm g : sumf (obs_weight c) (arm c rows hz f g) = qn (length (arm c rows hz f g)).
  Proof.
    rewrite (sumf_ext _ (fun _ => 1)); [rewrite sumf_const; ring|]. intros r Hr. apply arm_in in Hr as (k1 & k2 & _). now apply at_t0.
  Qed.
  Lemma n_control_t0 r : In r u -> i_t r = t0 -> n_control c tmx cs (lc r) = qn (length A0).
  Proof. intros Hr Ht. rewrite n_control_spec by assumption. rewrite (comps r Hr Ht). apply w_arm. Qed.
  Lemma dir_fact r : In r u -> switch_date rows (i_g r) = Fin f ->
    match ic_dir c with AnySw => true | InSw => switches_in rows (i_g r) | OutSw => switches_out rows (i_g r) end = true.
  Proof.
    intros Hr EF.
    assert (Hor : switches_in rows (i_g r) = true \/ switches_out rows (i_g r) = true).
    { unfold switches_in, switches_out. rewrite EF.
      assert (Hc : changed rows (i_g r) f = true).
      { unfold switch_date in EF. rewrite min_of_zmin in EF. destruct (zmin _) as [k|] eqn:Ek; [|discriminate]. injection EF as ->.
        apply zmin_some in Ek as [Ek _]. apply filter_In in Ek. tauto. }
      unfold changed in Hc. destruct (d_at rows (i_g r) f) as [x|], (baseline rows (i_g r)) as [b|]; try discriminate.
      destruct (Qceqb_spec x b) as [|ne]; [discriminate|]. destruct (Qcltb_spec b x), (Qcltb_spec x b); auto. exfalso.
      apply ne. apply Qcle_antisym; now apply Qcnot_lt_le. }
    assert (Hdir : direction_ok rows c (i_g r) = true).
    { unfold used, sample in Hr. rewrite !filter_In in Hr. destruct Hr as [[_ Hr] _]. unfold in_sample in Hr. rewrite !andb_true_iff in Hr. tauto. }
    unfold direction_ok in Hdir. destruct (ic_dir c); [reflexivity| |].
    - destruct Hor as [|e]; [assumption|]. rewrite e in Hdir. discriminate.
    - destruct Hor as [e|]; [|assumption]. rewrite e in Hdir. discriminate.
  Qed.
  Lemma switcher_t0 r : In r u -> i_t r = t0 -> switcher c rows placebo hz r = grp_eqb (switch_date rows (i_g r)) (Fin f).
  Proof.
    intros Hr Ht. unfold switcher. destruct (HF r Hr) as [e|e]; rewrite e; [|reflexivity].
    rewrite Ht, Z.eqb_refl. destruct (at_t0 r Hr Ht) as [[v ->] _]. rewrite (dir_fact r Hr e), (comps r Hr Ht), w_arm. cbn.
    rewrite Z.eqb_refl. destruct (Qcltb_spec 0 (qn (length A0))) as [|ne]; [reflexivity|]. exfalso. apply ne, qn_pos. lia.
  Qed.
  Notation el := (eligible c hz tmx valid cs).
  Lemma el_t0 r : In r u -> i_t r = t0 -> el (lc r) = grp_eqb (switch_date rows (i_g r)) (Fin f).
  Proof. intros Hr Ht. rewrite (elig_spec c rows Hn Hd Hgap placebo h Hh valid Hsame r Hr). now apply switcher_t0. Qed.
  Lemma el_is_t0 x : In x cs -> el x = true -> p_t (c_p x) = t0.
  Proof. intros Hx. unfold eligible. rewrite !andb_true_iff. intros (_ & (((Ht & _) & _) & _)). now apply at_target_t0. Qed.
  Lemma sw_arm : Permutation (filter el cs) (map (fun r => lc r) A1).
  Proof. apply filter_cs_arm; [apply el_is_t0|apply el_t0]. Qed.
  Lemma sw_A1 : switchers c rows placebo hz = A1.
  Proof.
    unfold switchers, arm. apply filter_ext_in. intros r Hr. destruct (Z.eqb_spec (i_t r) t0) as [e|ne]; [now apply switcher_t0|].
    unfold switcher. destruct (HF r Hr) as [-> | ->]; [|reflexivity]. now rewrite (proj2 (Z.eqb_neq _ _) ne).
  Qed.
  Lemma tiny_ok : tiny <= sumf (obs_weight c) (switchers c rows placebo hz).
  Proof.
    rewrite sw_A1, w_arm. apply Qcle_trans with 1; [discriminate|]. rewrite <- qz_1. unfold qn. rewrite <- qz_le. lia.
  Qed.
  Lemma safe_n1 : safe_nsw c hz tmx valid cs = qn (length A1).
  Proof. rewrite (safe_spec c rows Hn Hd Hgap placebo h Hh valid Hsame tiny_ok), sw_A1. apply w_arm. Qed.
  Lemma never_t0 r : In r u -> i_t r = t0 -> oz0 (never c tmx (lc r)) = ind (grp_eqb (switch_date rows (i_g r)) Inf).
  Proof.
    intros Hr Ht. rewrite (never_spec c rows Hn Hd Hgap placebo h Hh r Hr), (not_yet_t0 r Hr Ht). destruct (at_t0 r Hr Ht) as [[v ->] _]. cbn. now rewrite andb_true_r.
  Qed.
  Lemma is_control_val x : is_control c tmx x = Qceqb (oz0 (never c tmx x)) 1.
  Proof. unfold is_control. destruct (never c tmx x); [reflexivity|]. cbn. now destruct (Qceqb_spec 0 1). Qed.
  Lemma is_control_t0 r : In r u -> i_t r = t0 -> is_control c tmx (lc r) = grp_eqb (switch_date rows (i_g r)) Inf.
  Proof.
    intros Hr Ht. rewrite is_control_val, (never_t0 r Hr Ht). destruct (grp_eqb _ _); reflexivity.
  Qed.
  (** treated weight among the peers *)
  Lemma n_treated_t0 r : In r u -> i_t r = t0 -> n_treated c hz tmx valid cs (lc r) = qn (length A1).
  Proof.
    intros Hr Ht. unfold n_treated. rewrite (sumf_ext _ _ _ (fun x _ => dist_w_ind c hz tmx valid cs x)), <- sumf_filter, filter_andb.
    rewrite (sum_arm c_w (obs_weight c) (Fin f)); [apply w_arm| |].
    - apply filter_cs_arm.
      + intros x Hx. rewrite andb_true_iff. intros [_ He]. now apply el_is_t0.
      + intros r' Hr' Ht'. rewrite (peers_ok r r' Hr Hr' Ht Ht'). now apply el_t0.
    - intros r' Hr'. apply arm_in in Hr' as (k1 & _). now apply weight_spec.
  Qed.
  Lemma n_treated_other x : In x cs -> p_t (c_p x) <> t0 -> n_treated c hz tmx valid cs x = 0.
  Proof.
    intros Hx Ht. unfold n_treated. apply sumf_zero. intros y Hy. apply filter_In in Hy as [Hy Hp]. rewrite dist_w_ind.
    destruct (el y) eqn:E; [|cbn; ring]. exfalso. apply Ht. apply peer_iff in Hp as [-> _]. now apply el_is_t0.
  Qed.
  Lemma coef_val x : c_diff x <> None -> coef c hz tmx valid cs x
    = Some (qn (n_units cs) / safe_nsw c hz tmx valid cs * c_w x * (ind (el x) - n_treated c hz tmx valid cs x / safe_ncontrol c tmx cs x * oz0 (never c tmx x))).
  Proof.
    intros H. unfold coef. rewrite <- dist_ind. destruct (dist c hz tmx valid cs x) as [d|] eqn:E; [reflexivity|].
    unfold dist in E. destruct (c_diff x); [discriminate|tauto].
  Qed.
  Lemma coef_none x : c_diff x = None -> coef c hz tmx valid cs x = None.
  Proof. intros H. unfold coef, dist. now rewrite H. Qed.
  Notation iv := (inf_var c hz tmx valid cs placebo rt).
  Lemma iv_zero k x : coef c hz tmx valid cs x = Some k -> k = 0 -> iv x = 0.
  Proof. intros E ->. unfold inf_var. rewrite E. ring. Qed.
  Lemma iv_other x : In x cs -> p_t (c_p x) <> t0 -> iv x = 0.
  Proof.
    intros Hx Ht. destruct (c_diff x) eqn:E.
    - eapply iv_zero; [apply coef_val; congruence|]. rewrite (n_treated_other x Hx Ht).
      destruct (el x) eqn:Ee; [now apply el_is_t0 in Ee|]. cbn. unfold Qcdiv. ring.
    - unfold inf_var. now rewrite coef_none.
  Qed.
  Lemma iv_w x : c_w x = 0 -> iv x = 0.
  Proof.
    intros Hx. destruct (c_diff x) eqn:E.
    - eapply iv_zero; [apply coef_val; congruence|]. rewrite Hx. unfold Qcdiv. ring.
    - unfold inf_var. now rewrite coef_none.
  Qed.
  (** every unit has one row that counts *)
  Lemma ss_units : sumsq snd (unit_infs c hz tmx valid cs placebo rt) = sumf (fun r => iv (lc r) * iv (lc r)) (filter (fun r => (i_t r =? t0)%Z) u).
  Proof.
    unfold sumsq, unit_infs. rewrite sumf_map. cbn [snd]. rewrite sumf_filter.
    rewrite (sumf_perm _ _ _ (cells_perm c L placebo h)), sumf_map. unfold keys at 1. rewrite sumf_prod.
    assert (E : forall g, In g (gs L) -> sumf (fun t => ind (p_first (c_p (ck c L placebo h (g, t)))) * (unit_sum cs iv (ck c L placebo h (g, t)) * unit_sum cs iv (ck c L placebo h (g, t)))) (ts L)
      = sumf (fun t => iv (ck c L placebo h (g, t)) * iv (ck c L placebo h (g, t))) (ts L)).
    { intros g Hg. destruct (t0_key g Hg) as (r & k1 & k2 & k3).
      assert (Ht0 : In t0 (ts L)) by (apply (ts_in c rows Hn Hd); eauto).
      assert (Hne : forall t, In t (ts L) -> t <> t0 -> iv (ck c L placebo h (g, t)) = 0).
      { intros t Ht ne. apply iv_other; [|now rewrite ck_t]. apply (Permutation_in _ (Permutation_sym (cells_perm c L placebo h))), in_map, keys_in. auto. }
      rewrite (sumf_single (fun t => iv (ck c L placebo h (g, t)) * iv (ck c L placebo h (g, t))) (ts L) t0); [|apply ts_nodup|exact Ht0|intros t Ht ne; rewrite (Hne t Ht ne); ring].
      destruct (zmin_in_some _ _ Ht0) as [m Em].
      assert (Ef : forall t, p_first (c_p (ck c L placebo h (g, t))) = (t =? m)%Z) by (intros t; cbn; now rewrite Em).
      apply zmin_some in Em as [Em _].
      rewrite (sumf_single _ (ts L) m); [|apply ts_nodup|exact Em|].
      2:{ intros t Ht ne. rewrite Ef, (proj2 (Z.eqb_neq _ _) ne). cbn. ring. }
      rewrite Ef, Z.eqb_refl. cbn [ind].
      assert (Es : unit_sum cs iv (ck c L placebo h (g, m)) = iv (ck c L placebo h (g, t0))); [|rewrite Es; ring].
      unfold unit_sum. rewrite Ef, Z.eqb_refl. cbn [ind]. rewrite (sumf_perm _ _ _ (filter_perm _ _ _ (cells_perm c L placebo h))).
      rewrite (sumf_perm _ _ _ (mates_keys c L placebo h (g, m) ltac:(apply keys_in; auto))), sumf_map. cbn [fst].
      rewrite (sumf_single _ (ts L) t0); [ring|apply ts_nodup|exact Ht0|exact Hne]. }
    rewrite (sumf_ext _ _ _ E), <- (sumf_prod (fun k => iv (ck c L placebo h k) * iv (ck c L placebo h k))). fold (keys L). rewrite <- (sumf_map (ck c L placebo h) (fun x => iv x * iv x)), <- (sumf_perm _ _ _ (cells_perm c L placebo h)).
    rewrite (sum_cells c L (KL_nodup c rows Hn Hd) placebo h (fun x => iv x * iv x)); [|intros x Hx; rewrite (iv_w x Hx); ring].
    rewrite sumf_map, (sum_K c rows Hn Hd), sumf_filter. apply sumf_ext. intros r Hr. destruct (Z.eqb_spec (i_t r) t0) as [e|ne]; cbn [ind]; [ring|].
    rewrite iv_other; [ring|now apply lc_in|now rewrite lc_t].
  Qed.

  Lemma in_window_t0 r : In r u -> i_t r = t0 -> in_window hz (lc r) = true.
  Proof.
    intros Hr Ht. unfold in_window. rewrite (lc_t r Hr), Ht.
    assert (HT : (t0 <= p_T (c_p (lc r)))%Z).
    { cbn [c_p lcell ck p_T pk]. rewrite (brow_in L (KL_nodup c rows Hn Hd)) by now apply in_map, uK.
      destruct A0 as [|r0 l] eqn:EA; [cbn in N0; lia|]. assert (Hr0 : In r0 A0) by (rewrite EA; now left). apply arm_in in Hr0 as (k1 & k2 & k3).
      set (SB := sort_gt s_g s_t (B L)).
      assert (Hs0 : In (an r0) SB).
      { apply sort_gt_in, B_in. exists (skey (an r0)). split; [apply skey_in, in_map, uK, k1|]. symmetry. apply brow_in; [now apply KL_nodup|now apply in_map, uK]. }
      assert (Hin : In (f_trunc SB (an r0)) (map (f_trunc SB) (filter (same_base (an r)) SB))).
      { apply in_map. apply filter_In. split; [exact Hs0|]. rewrite ann_same_base. now apply Hb. }
      destruct (zmax_in_some _ _ Hin) as [m Em]. rewrite Em. apply zmax_some in Em as [_ Em]. specialize (Em _ Hin).
      assert (Hft : (t0 + 1 <= f_trunc SB (an r0))%Z); [|lia].
      unfold f_trunc. cbn [s_F ann]. rewrite k3.
      assert (Ht0 : In t0 (map s_t (filter (fun s' => (s_g s' =? s_g (an r0))%Z) SB))).
      { rewrite <- k2. apply (in_map s_t _ (an r0)). apply filter_In. split; [exact Hs0|apply Z.eqb_refl]. }
      destruct (zmax_in_some _ _ Ht0) as [m' Em']. rewrite Em'. apply zmax_some in Em' as [_ Em']. specialize (Em' _ Ht0). lia. }
    rewrite !andb_true_iff, !Z.leb_le. lia.
  Qed.
  Lemma dist_one_t0 r : In r u -> i_t r = t0 -> dist_one c hz tmx valid cs (lc r) = grp_eqb (switch_date rows (i_g r)) (Fin f).
  Proof. intros Hr Ht. rewrite dist_one_elig. now apply el_t0. Qed.
  Lemma dist_t0 r : In r u -> i_t r = t0 -> dist c hz tmx valid cs (lc r) = Some (ind (grp_eqb (switch_date rows (i_g r)) (Fin f))).
  Proof.
    intros Hr Ht. pose proof (dist_ind c hz tmx valid cs (lc r)) as E. rewrite (el_t0 r Hr Ht) in E. rewrite <- E. unfold dist.
    rewrite (diff_spec c rows Hn Hd Hgap placebo h Hh r Hr). destruct (at_t0 r Hr Ht) as [[v ->] _]. reflexivity.
  Qed.
  Lemma cohort_perm r : In r A1 -> Permutation (cohort_rows c hz tmx valid cs placebo (lc r)) (map (fun r => lc r) A1).
  Proof.
    intros Hr. apply arm_in in Hr as (k1 & k2 & k3). unfold cohort_rows, cohort_group. rewrite filter_andb. apply filter_cs_arm.
    - intros x Hx. rewrite andb_true_iff, dist_one_elig. intros [_ He]. now apply el_is_t0.
    - intros r' Hr' Ht'. rewrite (dist_one_t0 r' Hr' Ht'), (dist_t0 r k1 k2), (dist_t0 r' Hr' Ht'). unfold same_cohort. rewrite !lcell_an by assumption.
      rewrite ann_same_base, (Hb r r' k1 Hr'). rewrite !lc_F by assumption. rewrite k3. cbn [andb].
      destruct (HF r' Hr') as [e|e]; rewrite e; [|now rewrite andb_false_r].
      cbn [s_dfg ann]. rewrite k3, e, (Hdf r r' k1 Hr' k3 e). rewrite (proj2 (grp_eqb_iff (Fin f) (Fin f)) eq_refl). cbn [andb ind].
      destruct (oq_eqb_spec (d_at rows (i_g r') f) (d_at rows (i_g r') f)); [|tauto]. cbn. destruct (Qceqb_spec 1 1); [|tauto]. now rewrite orb_true_r.
  Qed.
  Lemma control_perm r : In r u -> i_t r = t0 -> Permutation (control_rows c tmx cs (lc r)) (map (fun r => lc r) A0).
  Proof.
    intros k1 k2. unfold control_rows. rewrite filter_andb. apply filter_cs_arm.
    - intros x Hx. rewrite andb_true_iff. intros [Hp _]. apply peer_iff in Hp as [Hp _]. rewrite <- Hp. now rewrite lc_t.
    - intros r' Hr' Ht'. rewrite (peers_ok r r' k1 Hr' k2 Ht'), (is_control_t0 r' Hr' Ht'). reflexivity.
  Qed.
  Lemma wdiff_arm g l : Permutation l (map (fun r => lc r) (arm c rows hz f g)) -> wmean l = arm_mean c rows placebo hz (arm c rows hz f g).
  Proof.
    intros Hp. unfold wmean, arm_mean. f_equal.
    - apply (sum_arm wdiff (fun r => Y r) g l Hp). intros r Hr. apply arm_in in Hr as (k1 & k2 & _). unfold wdiff.
      rewrite (diff_spec c rows Hn Hd Hgap placebo h Hh r k1), (weight_spec c rows Hn Hd placebo h r k1). destruct (at_t0 r k1 k2) as [_ ->].
      unfold val, oz0. ring.
    - rewrite (sum_arm c_w (obs_weight c) g l Hp); [apply w_arm|]. intros r Hr. apply arm_in in Hr as (k1 & _). now apply weight_spec.
  Qed.
  Lemma at_target_t0' r : In r u -> i_t r = t0 -> at_target hz (lc r) = grp_eqb (switch_date rows (i_g r)) (Fin f).
  Proof.
    intros Hr Ht. unfold at_target. rewrite (lc_F r Hr), (lc_t r Hr), Ht. destruct (HF r Hr) as [-> | ->]; [|reflexivity].
    cbn. now rewrite !Z.eqb_refl.
  Qed.
  Lemma before_t0 r : In r u -> i_t r = t0 -> before_switch (lc r) = grp_eqb (switch_date rows (i_g r)) Inf.
  Proof.
    intros Hr Ht. unfold before_switch. rewrite (lc_F r Hr), (lc_t r Hr), Ht. destruct (HF r Hr) as [-> | ->]; [|reflexivity].
    cbn. apply Z.ltb_ge. lia.
  Qed.
  Notation corr n := (if ic_less c then 1 else rt (qn n / qn (n - 1))).
  Lemma iv_sw r d : In r A1 -> dof_s c hz tmx valid cs placebo (lc r) = Some d -> (2 <= d)%nat ->
    iv (lc r) = qn (n_units cs) / qn (length A1) * corr d * (Y r - arm_mean c rows placebo hz A1).
  Proof.
    intros Hr Es Hd2. pose proof (cohort_perm r Hr) as Hp. apply arm_in in Hr as (k1 & k2 & k3).
    pose proof (diff_spec c rows Hn Hd Hgap placebo h Hh r k1) as Ed. pose proof (at_t0 r k1 k2) as [[v Ev] Ew]. pose proof (weight_spec c rows Hn Hd placebo h r k1) as Ew'.
    pose proof (at_target_t0' r k1 k2) as Ea. rewrite k3, (proj2 (grp_eqb_iff (Fin f) (Fin f)) eq_refl) in Ea.
    assert (Em : mean_s c hz tmx valid cs placebo (lc r) = arm_mean c rows placebo hz A1).
    { unfold mean_s. rewrite (dist_one_t0 r k1 k2), k3, (proj2 (grp_eqb_iff (Fin f) (Fin f)) eq_refl). now apply wdiff_arm. }
    assert (Ee : e_hat c hz tmx valid cs placebo (lc r) = arm_mean c rows placebo hz A1).
    { unfold e_hat. rewrite Es, Ea. cbn [dof_safe orb negb andb]. rewrite (proj2 (Nat.leb_le _ _) Hd2). exact Em. }
    assert (Eds : dof_scale c hz tmx valid cs placebo rt (lc r) = corr d).
    { unfold dof_scale. rewrite Es, Ea. cbn [dof_safe andb]. destruct (ic_less c); [reflexivity|]. rewrite (proj2 (Nat.ltb_lt 1 d)) by lia. reflexivity. }
    unfold inf_var. rewrite coef_val by (rewrite Ed, Ev; discriminate). rewrite (in_window_t0 r k1 k2), Ee, Eds, Ed, Ev, Ew', Ew, (el_t0 r k1 k2), (never_t0 r k1 k2), k3, safe_n1.
    rewrite (proj2 (grp_eqb_iff (Fin f) (Fin f)) eq_refl). cbn [grp_eqb ind oz0 val]. ring.
  Qed.
  Lemma iv_ns r d : In r A0 -> dof_ns c tmx cs (lc r) = Some d -> (2 <= d)%nat ->
    iv (lc r) = - (qn (n_units cs) / qn (length A0) * corr d * (Y r - arm_mean c rows placebo hz A0)).
  Proof.
    intros Hr Es Hd2. apply arm_in in Hr as (k1 & k2 & k3). pose proof (control_perm r k1 k2) as Hp.
    pose proof (diff_spec c rows Hn Hd Hgap placebo h Hh r k1) as Ed. pose proof (at_t0 r k1 k2) as [[v Ev] Ew]. pose proof (weight_spec c rows Hn Hd placebo h r k1) as Ew'.
    pose proof (at_target_t0' r k1 k2) as Ea. rewrite k3 in Ea. cbn [grp_eqb] in Ea. pose proof (before_t0 r k1 k2) as Eb. rewrite k3 in Eb. cbn [grp_eqb] in Eb.
    assert (Hc : sumf c_w (control_rows c tmx cs (lc r)) = qn (length A0)).
    { rewrite (sum_arm c_w (obs_weight c) Inf _ Hp); [apply w_arm|]. intros r' Hr'. apply arm_in in Hr' as (q1 & _). now apply weight_spec. }
    assert (P0 : 0 < qn (length A0)) by (apply qn_pos; lia). assert (P1 : 0 < qn (length A1)) by (apply qn_pos; lia).
    assert (Em : mean_ns c tmx cs (lc r) = arm_mean c rows placebo hz A0).
    { unfold mean_ns. rewrite (is_control_t0 r k1 k2), k3. cbn [grp_eqb andb]. rewrite Hc. destruct (Qcltb_spec 0 (qn (length A0))); [|contradiction]. now apply wdiff_arm. }
    assert (Ee : e_hat c hz tmx valid cs placebo (lc r) = arm_mean c rows placebo hz A0).
    { unfold e_hat. rewrite Es, Ea, Eb. cbn [dof_safe orb negb andb]. rewrite (proj2 (Nat.leb_le _ _) Hd2). exact Em. }
    assert (Eds : dof_scale c hz tmx valid cs placebo rt (lc r) = corr d).
    { unfold dof_scale. rewrite Es, Ea, Eb. cbn [dof_safe andb]. destruct (ic_less c); [reflexivity|]. rewrite (proj2 (Nat.ltb_lt 1 d)) by lia. reflexivity. }
    unfold inf_var. rewrite coef_val by (rewrite Ed, Ev; discriminate). rewrite (in_window_t0 r k1 k2), Ee, Eds, Ed, Ev, Ew', Ew, (el_t0 r k1 k2), (never_t0 r k1 k2), k3, safe_n1, (n_treated_t0 r k1 k2).
    unfold safe_ncontrol. rewrite (n_control_t0 r k1 k2). apply Qc_pos_neq0 in P0, P1. destruct (Qceqb_spec (qn (length A0)) 0); [contradiction|].
    cbn [grp_eqb ind oz0 val]. field. auto.
  Qed.
  Lemma two_arms (G : irow -> Qc) : sumf G (filter (fun r => (i_t r =? t0)%Z) u) = sumf G A1 + sumf G A0.
  Proof.
    unfold arm. rewrite !sumf_filter, <- sumf_add. apply sumf_ext. intros r Hr. destruct (i_t r =? t0)%Z; cbn [andb ind]; [|ring].
    destruct (HF r Hr) as [-> | ->]; cbn [grp_eqb]; [rewrite Z.eqb_refl|]; cbn [ind]; ring.
  Qed.
  Lemma units_ne : qn (n_units cs) <> 0.
  Proof.
    apply n_units_pos. apply cells_nonempty; [now apply KL_nodup|]. apply (L_ne c rows Hn Hd Hgap placebo h Hh valid Hsame tiny_ok).
  Qed.
  Section Unclustered.
  Context (Hcl : ic_cluster c = false).
  Lemma dof_s_t0 r : In r A1 -> dof_s c hz tmx valid cs placebo (lc r) = Some (length A1).
  Proof.
    intros Hr. pose proof (cohort_perm r Hr) as Hp. apply arm_in in Hr as (k1 & k2 & k3). unfold dof_s, dof_col. rewrite Hcl, (dist_one_t0 r k1 k2), k3.
    rewrite (proj2 (grp_eqb_iff (Fin f) (Fin f)) eq_refl). f_equal. fold (cohort_rows c hz tmx valid cs placebo (lc r)).
    apply Permutation_length in Hp. now rewrite map_length in Hp.
  Qed.
  Lemma dof_ns_t0 r : In r A0 -> dof_ns c tmx cs (lc r) = Some (length A0).
  Proof.
    intros Hr. apply arm_in in Hr as (k1 & k2 & k3). pose proof (control_perm r k1 k2) as Hp. unfold dof_ns, dof_col. rewrite Hcl, (is_control_t0 r k1 k2), k3.
    cbn [grp_eqb]. f_equal. fold (control_rows c tmx cs (lc r)). apply Permutation_length in Hp. now rewrite map_length in Hp.
  Qed.
  Lemma se2_two_sample : se2_unnorm c hz tmx valid cs placebo rt
    = dof_correction c rt (length A1) * arm_msd c rows placebo hz A1 / qn (length A1) + dof_correction c rt (length A0) * arm_msd c rows placebo hz A0 / qn (length A0).
  Proof.
    unfold se2_unnorm. rewrite Hcl, ss_units, two_arms.
    pose proof units_ne as Hne.
    assert (P0 : qn (length A0) <> 0) by (apply qn_neq0; lia). assert (P1 : qn (length A1) <> 0) by (apply qn_neq0; lia).
    rewrite (sumf_ext _ (fun r => (qn (n_units cs) / qn (length A1) * corr (length A1)) * (qn (n_units cs) / qn (length A1) * corr (length A1))
        * ((Y r - arm_mean c rows placebo hz A1) * (Y r - arm_mean c rows placebo hz A1))) A1) by (intros r Hr; rewrite (iv_sw r _ Hr (dof_s_t0 r Hr) N1); ring).
    rewrite (sumf_ext _ (fun r => (qn (n_units cs) / qn (length A0) * corr (length A0)) * (qn (n_units cs) / qn (length A0) * corr (length A0))
        * ((Y r - arm_mean c rows placebo hz A0) * (Y r - arm_mean c rows placebo hz A0))) A0) by (intros r Hr; rewrite (iv_ns r _ Hr (dof_ns_t0 r Hr) N0); ring).
    rewrite !sumf_mul_l. unfold arm_msd. cbv zeta. unfold dof_correction. destruct (ic_less c); field; auto.
  Qed.
  End Unclustered.

  Section Clustered.
  Context (Hcl : ic_cluster c = true) (Hless : ic_less c = true) (Hck : clusters_ok c rows hz f).
  Let Hc1 := proj1 Hck.
  Let Hc2 := proj1 (proj2 Hck).
  Let Hc3 := proj1 (proj2 (proj2 Hck)).
  Let Hc4 := proj2 (proj2 (proj2 Hck)).
  Lemma lc_cl r : In r u -> p_cl (c_p (lc r)) = i_cl r.
  Proof. intros Hr. unfold p_cl. now rewrite lcell_an. Qed.
  Lemma two_distinct (l : list (option Z)) a b : In a l -> In b l -> a <> b -> (2 <= length (uniq oz_eqb l))%nat.
  Proof.
    intros Ha Hb' ne. assert (Hi : forall x, In x l -> In x (uniq oz_eqb l)).
    { intros x Hx. apply (uniq_in oz_eqb oz_eqb_spec). exact Hx. }
    apply Hi in Ha, Hb'. destruct (uniq oz_eqb l) as [|x [|y l']]; cbn in *; [tauto| |lia]. exfalso. apply ne. intuition congruence.
  Qed.
  Lemma dof_s_cl r : In r A1 -> exists d, dof_s c hz tmx valid cs placebo (lc r) = Some d /\ (2 <= d)%nat.
  Proof.
    intros Hr. pose proof (cohort_perm r Hr) as Hp. apply arm_in in Hr as (k1 & k2 & k3). unfold dof_s, dof_col.
    rewrite Hcl, (dist_one_t0 r k1 k2), k3, (lc_cl r k1), (Hc1 r k1), (proj2 (grp_eqb_iff (Fin f) (Fin f)) eq_refl). cbn [andb].
    eexists. split; [reflexivity|]. destruct (Hc4 (Fin f) (or_introl eq_refl)) as (a & b & Ha & Hb' & ne).
    assert (G : forall a, In a A1 -> In (i_cl a) (map (fun y => if dist_one c hz tmx valid cs y then p_cl (c_p y) else None) (cohort_group c hz tmx valid cs placebo (lc r)))).
    { intros x Hx. apply in_map_iff. exists (lc x). assert (Hm : In (lc x) (cohort_rows c hz tmx valid cs placebo (lc r))).
      { apply (Permutation_in _ (Permutation_sym Hp)). apply (in_map (fun r => lc r)). exact Hx. }
      unfold cohort_rows in Hm. apply filter_In in Hm as [Hm Hm']. rewrite Hm'. split; [|exact Hm]. apply lc_cl. apply arm_in in Hx. tauto. }
    exact (two_distinct _ _ _ (G a Ha) (G b Hb') ne).
  Qed.
  Lemma dof_ns_cl r : In r A0 -> exists d, dof_ns c tmx cs (lc r) = Some d /\ (2 <= d)%nat.
  Proof.
    intros Hr. apply arm_in in Hr as (k1 & k2 & k3). pose proof (control_perm r k1 k2) as Hp. unfold dof_ns, dof_col.
    rewrite Hcl, (is_control_t0 r k1 k2), k3, (lc_cl r k1), (Hc1 r k1). cbn [andb grp_eqb].
    eexists. split; [reflexivity|]. destruct (Hc4 Inf (or_intror eq_refl)) as (a & b & Ha & Hb' & ne).
    assert (G : forall a, In a A0 -> In (i_cl a) (map (fun y => if is_control c tmx y then p_cl (c_p y) else None) (filter (peer (lc r)) cs))).
    { intros x Hx. apply in_map_iff. exists (lc x). assert (Hm : In (lc x) (control_rows c tmx cs (lc r))).
      { apply (Permutation_in _ (Permutation_sym Hp)). apply (in_map (fun r => lc r)). exact Hx. }
      unfold control_rows in Hm. apply filter_In in Hm as [Hm Hm']. rewrite Hm'. split; [|exact Hm]. apply lc_cl. apply arm_in in Hx. tauto. }
    exact (two_distinct _ _ _ (G a Ha) (G b Hb') ne).
  Qed.
  Lemma iv_dev r : In r u -> i_t r = t0 -> iv (lc r) = qn (n_units cs) * arm_dev c rows placebo hz f r.
  Proof.
    intros Hr Ht. unfold arm_dev. destruct (HF r Hr) as [e|e]; rewrite e; cbn [grp_eqb].
    - assert (Ha : In r A1) by (apply arm_in; auto). destruct (dof_s_cl r Ha) as (d & E & Hd2). rewrite (iv_sw r d Ha E Hd2), Hless. unfold Qcdiv. ring.
    - assert (Ha : In r A0) by (apply arm_in; auto). destruct (dof_ns_cl r Ha) as (d & E & Hd2). rewrite (iv_ns r d Ha E Hd2), Hless. unfold Qcdiv. ring.
  Qed.
  Notation T := (target_rows c rows hz f).
  (** linear version of [ss_units] *)
  Lemma first_cl g m r : zmin (ts L) = Some m -> In r u -> i_g r = g -> p_cl (c_p (ck c L placebo h (g, m))) = i_cl r.
  Proof.
    intros Em Hr Eg. apply zmin_some in Em as [E1 E2]. apply (ts_in c rows Hn Hd) in E1 as (r1 & q1 & q2).
    destruct (Hc3 r r1 Hr q1) as (r0 & w1 & w2 & w3).
    { intros x Hx. rewrite q2. apply E2, (ts_in c rows Hn Hd). eauto. }
    assert (Ec : ck c L placebo h (g, m) = lc r0) by (unfold lcell, skey, s_g, s_t; cbn [s_row ann]; now rewrite w2, w3, Eg, q2).
    rewrite Ec, (lc_cl r0 w1). now apply Hc2.
  Qed.
  Lemma cl_sum (p : option Z -> bool) :
    sumf (fun x => ind (p_first (c_p x)) * (ind (p (p_cl (c_p x))) * unit_sum cs iv x)) cs = sumf (fun r => ind (p (i_cl r)) * iv (lc r)) T.
  Proof.
    rewrite (sumf_perm _ _ _ (cells_perm c L placebo h)), sumf_map. unfold keys at 1. rewrite sumf_prod.
    assert (E : forall g, In g (gs L) -> sumf (fun t => ind (p_first (c_p (ck c L placebo h (g, t)))) * (ind (p (p_cl (c_p (ck c L placebo h (g, t))))) * unit_sum cs iv (ck c L placebo h (g, t)))) (ts L)
      = sumf (fun t => ind (t =? t0)%Z * (ind (p (p_cl (c_p (ck c L placebo h (g, t))))) * iv (ck c L placebo h (g, t)))) (ts L)).
    { intros g Hg. destruct (t0_key g Hg) as (r & k1 & k2 & k3).
      assert (Ht0 : In t0 (ts L)) by (apply (ts_in c rows Hn Hd); eauto).
      assert (Hne : forall t, In t (ts L) -> t <> t0 -> iv (ck c L placebo h (g, t)) = 0).
      { intros t Ht ne. apply iv_other; [|now rewrite ck_t]. apply (Permutation_in _ (Permutation_sym (cells_perm c L placebo h))), in_map, keys_in. auto. }
      rewrite (sumf_single (fun t => ind (t =? t0)%Z * _) (ts L) t0); [|apply ts_nodup|exact Ht0|intros t Ht ne; rewrite (proj2 (Z.eqb_neq _ _) ne); cbn [ind]; ring].
      rewrite Z.eqb_refl. cbn [ind].
      destruct (zmin_in_some _ _ Ht0) as [m Em].
      assert (Ef : forall t, p_first (c_p (ck c L placebo h (g, t))) = (t =? m)%Z) by (intros t; cbn; now rewrite Em).
      pose proof (first_cl g m r Em k1 k2) as Ecl.
      apply zmin_some in Em as [Em _].
      rewrite (sumf_single _ (ts L) m); [|apply ts_nodup|exact Em|].
      2:{ intros t Ht ne. rewrite Ef, (proj2 (Z.eqb_neq _ _) ne). cbn [ind]. ring. }
      rewrite Ef, Z.eqb_refl. cbn [ind]. rewrite Ecl.
      assert (Ec0 : ck c L placebo h (g, t0) = lc r) by (unfold lcell, skey, s_g, s_t; cbn [s_row ann]; now rewrite k2, k3).
      assert (Es : unit_sum cs iv (ck c L placebo h (g, m)) = iv (ck c L placebo h (g, t0))); [|rewrite Es, Ec0, (lc_cl r k1); ring].
      unfold unit_sum. rewrite Ef, Z.eqb_refl. cbn [ind]. rewrite (sumf_perm _ _ _ (filter_perm _ _ _ (cells_perm c L placebo h))).
      rewrite (sumf_perm _ _ _ (mates_keys c L placebo h (g, m) ltac:(apply keys_in; auto))), sumf_map. cbn [fst].
      rewrite (sumf_single _ (ts L) t0); [ring|apply ts_nodup|exact Ht0|exact Hne]. }
    rewrite (sumf_ext _ _ _ E), <- (sumf_prod (fun k => ind (snd k =? t0)%Z * (ind (p (p_cl (c_p (ck c L placebo h k)))) * iv (ck c L placebo h k)))). fold (keys L).
    rewrite (sumf_ext _ (fun k => (fun x => ind (p_t (c_p x) =? t0)%Z * (ind (p (p_cl (c_p x))) * iv x)) (ck c L placebo h k))) by (intros k _; cbn beta; now rewrite ck_t).
    rewrite <- (sumf_map (ck c L placebo h) (fun x => ind (p_t (c_p x) =? t0)%Z * (ind (p (p_cl (c_p x))) * iv x))), <- (sumf_perm _ _ _ (cells_perm c L placebo h)).
    rewrite (sum_cells c L (KL_nodup c rows Hn Hd) placebo h (fun x => ind (p_t (c_p x) =? t0)%Z * (ind (p (p_cl (c_p x))) * iv x))); [|intros x Hx; rewrite (iv_w x Hx); ring].
    rewrite sumf_map, (sum_K c rows Hn Hd). unfold target_rows. rewrite sumf_filter. apply sumf_ext. intros r Hr. rewrite (lc_t r Hr), (lc_cl r Hr). reflexivity.
  Qed.
  Notation ui := (unit_infs c hz tmx valid cs placebo rt).
  Notation vl := (flat_map (fun u0 : option Z * Qc => match fst u0 with Some k => [(k, snd u0)] | None => [] end) ui).
  Lemma v_in k : In k (map fst vl) <-> exists r, In r T /\ i_cl r = Some k.
  Proof.
    rewrite in_map_iff. split.
    - intros ((k', q) & <- & H). apply in_flat_map in H as ((o, q') & H & H'). cbn in H'. destruct o as [k''|]; [|destruct H'].
      destruct H' as [[= -> ->]|[]]. cbn [fst]. unfold unit_infs in H. apply in_map_iff in H as (x & [= e1 e2] & Hx). apply filter_In in Hx as [Hx Hfi].
      destruct (cell_key x Hx) as ((g, t) & Hk & ->). apply keys_in in Hk as [Hg Ht]. destruct (t0_key g Hg) as (r & k1 & k2 & k3).
      exists r. split; [unfold target_rows; apply filter_In; split; [exact k1|now apply Z.eqb_eq]|].
      destruct (zmin_in_some _ _ Ht) as [m Em]. cbn in Hfi. rewrite Em in Hfi. apply Z.eqb_eq in Hfi. subst t. rewrite <- e1. symmetry. now apply first_cl.
    - intros (r & Hr & Er). unfold target_rows in Hr. apply filter_In in Hr as [Hr Ht]. apply Z.eqb_eq in Ht.
      assert (Htt : In (i_t r) (ts L)) by (apply (ts_in c rows Hn Hd); eauto). destruct (zmin_in_some _ _ Htt) as [m Em].
      assert (Hmin : In m (ts L)) by (now apply zmin_some in Em).
      assert (Hx : In (ck c L placebo h (i_g r, m)) cs).
      { apply (Permutation_in _ (Permutation_sym (cells_perm c L placebo h))), in_map, keys_in. split; [|exact Hmin].
        unfold gs. rewrite zuniq_in, map_map. apply (in_map (fun x => s_g (an x))). now apply uK. }
      exists (k, unit_sum cs iv (ck c L placebo h (i_g r, m))). split; [reflexivity|]. apply in_flat_map.
      exists (p_cl (c_p (ck c L placebo h (i_g r, m))), unit_sum cs iv (ck c L placebo h (i_g r, m))). split.
      + unfold unit_infs. apply in_map_iff. eexists. split; [reflexivity|]. apply filter_In. split; [exact Hx|]. cbn. rewrite Em. apply Z.eqb_refl.
      + cbn [fst snd]. rewrite (first_cl (i_g r) m r Em Hr eq_refl), Er. now left.
  Qed.
  Lemma v_sum k : sumf snd (filter (fun u0 => (fst u0 =? k)%Z) vl) = sumf (fun r => iv (lc r)) (filter (cluster_in k) T).
  Proof.
    rewrite sumf_filter, sumf_flat_map. unfold unit_infs. rewrite sumf_map, sumf_filter. rewrite sumf_filter.
    transitivity (sumf (fun x => ind (p_first (c_p x)) * (ind (match p_cl (c_p x) with Some k' => (k' =? k)%Z | None => false end) * unit_sum cs iv x)) cs).
    - apply sumf_ext. intros x _. f_equal. cbn [fst snd]. destruct (p_cl (c_p x)); cbn; ring.
    - rewrite (cl_sum (fun o => match o with Some k' => (k' =? k)%Z | None => false end)). reflexivity.
  Qed.
  Lemma se2_clustered : se2_unnorm c hz tmx valid cs placebo rt = cluster_variance c rows placebo hz f.
  Proof.
    pose proof units_ne as Hne. unfold se2_unnorm. rewrite Hcl. unfold clustered_ss, cluster_variance. cbv zeta.
    assert (Ek : zuniq (map fst vl) = zuniq (flat_map (fun r => match i_cl r with Some k => [k] | None => [] end) T)).
    { apply zuniq_ext. intros k. rewrite v_in, in_flat_map. split; intros (r & h1 & h2); exists r; (split; [exact h1|]).
      - rewrite h2. now left.
      - destruct (i_cl r); [|destruct h2]. destruct h2 as [->|[]]. reflexivity. }
    rewrite Ek.
    destruct (Nat.leb_spec (length (zuniq (flat_map (fun r => match i_cl r with Some k => [k] | None => [] end) T))) 1) as [l|_].
    { exfalso. destruct (Hc4 Inf (or_intror eq_refl)) as (a & b & Ha & Hb' & ne).
      assert (G : forall x, In x A0 -> exists k, i_cl x = Some k /\ In k (zuniq (flat_map (fun r => match i_cl r with Some k => [k] | None => [] end) T))).
      { intros x Hx. apply arm_in in Hx as (q1 & q2 & _). pose proof (Hc1 x q1) as Hs. destruct (i_cl x) as [k|] eqn:E; [|discriminate]. exists k. split; [reflexivity|].
        rewrite zuniq_in, in_flat_map. exists x. rewrite E. split; [|now left]. unfold target_rows. apply filter_In. split; [exact q1|now apply Z.eqb_eq]. }
      destruct (G a Ha) as (ka & ea & ia). destruct (G b Hb') as (kb & eb & ib). rewrite ea, eb in ne.
      destruct (zuniq (flat_map (fun r => match i_cl r with Some k => [k] | None => [] end) T)) as [|x [|y l']]; cbn in l, ia, ib; [tauto| |lia]. apply ne. intuition congruence. }
    unfold sumsq.
    rewrite (sumf_ext _ (fun k => (qn (n_units cs) * qn (n_units cs)) * (sumf (arm_dev c rows placebo hz f) (filter (cluster_in k) T) * sumf (arm_dev c rows placebo hz f) (filter (cluster_in k) T)))).
    - rewrite sumf_mul_l. field. exact Hne.
    - intros k _. rewrite v_sum. rewrite (sumf_ext _ (fun r => qn (n_units cs) * arm_dev c rows placebo hz f r)).
      + rewrite sumf_mul_l. ring.
      + intros r Hr. apply filter_In in Hr as [Hr _]. unfold target_rows in Hr. apply filter_In in Hr as [Hr Ht]. apply Z.eqb_eq in Ht. now apply iv_dev.
  Qed.
  End Clustered.
End SE.
