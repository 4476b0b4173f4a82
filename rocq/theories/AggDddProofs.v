(** Lemmas for C64-C69: from recoded to original values. *)
From Verif Require Import Base ListLib Calc PreprocessModel PreprocessProofs SeModel AggteModel AggteSpec AggteProofs AggteProofs2 AggteProofs3 AggteProofs5 AggDddModel AggDddSpec.

Lemma pgg_frac us g : pgg us g = frac us g.
Proof.
  unfold pgg, frac, mean. f_equal. apply sumf_ind.
Qed.
Lemma frac_pos us g : In (Fin g) us -> 0 < frac us g.
Proof.
  intros H. assert (L : (0 < length (filter (fun c => grp_eqb c (Fin g)) us))%nat).
  { destruct (filter _ us) eqn:E; [|cbn; lia]. assert (X : In (Fin g) (filter (fun c => grp_eqb c (Fin g)) us)) by (apply filter_In; split; [exact H|cbn; apply Z.eqb_refl]). rewrite E in X. destruct X. }
  unfold frac. assert (L2 : (0 < length us)%nat) by (destruct us; [destruct H|cbn; lia]).
  apply Qcdiv_pos; apply qn_pos; assumption.
Qed.

Lemma map_const_seq (c : Qc) s n : map (fun _ => c) (seq s n) = repeat c n.
Proof. revert s. induction n as [|n IH]; intros s; cbn; [reflexivity|]. rewrite IH. reflexivity. Qed.

Section Rec.
  Context (u glist : list Z) (us : list grp) (cells : list kcell).
  Hypothesis US : StronglySorted Z.lt u.
  Hypothesis UG : forall k, In k cells -> In (k_g k) u.
  Hypothesis UT : forall k, In k cells -> In (k_t k) u.
  Hypothesis GU : forall g, In g glist -> In g u.
  Hypothesis KG : forall k, In k cells -> In (k_g k) glist.

  Lemma pg_obs_frac k : In k cells -> pg_obs u glist us k = frac us (k_g k).
  Proof.
    intros Hk. unfold pg_obs, rg. rewrite <- pgg_frac. assert (K := KG k Hk).
    assert (ND : forall l acc, (forall g, In g l -> In g glist) ->
      fold_left (fun acc g => if (recode u (k_g k) =? recode u g)%Z then pgg us g else acc) l acc = if existsb (Z.eqb (k_g k)) l then pgg us (k_g k) else acc).
    { induction l as [|g l IH]; intros acc H; [reflexivity|]. cbn [fold_left existsb]. rewrite IH by (intros; apply H; right; assumption).
      assert (R := recode_inj u (k_g k) g US (UG k Hk) (GU g (H g (or_introl eq_refl)))).
      destruct (Z.eqb_spec (recode u (k_g k)) (recode u g)) as [E|E], (Z.eqb_spec (k_g k) g) as [E'|E']; try (exfalso; tauto); cbn; [subst g; destruct (existsb _ l); reflexivity|reflexivity]. }
    rewrite ND by auto. assert (X : existsb (Z.eqb (k_g k)) glist = true) by (apply existsb_exists; exists (k_g k); split; [exact K|apply Z.eqb_refl]). rewrite X. reflexivity.
  Qed.
  Lemma rec_post k : In k cells -> (rg u k <=? rt u k)%Z = post k.
  Proof.
    intros Hk. unfold rg, rt, post. assert (R := recode_le u (k_g k) (k_t k) US (UG k Hk) (UT k Hk)).
    destruct (Z.leb_spec (recode u (k_g k)) (recode u (k_t k))), (Z.leb_spec (k_g k) (k_t k)); intuition lia.
  Qed.
  Definition usteps (g t : Z) : Z := Z.of_nat (length (filter (fun v => (g <? v)%Z && (v <=? t)%Z) u)).
  Definition uwin (ma : option Z) (k : kcell) : bool := match ma with None => true | Some m => (usteps (k_g k) (k_t k) <=? m)%Z end.
  Lemma rec_steps k : In k cells -> (k_g k <= k_t k)%Z -> (rt u k - rg u k)%Z = usteps (k_g k) (k_t k).
  Proof.
    intros Hk H. unfold rt, rg. rewrite !recode_cnt by (try apply US; try apply UG; try apply UT; exact Hk).
    rewrite (filter_le_split u (k_g k) (k_t k)) by exact H. unfold usteps. lia.
  Qed.
  Lemma rec_window ma k : In k cells -> (post k && le_max (rt u k - rg u k) ma)%bool = (post k && uwin ma k)%bool.
  Proof.
    intros Hk. destruct (post k) eqn:E; [|reflexivity]. cbn [andb]. unfold le_max, uwin. destruct ma as [m|]; [|reflexivity].
    rewrite rec_steps; [reflexivity|exact Hk|apply Z.leb_le, E].
  Qed.
  Lemma rec_post_cells ma : post_cells ma u cells = filter (fun k => post k && uwin ma k) cells.
  Proof. unfold post_cells. apply filter_ext_in'. intros k Hk. rewrite rec_post by exact Hk. apply rec_window, Hk. Qed.
  Lemma rec_group_cells ma g : In g u -> group_cells ma u cells (recode u g) = filter (fun k => (k_g k =? g)%Z && post k && uwin ma k) cells.
  Proof.
    intros Hg. unfold group_cells. apply filter_ext_in'. intros k Hk.
    assert (R := recode_inj u (k_g k) g US (UG k Hk) Hg). change (recode u (k_g k)) with (rg u k) in R.
    destruct (Z.eqb_spec (k_g k) g) as [E|D].
    - assert (E' : rg u k = recode u g) by (apply R, E). rewrite <- E', Z.eqb_refl, rec_post by exact Hk. cbn [andb]. apply rec_window, Hk.
    - destruct (Z.eqb_spec (rg u k) (recode u g)) as [E|]; [|reflexivity]. apply R in E. contradiction.
  Qed.
  Lemma rec_calendar_cells t : In t u -> calendar_cells u cells (recode u t) = filter (fun k => (k_t k =? t)%Z && post k) cells.
  Proof.
    intros Ht. unfold calendar_cells. apply filter_ext_in'. intros k Hk.
    assert (R := recode_inj u (k_t k) t US (UT k Hk) Ht). change (recode u (k_t k)) with (rt u k) in R.
    destruct (Z.eqb_spec (k_t k) t) as [E|D].
    - assert (E' : rt u k = recode u t) by (apply R, E). rewrite <- E', Z.eqb_refl, rec_post by exact Hk. reflexivity.
    - destruct (Z.eqb_spec (rt u k) (recode u t)) as [E|]; [|reflexivity]. apply R in E. contradiction.
  Qed.
  Lemma rec_max : cells <> [] -> is_max (max_orig u cells) (map k_t cells).
  Proof.
    intros N. unfold max_orig. assert (N' : map (rt u) cells <> []) by (destruct cells; [congruence|discriminate]).
    destruct (zmax_spec _ N') as [I J]. apply in_map_iff in I as [k [E Hk]]. rewrite <- E. unfold rt.
    rewrite t2orig_recode by (first [exact US | apply UT, Hk]). split; [apply in_map, Hk|].
    intros x Hx. apply in_map_iff in Hx as [k' [<- Hk']]. specialize (J (rt u k') (in_map _ _ _ Hk')). rewrite <- E in J.
    apply (proj1 (recode_le u _ _ US (UT k' Hk') (UT k Hk))). exact J.
  Qed.
  Lemma rec_min : cells <> [] -> is_min (t2orig u 1) u.
  Proof.
    intros N. destruct cells as [|k ?]; [congruence|]. assert (K := UG k (or_introl eq_refl)).
    destruct u as [|a v]; [destruct K|]. unfold t2orig. cbn [length]. destruct (Z.leb_spec 1 (Z.of_nat (S (length v)))); [|lia]. cbn [andb]. cbn.
    split; [left; reflexivity|]. intros x [->|Hx]; [lia|]. inversion US as [|? ? _ Hf]; subst. rewrite Forall_forall in Hf. specialize (Hf x Hx). lia.
  Qed.
  Lemma rec_include be k : In k cells -> include u cells be k = eligible cells be k.
  Proof.
    intros Hk. unfold include, eligible. destruct be as [b|]; [|reflexivity].
    assert (N : cells <> []) by (intros ->; destruct Hk).
    destruct (rec_max N) as [I J]. destruct (existsb _ cells) eqn:E.
    - apply existsb_exists in E as [c [Hc E]]. specialize (J (k_t c) (in_map _ _ _ Hc)). apply Z.leb_le in E. apply Z.leb_le. lia.
    - apply in_map_iff in I as [c [Ec Hc]]. apply not_true_iff_false. intros h.
      assert (existsb (fun c => (b <=? k_t c - k_g k)%Z) cells = true); [|congruence].
      apply existsb_exists. exists c. split; [exact Hc|]. rewrite Ec. exact h.
  Qed.
  Lemma rec_event_cells be e : event_cells u cells be e = filter (fun k => (k_t k - k_g k =? e)%Z && eligible cells be k) cells.
  Proof. apply filter_ext_in'. intros k Hk. rewrite rec_include by exact Hk. reflexivity. Qed.

  (** averages *)
  Context (FP : forall g, In g glist -> 0 < frac us g).
  Lemma share_total ks : (forall k, In k ks -> In k cells) -> ks <> [] -> 0 < sumf (fun k => frac us (k_g k)) ks.
  Proof. intros H N. destruct ks as [|k ks]; [congruence|]. rewrite sumf_cons.
    assert (0 < frac us (k_g k)) by (apply FP, KG, H; left; reflexivity).
    assert (0 <= sumf (fun k => frac us (k_g k)) ks). { apply sumf_nonneg. intros k' Hk'. apply Qclt_le_weak, FP, KG, H. right. exact Hk'. }
    qclra. Qed.
  Lemma pg_average_wavg ks : (forall k, In k ks -> In k cells) -> pg_average (pg_obs u glist us) ks = wavg_opt (frac us) k_att ks.
  Proof.
    intros H. unfold pg_average, ratio. rewrite (sumf_ext (pg_obs u glist us) (fun k => frac us (k_g k)) ks) by (intros; apply pg_obs_frac, H; assumption).
    destruct (Qceqb_spec (sumf (fun k => frac us (k_g k)) ks) 0) as [E|E].
    - destruct ks as [|k ks]; [reflexivity|]. assert (T := share_total (k :: ks) H ltac:(discriminate)). rewrite E in T. exfalso. qclra.
    - destruct ks as [|k ks]; [exfalso; apply E; reflexivity|]. unfold wavg_opt, wavg. f_equal. f_equal. apply sumf_ext. intros k' Hk'. rewrite pg_obs_frac by (apply H, Hk'). ring.
  Qed.
  Lemma pg_inf_winf n ks : (forall k, In k ks -> In k cells) -> pg_inf n (pg_obs u glist us) ks = winf us n ks.
  Proof.
    intros H. unfold pg_inf, winf, norm_weight, wavg. rewrite (sumf_ext (pg_obs u glist us) (fun k => frac us (k_g k)) ks) by (intros; apply pg_obs_frac, H; assumption).
    apply map_ext. intros i. rewrite <- sumf_div. apply sumf_ext. intros k Hk. rewrite pg_obs_frac by (apply H, Hk). unfold Qcdiv. ring.
  Qed.
  Lemma pg_inf_zero n ks : (forall k, In k ks -> In k cells) -> match ks with [] => repeat 0 n | k :: l => pg_inf n (pg_obs u glist us) (k :: l) end = winf us n ks.
  Proof.
    intros H. destruct ks as [|k ks]; [|apply pg_inf_winf, H]. unfold winf.
    rewrite (map_ext _ (fun _ => 0)) by (intros; unfold wavg; cbn; unfold Qcdiv; ring). symmetry. rewrite map_const_seq. reflexivity.
  Qed.
End Rec.
