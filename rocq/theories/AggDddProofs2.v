(** Normal form of the results of agg_ddd (C64-C69). *)
From Verif Require Import Base ListLib Calc PreprocessModel PreprocessProofs SeModel AggteModel AggteSpec AggteProofs AggteProofs2 AggteProofs3 AggteProofs5 AggDddModel AggDddSpec AggDddProofs.

Lemma zuniq_eq l l' : (forall x, In x l <-> In x l') -> zuniq l = zuniq l'.
Proof.
  intros H. apply (ssorted_ext Z.lt); [intros; lia|apply zuniq_sorted|apply zuniq_sorted|apply ssorted_lt_nodup, zuniq_sorted|apply ssorted_lt_nodup, zuniq_sorted|].
  intros x. rewrite !zuniq_in. apply H.
Qed.
Lemma gt_vals_scale dropna tlist glist cells : gt_vals tlist (used_glist dropna glist cells) = zuniq (scale dropna tlist glist cells).
Proof. unfold gt_vals, used_glist, scale. destruct dropna; [|reflexivity]. apply zuniq_eq. intros x. rewrite !in_app_iff, zuniq_in. reflexivity. Qed.

Definition cohort_keys (dropna : bool) (glist : list Z) (cells : list kcell) : list Z := used_glist dropna glist cells.
Definition covered (ty : agg_type) (vals : list Z) (cells : list kcell) (be ma : option Z) (key : Z) : list kcell := filter (dcovers ty vals cells be ma key) cells.
Definition calendar_keys (cells : list kcell) : list Z := filter (fun t => existsb (fun k => (k_g k <=? t)%Z) cells) (zuniq (map k_t cells)).
Definition event_keys (vals : list Z) (cells : list kcell) (be mi ma : option Z) : list Z :=
  filter (fun e => ge_min e mi && le_max e ma && match be with None => true | Some b => (e <=? b)%Z && (b - zmax (map k_t cells) + zmin vals <=? e)%Z end)
         (zuniq (map event (filter (eligible cells be) cells))).

Lemma used_glist_in dropna glist cells k : In k cells -> In (k_g k) glist -> In (k_g k) (used_glist dropna glist cells).
Proof. intros Hk H. unfold used_glist. destruct dropna; [apply zuniq_in, in_map, Hk|exact H]. Qed.
Lemma used_glist_scale dropna tlist glist cells g : In g (used_glist dropna glist cells) -> In g (scale dropna tlist glist cells).
Proof. unfold used_glist, scale. intros Hg. apply in_or_app. right. destruct dropna; [rewrite zuniq_in in Hg|]; exact Hg. Qed.
Lemma used_glist_sub dropna glist cells g : (forall k, In k cells -> In (k_g k) glist) -> In g (used_glist dropna glist cells) -> In g glist.
Proof. intros H. unfold used_glist. destruct dropna; [|auto]. intros Hg. rewrite zuniq_in, in_map_iff in Hg. destruct Hg as [k [<- Hk]]. apply H, Hk. Qed.

Lemma agg_unfold ty dropna be mi ma tlist glist us mp cells : agg_args_ok be mi ma = true -> clean_cells dropna (is_tgroup ty) mp = Some cells -> cells <> [] ->
  let u := zuniq (scale dropna tlist glist cells) in let gl := used_glist dropna glist cells in
  agg_ddd ty dropna be mi ma tlist glist us mp = match ty with
    | TSimple => Some (ddd_simple u gl us ma cells)
    | TGroup => ddd_group u gl us ma cells
    | TCalendar => ddd_calendar u gl us cells
    | TDynamic => Some (ddd_eventstudy u gl us be mi ma cells)
    end.
Proof.
  intros A D N u gl. unfold agg_ddd. rewrite A, D. cbn [negb]. unfold u, gl. rewrite <- gt_vals_scale. destruct cells as [|k ks]; [congruence|]. reflexivity.
Qed.

Section Norm.
  Context (tlist glist : list Z) (us : list grp) (mp : list mp_cell) (OK : table_ok tlist glist us mp).
  Context (ty : agg_type) (dropna : bool) (be mi ma : option Z).
  Let cells := used_cells ty dropna mp.
  Let vals := scale dropna tlist glist cells.
  Let gl := used_glist dropna glist cells.
  Let n := length us.
  Let cov := covered ty vals cells be ma.

  Lemma used_in k : In k cells -> In (k_g k) glist /\ In (k_t k) tlist.
  Proof. intros Hk. destruct OK as [_ [H _]]. apply used_cells_incl in Hk. destruct Hk as [m [Hm [<- [<- _]]]]. exact (H m Hm). Qed.
  Let u := zuniq vals.
  Lemma n_us : StronglySorted Z.lt u. Proof. apply zuniq_sorted. Qed.
  Lemma n_gl k : In k cells -> In (k_g k) gl.
  Proof. intros Hk. apply used_glist_in; [exact Hk|]. exact (proj1 (used_in k Hk)). Qed.
  Lemma n_gu g : In g gl -> In g u.
  Proof. intros Hg. apply zuniq_in. apply used_glist_scale, Hg. Qed.
  Lemma n_ug k : In k cells -> In (k_g k) u. Proof. intros Hk. apply n_gu, n_gl, Hk. Qed.
  Lemma n_ut k : In k cells -> In (k_t k) u. Proof. intros Hk. apply zuniq_in. unfold vals, scale. apply in_or_app. left. exact (proj2 (used_in k Hk)). Qed.
  Lemma n_fp g : In g gl -> 0 < frac us g.
  Proof.
    intros Hg. apply frac_pos. destruct OK as [_ [_ H]]. apply H. apply (used_glist_sub dropna glist cells g); [|exact Hg]. intros k Hk. exact (proj1 (used_in k Hk)).
  Qed.
  Lemma n_cov key k : In k (cov key) -> In k cells. Proof. intros H. apply filter_In in H. apply H. Qed.
  Let pgo := pg_obs u gl us.
  Lemma n_avg key : pg_average pgo (cov key) = wavg_opt (frac us) k_att (cov key).
  Proof. apply (pg_average_wavg u gl us cells n_us n_ug n_gu n_gl n_fp). apply n_cov. Qed.
  Lemma n_inf key : match cov key with [] => repeat 0 n | l => pg_inf n pgo l end = winf us n (cov key).
  Proof. apply (pg_inf_zero u gl us cells n_us n_ug n_gu n_gl). apply n_cov. Qed.
  Lemma agg_inv r : agg_ddd ty dropna be mi ma tlist glist us mp = Some r ->
    agg_args_ok be mi ma = true /\ (dropna = true \/ forall m, In m mp -> m_att m <> None) /\ cells <> [] /\
    match ty with
    | TSimple => Some (ddd_simple u gl us ma cells)
    | TGroup => ddd_group u gl us ma cells
    | TCalendar => ddd_calendar u gl us cells
    | TDynamic => Some (ddd_eventstudy u gl us be mi ma cells)
    end = Some r.
  Proof.
    intros H0. assert (H := H0). unfold agg_ddd in H. destruct (agg_args_ok be mi ma) eqn:A; [|discriminate]. cbn [negb] in H.
    destruct (clean_cells dropna (is_tgroup ty) mp) as [cs|] eqn:E; [|discriminate].
    assert (EC := clean_used _ _ _ _ E). fold cells in EC. subst cs. split; [reflexivity|]. clear H. split.
    { destruct (Bool.bool_dec dropna true) as [D|D]; [left; exact D|right]. apply not_true_is_false in D. intros m Hm Em. assert (X : clean_cells false (is_tgroup ty) mp = None) by (apply clean_none; eauto). rewrite D in E. congruence. }
    assert (N : cells <> []). { intros Z. unfold agg_ddd in H0. rewrite A, E, Z in H0. cbn in H0. discriminate. }
    split; [exact N|]. rewrite (agg_unfold ty dropna be mi ma tlist glist us mp cells A E N) in H0. exact H0.
  Qed.
  Lemma agg_fwd : agg_args_ok be mi ma = true -> (dropna = true \/ forall m, In m mp -> m_att m <> None) -> cells <> [] ->
    agg_ddd ty dropna be mi ma tlist glist us mp = match ty with
    | TSimple => Some (ddd_simple u gl us ma cells)
    | TGroup => ddd_group u gl us ma cells
    | TCalendar => ddd_calendar u gl us cells
    | TDynamic => Some (ddd_eventstudy u gl us be mi ma cells)
    end.
  Proof.
    intros A D N. apply (agg_unfold ty dropna be mi ma tlist glist us mp cells A (clean_some ty dropna mp D) N).
  Qed.
  Lemma norm_simple : ty = TSimple -> ddd_simple u gl us ma cells =
    {| da_overall := wavg_opt (frac us) k_att (cov 0); da_keys := []; da_by := []; da_inf_by := []; da_inf := winf us n (cov 0);
       da_se2 := agg_se2 n (winf us n (cov 0)); da_se2_by := [] |}.
  Proof.
    intros ET. unfold ddd_simple. cbn zeta. rewrite (rec_post_cells u cells n_us n_ug n_ut).
    assert (EC : filter (fun k => post k && uwin u ma k) cells = cov 0%Z).
    { unfold cov, covered. apply filter_ext_in'. intros k _. rewrite ET. reflexivity. }
    rewrite EC. fold pgo n. rewrite n_avg. rewrite <- n_inf.
    destruct (cov 0%Z) as [|k ks] eqn:E; [|reflexivity].
    assert (EP : pg_inf n pgo [] = repeat 0 n). { unfold pg_inf. rewrite (map_ext _ (fun _ => 0)) by reflexivity. apply map_const_seq. } rewrite EP. reflexivity.
  Qed.
  Lemma norm_group : ty = TGroup -> gl <> [] -> let s := sumf (frac us) gl in
    ddd_group u gl us ma cells = Some
    (let infs := map (fun g => winf us n (cov g)) gl in
     let inf := map (fun q => sumf (fun g => nth (fst q) (winf us n (cov g)) 0 * (frac us g / s)) gl
                            + sumf (fun g => share_if us gl (snd q) g * or0 (avg_opt k_att (cov g))) gl) (indexed us) in
     {| da_overall := Some (cohort_avg0 (frac us) (fun g => avg_opt k_att (cov g)) gl); da_keys := gl; da_by := map (fun g => avg_opt k_att (cov g)) gl;
        da_inf_by := infs; da_inf := inf; da_se2 := agg_se2 n inf; da_se2_by := map (agg_se2 n) infs |}).
  Proof.
    intros ET N s. unfold ddd_group. cbn zeta. fold pgo n.
    assert (EK : forall g, In g gl -> group_cells ma u cells (recode u g) = cov g).
    { intros g Hg. rewrite (rec_group_cells u cells n_us n_ug n_ut) by (apply n_gu, Hg). unfold cov, covered. apply filter_ext_in'. intros k _. rewrite ET. reflexivity. }
    assert (EB : map (fun g => mean_att (group_cells ma u cells (recode u g))) gl = map (fun g => avg_opt k_att (cov g)) gl).
    { apply map_ext_in. intros g Hg. rewrite EK by exact Hg. reflexivity. }
    assert (EI : map (fun g => match group_cells ma u cells (recode u g) with [] => repeat 0 n | k :: l => pg_inf n pgo (k :: l) end) gl = map (fun g => winf us n (cov g)) gl).
    { apply map_ext_in. intros g Hg. rewrite EK by exact Hg. apply n_inf. }
    rewrite EB, EI. assert (ES : sumf (pgg us) gl = s) by (apply sumf_ext; intros; apply pgg_frac).
    rewrite ES. assert (SP : 0 < s).
    { destruct gl as [|g0 gs] eqn:E; [congruence|]. unfold s. rewrite sumf_cons. assert (0 < frac us g0) by (apply n_fp; rewrite E; left; reflexivity).
      assert (0 <= sumf (frac us) gs) by (apply sumf_nonneg; intros; apply Qclt_le_weak, n_fp; rewrite E; right; assumption). qclra. }
    assert (MM : forall X : ddd_agg, match gl with [] => None | _ :: _ => Some X end = Some X) by (intros X; destruct gl; [congruence|reflexivity]).
    rewrite MM. clear MM. f_equal.
    rewrite combine_map2. assert (EC : combine gl (map (fun g => (avg_opt k_att (cov g), winf us n (cov g))) gl) = map (fun g => (g, (avg_opt k_att (cov g), winf us n (cov g)))) gl).
    { rewrite <- (map_id gl) at 1. apply combine_map2. }
    rewrite EC, !sumf_map. cbn [fst snd].
    assert (EO : ratio (sumf (fun g => nan0 (avg_opt k_att (cov g)) * pgg us g) gl) s = Some (cohort_avg0 (frac us) (fun g => avg_opt k_att (cov g)) gl)).
    { unfold ratio. destruct (Qceqb_spec s 0) as [Hz|]; [exfalso; rewrite Hz in SP; qclra|]. unfold cohort_avg0. f_equal. apply (f_equal2 Qcdiv); [|reflexivity]. apply sumf_ext. intros g _. rewrite pgg_frac. unfold nan0, or0. ring. }
    assert (EF : map (fun q : nat * grp => sumf (fun r : Z * (option Qc * list Qc) => nth (fst q) (snd (snd r)) 0 * (pgg us (fst r) / s)) (map (fun g => (g, (avg_opt k_att (cov g), winf us n (cov g)))) gl) +
        sumf (fun r : Z * (option Qc * list Qc) => share_if us gl (snd q) (fst r) * nan0 (fst (snd r))) (map (fun g => (g, (avg_opt k_att (cov g), winf us n (cov g)))) gl)) (indexed us) =
        map (fun q => sumf (fun g => nth (fst q) (winf us n (cov g)) 0 * (frac us g / s)) gl + sumf (fun g => share_if us gl (snd q) g * or0 (avg_opt k_att (cov g))) gl) (indexed us)).
    { apply map_ext. intros q. rewrite !sumf_map. cbn [fst snd]. f_equal. apply sumf_ext. intros g _. rewrite pgg_frac. reflexivity. }
    rewrite EO, EF. reflexivity.
  Qed.
  Lemma norm_calendar : ty = TCalendar -> cells <> [] ->
    ddd_calendar u gl us cells =
    let ts := calendar_keys cells in let infs := map (fun t => winf us n (cov t)) ts in
    match ts with [] => None | _ => Some
    {| da_overall := avg_existing (fun t => wavg_opt (frac us) k_att (cov t)) ts; da_keys := ts; da_by := map (fun t => wavg_opt (frac us) k_att (cov t)) ts;
       da_inf_by := infs; da_inf := mean_cols n infs; da_se2 := agg_se2 n (mean_cols n infs); da_se2_by := map (agg_se2 n) infs |} end.
  Proof.
    intros ET N. unfold ddd_calendar. cbn zeta. fold pgo n.
    assert (ETS : filter (fun t => (zmin (map (rg u) cells) <=? t)%Z) (zuniq (map (rt u) cells)) = map (recode u) (calendar_keys cells)).
    { assert (N' : map (rg u) cells <> []) by (destruct cells; [congruence|discriminate]). destruct (zmin_spec _ N') as [I J]. apply in_map_iff in I. destruct I as [m [Em Hm]].
      apply (ssorted_ext Z.lt); [intros; lia|apply ssorted_filter, zuniq_sorted| | | |].
      - assert (SK : StronglySorted Z.lt (calendar_keys cells)) by (apply ssorted_filter, zuniq_sorted).
        assert (IK : forall t, In t (calendar_keys cells) -> In t u). { intros t Ht. apply filter_In in Ht. destruct Ht as [Ht _]. rewrite zuniq_in, in_map_iff in Ht. destruct Ht as [k [<- Hk]]. apply n_ut, Hk. }
        induction SK as [|t l SK IH Hf]; [constructor|]. cbn. constructor; [apply IH; intros; apply IK; right; assumption|].
        apply Forall_forall. intros x Hx. apply in_map_iff in Hx. destruct Hx as [t' [<- Ht']]. rewrite Forall_forall in Hf.
        apply (recode_lt u t t' n_us (IK t (or_introl eq_refl)) (IK t' (or_intror Ht'))). apply Hf, Ht'.
      - apply NoDup_filter, ssorted_lt_nodup, zuniq_sorted.
      - assert (NK : NoDup (calendar_keys cells)) by (apply NoDup_filter, ssorted_lt_nodup, zuniq_sorted).
        assert (IK : forall t, In t (calendar_keys cells) -> In t u). { intros t Ht. apply filter_In in Ht. destruct Ht as [Ht _]. rewrite zuniq_in, in_map_iff in Ht. destruct Ht as [k [<- Hk]]. apply n_ut, Hk. }
        induction NK as [|t l NI NK IH]; [constructor|]. cbn. constructor; [|apply IH; intros; apply IK; right; assumption].
        intros H. apply in_map_iff in H. destruct H as [t' [E Ht']]. apply (recode_inj u t' t n_us (IK t' (or_intror Ht')) (IK t (or_introl eq_refl))) in E. congruence.
      - intros x. rewrite filter_In, zuniq_in, in_map_iff, in_map_iff. unfold calendar_keys. split.
        + intros [[k [<- Hk]] L]. exists (k_t k). split; [reflexivity|]. apply filter_In. split; [apply zuniq_in, in_map, Hk|].
          apply existsb_exists. exists m. split; [exact Hm|]. apply Z.leb_le. apply Z.leb_le in L. rewrite <- Em in L.
          exact (proj1 (recode_le u _ _ n_us (n_ug m Hm) (n_ut k Hk)) L).
        + intros [t [<- Ht]]. apply filter_In in Ht. destruct Ht as [Ht L]. rewrite zuniq_in, in_map_iff in Ht. destruct Ht as [k [<- Hk]]. split; [exists k; split; [reflexivity|exact Hk]|].
          apply existsb_exists in L. destruct L as [k' [Hk' L]]. apply Z.leb_le in L. apply Z.leb_le. specialize (J (rg u k') (in_map _ _ _ Hk')).
          apply (proj2 (recode_le u _ _ n_us (n_ug k' Hk') (n_ut k Hk))) in L. unfold rg in J at 2. lia. }
    rewrite ETS. rewrite (map_map (recode u) (t2orig u)), (map_map (recode u) (fun t => pg_average pgo (calendar_cells u cells t))), (map_map (recode u) (fun t => match calendar_cells u cells t with [] => repeat 0 n | k :: l => pg_inf n pgo (k :: l) end)).
    assert (IK : forall t, In t (calendar_keys cells) -> In t u). { intros t Ht. apply filter_In in Ht. destruct Ht as [Ht _]. rewrite zuniq_in, in_map_iff in Ht. destruct Ht as [k [<- Hk]]. apply n_ut, Hk. }
    assert (EK : forall t, In t (calendar_keys cells) -> calendar_cells u cells (recode u t) = cov t).
    { intros t Ht. rewrite (rec_calendar_cells u cells n_us n_ug n_ut) by (apply IK, Ht). unfold cov, covered. apply filter_ext_in'. intros k _. rewrite ET. reflexivity. }
    assert (EB : map (fun t => pg_average pgo (calendar_cells u cells (recode u t))) (calendar_keys cells) = map (fun t => wavg_opt (frac us) k_att (cov t)) (calendar_keys cells)).
    { apply map_ext_in. intros t Ht. rewrite EK by exact Ht. apply n_avg. }
    assert (EI : map (fun t => match calendar_cells u cells (recode u t) with [] => repeat 0 n | k :: l => pg_inf n pgo (k :: l) end) (calendar_keys cells) = map (fun t => winf us n (cov t)) (calendar_keys cells)).
    { apply map_ext_in. intros t Ht. rewrite EK by exact Ht. apply n_inf. }
    assert (EO : map (fun t => t2orig u (recode u t)) (calendar_keys cells) = calendar_keys cells).
    { rewrite <- (map_id (calendar_keys cells)) at 2. apply map_ext_in. intros t Ht. apply t2orig_recode; [exact n_us|apply IK, Ht]. }
    rewrite EB, EI, EO.
    assert (EA : nanmean (map (fun t => wavg_opt (frac us) k_att (cov t)) (calendar_keys cells)) = avg_existing (fun t => wavg_opt (frac us) k_att (cov t)) (calendar_keys cells)).
    { rewrite nanmean_existing. unfold avg_existing. destruct (existing _); reflexivity. }
    rewrite EA. destruct (calendar_keys cells) as [|t0 ts]; reflexivity.
  Qed.
  Lemma n_events : cells <> [] -> ddd_event_list u cells be mi ma = event_keys vals cells be mi ma.
  Proof.
    intros N. unfold ddd_event_list, event_keys.
    assert (EI : filter (include u cells be) cells = filter (eligible cells be) cells) by (apply filter_ext_in'; intros k Hk; apply (rec_include u gl cells n_us n_ug n_ut n_gl); exact Hk).
    rewrite EI. destruct be as [b|].
    - assert (EM : max_orig u cells = zmax (map k_t cells)).
      { apply (is_max_unique _ _ (map k_t cells)); [apply (rec_max u gl cells n_us n_ug n_ut n_gl N)|apply zmax_spec; destruct cells; [congruence|discriminate]]. }
      assert (Em : t2orig u 1 = zmin vals).
      { apply (is_min_unique _ _ vals).
        - assert (X := rec_min u gl cells n_us n_ug n_ut n_gu n_gl N). destruct X as [X1 X2]. split; [apply zuniq_in; exact X1|]. intros x Hx. apply X2, zuniq_in, Hx.
        - apply zmin_spec. intros Hz. assert (HI : forall k, In k cells -> False). { intros k Hk. assert (H := n_ug k Hk). unfold u in H. rewrite zuniq_in, Hz in H. destruct H. } destruct cells as [|k ks]; [congruence|]. apply (HI k). left. reflexivity. }
      rewrite EM, Em, filter_filter. apply filter_ext_in'. intros e _. rewrite andb_comm. reflexivity.
    - apply filter_ext_in'. intros e _. rewrite andb_true_r. reflexivity.
  Qed.
  Lemma event_keys_cov e : ty = TDynamic -> In e (event_keys vals cells be mi ma) -> cov e <> [].
  Proof.
    intros ET He. apply filter_In in He. destruct He as [He _]. rewrite zuniq_in, in_map_iff in He. destruct He as [k [<- Hk]]. apply filter_In in Hk. destruct Hk as [Hk E].
    intros Hz. assert (X : In k (cov (event k))). { unfold cov, covered. apply filter_In. split; [exact Hk|]. rewrite ET. cbn. unfold event. rewrite Z.eqb_refl. exact E. } rewrite Hz in X. destruct X.
  Qed.
  Lemma norm_event : ty = TDynamic -> cells <> [] -> ddd_eventstudy u gl us be mi ma cells =
    let evs := event_keys vals cells be mi ma in let infs := map (fun e => winf us n (cov e)) evs in
    let pos := filter (fun e => (0 <=? e)%Z) evs in
    let inf := match pos with [] => repeat 0 n | _ => mean_cols n (map (fun e => winf us n (cov e)) pos) end in
    {| da_overall := match pos with [] => None | _ => Some (average (map (fun e => wavg (frac us) k_att (cov e)) pos)) end;
       da_keys := evs; da_by := map (fun e => wavg_opt (frac us) k_att (cov e)) evs; da_inf_by := infs; da_inf := inf;
       da_se2 := match pos with [] => None | _ => agg_se2 n inf end; da_se2_by := map (agg_se2 n) infs |}.
  Proof.
    intros ET N. unfold ddd_eventstudy. cbn zeta. fold pgo n. rewrite n_events by exact N. set (evs := event_keys vals cells be mi ma) in *.
    assert (EK : forall e, event_cells u cells be e = cov e).
    { intros e. rewrite (rec_event_cells u gl cells n_us n_ug n_ut n_gl). unfold cov, covered. rewrite ET. reflexivity. }
    assert (EB : map (fun e => pg_average pgo (event_cells u cells be e)) evs = map (fun e => wavg_opt (frac us) k_att (cov e)) evs).
    { apply map_ext. intros e. rewrite EK. apply n_avg. }
    assert (EI : map (fun e => match event_cells u cells be e with [] => repeat 0 n | k :: l => pg_inf n pgo (k :: l) end) evs = map (fun e => winf us n (cov e)) evs).
    { apply map_ext. intros e. rewrite EK. apply n_inf. }
    rewrite EB, EI, combine_map2, filter_combine_map.
    assert (SUB : forall e, In e (filter (fun e => (0 <=? e)%Z) evs) -> In e evs) by (intros e He; apply filter_In in He; apply He).
    set (pos := filter (fun e => (0 <=? e)%Z) evs) in *. clearbody pos.
    assert (EV : forall e, In e pos -> wavg_opt (frac us) k_att (cov e) = Some (wavg (frac us) k_att (cov e))).
    { intros e He. assert (X := event_keys_cov e ET (SUB e He)). unfold wavg_opt. destruct (cov e); [congruence|reflexivity]. }
    assert (EO : nanmean (map (fun q : Z * (option Qc * list Qc) => fst (snd q)) (map (fun e => (e, (wavg_opt (frac us) k_att (cov e), winf us n (cov e)))) pos)) = match pos with [] => None | _ => Some (average (map (fun e => wavg (frac us) k_att (cov e)) pos)) end).
    { rewrite nanmean_existing, map_map. cbn [fst snd]. rewrite (map_ext_in _ _ pos EV), existing_map_some. destruct pos; reflexivity. }
    assert (EF : map (fun q : Z * (option Qc * list Qc) => snd (snd q)) (map (fun e => (e, (wavg_opt (frac us) k_att (cov e), winf us n (cov e)))) pos) = map (fun e => winf us n (cov e)) pos).
    { rewrite map_map. reflexivity. }
    destruct pos as [|e0 es]; [reflexivity|]. cbn [map] in EO, EF |- *. rewrite EO, EF. reflexivity.
  Qed.
End Norm.
