(** What every aggregation type reports, in the user's terms (C17, C18, C20, C23). *)
From Verif Require Import Base ListLib PreprocessModel PreprocessProofs AggteModel AggteSpec AggteProofs.

Lemma clean_used ty dropna mp cells : clean_cells dropna (is_tgroup ty) mp = Some cells -> cells = used_cells ty dropna mp.
Proof.
  unfold clean_cells. destruct dropna.
  - intros [= <-]. unfold drop_na, used_cells. destruct ty; reflexivity.
  - destruct (existsb _ mp); [discriminate|]. intros [= <-]. unfold used_cells. destruct ty; reflexivity.
Qed.
Lemma clean_some ty dropna mp : (dropna = true \/ forall m, In m mp -> m_att m <> None) ->
  clean_cells dropna (is_tgroup ty) mp = Some (used_cells ty dropna mp).
Proof.
  intros H. unfold clean_cells. destruct dropna.
  - unfold drop_na, used_cells. destruct ty; reflexivity.
  - destruct H as [H|H]; [discriminate|].
    destruct (existsb _ mp) eqn:E; [|unfold used_cells; destruct ty; reflexivity].
    apply existsb_exists in E as [m [Hm E]]. specialize (H m Hm). destruct (m_att m); congruence.
Qed.
Lemma clean_none ty mp : clean_cells false (is_tgroup ty) mp = None <-> exists m, In m mp /\ m_att m = None.
Proof.
  unfold clean_cells. destruct (existsb _ mp) eqn:E.
  - split; [|reflexivity]. intros _. apply existsb_exists in E as [m [Hm E]]. exists m. split; [exact Hm|]. destruct (m_att m); congruence.
  - split; [discriminate|]. intros [m [Hm Em]].
    assert (existsb (fun m => match m_att m with None => true | _ => false end) mp = true); [|congruence].
    apply existsb_exists. exists m. rewrite Em. auto.
Qed.

(** simple *)
Lemma simple_ok units max_e cells : let ks := filter (covers TSimple cells None max_e 0) cells in
  a_overall (simple_att units max_e cells) = Some (share_average units ks).
Proof.
  cbn. rewrite post_cells_eq. f_equal. apply wsum_average. intros k Hk. apply filter_In in Hk. apply Hk.
Qed.

Lemma guard_some {A} (keys : list A) x r : guard keys x = Some r -> r = x /\ keys <> [].
Proof. destruct keys; cbn; [discriminate|]. intros [= <-]. split; [reflexivity|discriminate]. Qed.

(** group *)
Lemma group_ok units max_e cells r : group_att units max_e cells = Some r ->
  a_keys r = zuniq (map k_g cells) /\
  a_by r = map (fun g => mean_att (filter (covers TGroup cells None max_e g) cells)) (a_keys r) /\
  a_overall r = Some (sumf (fun p => nan0 (snd p) * share units (fst p)) (combine (a_keys r) (a_by r))
                      / sumf (share units) (a_keys r)).
Proof.
  intros H. unfold group_att in H. apply guard_some in H as [-> N]. cbn [a_keys a_by a_overall].
  assert (Hu : forall g, In g (zuniq (map k_g cells)) -> In g (all_vals cells)).
  { intros g Hg. rewrite zuniq_in in Hg. apply in_map_iff in Hg as [k [<- Hk]]. apply u_g, Hk. }
  assert (E : map (fun g => mean_att (group_cells max_e (all_vals cells) cells g)) (map (recode (all_vals cells)) (zuniq (map k_g cells)))
          = map (fun g => mean_att (filter (covers TGroup cells None max_e g) cells)) (zuniq (map k_g cells))).
  { rewrite map_map. apply map_ext_in. intros g Hg. rewrite group_cells_eq by (apply Hu, Hg). reflexivity. }
  repeat split; [exact E|]. rewrite E. f_equal. f_equal.
  - generalize (fun g => mean_att (filter (covers TGroup cells None max_e g) cells)) as F. intros F.
    revert Hu. generalize (zuniq (map k_g cells)) as gs. induction gs as [|g gs IH]; intros Hu; [reflexivity|].
    cbn [map combine]. rewrite !sumf_cons. cbn [fst snd]. rewrite group_prob_share by (apply Hu; left; reflexivity).
    f_equal. apply IH. intros; apply Hu; right; assumption.
  - rewrite sumf_map. apply sumf_ext. intros g Hg. apply group_prob_share, Hu, Hg.
Qed.

Lemma include_eligible cells be k : In k cells -> include (all_vals cells) cells be k = eligible cells be k.
Proof.
  intros Hk. unfold include, eligible. destruct be as [b|]; [|reflexivity].
  assert (N : cells <> []) by (intros ->; destruct Hk).
  destruct (map_rt_max cells N) as [I J]. destruct (existsb _ cells) eqn:E.
  - apply existsb_exists in E as [c [Hc E]]. specialize (J (k_t c) (in_map _ _ _ Hc)). apply Z.leb_le in E. apply Z.leb_le. lia.
  - apply in_map_iff in I as [c [Ec Hc]]. apply not_true_iff_false. intros h.
    assert (existsb (fun c => (b <=? k_t c - k_g k)%Z) cells = true); [|congruence].
    apply existsb_exists. exists c. split; [exact Hc|]. rewrite Ec. exact h.
Qed.
Lemma event_cells_eq cells be e : event_cells (all_vals cells) cells be e = filter (covers TDynamic cells be None e) cells.
Proof.
  apply filter_ext_in'. intros k Hk. rewrite include_eligible by exact Hk. reflexivity.
Qed.

(** which event times are reported *)
Lemma event_list_sorted u cells be mi ma : StronglySorted Z.lt (event_list u cells be mi ma).
Proof.
  unfold event_list. apply ssorted_filter. destruct be; [apply ssorted_filter|]; apply zuniq_sorted.
Qed.
Lemma event_list_in cells be mi ma e : In e (event_list (all_vals cells) cells be mi ma) <->
  (exists k, In k cells /\ (k_t k - k_g k)%Z = e /\ eligible cells be k = true) /\
  (forall m, mi = Some m -> (m <= e)%Z) /\ (forall m, ma = Some m -> (e <= m)%Z) /\
  (forall b lo hi, be = Some b -> is_min lo (map k_t cells) -> is_max hi (map k_t cells) -> (b - hi + lo <= e <= b)%Z).
Proof.
  unfold event_list. rewrite filter_In, andb_true_iff.
  assert (B : (ge_min e mi = true <-> forall m, mi = Some m -> (m <= e)%Z) /\ (le_max e ma = true <-> forall m, ma = Some m -> (e <= m)%Z)).
  { unfold ge_min, le_max. split; [destruct mi as [m|]|destruct ma as [m|]]; rewrite ?Z.leb_le; split; try discriminate; try congruence; auto;
    intros; try congruence; match goal with H : Some _ = Some _ |- _ => injection H as <-; assumption end. }
  destruct B as [B1 B2]. rewrite B1, B2.
  assert (M : In e (zuniq (map event (filter (include (all_vals cells) cells be) cells))) <->
     exists k, In k cells /\ (k_t k - k_g k)%Z = e /\ eligible cells be k = true).
  { rewrite zuniq_in, in_map_iff. split.
    - intros [k [E Hk]]. apply filter_In in Hk as [Hk I]. rewrite include_eligible in I by exact Hk. exists k. auto.
    - intros [k [Hk [E I]]]. exists k. split; [exact E|]. apply filter_In. rewrite include_eligible by exact Hk. auto. }
  destruct be as [b|].
  - rewrite filter_In, M, andb_true_iff, !Z.leb_le. split.
    + intros [[K [L1 L2]] [W1 W2]]. split; [exact K|]. split; [exact W1|]. split; [exact W2|]. intros b' lo hi [= <-] Hlo Hhi.
      destruct K as [k [Hk _]]. assert (N : cells <> []) by (intros ->; destruct Hk).
      rewrite (is_max_unique _ _ _ Hhi (map_rt_max cells N)), (is_min_unique _ _ _ Hlo (map_rt_min cells N)). lia.
    + intros [K [W1 [W2 L]]]. split; [|auto]. split; [exact K|].
      destruct K as [k [Hk _]]. assert (N : cells <> []) by (intros ->; destruct Hk).
      specialize (L b _ _ eq_refl (map_rt_min cells N) (map_rt_max cells N)). lia.
  - rewrite M. split; [intros [K W]; intuition discriminate|intuition].
Qed.

Lemma nanmean_existing l : nanmean l = match existing l with [] => None | _ => Some (average (existing l)) end.
Proof.
  assert (E : somes l = existing l). { induction l as [|[a|] l IH]; cbn; [reflexivity|f_equal; exact IH|exact IH]. }
  unfold nanmean. rewrite E. destruct (existing l); reflexivity.
Qed.
Lemma filter_combine_map {K B} (p : K -> bool) (f : K -> B) (l : list K) :
  filter (fun q => p (fst q)) (combine l (map f l)) = map (fun k => (k, f k)) (filter p l).
Proof. induction l as [|a l IH]; [reflexivity|]. cbn. destruct (p a); cbn; rewrite IH; reflexivity. Qed.
Lemma combine_map2 {K B C} (f : K -> B) (g : K -> C) l : combine (map f l) (map g l) = map (fun k => (f k, g k)) l.
Proof. induction l as [|a l IH]; [reflexivity|]. cbn. rewrite IH. reflexivity. Qed.
Lemma existing_map_some {A} (f : A -> Qc) l : existing (map (fun a => Some (f a)) l) = map f l.
Proof. induction l as [|a l IH]; [reflexivity|]. cbn. rewrite IH. reflexivity. Qed.

Lemma dynamic_ok units be mi ma cells r : dynamic_att units be mi ma cells = Some r ->
  a_keys r = event_list (all_vals cells) cells be mi ma /\ a_keys r <> [] /\
  (forall e, In e (a_keys r) -> filter (covers TDynamic cells be ma e) cells <> []) /\
  a_by r = map (fun e => Some (share_average units (filter (covers TDynamic cells be ma e) cells))) (a_keys r) /\
  a_overall r = match filter (fun e => (0 <=? e)%Z) (a_keys r) with
                | [] => None
                | es => Some (average (map (fun e => share_average units (filter (covers TDynamic cells be ma e) cells)) es))
                end.
Proof.
  intros H. unfold dynamic_att in H. apply guard_some in H as [-> N]. cbn [a_keys a_by a_overall].
  set (evs := event_list (all_vals cells) cells be mi ma) in *.
  assert (NE : forall e, In e evs -> filter (covers TDynamic cells be ma e) cells <> []).
  { intros e He. apply event_list_in in He as [[k [Hk [E I]]] _]. intros Hn.
    assert (In k (filter (covers TDynamic cells be ma e) cells)) as X.
    { apply filter_In. split; [exact Hk|]. cbn. rewrite E, Z.eqb_refl. exact I. }
    rewrite Hn in X. destruct X. }
  split; [reflexivity|]. split; [exact N|]. split; [exact NE|].
  assert (EV : forall e, In e evs -> cov_att (cell_prob (all_vals cells) units) (event_cells (all_vals cells) cells be e)
       = Some (share_average units (filter (covers TDynamic cells be ma e) cells))).
  { intros e He. specialize (NE e He). rewrite event_cells_eq.
    change (filter (covers TDynamic cells be None e) cells) with (filter (covers TDynamic cells be ma e) cells).
    destruct (filter (covers TDynamic cells be ma e) cells) as [|k ks] eqn:E; [congruence|].
    unfold cov_att. f_equal. apply wsum_average. intros k' Hk'. rewrite <- E in Hk'. apply filter_In in Hk'. apply Hk'. }
  split; [apply map_ext_in; exact EV|].
  rewrite combine_map2, filter_combine_map.
  assert (SUB : forall e, In e (filter (fun e => (0 <=? e)%Z) evs) -> In e evs) by (intros e He; apply filter_In in He; apply He).
  destruct (filter (fun e => (0 <=? e)%Z) evs) as [|e0 es] eqn:E; [reflexivity|].
  rewrite nanmean_existing, map_map. cbn [fst snd].
  set (F := fun e : Z => cov_att _ _).
  assert (X : map F (e0 :: es) = map (fun e => Some (share_average units (filter (covers TDynamic cells be ma e) cells))) (e0 :: es)).
  { apply map_ext_in. intros e He. apply EV, SUB, He. }
  cbn [map] in X |- *. rewrite X. cbn [existing]. rewrite existing_map_some. reflexivity.
Qed.

(** calendar *)
Lemma calendar_ok units ma cells r : calendar_att units cells = Some r ->
  StronglySorted Z.lt (a_keys r) /\ a_keys r <> [] /\
  (forall t, In t (a_keys r) <-> In t (map k_t cells) /\ exists k, In k cells /\ (k_g k <= t)%Z) /\
  a_by r = map (fun t => match filter (covers TCalendar cells None ma t) cells with
                         | [] => None | ks => Some (share_average units ks) end) (a_keys r) /\
  a_overall r = match existing (a_by r) with [] => None | l => Some (average l) end.
Proof.
  intros H. unfold calendar_att in H. apply guard_some in H as [-> N]. cbn [a_keys a_by a_overall].
  set (u := all_vals cells) in *. set (ts := filter _ (zuniq (map (rt u) cells))) in *.
  assert (TS : forall t, In t ts -> exists k, In k cells /\ t = recode u (k_t k)).
  { intros t Ht. apply filter_In in Ht as [Ht _]. rewrite zuniq_in, in_map_iff in Ht. destruct Ht as [k [<- Hk]]. eauto. }
  assert (KEY : forall t, In t ts -> exists k, In k cells /\ t = recode u (k_t k) /\ t2orig u t = k_t k).
  { intros t Ht. destruct (TS t Ht) as [k [Hk ->]]. exists k. split; [exact Hk|]. split; [reflexivity|].
    apply t2orig_recode; [apply u_sorted|apply u_t, Hk]. }
  split; [|split; [|split; [|split]]].
  - assert (S : StronglySorted Z.lt ts) by (apply ssorted_filter, zuniq_sorted). clear N TS.
    clearbody ts. induction S as [|t l S IH Hf]; [constructor|]. cbn. constructor.
    + apply IH. intros x Hx. apply KEY. right. exact Hx.
    + apply Forall_forall. intros x Hx. apply in_map_iff in Hx as [t' [<- Ht']]. rewrite Forall_forall in Hf. specialize (Hf t' Ht').
      destruct (KEY t (or_introl eq_refl)) as [k [Hk [E ->]]]. destruct (KEY t' (or_intror Ht')) as [k' [Hk' [E' ->]]].
      rewrite E, E' in Hf. exact (proj1 (recode_lt u _ _ (u_sorted cells) (u_t cells k Hk) (u_t cells k' Hk')) Hf).
  - destruct ts; [congruence|discriminate].
  - intros t. rewrite in_map_iff. split.
    + intros [t' [<- Ht']]. destruct (KEY t' Ht') as [k [Hk [E ->]]]. split; [apply in_map, Hk|].
      apply filter_In in Ht' as [_ L]. apply Z.leb_le in L.
      assert (NN : map (rg u) cells <> []) by (intros h; destruct cells; [destruct Hk|discriminate]).
      destruct (zmin_spec _ NN) as [I J]. apply in_map_iff in I as [m [Em Hm]]. exists m. split; [exact Hm|].
      rewrite <- Em, E in L. exact (proj1 (recode_le u _ _ (u_sorted cells) (u_g cells m Hm) (u_t cells k Hk)) L).
    + intros [Ht [m [Hm L]]]. apply in_map_iff in Ht as [k [<- Hk]]. exists (recode u (k_t k)). split.
      * apply t2orig_recode; [apply u_sorted|apply u_t, Hk].
      * apply filter_In. split; [apply zuniq_in, in_map_iff; exists k; auto|]. apply Z.leb_le.
        assert (NN : map (rg u) cells <> []) by (intros h; destruct cells; [destruct Hk|discriminate]).
        destruct (zmin_spec _ NN) as [_ J]. specialize (J (rg u m) (in_map _ _ _ Hm)). unfold rg in J at 2.
        apply (proj2 (recode_le u _ _ (u_sorted cells) (u_g cells m Hm) (u_t cells k Hk))) in L. unfold rg in J |- *. lia.
  - rewrite map_map. apply map_ext_in. intros t Ht. destruct (KEY t Ht) as [k [Hk [E ->]]]. rewrite E.
    unfold u. rewrite calendar_cells_eq by (apply u_t, Hk).
    change (fun k0 => ((k_t k0 =? k_t k)%Z && post k0)%bool) with (covers TCalendar cells None ma (k_t k)).
    unfold cov_att. destruct (filter _ cells) as [|c cs] eqn:F; [reflexivity|]. f_equal. apply wsum_average.
    intros c' Hc'. rewrite <- F in Hc'. apply filter_In in Hc'. apply Hc'.
  - etransitivity; [apply nanmean_existing|]. destruct (existing _); reflexivity.
Qed.

(** convexity *)
Lemma share_nonneg units g : (forall x, In x units -> 0 <= snd x) -> 0 <= share units g.
Proof.
  intros H. unfold share, mean. destruct units as [|x0 us] eqn:E.
  - cbn. qclra.
  - rewrite <- E in *. apply Qcdiv_nonneg.
    + apply sumf_nonneg. intros x Hx. specialize (H x Hx). destruct (grp_eqb _ _); cbn [ind]; qcnra.
    + apply qn_pos. rewrite E. cbn. lia.
Qed.
Lemma share_pos units g : (forall x, In x units -> 0 <= snd x) -> (exists x, In x units /\ fst x = Fin g /\ 0 < snd x) -> 0 < share units g.
Proof.
  intros H [x [Hx [E P]]]. unfold share, mean. apply Qcdiv_pos.
  - apply sumf_pos.
    + intros y Hy. specialize (H y Hy). destruct (grp_eqb _ _); cbn [ind]; qcnra.
    + exists x. split; [exact Hx|]. rewrite E. cbn [grp_eqb]. rewrite Z.eqb_refl. cbn [ind]. qclra.
  - apply qn_pos. destruct units; [destruct Hx|cbn; lia].
Qed.
Lemma share_average_convex units ks : weights_ok units ks -> convex_combination ks (share_average units ks).
Proof.
  intros [W [k [x [Hk [Hx [E P]]]]]]. set (s := sumf (fun k => share units (k_g k)) ks).
  assert (S : 0 < s).
  { apply sumf_pos; [intros; apply share_nonneg, W|]. exists k. split; [exact Hk|]. apply share_pos; [exact W|]. exists x. auto. }
  exists (fun k => share units (k_g k) / s). split; [|split].
  - intros k' _. apply Qcdiv_nonneg; [apply share_nonneg, W|exact S].
  - rewrite sumf_div. fold s. field. apply Qc_pos_neq0, S.
  - unfold share_average. fold s. rewrite <- sumf_div. apply sumf_ext. intros. unfold Qcdiv. ring.
Qed.
Lemma mean_convex ks : ks <> [] -> convex_combination ks (mean k_att ks).
Proof.
  intros N. assert (Hn : 0 < qn (length ks)) by (apply qn_pos; destruct ks; [congruence|cbn; lia]).
  exists (fun _ => 1 / qn (length ks)). split; [|split].
  - intros. apply Qcdiv_nonneg; [qclra|exact Hn].
  - rewrite sumf_const. field. apply Qc_pos_neq0, Hn.
  - unfold mean. rewrite <- sumf_div. apply sumf_ext. intros. unfold Qcdiv. ring.
Qed.
Lemma convex_bounds ks v lo hi : convex_combination ks v -> (forall k, In k ks -> lo <= k_att k /\ k_att k <= hi) -> lo <= v /\ v <= hi.
Proof. intros [w [W [S ->]]] B. apply wavg_bounds; assumption. Qed.
Lemma average_bounds l lo hi : l <> [] -> (forall x, In x l -> lo <= x /\ x <= hi) -> lo <= average l /\ average l <= hi.
Proof.
  intros N B. assert (Hn : 0 < qn (length l)) by (apply qn_pos; destruct l; [congruence|cbn; lia]).
  unfold average, mean. assert (E : sumf (fun x => x) l / qn (length l) = sumf (fun x => x * (1 / qn (length l))) l).
  { rewrite sumf_mul_r. unfold Qcdiv. ring. }
  rewrite E. apply wavg_bounds; [| |exact B].
  - intros. apply Qcdiv_nonneg; [qclra|exact Hn].
  - rewrite sumf_const. field. apply Qc_pos_neq0, Hn.
Qed.
