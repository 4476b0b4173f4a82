(** C18, C21, C23, C24, C34. *)
From Coq Require Import String.
From Verif Require Import Base ListLib PreprocessModel PreprocessSpec PreprocessProofs AttGtModel AttGtProofs4 AggteModel AggteSpec AggteProofs AggteProofs2 AggteProofs3.
Local Open Scope list_scope.
Local Notation length := List.length.

Lemma aggte_inv ty dropna be mi ma units mp r : aggte ty dropna be mi ma units mp = Some r ->
  let cells := used_cells ty dropna mp in
  match ty with
  | TSimple => r = simple_att units ma cells
  | TGroup => group_att units ma cells = Some r
  | TDynamic => dynamic_att units be mi ma cells = Some r
  | TCalendar => calendar_att units cells = Some r
  end.
Proof.
  intros H. unfold aggte in H. destruct (clean_cells _ _ mp) as [cells|] eqn:EC; [|discriminate].
  rewrite (clean_used _ _ _ _ EC) in H. destruct ty; [injection H as <-; reflexivity|exact H..].
Qed.

Lemma simple_prop dropna be mi ma units mp r : aggte TSimple dropna be mi ma units mp = Some r ->
  let cells := used_cells TSimple dropna mp in
  a_overall r = Some (share_average units (filter (covers TSimple cells be ma 0) cells)).
Proof. intros H. apply aggte_inv in H. subst r. apply simple_ok. Qed.
Lemma group_prop dropna be mi ma units mp r : aggte TGroup dropna be mi ma units mp = Some r ->
  let cells := used_cells TGroup dropna mp in
  StronglySorted Z.lt (a_keys r) /\ (forall g, In g (a_keys r) <-> exists k, In k cells /\ k_g k = g) /\
  a_by r = map (fun g => match filter (covers TGroup cells be ma g) cells with [] => None | ks => Some (mean k_att ks) end) (a_keys r) /\
  a_overall r = Some (sumf (fun p => nan0 (snd p) * share units (fst p)) (combine (a_keys r) (a_by r)) / sumf (share units) (a_keys r)).
Proof.
  intros H. apply aggte_inv in H. apply group_ok in H as [K [B O]]. split; [rewrite K; apply zuniq_sorted|]. split; [|split; [|exact O]].
  2:{ etransitivity; [exact B|]. apply map_ext. intros g. change (covers TGroup (used_cells TGroup dropna mp) None ma g) with (covers TGroup (used_cells TGroup dropna mp) be ma g). unfold mean_att. destruct (filter _ _); reflexivity. }
  intros g. rewrite K, zuniq_in, in_map_iff. split; intros [k [h1 h2]]; eauto.
Qed.
Lemma dynamic_prop dropna be mi ma units mp r : aggte TDynamic dropna be mi ma units mp = Some r ->
  let cells := used_cells TDynamic dropna mp in
  let effect e := share_average units (filter (covers TDynamic cells be ma e) cells) in
  StronglySorted Z.lt (a_keys r) /\
  (forall e, In e (a_keys r) <->
     (exists k, In k cells /\ (k_t k - k_g k)%Z = e /\ eligible cells be k = true) /\
     (forall m, mi = Some m -> (m <= e)%Z) /\ (forall m, ma = Some m -> (e <= m)%Z) /\
     (forall b lo hi, be = Some b -> is_min lo (map k_t cells) -> is_max hi (map k_t cells) -> (b - hi + lo <= e <= b)%Z)) /\
  (forall e, In e (a_keys r) -> filter (covers TDynamic cells be ma e) cells <> []) /\
  a_by r = map (fun e => Some (effect e)) (a_keys r) /\
  a_overall r = match filter (fun e => (0 <=? e)%Z) (a_keys r) with [] => None | es => Some (average (map effect es)) end.
Proof.
  intros H. apply aggte_inv in H. apply dynamic_ok in H as [K [N [NE [B O]]]].
  split; [rewrite K; apply event_list_sorted|]. split; [intros e; rewrite K; apply event_list_in|]. auto.
Qed.
Lemma calendar_prop dropna be mi ma units mp r : aggte TCalendar dropna be mi ma units mp = Some r ->
  let cells := used_cells TCalendar dropna mp in
  StronglySorted Z.lt (a_keys r) /\
  (forall t, In t (a_keys r) <-> In t (map k_t cells) /\ exists k, In k cells /\ (k_g k <= t)%Z) /\
  a_by r = map (fun t => match filter (covers TCalendar cells be ma t) cells with [] => None | ks => Some (share_average units ks) end) (a_keys r) /\
  a_overall r = match existing (a_by r) with [] => None | l => Some (average l) end.
Proof.
  intros H. apply aggte_inv in H. apply (calendar_ok units ma) in H as [S [N [K [B O]]]]. auto.
Qed.

(** every single reported effect is a convex combination of what it covers *)
Lemma effects_convex ty dropna be mi ma units mp r i key v : aggte ty dropna be mi ma units mp = Some r ->
  nth_error (a_keys r) i = Some key -> nth_error (a_by r) i = Some (Some v) ->
  let cells := used_cells ty dropna mp in
  let ks := filter (covers ty cells be ma key) cells in
  ks <> [] /\ (weights_ok units ks -> convex_combination ks v).
Proof.
  intros H HK HB. destruct ty.
  - apply aggte_inv in H. subst r. cbn in HB. destruct i; discriminate.
  - apply group_prop in H as [_ [_ [B _]]]. rewrite B in HB. cbn zeta in *. rewrite nth_error_map, HK in HB. cbn [option_map] in HB.
    destruct (filter (covers TGroup _ be ma key) _) as [|k0 ks0] eqn:E; [discriminate|]. injection HB as <-. split; [discriminate|].
    intros _. apply mean_convex. discriminate.
  - apply dynamic_prop in H as [_ [_ [NE [B _]]]]. rewrite B in HB. cbn zeta in *. rewrite nth_error_map, HK in HB. cbn [option_map] in HB.
    injection HB as <-. split; [apply NE, (nth_error_In _ _ HK)|]. apply share_average_convex.
  - apply calendar_prop in H as [_ [_ [B _]]]. rewrite B in HB. cbn zeta in *. rewrite nth_error_map, HK in HB. cbn [option_map] in HB.
    destruct (filter (covers TCalendar _ be ma key) _) as [|k0 ks0] eqn:E; [discriminate|]. injection HB as <-. split; [discriminate|].
    apply share_average_convex.
Qed.
Lemma simple_convex dropna be mi ma units mp r v : aggte TSimple dropna be mi ma units mp = Some r -> a_overall r = Some v ->
  let cells := used_cells TSimple dropna mp in
  let ks := filter (covers TSimple cells be ma 0) cells in
  weights_ok units ks -> convex_combination ks v.
Proof. intros H O. rewrite (simple_prop _ _ _ _ _ _ _ H) in O. injection O as <-. apply share_average_convex. Qed.

Lemma existing_in l v : In v (existing l) <-> In (Some v) l.
Proof.
  induction l as [|[a|] l IH]; cbn; [reflexivity| |].
  - rewrite IH. split; (intros [h|h]; [left; congruence|right; exact h]).
  - rewrite IH. split; [auto|]. intros [h|h]; [discriminate|exact h].
Qed.

(** overall effects stay within the bounds of the by-effects *)
Lemma overall_bounds ty dropna be mi ma units mp r v lo hi : aggte ty dropna be mi ma units mp = Some r ->
  ty <> TSimple -> (ty = TGroup -> (forall x, In x units -> 0 <= snd x) /\ 0 < sumf (share units) (a_keys r) /\ ~ In None (a_by r)) ->
  a_overall r = Some v -> (forall a, In (Some a) (a_by r) -> lo <= a /\ a <= hi) -> lo <= v /\ v <= hi.
Proof.
  intros H NS HG O HB. destruct ty; [congruence| | |].
  - destruct (HG eq_refl) as [W [P NN]]. apply group_prop in H as [_ [_ [B O']]]. rewrite O in O'. injection O' as ->.
    set (S := sumf (share units) (a_keys r)) in *. rewrite <- sumf_div.
    rewrite (sumf_ext _ (fun p => nan0 (snd p) * (share units (fst p) / S))) by (intros; unfold Qcdiv; ring).
    assert (LEN : length (a_by r) = length (a_keys r)) by (rewrite B, map_length; reflexivity).
    apply (wavg_bounds (fun p => share units (fst p) / S) (fun p => nan0 (snd p))).
    + intros p _. apply Qcdiv_nonneg; [apply share_nonneg, W|exact P].
    + rewrite sumf_div. assert (E : sumf (fun p : Z * option Qc => share units (fst p)) (combine (a_keys r) (a_by r)) = S).
      { unfold S. clear -LEN. revert LEN. generalize (a_by r) as b. generalize (a_keys r) as l. induction l as [|x l IH]; intros [|y b] L; try discriminate; [reflexivity|].
        cbn [combine]. rewrite !sumf_cons. cbn [fst]. f_equal. apply IH. cbn in L. lia. }
      rewrite E. field. apply Qc_pos_neq0, P.
    + intros [g o] Hp. apply in_combine_r in Hp. cbn [snd]. destruct o as [a|]; [|contradiction]. apply HB, Hp.
  - apply dynamic_prop in H as [_ [_ [_ [B O']]]]. cbn zeta in *. rewrite O in O'. destruct (filter _ (a_keys r)) as [|e0 es] eqn:E; [discriminate|].
    injection O' as ->. apply average_bounds; [discriminate|]. intros x Hx.
    assert (Hx' : In x (map (fun e => share_average units (filter (covers TDynamic (used_cells TDynamic dropna mp) be ma e) (used_cells TDynamic dropna mp))) (e0 :: es))) by exact Hx.
    apply in_map_iff in Hx' as [e [<- He]]. apply HB. rewrite B. apply in_map_iff. exists e. split; [reflexivity|].
    rewrite <- E in He. apply filter_In in He. apply He.
  - apply calendar_prop in H as [_ [_ [_ O']]]. rewrite O in O'. destruct (existing (a_by r)) as [|a l] eqn:E; [discriminate|].
    injection O' as ->. apply average_bounds; [discriminate|]. intros x Hx. apply HB, existing_in. rewrite E. exact Hx.
Qed.

(** * C18 *)
Lemma cohort_average_all units keys by_ : length by_ = length keys -> keys <> [] -> ~ In None by_ ->
  cohort_average units keys by_ = Some (sumf (fun p => nan0 (snd p) * share units (fst p)) (combine keys by_) / sumf (share units) keys).
Proof.
  intros L N NN. unfold cohort_average.
  set (F := fun q : Z * option Qc => match snd q with Some a => [(fst q, a)] | None => [] end).
  assert (E : forall keys by_, length by_ = length keys -> ~ In None by_ ->
     sumf (fun q => share units (fst q) * snd q) (flat_map F (combine keys by_)) = sumf (fun p => nan0 (snd p) * share units (fst p)) (combine keys by_) /\
     sumf (fun q => share units (fst q)) (flat_map F (combine keys by_)) = sumf (share units) keys /\
     length (flat_map F (combine keys by_)) = length keys).
  { clear. intros keys. induction keys as [|g keys IH]; intros [|o by_] L NN; try discriminate; [repeat split|].
    destruct o as [a|]; [|exfalso; apply NN; left; reflexivity]. destruct (IH by_) as [I1 [I2 I3]]; [cbn in L; lia|intros h; apply NN; right; exact h|].
    cbn [combine flat_map app F snd fst]. fold F. rewrite !sumf_cons. cbn [snd fst nan0 length]. rewrite I1, I2, I3. repeat split. ring. }
  destruct (E keys by_ L NN) as [E1 [E2 E3]]. destruct (flat_map F (combine keys by_)) eqn:EF; [destruct keys; [congruence|discriminate]|].
  rewrite E1, E2. reflexivity.
Qed.
Lemma group_keys_nonempty dropna be mi ma units mp r : aggte TGroup dropna be mi ma units mp = Some r -> a_keys r <> [].
Proof. intros H. apply aggte_inv in H. unfold group_att in H. apply guard_some in H as [-> N]. exact N. Qed.
Lemma group_overall_ok dropna be mi ma units mp r : aggte TGroup dropna be mi ma units mp = Some r -> ~ In None (a_by r) ->
  a_overall r = cohort_average units (a_keys r) (a_by r).
Proof.
  intros H NN. assert (N := group_keys_nonempty _ _ _ _ _ _ _ H). apply group_prop in H as [_ [_ [B O]]].
  rewrite O, cohort_average_all; [reflexivity| |exact N|exact NN]. rewrite B, map_length. reflexivity.
Qed.
Lemma group_dropna_complete be mi units mp r : aggte TGroup true be mi None units mp = Some r -> ~ In None (a_by r).
Proof.
  intros H. apply group_prop in H as [_ [K [B _]]]. rewrite B. intros h. apply in_map_iff in h as [g [E Hg]].
  apply K in Hg as [k [Hk <-]]. cbn zeta in E.
  assert (Hk' := Hk). unfold used_cells in Hk'. apply filter_In in Hk' as [Hl Hx]. apply existsb_exists in Hx as [b [Hb Eb]].
  apply andb_true_iff in Eb as [Eg Ep]. apply Z.eqb_eq in Eg.
  assert (In b (filter (covers TGroup (used_cells TGroup true mp) be None (k_g k)) (used_cells TGroup true mp))) as X.
  { apply filter_In. split.
    - apply filter_In. split; [exact Hb|]. apply existsb_exists. exists b. split; [exact Hb|]. rewrite Z.eqb_refl, Ep. reflexivity.
    - cbn. rewrite Eg, Z.eqb_refl, Ep. reflexivity. }
  destruct (filter (covers TGroup _ be None (k_g k)) _); [destruct X|discriminate].
Qed.

(** * C21 *)
Lemma balance_composition cells b e g : complete_grid cells -> no_gaps (map k_t cells) ->
  (forall k, In k cells -> exists c, In c cells /\ (k_t c <= k_g k)%Z) ->
  (0 <= e <= b)%Z ->
  (cohort_at cells (Some b) e g <-> exists k, In k cells /\ k_g k = g /\ eligible cells (Some b) k = true).
Proof.
  intros CG NG LO R. unfold cohort_at. split.
  - intros [k [Hk [C E]]]. exists k. cbn in C. apply andb_true_iff in C as [_ C]. auto.
  - intros [k [Hk [E L]]]. assert (L' := L). cbn in L. apply existsb_exists in L as [c [Hc L]]. apply Z.leb_le in L.
    destruct (LO k Hk) as [c0 [Hc0 L0]].
    assert (Ht : In (k_g k + e)%Z (map k_t cells)).
    { apply (NG (k_t c0) (k_t c)); [apply in_map; assumption|apply in_map; assumption|lia]. }
    apply in_map_iff in Ht as [d [Ed Hd]]. destruct (CG k d Hk Hd) as [k' [Hk' [G' T']]]. exists k'. split; [exact Hk'|].
    split; [|congruence]. cbn. apply andb_true_iff. split; [apply Z.eqb_eq; lia|]. cbn in L'. rewrite G'. exact L'.
Qed.

(** * C23 *)
Lemma steps_consecutive cells g t : consecutive cells -> In g (map k_t cells ++ map k_g cells) -> In t (map k_t cells ++ map k_g cells) ->
  (g <= t)%Z -> steps cells g t = (t - g)%Z.
Proof.
  intros C Hg Ht L. unfold steps.
  set (m := map (fun i => (g + 1 + Z.of_nat i)%Z) (seq 0 (Z.to_nat (t - g)))).
  assert (E : filter (fun v => (g <? v)%Z && (v <=? t)%Z) (zuniq (map k_t cells ++ map k_g cells)) = m).
  { apply ssorted_lt_ext.
    - apply ssorted_filter, zuniq_sorted.
    - unfold m. generalize 0%nat as s. generalize (Z.to_nat (t - g)) as n. clear. induction n as [|n IH]; intros s; [constructor|].
      cbn. constructor; [apply IH|]. apply Forall_forall. intros x Hx. apply in_map_iff in Hx as [i [<- Hi]]. apply in_seq in Hi. lia.
    - intros x. rewrite filter_In, zuniq_in, andb_true_iff, Z.ltb_lt, Z.leb_le. unfold m. rewrite in_map_iff. split.
      + intros [_ B]. exists (Z.to_nat (x - g - 1)). split; [lia|]. apply in_seq. lia.
      + intros [i [<- Hi]]. apply in_seq in Hi. split; [|lia]. apply (C g t); [exact Hg|exact Ht|lia]. }
  rewrite E. unfold m. rewrite map_length, seq_length. lia.
Qed.
Lemma window_consecutive cells ma k : consecutive cells -> In k cells -> post k = true -> in_window_steps cells ma k = in_window ma k.
Proof.
  intros C Hk P. unfold in_window_steps, in_window. destruct ma as [m|]; [|reflexivity].
  rewrite steps_consecutive; [reflexivity|exact C| | |apply Z.leb_le, P]; apply in_or_app; [right|left]; apply in_map, Hk.
Qed.
Lemma window_ok ty be ma dropna mp key k : let cells := used_cells ty dropna mp in ty = TSimple \/ ty = TGroup -> consecutive cells ->
  In k cells -> covers ty cells be ma key k = true -> forall m, ma = Some m -> (k_t k - k_g k <= m)%Z.
Proof.
  intros cells T C Hk V m ->. assert (E : post k = true /\ in_window_steps cells (Some m) k = true).
  { destruct T as [-> | ->]; cbn -[in_window_steps] in V; rewrite !andb_true_iff in V; tauto. }
  destruct E as [P W]. rewrite (window_consecutive cells _ _ C Hk P) in W. apply Z.leb_le, W.
Qed.
Lemma window_dynamic dropna be mi ma units mp r e m : aggte TDynamic dropna be mi ma units mp = Some r -> ma = Some m -> In e (a_keys r) ->
  let cells := used_cells TDynamic dropna mp in forall k, covers TDynamic cells be ma e k = true -> (k_t k - k_g k <= m)%Z.
Proof.
  intros H Hm He cells k V. apply dynamic_prop in H as [_ [K _]]. apply K in He as [_ [_ [W _]]]. specialize (W m Hm).
  cbn in V. apply andb_true_iff in V as [V _]. apply Z.eqb_eq in V. lia.
Qed.
(** the step count itself: how far the window can be off *)
Lemma steps_le cells g t : (g <= t)%Z -> (steps cells g t <= t - g)%Z.
Proof.
  intros L. unfold steps. set (l := filter _ _).
  assert (N : NoDup l) by (apply NoDup_filter, zuniq_nodup).
  assert (I : incl l (map (fun i => (g + 1 + Z.of_nat i)%Z) (seq 0 (Z.to_nat (t - g))))).
  { intros x Hx. apply filter_In in Hx as [_ Hx]. apply andb_true_iff in Hx as [A B]. apply Z.ltb_lt in A. apply Z.leb_le in B.
    apply in_map_iff. exists (Z.to_nat (x - g - 1)). split; [lia|]. apply in_seq. lia. }
  apply (NoDup_incl_length N) in I. rewrite map_length, seq_length in I. lia.
Qed.

(** * C19 *)
Lemma recoding u : StronglySorted Z.lt u ->
  (forall x, In x u -> exists i, orig2t u x = Some i /\ (1 <= i <= Z.of_nat (length u))%Z /\ t2orig u i = x) /\
  (forall x y i j, orig2t u x = Some i -> orig2t u y = Some j -> ((i < j)%Z <-> (x < y)%Z) /\ (i = j <-> x = y)) /\
  (forall x, orig2t_vec u (Fin x) = orig2t u x) /\
  (forall x, orig2t u x = None <-> ~ In x u) /\ orig2t_vec u Inf = None.
Proof.
  intros HS.
  assert (RC : forall x i, orig2t u x = Some i -> In x u /\ recode u x = i).
  { intros x i H. split; [|unfold recode; rewrite H; reflexivity]. unfold orig2t in H. destruct (index_of x u) as [j|] eqn:E; [|discriminate].
    apply nth_error_In with j, index_of_some, E. }
  split; [|split; [|split; [|split]]].
  - intros x Hx. destruct (index_of_in x u Hx) as [i Hi]. exists (Z.of_nat i + 1)%Z.
    assert (E : orig2t u x = Some (Z.of_nat i + 1)%Z) by (unfold orig2t; rewrite Hi; reflexivity).
    split; [exact E|]. destruct (RC _ _ E) as [_ R]. rewrite <- R. split; [apply recode_range; assumption|apply t2orig_recode; assumption].
  - intros x y i j Hi Hj. destruct (RC _ _ Hi) as [Ix <-]. destruct (RC _ _ Hj) as [Iy <-].
    split; [apply recode_lt; assumption|apply recode_inj; assumption].
  - intros x. apply orig2t_vec_fin, HS.
  - intros x. unfold orig2t. rewrite <- index_of_none. destruct (index_of x u); cbn; split; congruence.
  - apply orig2t_vec_inf.
Qed.

(** * C24 *)
Lemma weights_named_weights frame idname gname cl cov :
  weights_ind frame (ti_columns idname gname cl cov) (Some "weights"%string) = Some (frame "weights"%string).
Proof. cbn. rewrite !orb_true_r. reflexivity. Qed.
Lemma weights_ignored frame idname gname cl cov w n : w <> idname -> w <> gname -> w <> "weights"%string -> ~ In w cl -> ~ In w cov ->
  unit_weights (weights_ind frame (ti_columns idname gname cl cov) (Some w)) n = repeat 1 n.
Proof.
  intros N1 N2 N3 N4 N5. unfold weights_ind. destruct (existsb (String.eqb w) (ti_columns idname gname cl cov)) eqn:E; [|reflexivity].
  apply existsb_exists in E as [x [Hx E]]. apply String.eqb_eq in E. subst x. exfalso.
  destruct Hx as [h|[h|[h|h]]]; [congruence..|]. apply in_app_or in h. tauto.
Qed.

(** * C34 *)
Lemma no_cover_no_effect ty dropna be mi ma units mp r i key : aggte ty dropna be mi ma units mp = Some r -> nth_error (a_keys r) i = Some key ->
  filter (covers ty (used_cells ty dropna mp) be ma key) (used_cells ty dropna mp) = [] -> nth_error (a_by r) i = Some None.
Proof.
  intros H HK E. destruct ty.
  - apply aggte_inv in H. subst r. destruct i; discriminate.
  - apply group_prop in H as [_ [_ [B _]]]. rewrite B, nth_error_map, HK. cbn [option_map]. rewrite E. reflexivity.
  - apply dynamic_prop in H as [_ [_ [NE _]]]. exfalso. apply (NE key); [apply (nth_error_In _ _ HK)|exact E].
  - apply calendar_prop in H as [_ [_ [B _]]]. rewrite B, nth_error_map, HK. cbn [option_map]. rewrite E. reflexivity.
Qed.
Lemma dynamic_overall_none dropna be mi ma units mp r : aggte TDynamic dropna be mi ma units mp = Some r ->
  (a_overall r = None <-> forall e, In e (a_keys r) -> (e < 0)%Z).
Proof.
  intros H. apply dynamic_prop in H as [_ [_ [_ [_ O]]]]. cbn zeta in O. rewrite O. clear O.
  destruct (filter (fun e => (0 <=? e)%Z) (a_keys r)) as [|e0 es] eqn:E.
  - split; [|reflexivity]. intros _ e He. destruct (Z.ltb_spec e 0) as [h|h]; [exact h|]. exfalso.
    assert (In e (filter (fun e => (0 <=? e)%Z) (a_keys r))) as X by (apply filter_In; split; [exact He|apply Z.leb_le, h]). rewrite E in X. destruct X.
  - split; [discriminate|]. intros H. exfalso. assert (X : In e0 (filter (fun e => (0 <=? e)%Z) (a_keys r))) by (rewrite E; left; reflexivity).
    apply filter_In in X as [X1 X2]. specialize (H e0 X1). apply Z.leb_le in X2. lia.
Qed.
Lemma simple_zero dropna be mi ma units mp r : aggte TSimple dropna be mi ma units mp = Some r ->
  (forall k, In k (used_cells TSimple dropna mp) -> (k_t k < k_g k)%Z) ->
  a_overall r = Some 0 /\ a_inf r = repeat 0 (length units).
Proof.
  intros H L. apply aggte_inv in H. subst r. set (cells := used_cells TSimple dropna mp) in *.
  assert (E : post_cells ma (all_vals cells) cells = []).
  { rewrite post_cells_eq. apply filter_none. intros k Hk. specialize (L k Hk). unfold post.
    assert ((k_g k <=? k_t k)%Z = false) as -> by (apply Z.leb_gt; lia). reflexivity. }
  unfold simple_att. cbn [a_overall a_inf]. rewrite E. split; [reflexivity|]. unfold weighted_inf, indexed.
  generalize 0%nat. induction units as [|x us IH]; intros s; [reflexivity|]. cbn [length seq combine map repeat]. f_equal; apply IH.
Qed.

(** executable checks for the C21 witnesses *)
Definition complete_gridb (cells : list kcell) : bool :=
  forallb (fun a => forallb (fun b => existsb (fun k => (k_g k =? k_g a)%Z && (k_t k =? k_t b)%Z) cells) cells) cells.
Lemma complete_gridb_ok cells : complete_gridb cells = true -> complete_grid cells.
Proof.
  intros H a b Ha Hb. unfold complete_gridb in H. rewrite forallb_forall in H. specialize (H a Ha). rewrite forallb_forall in H. specialize (H b Hb).
  apply existsb_exists in H as [k [Hk E]]. apply andb_true_iff in E as [E1 E2]. exists k. split; [exact Hk|]. split; apply Z.eqb_eq; assumption.
Qed.
Definition no_gapsb (ts : list Z) : bool :=
  forallb (fun a => (a =? zmax ts)%Z || zmem (a + 1) ts) ts.
Lemma no_gapsb_ok ts : no_gapsb ts = true -> no_gaps ts.
Proof.
  intros H a b v Ha Hb [L U]. unfold no_gapsb in H. rewrite forallb_forall in H.
  assert (N : ts <> []) by (intros ->; destruct Ha). destruct (zmax_spec ts N) as [_ J].
  assert (G : forall n, (a + Z.of_nat n <= b)%Z -> In (a + Z.of_nat n)%Z ts).
  { induction n as [|n IH]; intros B; [rewrite Z.add_0_r; exact Ha|]. specialize (IH ltac:(lia)). specialize (H _ IH).
    apply orb_true_iff in H as [H|H].
    - apply Z.eqb_eq in H. specialize (J b Hb). lia.
    - destruct (zmem_spec (a + Z.of_nat n + 1) ts) as [h|]; [|discriminate]. replace (a + Z.of_nat (S n))%Z with (a + Z.of_nat n + 1)%Z by lia. exact h. }
  specialize (G (Z.to_nat (v - a)) ltac:(lia)). replace (a + Z.of_nat (Z.to_nat (v - a)))%Z with v in G by lia. exact G.
Qed.
Definition cohort_atb (cells : list kcell) (be : option Z) (e g : Z) : bool :=
  existsb (fun k => covers TDynamic cells be None e k && (k_g k =? g)%Z) cells.
Lemma cohort_atb_ok cells be e g : cohort_atb cells be e g = true <-> cohort_at cells be e g.
Proof.
  unfold cohort_atb, cohort_at. rewrite existsb_exists. split.
  - intros [k [Hk E]]. apply andb_true_iff in E as [E1 E2]. exists k. apply Z.eqb_eq in E2. auto.
  - intros [k [Hk [E1 E2]]]. exists k. rewrite E1, E2, Z.eqb_refl. auto.
Qed.
Definition mk0 (g : Z) : att_cell := {| ac_att := 0; ac_group := g; ac_year := 0; ac_post := false; ac_inf := [] |}.
