(** Pooled cells; columns and standard errors. *)
From Verif Require Import Base ListLib PreprocessModel PreprocessProofs AttGtModel SeModel ReduceModel DrdidModel DrdidSpec DddModel DddSpec DddMpModel DddMpSpec DddMpGmm DddMpProofs1 DddMpProofs2.

Lemma lookup_in l i v : NoDup (map fst l) -> In (i, v) l -> lookup l i = v.
Proof.
  unfold lookup. induction l as [|[j w] l IH]; intros N H; [destruct H|]. cbn in *. inversion N as [|? ? NI N']; subst. destruct (Z.eqb_spec j i) as [->|D].
  - destruct H as [H|H]; [injection H as ->; reflexivity|]. exfalso. apply NI. change i with (fst (i, v)). apply in_map, H.
  - apply IH; [exact N'|]. destruct H as [H|H]; [injection H as -> _; contradiction|exact H].
Qed.
Lemma lookup_out l i : (forall v, ~ In (i, v) l) -> lookup l i = 0.
Proof.
  unfold lookup. induction l as [|[j w] l IH]; intros H; [reflexivity|]. cbn. destruct (Z.eqb_spec j i) as [->|D]; [exfalso; apply (H w); left; reflexivity|].
  apply IH. intros v Hv. apply (H v). right. exact Hv.
Qed.
Lemma nth_map_z (f : Z -> Qc) l j : (j < length l)%nat -> nth j (map f l) 0 = f (nth j l 0%Z).
Proof. intros H. rewrite (nth_indep _ 0 (f 0%Z)) by (rewrite map_length; exact H). apply map_nth. Qed.
Lemma place_column ids inf : NoDup (map fst inf) -> is_column ids inf (place ids inf).
Proof.
  intros N. unfold place. split; [apply map_length|]. intros j Hj. rewrite nth_map_z by exact Hj. split.
  - intros v Hv. rewrite (lookup_in inf _ v N Hv). reflexivity.
  - intros H. rewrite lookup_out by exact H. ring.
Qed.
Lemma scale_inf_in n l i v : In (i, v) (scale_inf n l) <-> exists w, In (i, w) l /\ v = qn n / qn (length l) * w.
Proof.
  unfold scale_inf. rewrite in_map_iff. split.
  - intros [[j w] [E H]]. cbn in E. injection E as -> <-. eauto.
  - intros [w [H ->]]. exists (i, w). auto.
Qed.
Lemma scale_inf_fst n l : map fst (scale_inf n l) = map fst l.
Proof. unfold scale_inf. rewrite map_map. reflexivity. Qed.
Lemma scaled_column ids inf : NoDup (map fst inf) -> map (fun i => lookup (scale_inf (length ids) inf) i) ids = place ids inf.
Proof.
  intros N. unfold place. apply map_ext. intros i.
  destruct (in_dec Z.eq_dec i (map fst inf)) as [I|I].
  - apply in_map_iff in I. destruct I as [[j v] [E H]]. cbn in E. subst j. rewrite (lookup_in inf i v N H).
    apply lookup_in; [rewrite scale_inf_fst; exact N|]. apply scale_inf_in. eauto.
  - assert (O : forall v, ~ In (i, v) inf) by (intros v H; apply I; change i with (fst (i, v)); apply in_map, H).
    rewrite (lookup_out inf i O), lookup_out; [ring|]. intros v H. apply scale_inf_in in H. destruct H as [w [H _]]. apply (O w H).
Qed.
Lemma combine_scale_inf n (ids : list Z) vs : length ids = length vs -> scale_inf n (combine ids vs) = combine ids (map (Qcmult (qn n / qn (length ids))) vs).
Proof.
  intros L. unfold scale_inf. rewrite combine_length, <- L, Nat.min_id. generalize (qn n / qn (length ids)). intros c. revert vs L.
  induction ids as [|i ids IH]; intros [|v vs] L; try discriminate; [reflexivity|]. cbn. f_equal. apply IH. cbn in L. lia.
Qed.

Section Cols.
  Context (o : oracle) (q : gmm_oracle) (k : nat) (m : emethod) (b : base_mode) (never : bool) (data : list lrow).
  Context (K : keyed data).
  Let ids := mp_ids data.
  Let n := length ids.
  Let tl := mp_tlist data.

  Lemma ids_units : is_units data ids.
  Proof. split; [apply zuniq_sorted|]. intros i. unfold ids, mp_ids. rewrite zuniq_in, in_map_iff. split; intros [r [A B]]; exists r; auto. Qed.

  Lemma multi_pooled g t p cs (rs : list (grp * (Qc * list (Z * Qc)))) att inf se : gmm_inv_ok q ->
    (forall z a i, In (z, (a, i)) rs -> against o k m data g z t p a i) ->
    somes (map (fun z => single_ddd o k m g t p (control_rows g z (cell_rows never g t p data))) cs) = map snd rs -> rs <> [] ->
    multi_ddd o q k m n g t p cs (cell_rows never g t p data) = Some (att, inf, se) -> pooled q n rs att inf se.
  Proof.
    intros IO RA ES NE. unfold multi_ddd. rewrite ES. destruct (map snd rs) as [|r1 l1] eqn:EL; [destruct rs; [congruence|discriminate EL]|]. rewrite <- EL in *. clear EL r1 l1. cbn zeta. set (rs0 := rs) in *.
    set (u := zuniq (flat_map (fun r => map fst (snd r)) (map snd rs0))). set (cols := map (fun r => place u (snd r)) (map snd rs0)).
    destruct (gmm_aggregate q n (map fst (map snd rs0)) cols) as [[a i] s] eqn:EG. intros E. injection E as <- <- <-.
    exists u, cols. split; [apply zuniq_sorted|]. split.
    { intros j. unfold u. rewrite zuniq_in, in_flat_map. split.
      - intros [r [Hr Hj]]. apply in_map_iff in Hr. destruct Hr as [r1 [<- Hr]]. apply in_map_iff in Hj. destruct Hj as [[j' v] [E Hj]]. cbn in E. subst j'. eauto.
      - intros [r [v [Hr Hv]]]. exists (snd r). split; [apply in_map, Hr|]. change j with (fst (j, v)). apply in_map, Hv. }
    split.
    { unfold cols. rewrite map_map. assert (G : forall l, (forall z a i, In (z, (a, i)) l -> against o k m data g z t p a i) -> Forall2 (fun r col => is_column u (snd (snd r)) col) l (map (fun x => place u (snd (snd x))) l)).
      { induction l as [|[z [a' i']] l IH]; intros H; [constructor|]. cbn. constructor; [|apply IH; intros; apply H; right; assumption].
        apply place_column. apply (against_ids o k m data g z t p a'). apply H. left. reflexivity. }
      apply G. exact RA. }
    intros NS. destruct (gm_inv q (gmm_omega cols)) as [V|] eqn:EV; [|congruence].
    destruct (gmm_aggregate_spec q n (length u) (map fst (map snd rs0)) cols a i s V) as [w [MV [A1 [A2 [A3 A4]]]]]; try assumption.
    - intros col Hc. apply in_map_iff in Hc. destruct Hc as [r [<- _]]. apply map_length.
    - unfold cols. rewrite !map_length. reflexivity.
    - unfold cols, rs0. intros X. apply NE. destruct rs; [reflexivity|discriminate X].
    - exists w. split; [exact MV|]. split; [rewrite map_map in A1; exact A1|]. rewrite A2 in A3, A4. split; [|auto].
      rewrite A2. apply combine_scale_inf. unfold comb_cols. rewrite map_length, seq_length. reflexivity.
  Qed.

  (** ** what a reported cell contains *)
  Lemma cell_estimate rows cols ses g t att : gmm_inv_ok q -> ddd_mp o q k m b never data = MTable rows cols ses -> In (g, t, att) rows ->
    in_grid b data g t /\ exists p, base_for b data g t p /\
    ((p = t /\ att = 0) \/
     (p <> t /\ exists cs, NoDup cs /\ (forall z, In z cs <-> controls_of never data g t p z) /\
      ((exists z inf, cs = [z] /\ against o k m data g z t p att inf) \/
       ((2 <= length cs)%nat /\ exists rs inf se, NoDup (map fst rs) /\ rs <> [] /\ (forall z a i, In (z, (a, i)) rs <-> In z cs /\ against o k m data g z t p a i) /\ pooled q n rs att inf se)))).
  Proof.
    intros IO E H. apply (table_in o q k m b never data K _ _ _ _ _ _ E) in H. destruct H as [i [c [J1 [J2 [-> [P ->]]]]]].
    destruct (proj2 (period_index b data _) (ex_intro _ i (conj J2 eq_refl))) as [A B]. split; [split; [exact J1|auto]|].
    destruct (process_some o q k m b never data K g i c J1 J2 P) as [p [BF [_ [_ CO]]]]. exists p. split; [exact BF|].
    destruct CO as [[PT [A0 _]]|[PT [cs [CN [CI H]]]]]; [left; auto|]. right. split; [exact PT|]. exists cs. split; [exact CN|]. split; [exact CI|].
    destruct H as [[z [inf [-> [AG _]]]]|[L2 [rs [RN [NE [RI [inf [se [EM [ES _]]]]]]]]]]; [left; eauto|]. right. split; [exact L2|]. exists rs, inf, se. split; [exact RN|]. split; [exact NE|]. split; [exact RI|].
    apply (multi_pooled g (nth (i + tfac b) (mp_tlist data) 0%Z) p cs rs _ inf se IO); [intros; apply RI; assumption|exact ES|exact NE|exact EM].
  Qed.

  (** ** columns *)
  Lemma column_single g z t p att inf c : against o k m data g z t p att inf -> mc_inf c = Some (scale_inf n inf) -> is_column ids inf (mp_column ids (Some c)).
  Proof.
    intros A E. unfold mp_column. rewrite E. unfold n. rewrite scaled_column by (apply (against_ids o k m data g z t p att), A). apply place_column, (against_ids o k m data g z t p att), A.
  Qed.

  (** ** positions *)
  Lemma list_prod_lex (a : list Z) (bl : list nat) : StronglySorted Z.lt a -> StronglySorted lt bl ->
    StronglySorted (fun x y : Z * nat => (fst x < fst y)%Z \/ (fst x = fst y /\ (snd x < snd y)%nat)) (list_prod a bl).
  Proof.
    intros Sa Sb. induction Sa as [|x a Hs IH Hf]; [constructor|]. cbn.
    assert (G : forall bl rest, StronglySorted lt bl -> StronglySorted (fun x y : Z * nat => (fst x < fst y)%Z \/ (fst x = fst y /\ (snd x < snd y)%nat)) rest -> (forall y, In y rest -> (x < fst y)%Z) ->
      StronglySorted (fun x y : Z * nat => (fst x < fst y)%Z \/ (fst x = fst y /\ (snd x < snd y)%nat)) (map (fun y => (x, y)) bl ++ rest)).
    { clear. intros bl rest S1 S2 H. induction S1 as [|y bl Hs IH Hf]; [exact S2|]. cbn. constructor; [exact IH|]. rewrite Forall_forall in *. intros z Hz. apply in_app_or in Hz. destruct Hz as [Hz|Hz].
      - apply in_map_iff in Hz. destruct Hz as [w [<- Hw]]. right. cbn. auto.
      - left. cbn. apply H, Hz. }
    apply G; [exact Sb|exact IH|]. intros [y w] Hy. apply in_prod_iff in Hy. rewrite Forall_forall in Hf. apply Hf, Hy.
  Qed.
  Lemma seq_sorted s : forall l, StronglySorted lt (seq s l).
  Proof. intros l. revert s. induction l as [|l IH]; intros s; [constructor|]. cbn. constructor; [apply IH|]. apply Forall_forall. intros x Hx. apply in_seq in Hx. lia. Qed.
  Lemma somes_app {A} (a c : list (option A)) : somes (a ++ c) = somes a ++ somes c.
  Proof. induction a as [|[x|] a IH]; cbn; [reflexivity| |]; rewrite IH; reflexivity. Qed.
  Lemma somes_full {A} (a : list (option A)) : (forall x, In x a -> x <> None) -> a = map Some (somes a).
  Proof.
    induction a as [|[x|] a IH]; intros H; [reflexivity| |].
    - cbn. f_equal. apply IH. intros y Hy. apply H. right. exact Hy.
    - exfalso. apply (H None); [left; reflexivity|reflexivity].
  Qed.
  Let proc (j : Z * nat) := process_cell o q k m b never data (fst j) (snd j).
  Let R := map proc (mp_jobs b data).
  Lemma table_parts rows cols ses : ddd_mp o q k m b never data = MTable rows cols ses ->
    rows = map (fun c => (mc_g c, mc_t c, mc_att c)) (somes R) /\ cols = firstn (length rows) (map (mp_column ids) R) /\
    ses = map (fun x => mp_se2 n (fst x) (snd x)) (combine (firstn (length rows) (map mp_override R)) cols).
  Proof.
    unfold ddd_mp. cbn zeta. fold proc. fold R. destruct (somes R) as [|c cs] eqn:E; [discriminate|]. intros H. injection H as <- <- <-.
    split; [reflexivity|]. cbn [length]. rewrite map_length. split; reflexivity.
  Qed.
  Lemma somes_le {A} (l : list (option A)) : (length (somes l) <= length l)%nat.
  Proof. induction l as [|[a|] l IH]; cbn; lia. Qed.
  Lemma nth_error_firstn {A} (l : list A) : forall x j, (j < x)%nat -> nth_error (firstn x l) j = nth_error l j.
  Proof. induction l as [|a l IH]; intros [|x] [|j] H; try reflexivity; try lia. cbn. apply IH. lia. Qed.
  Lemma nth_error_combine {A B} (a : list A) : forall (c : list B) j x y, nth_error a j = Some x -> nth_error c j = Some y -> nth_error (combine a c) j = Some (x, y).
  Proof. induction a as [|e a IH]; intros [|f c] [|j] x y H1 H2; try discriminate; cbn in *; [congruence|]. apply IH; assumption. Qed.
  (** column and standard error at position [j] are those of the [j]-th pair of the grid *)
  Lemma column_at rows cols ses j r : ddd_mp o q k m b never data = MTable rows cols ses -> (j < length rows)%nat -> nth_error R j = Some r ->
    nth_error cols j = Some (mp_column ids r) /\ nth_error ses j = Some (mp_se2 n (mp_override r) (mp_column ids r)).
  Proof.
    intros E L H. destruct (table_parts _ _ _ E) as [_ [EC ES]].
    assert (C : nth_error cols j = Some (mp_column ids r)). { rewrite EC, nth_error_firstn by exact L. apply map_nth_error, H. }
    split; [exact C|]. rewrite ES. apply (map_nth_error (fun x => mp_se2 n (fst x) (snd x)) j _ (d := (mp_override r, mp_column ids r))).
    apply nth_error_combine; [|exact C]. rewrite nth_error_firstn by exact L. apply map_nth_error, H.
  Qed.
  Lemma jobs_sorted : StronglySorted (fun x y : Z * nat => (fst x < fst y)%Z \/ (fst x = fst y /\ (snd x < snd y)%nat)) (mp_jobs b data).
  Proof. apply list_prod_lex; [apply zuniq_sorted|apply seq_sorted]. Qed.
  Lemma ssorted_split {A} (Rl : A -> A -> Prop) l1 x l2 : StronglySorted Rl (l1 ++ x :: l2) -> forall y, In y l1 -> Rl y x.
  Proof.
    induction l1 as [|a l1 IH]; intros H y Hy; [destruct Hy|]. cbn in H. inversion H as [|? ? H1 H2]; subst. destruct Hy as [<-|Hy]; [|apply IH; assumption].
    rewrite Forall_forall in H2. apply H2. apply in_or_app. right. left. reflexivity.
  Qed.
  (** if every earlier pair of the grid is reported, the row sits at its position in the grid *)
  Lemma row_position rows cols ses j g t att : ddd_mp o q k m b never data = MTable rows cols ses -> nth_error rows j = Some (g, t, att) ->
    (forall g' t', in_grid b data g' t' -> cell_before (g', t') (g, t) -> exists att', In (g', t', att') rows) ->
    exists i c, is_cohort data g /\ (i < length tl - tfac b)%nat /\ t = nth (i + tfac b) tl 0%Z /\ proc (g, i) = Some c /\ att = mc_att c /\ nth_error R j = Some (Some c).
  Proof.
    intros E NE PR. pose proof (nth_error_In _ _ NE) as HI. apply (table_in o q k m b never data K _ _ _ _ _ _ E) in HI. destruct HI as [i [c [J1 [J2 [ET [P EA]]]]]].
    exists i, c. fold tl in J2, ET. repeat (split; [assumption|]).
    assert (JI : In (g, i) (mp_jobs b data)) by (apply jobs_in; auto). apply in_split in JI. destruct JI as [l1 [l2 EJ]].
    pose proof jobs_sorted as JS. rewrite EJ in JS.
    assert (F1 : forall x, In x (map proc l1) -> x <> None).
    { intros x Hx. apply in_map_iff in Hx. destruct Hx as [[g' i'] [<- Hx]]. pose proof (ssorted_split _ _ _ _ JS _ Hx) as LT. cbn in LT.
      assert (JJ : In (g', i') (mp_jobs b data)) by (rewrite EJ; apply in_or_app; left; exact Hx). apply jobs_in in JJ. destruct JJ as [Q1 Q2]. fold tl in Q2.
      destruct (proj2 (period_index b data _) (ex_intro _ i' (conj Q2 eq_refl))) as [A B].
      destruct (PR g' (nth (i' + tfac b) tl 0%Z)) as [att' HA]; [split; [exact Q1|split; [exact A|exact B]]| |].
      - unfold cell_before. cbn. destruct LT as [LT|[LT1 LT2]]; [left; exact LT|right; split; [exact LT1|]]. rewrite ET. apply sorted_nth_lt; [apply tlist_sorted|]. fold tl. lia.
      - apply (table_in o q k m b never data K _ _ _ _ _ _ E) in HA. destruct HA as [i2 [c2 [_ [Q2' [ET2 [P2 _]]]]]]. fold tl in Q2', ET2.
        assert (i2 = i').
        { pose proof (tlist_sorted data) as SO. fold tl in SO. destruct (lt_eq_lt_dec i2 i') as [[L|L]|L]; [|exact L|]; exfalso.
          - pose proof (sorted_nth_lt _ SO (i2 + tfac b) (i' + tfac b)). lia.
          - pose proof (sorted_nth_lt _ SO (i' + tfac b) (i2 + tfac b)). lia. }
        subst i2. unfold proc. cbn. rewrite P2. discriminate. }
    assert (RJ : R = map Some (somes (map proc l1)) ++ Some c :: map proc l2).
    { unfold R. rewrite EJ, map_app. cbn [map]. rewrite <- (somes_full _ F1). do 2 f_equal. exact P. }
    assert (RS : somes R = somes (map proc l1) ++ c :: somes (map proc l2)).
    { rewrite RJ, somes_app, somes_map_some. reflexivity. }
    destruct (table_parts _ _ _ E) as [ER _].
    assert (POS : nth_error rows (length (somes (map proc l1))) = Some (g, t, att)).
    { rewrite ER, RS, map_app. rewrite nth_error_app2 by (rewrite map_length; lia). rewrite map_length, Nat.sub_diag. cbn.
      destruct (process_some o q k m b never data K g i c J1 J2 P) as [p [_ [M1 [M2 _]]]]. rewrite M1, M2, EA, ET. reflexivity. }
    assert (EQ : j = length (somes (map proc l1))).
    { pose proof (rows_once o q k m b never data K _ _ _ E) as ND. apply (proj1 (NoDup_nth_error _) ND j).
      - rewrite map_length. apply nth_error_Some. rewrite NE. discriminate.
      - rewrite (map_nth_error fst _ _ NE), (map_nth_error fst _ _ POS). reflexivity. }
    rewrite EQ, RJ, nth_error_app2 by (rewrite map_length; lia). rewrite map_length, Nat.sub_diag. reflexivity.
  Qed.
  (** ** an always-treated cohort displaces the columns *)
  Lemma early_none g i : (forall s, is_period data s -> (g <= s)%Z) -> (i < length tl - tfac b)%nat -> proc (g, i) = None.
  Proof.
    intros EARLY Hi. unfold proc, process_cell. cbn [fst snd]. cbn zeta. fold tl.
    assert (N : forall p, ~ latest_before data g p) by (intros p [Pp [L _]]; specialize (EARLY p Pp); lia).
    destruct (mp_pret b g (nth (i + tfac b) tl 0%Z) i tl) as [p|] eqn:EP; [|reflexivity]. exfalso. apply (mp_pret_iff b data g i p Hi) in EP. fold tl in EP.
    destruct b; cbn in EP; [apply (N p EP)|]. destruct EP as [Pp [L _]]. specialize (EARLY p Pp). lia.
  Qed.
  Lemma zero_col_se : mp_se2 n None (mp_column ids None) = None.
  Proof.
    unfold mp_se2, reported_se2, mp_column, se2, vcov.
    rewrite sumf_zero. { rewrite !Qcdiv_0_l. reflexivity. }
    intros [x y] H. pose proof (in_combine_l _ _ _ _ H) as H1. apply in_map_iff in H1. destruct H1 as [w [<- _]]. cbn. ring.
  Qed.
  Lemma displaced rows cols ses g j : ddd_mp o q k m b never data = MTable rows cols ses -> is_cohort data g -> (forall s, is_period data s -> (g <= s)%Z) ->
    (j < length rows)%nat -> (j < length tl - tfac b)%nat -> nth_error cols j = Some (map (fun _ => 0) ids) /\ nth_error ses j = Some None.
  Proof.
    intros E GC EARLY L1 L2.
    assert (exists g0 gs, mp_glist data = g0 :: gs /\ (g0 <= g)%Z).
    { apply glist_in in GC. destruct (mp_glist data) as [|g0 gs] eqn:EG; [destruct GC|]. exists g0, gs. split; [reflexivity|]. destruct GC as [->|GC]; [lia|].
      pose proof (zuniq_sorted (flat_map fin_pos (map l_g data))) as SO. fold (mp_glist data) in SO. rewrite EG in SO. inversion SO as [|? ? _ F]; subst. rewrite Forall_forall in F. specialize (F g GC). lia. }
    destruct H as [g0 [gs [EG LE]]].
    assert (RJ : nth_error R j = Some None).
    { unfold R, mp_jobs. rewrite EG. cbn [list_prod]. fold tl. rewrite map_app. rewrite nth_error_app1 by (rewrite !map_length, seq_length; exact L2).
      rewrite (map_nth_error proc j _ (d := (g0, j))). { f_equal. apply early_none; [intros s Ps; specialize (EARLY s Ps); lia|exact L2]. }
      apply map_nth_error. rewrite (nth_error_nth' _ 0%nat) by (rewrite seq_length; exact L2). rewrite seq_nth by exact L2. reflexivity. }
    destruct (column_at _ _ _ _ _ E L1 RJ) as [C S1]. split; [exact C|]. rewrite S1. f_equal. exact zero_col_se.
  Qed.
End Cols.
