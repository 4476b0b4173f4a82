(** Samples, base periods and control cohorts of a cell. *)
From Verif Require Import Base ListLib PreprocessModel PreprocessProofs AttGtModel ReduceModel DrdidModel DddModel DddMpModel DddMpSpec.

(** ** lists of rows in strictly increasing unit order *)
Definition ids_sorted (l : list lrow) : Prop := StronglySorted Z.lt (map l_id l).
Lemma nodup_map_filter {A B} (f : A -> B) p l : NoDup (map f l) -> NoDup (map f (filter p l)).
Proof.
  induction l as [|a l IH]; intros H; [constructor|]. cbn in *. inversion H; subst. destruct (p a); [|auto]. cbn. constructor; [|auto].
  intros K. apply in_map_iff in K. destruct K as [b [E K]]. apply filter_In in K. match goal with X : ~ In _ _ |- _ => apply X end. rewrite <- E. apply in_map. tauto.
Qed.
Lemma keyed_filter p data : keyed data -> keyed (filter p data).
Proof. apply nodup_map_filter. Qed.
Lemma keyed_eq data r r' : keyed data -> In r data -> In r' data -> l_id r = l_id r' -> l_t r = l_t r' -> r = r'.
Proof.
  unfold keyed. induction data as [|a data IH]; intros K H H' E1 E2; [destruct H|]. cbn in K. inversion K as [|? ? N K']; subst. destruct H as [->|H], H' as [->|H'].
  - reflexivity.
  - exfalso. apply N. rewrite E1, E2. apply (in_map (fun r => (l_id r, l_t r))), H'.
  - exfalso. apply N. rewrite <- E1, <- E2. apply (in_map (fun r => (l_id r, l_t r))), H.
  - auto.
Qed.
Lemma period_rows_in s rows r : In r (period_rows s rows) <-> In r rows /\ l_t r = s.
Proof. unfold period_rows. rewrite isort_in, filter_In. rewrite Z.eqb_eq. tauto. Qed.
Lemma period_rows_sorted s rows : keyed rows -> ids_sorted (period_rows s rows).
Proof.
  intros K. unfold ids_sorted. apply ssorted_map.
  assert (N : NoDup (map l_id (period_rows s rows))).
  { apply (Permutation_NoDup (l := map l_id (filter (fun r => (l_t r =? s)%Z) rows))). { apply Permutation_map. symmetry. apply isort_perm. }
    pose proof (keyed_filter (fun r => (l_t r =? s)%Z) rows K) as K'. unfold keyed in K'.
    assert (E : map (fun r => (l_id r, l_t r)) (filter (fun r => (l_t r =? s)%Z) rows) = map (fun i => (i, s)) (map l_id (filter (fun r => (l_t r =? s)%Z) rows))).
    { rewrite map_map. apply map_ext_in. intros r Hr. apply filter_In in Hr. destruct Hr as [_ Hr]. apply Z.eqb_eq in Hr. rewrite Hr. reflexivity. }
    rewrite E in K'. exact (NoDup_map_inv _ _ K'). }
  assert (W : StronglySorted (fun a b => by_id a b = true) (period_rows s rows)).
  { apply isort_sorted; unfold by_id; intros; rewrite ?Z.leb_le in *; lia. }
  revert N W. generalize (period_rows s rows). intros l N W. induction W as [|a l Hs IH Hf]; [constructor|]. cbn in N. inversion N; subst. constructor; [auto|].
  rewrite Forall_forall in *. intros b Hb. specialize (Hf b Hb). unfold by_id in Hf. apply Z.leb_le in Hf.
  assert (l_id a <> l_id b). { intros E. match goal with X : ~ In _ _ |- _ => apply X end. rewrite E. apply in_map, Hb. } lia.
Qed.
Lemma has_id_iff rows r : has_id rows r = true <-> In (l_id r) (map l_id rows).
Proof.
  unfold has_id. rewrite existsb_exists, in_map_iff. split; intros [q [A B]]; exists q; [apply Z.eqb_eq in B; auto|split; [exact B|apply Z.eqb_eq; exact A]].
Qed.
Lemma common_ids A B : ids_sorted A -> ids_sorted B -> map l_id (filter (has_id B) A) = map l_id (filter (has_id A) B).
Proof.
  intros HA HB. apply ssorted_lt_ext.
  - apply ssorted_map. apply ssorted_filter. apply ssorted_map. exact HA.
  - apply ssorted_map. apply ssorted_filter. apply ssorted_map. exact HB.
  - assert (G : forall A B i, In i (map l_id (filter (has_id B) A)) <-> In i (map l_id A) /\ In i (map l_id B)).
    { intros A' B' i. rewrite !in_map_iff. split.
      - intros [r [<- Hr]]. apply filter_In in Hr. destruct Hr as [H1 H2]. apply has_id_iff, in_map_iff in H2. split; [exists r; auto|exact H2].
      - intros [[r [<- H1]] H2]. exists r. split; [reflexivity|]. apply filter_In. split; [exact H1|]. apply has_id_iff, in_map_iff, H2. }
    intros i. rewrite !G. tauto.
Qed.
Lemma combine_same_ids A : forall B, map l_id A = map l_id B -> NoDup (map l_id A) ->
  forall a b, In (a, b) (combine A B) <-> In a A /\ In b B /\ l_id a = l_id b.
Proof.
  induction A as [|x A IH]; intros [|y B] E N a b; try discriminate; [cbn; tauto|]. cbn in E, N. injection E as E1 E2. inversion N as [|? ? NI N']; subst. cbn [combine In]. rewrite IH by assumption.
  split.
  - intros [P|[H1 [H2 H3]]]; [injection P as <- <-; auto|auto].
  - intros [[<-|H1] [[<-|H2] H3]]; [auto| | |auto].
    + exfalso. apply NI. rewrite E2, H3. apply in_map, H2.
    + exfalso. apply NI. rewrite E1, <- H3. apply in_map, H1.
Qed.
Lemma subgroup_iff g r s : subgroup_is g r s <-> s = subgroup_code (grp_eqb (l_g r) (Fin g)) (l_p r).
Proof.
  unfold subgroup_is, subgroup_code. destruct (grp_eqb_spec (l_g r) (Fin g)); destruct (Z.eqb_spec (l_p r) 1); destruct (Z.eqb_spec (l_p r) 0); split; intros H; subst; try tauto; try lia;
  repeat (destruct H as [H|H]); try tauto; try lia.
Qed.
Lemma tunit_eq (x y : tunit) : t_id x = t_id y -> t_sg x = t_sg y -> t_y1 x = t_y1 y -> t_y0 x = t_y0 y -> t_w x = t_w y -> t_x x = t_x y -> x = y.
Proof. destruct x, y. cbn. congruence. Qed.

Lemma cell_units_in g t p rows x : keyed rows -> In x (cell_units g t p rows) <->
  exists r1 r0, In r1 rows /\ In r0 rows /\ l_t r1 = t /\ l_t r0 = p /\ l_id r0 = l_id r1 /\
    t_id x = l_id r1 /\ subgroup_is g r1 (t_sg x) /\ t_y1 x = l_y r1 /\ t_y0 x = l_y r0 /\ t_w x = 1 /\ t_x x = 1 :: l_x r1.
Proof.
  intros K. unfold cell_units. cbn zeta. set (A := period_rows t rows). set (B := period_rows p rows).
  assert (SA : ids_sorted A) by (apply period_rows_sorted, K). assert (SB : ids_sorted B) by (apply period_rows_sorted, K).
  pose proof (common_ids A B SA SB) as CI.
  assert (NA : NoDup (map l_id (filter (has_id B) A))) by (apply nodup_map_filter, ssorted_lt_nodup, SA).
  rewrite in_map_iff. split.
  - intros [[r1 r0] [E H]]. apply (combine_same_ids _ _ CI NA) in H. destruct H as [H1 [H2 H3]]. apply filter_In in H1, H2.
    destruct H1 as [H1 _], H2 as [H2 _]. apply period_rows_in in H1, H2. exists r1, r0. rewrite <- E. cbn. rewrite subgroup_iff.
    destruct H1, H2. repeat (split; [first [assumption|reflexivity|symmetry; assumption]|]). reflexivity.
  - intros [r1 [r0 [H1 [H2 [T1 [T0 [I [X1 [X2 [X3 [X4 [X5 X6]]]]]]]]]]]]. exists (r1, r0). split.
    + apply subgroup_iff in X2. apply tunit_eq; cbn; congruence.
    + apply (combine_same_ids _ _ CI NA).
      assert (I1 : In r1 A) by (apply period_rows_in; auto). assert (I0 : In r0 B) by (apply period_rows_in; auto).
      split; [|split; [|auto]]; apply filter_In; (split; [assumption|]); apply has_id_iff; [rewrite <- I|rewrite I]; apply in_map; assumption.
Qed.
Lemma map_combine_fst {A B C} (f : A -> C) (a : list A) : forall (b : list B), length a = length b -> map (fun q => f (fst q)) (combine a b) = map f a.
Proof. induction a as [|x a IH]; intros [|y b] L; try discriminate; [reflexivity|]. cbn. f_equal. apply IH. cbn in L. lia. Qed.
Lemma cell_units_sorted g t p rows : keyed rows -> StronglySorted Z.lt (map t_id (cell_units g t p rows)).
Proof.
  intros K. unfold cell_units. cbn zeta. rewrite map_map. cbn.
  pose proof (common_ids _ _ (period_rows_sorted t rows K) (period_rows_sorted p rows K)) as CI.
  rewrite (map_combine_fst l_id). { apply ssorted_map, ssorted_filter, ssorted_map, period_rows_sorted, K. }
  apply (f_equal (@length Z)) in CI. rewrite !map_length in CI. exact CI.
Qed.
Lemma sample_unique data g c t p u u' : is_sample data g c t p u -> is_sample data g c t p u' -> u = u'.
Proof.
  intros [S1 H1] [S2 H2]. apply (proj1 (ssorted_map t_id Z.lt u)) in S1. apply (proj1 (ssorted_map t_id Z.lt u')) in S2.
  apply (ssorted_ext (fun a b => (t_id a < t_id b)%Z)); [intros; lia|exact S1|exact S2| | |].
  - apply (NoDup_map_inv t_id). apply ssorted_lt_nodup, (proj2 (ssorted_map t_id Z.lt u)), S1.
  - apply (NoDup_map_inv t_id). apply ssorted_lt_nodup, (proj2 (ssorted_map t_id Z.lt u')), S2.
  - intros x. rewrite H1, H2. tauto.
Qed.

(** ** control cohorts *)
Lemma is_control_iff never g t p c : (0 < g)%Z -> is_control never g t p c = true <-> may_control never g t p c.
Proof.
  intros G. unfold is_control, may_control. destruct never.
  - rewrite orb_true_iff. destruct (grp_eqb_spec c (Fin 0)) as [->|N]; [intuition|]. destruct c as [z|]; cbn; split; intros H.
    + destruct H; discriminate.
    + exfalso. destruct H as [H|[H|[H _]]]; [apply N, H|discriminate H|discriminate H].
    + auto.
    + auto.
  - destruct c as [z|]; cbn.
    + destruct (Z.eqb_spec z 0) as [->|N]; cbn.
      * split; [auto|]. intros _. destruct g; [lia|reflexivity|lia].
      * split; intros H.
        { right; right. split; [reflexivity|]. exists z. apply andb_true_iff in H. destruct H as [H1 H2]. apply Z.ltb_lt in H1. destruct (Z.eqb_spec z g); [discriminate H2|]. repeat split; [lia|lia|assumption]. }
        { destruct H as [H|[H|[_ [z' [E [H1 [H2 H3]]]]]]]; [congruence|discriminate H|]. injection E as ->. apply andb_true_iff. split; [apply Z.ltb_lt; lia|]. destruct (Z.eqb_spec z' g); [contradiction|reflexivity]. }
    + split; auto.
Qed.
Lemma may_control_not_g never g t p c : (0 < g)%Z -> may_control never g t p c -> c <> Fin g.
Proof. intros G [->|[->|[_ [z [-> [_ [_ N]]]]]]] E; [injection E; lia|discriminate|injection E; lia]. Qed.
Lemma cell_rows_in never g t p data r : (0 < g)%Z -> In r (cell_rows never g t p data) <->
  In r data /\ (l_g r = Fin g \/ may_control never g t p (l_g r)) /\ (l_t r = t \/ l_t r = p).
Proof.
  intros G. unfold cell_rows. rewrite filter_In, andb_true_iff, !orb_true_iff, !Z.eqb_eq, (is_control_iff never g t p _ G).
  destruct (grp_eqb_spec (l_g r) (Fin g)); intuition congruence.
Qed.
Lemma keyed_cell never g t p data : keyed data -> keyed (cell_rows never g t p data). Proof. apply keyed_filter. Qed.
Lemma keyed_control g c rows : keyed rows -> keyed (control_rows g c rows). Proof. apply keyed_filter. Qed.
Lemma control_rows_in g c rows r : In r (control_rows g c rows) <-> In r rows /\ (l_g r = Fin g \/ l_g r = c).
Proof. unfold control_rows. rewrite filter_In, orb_true_iff. destruct (grp_eqb_spec (l_g r) (Fin g)), (grp_eqb_spec (l_g r) c); intuition congruence. Qed.
Lemma uniq_in (l : list grp) c : In c (uniq grp_eqb l) <-> In c l.
Proof. pose proof (firsts_keys grp_eqb grp_eqb_spec (fun k : grp => k) l c) as H. rewrite !map_id in H. exact H. Qed.
Lemma uniq_nodup (l : list grp) : NoDup (uniq grp_eqb l).
Proof. pose proof (firsts_nodup grp_eqb grp_eqb_spec (fun k : grp => k) l) as H. rewrite map_id in H. exact H. Qed.
Lemma cell_controls_in never g t p data c : (0 < g)%Z -> In c (cell_controls g (cell_rows never g t p data)) <-> controls_of never data g t p c.
Proof.
  intros G. unfold cell_controls. rewrite uniq_in, filter_In, in_map_iff. unfold controls_of. split.
  - intros [[r [<- Hr]] N]. apply (cell_rows_in never g t p data r G) in Hr. destruct Hr as [D [C T]]. destruct C as [C|C].
    + destruct (grp_eqb_spec (l_g r) (Fin g)); [discriminate N|contradiction].
    + split; [exact C|]. exists r. auto.
  - intros [M [r [D [<- T]]]]. split; [exists r; split; [reflexivity|]; apply cell_rows_in; auto|].
    pose proof (may_control_not_g _ _ _ _ _ G M). destruct (grp_eqb_spec (l_g r) (Fin g)); [contradiction|reflexivity].
Qed.
Lemma cell_controls_nodup g rows : NoDup (cell_controls g rows). Proof. apply uniq_nodup. Qed.

(** ** the sample behind single_ddd *)
Lemma control_sample never data g c t p : keyed data -> (0 < g)%Z -> may_control never g t p c ->
  is_sample data g c t p (cell_units g t p (control_rows g c (cell_rows never g t p data))).
Proof.
  intros K G M. split; [apply cell_units_sorted, keyed_control, keyed_cell, K|]. intros x. rewrite cell_units_in by apply keyed_control, keyed_cell, K.
  split; intros [r1 [r0 H]]; exists r1, r0.
  - destruct H as [H1 [H2 [T1 [T0 [I X]]]]]. apply control_rows_in in H1, H2. destruct H1 as [H1 C1], H2 as [H2 C2].
    apply (cell_rows_in never g t p data _ G) in H1. apply (cell_rows_in never g t p data _ G) in H2. tauto.
  - destruct H as [H1 [H2 [T1 [T0 [I [C1 [C2 X]]]]]]].
    assert (Q : forall r, In r data -> (l_g r = Fin g \/ l_g r = c) -> (l_t r = t \/ l_t r = p) -> In r (control_rows g c (cell_rows never g t p data))).
    { intros r D C T. apply control_rows_in. split; [|exact C]. apply cell_rows_in; [exact G|]. split; [exact D|]. split; [|exact T]. destruct C as [C|C]; [left; exact C|right; rewrite C; exact M]. }
    split; [apply Q; auto|]. split; [apply Q; auto|]. tauto.
Qed.
Lemma ddd_panel_needs_4 o k m u : existsb (fun x => t_sg x =? 4)%Z u = false -> ddd_panel o k m u = TRaise.
Proof. intros H. unfold ddd_panel. rewrite H. cbn. destruct (t_neg u); [reflexivity|]. destruct (negb (forallb sg_ok u)); reflexivity. Qed.
Lemma single_ddd_iff o k m never data g c t p att inf : keyed data -> (0 < g)%Z -> may_control never g t p c ->
  single_ddd o k m g t p (control_rows g c (cell_rows never g t p data)) = Some (att, inf) <-> against o k m data g c t p att inf.
Proof.
  intros K G M. pose proof (control_sample never data g c t p K G M) as S1. unfold single_ddd. cbn zeta.
  set (u := cell_units g t p (control_rows g c (cell_rows never g t p data))) in *. split.
  - destruct (existsb (fun x => t_sg x =? 4)%Z u) eqn:E4; [|discriminate]. cbn. destruct (ddd_panel o k m u) as [|a b3 b2 b1 v] eqn:E; [discriminate|].
    intros H. injection H as <- <-. exists u, b3, b2, b1, v. auto.
  - intros [u' [a3 [a2 [a1 [v [S2 [E ->]]]]]]]. rewrite <- (sample_unique _ _ _ _ _ _ _ S1 S2) in *. rewrite E.
    destruct (existsb (fun x => t_sg x =? 4)%Z u) eqn:E4; [reflexivity|]. exfalso. rewrite (ddd_panel_needs_4 o k m u E4) in E. discriminate E.
Qed.
Lemma single_ddd_none o k m never data g c t p : keyed data -> (0 < g)%Z -> may_control never g t p c ->
  single_ddd o k m g t p (control_rows g c (cell_rows never g t p data)) = None -> forall att inf, ~ against o k m data g c t p att inf.
Proof. intros K G M H att inf A. apply (single_ddd_iff o k m never) in A; [congruence|assumption..]. Qed.
Lemma one_control_rows never data g c t p : (0 < g)%Z -> cell_controls g (cell_rows never g t p data) = [c] ->
  control_rows g c (cell_rows never g t p data) = cell_rows never g t p data.
Proof.
  intros G E. unfold control_rows. apply filter_all. intros r Hr. destruct (grp_eqb_spec (l_g r) (Fin g)) as [|N]; [reflexivity|]. cbn.
  assert (I : In (l_g r) (cell_controls g (cell_rows never g t p data))).
  { unfold cell_controls. rewrite uniq_in, filter_In. split; [apply in_map, Hr|]. destruct (grp_eqb_spec (l_g r) (Fin g)); [contradiction|reflexivity]. }
  rewrite E in I. destruct I as [<-|[]]. destruct (grp_eqb_spec c c); congruence.
Qed.

(** ** base periods *)
Lemma tlist_in data s : In s (mp_tlist data) <-> is_period data s.
Proof. unfold mp_tlist, is_period. rewrite zuniq_in, in_map_iff. split; intros [r [A B]]; exists r; auto. Qed.
Lemma tlist_sorted data : StronglySorted Z.lt (mp_tlist data). Proof. apply zuniq_sorted. Qed.
Lemma glist_in data g : In g (mp_glist data) <-> is_cohort data g.
Proof.
  unfold mp_glist, is_cohort. rewrite zuniq_in, in_flat_map. split.
  - intros [c [H I]]. apply in_map_iff in H. destruct H as [r [<- Hr]]. unfold fin_pos in I. destruct (l_g r) as [z|] eqn:E; [|destruct I].
    destruct (Z.ltb_spec 0 z); [|destruct I]. destruct I as [<-|[]]. split; [assumption|]. exists r. auto.
  - intros [G [r [Hr E]]]. exists (Fin g). split; [rewrite <- E; apply in_map, Hr|]. cbn. destruct (Z.ltb_spec 0 g); [left; reflexivity|lia].
Qed.
Lemma last_in {A} (l : list A) d : l <> [] -> In (last l d) l.
Proof. induction l as [|a l IH]; [congruence|]. intros _. destruct l as [|b l]; [left; reflexivity|]. right. apply IH. discriminate. Qed.
Lemma sorted_last_max l d : StronglySorted Z.lt l -> forall q, In q l -> (q <= last l d)%Z.
Proof.
  induction 1 as [|a l Hs IH Hf]; intros q Hq; [destruct Hq|]. destruct l as [|b l]; [destruct Hq as [<-|[]]; cbn; lia|].
  change (last (a :: b :: l) d) with (last (b :: l) d). destruct Hq as [<-|Hq]; [|apply IH, Hq]. rewrite Forall_forall in Hf.
  specialize (Hf _ (last_in (b :: l) d ltac:(discriminate))). lia.
Qed.
Lemma last_before_iff data s p : last_before s (mp_tlist data) = Some p <-> latest_before data s p.
Proof.
  unfold last_before. pose proof (ssorted_filter Z.lt (fun q => (q <? s)%Z) _ (tlist_sorted data)) as SF.
  assert (FI : forall q, In q (filter (fun q => (q <? s)%Z) (mp_tlist data)) <-> is_period data q /\ (q < s)%Z) by (intros q; rewrite filter_In, tlist_in, Z.ltb_lt; tauto).
  revert SF FI. generalize (filter (fun q => (q <? s)%Z) (mp_tlist data)). intros f SF FI. unfold latest_before. destruct f as [|a f].
  - split; [discriminate|]. intros [P [L _]]. exfalso. apply (FI p). auto.
  - assert (LI : In (last (a :: f) 0%Z) (a :: f)) by (apply last_in; discriminate). split.
    + intros E. assert (E' : last (a :: f) 0%Z = p) by congruence. rewrite E' in LI. apply FI in LI. destruct LI as [P L]. split; [exact P|]. split; [exact L|].
      intros q Pq Lq. rewrite <- E'. apply sorted_last_max; [exact SF|]. apply FI. auto.
    + intros [P [L M]]. f_equal. apply FI in LI. destruct LI as [P' L']. pose proof (M _ P' L').
      assert (p <= last (a :: f) 0)%Z by (apply sorted_last_max; [exact SF|apply FI; auto]). lia.
Qed.
Lemma latest_before_fun data s p p' : latest_before data s p -> latest_before data s p' -> p = p'.
Proof. intros [A [B C]] [A' [B' C']]. specialize (C p' A' B'). specialize (C' p A B). lia. Qed.
Lemma base_for_fun b data g t p p' : base_for b data g t p -> base_for b data g t p' -> p = p'.
Proof. destruct b; apply latest_before_fun. Qed.
Lemma sorted_nth_lt l : StronglySorted Z.lt l -> forall i j, (i < j < length l)%nat -> (nth i l 0 < nth j l 0)%Z.
Proof.
  induction 1 as [|a l Hs IH Hf]; intros i j H; [cbn in H; lia|]. destruct j as [|j]; [lia|]. cbn in H. destruct i as [|i]; cbn.
  - rewrite Forall_forall in Hf. apply Hf, nth_In. lia.
  - apply IH. lia.
Qed.
Lemma consecutive data i : (S i < length (mp_tlist data))%nat -> latest_before data (nth (S i) (mp_tlist data) 0%Z) (nth i (mp_tlist data) 0%Z).
Proof.
  intros H. pose proof (tlist_sorted data) as SO. split; [apply tlist_in, nth_In; lia|]. split; [apply sorted_nth_lt; [exact SO|lia]|].
  intros q P L. apply tlist_in in P. apply (In_nth _ _ 0%Z) in P. destruct P as [j [Hj <-]]. destruct (le_lt_dec j i) as [C|C].
  - destruct (Nat.eq_dec j i) as [->|N]; [lia|]. pose proof (sorted_nth_lt _ SO j i). lia.
  - destruct (Nat.eq_dec j (S i)) as [->|N]; [lia|]. pose proof (sorted_nth_lt _ SO (S i) j). lia.
Qed.
Lemma mp_pret_iff b data g t_idx p : (t_idx < length (mp_tlist data) - tfac b)%nat ->
  let t := nth (t_idx + tfac b) (mp_tlist data) 0%Z in
  mp_pret b g t t_idx (mp_tlist data) = Some p <-> base_for b data g t p.
Proof.
  intros H. cbn zeta. unfold mp_pret, mp_base, base_for. destruct b; cbn [tfac] in *.
  - rewrite <- last_before_iff. set (t := nth (t_idx + 0) (mp_tlist data) 0%Z). destruct (last_before g (mp_tlist data)) eqn:E; [|split; discriminate]. destruct (g <=? t)%Z; rewrite ?E; tauto.
  - set (t := nth (t_idx + 1) (mp_tlist data) 0%Z). destruct (Z.leb_spec g t) as [L|L].
    + rewrite Z.min_l by lia. apply last_before_iff.
    + rewrite Z.min_r by lia. assert (LB : latest_before data t (nth t_idx (mp_tlist data) 0%Z)). { subst t. rewrite Nat.add_1_r. apply consecutive. lia. }
      split; [intros E; injection E as <-; exact LB|]. intros B. f_equal. exact (latest_before_fun _ _ _ _ LB B).
Qed.
