(** Which cells are reported, and what each contains. *)
From Verif Require Import Base ListLib PreprocessModel PreprocessProofs AttGtModel SeModel ReduceModel DrdidModel DrdidSpec DddModel DddSpec DddProofs DddProofs3 DddMpModel DddMpSpec DddMpGmm DddMpProofs1.

Lemma somes_in {A} (l : list (option A)) a : In a (somes l) <-> In (Some a) l.
Proof.
  induction l as [|[b|] l IH]; cbn; [tauto| |].
  - rewrite IH. split; intros [H|H]; [left; congruence|right; exact H|left; congruence|right; exact H].
  - rewrite IH. split; [auto|intros [H|H]; [discriminate|exact H]].
Qed.
Lemma somes_map_some {A} (l : list A) : somes (map Some l) = l.
Proof. induction l as [|a l IH]; [reflexivity|]. cbn. rewrite IH. reflexivity. Qed.

Section Mp.
  Context (o : oracle) (q : gmm_oracle) (k : nat) (m : emethod) (b : base_mode) (never : bool) (data : list lrow).
  Context (K : keyed data).
  Let n := length (mp_ids data).
  Let tl := mp_tlist data.

  Lemma ddd_inf_len u att a3 a2 a1 v : ddd_panel o k m u = TEst att a3 a2 a1 v -> length v = length u.
  Proof.
    intros E. apply ddd_facts in E. cbn zeta in E. destruct E as [ps3 [out3 [M3 [V3 [ps2 [out2 [M2 [V2 [ps1 [out1 [M1 [V1 [_ [_ [_ [_ ->]]]]]]]]]]]]]]]].
    rewrite map_length. apply map_length.
  Qed.
  Lemma against_fun g c t p att inf att' inf' : against o k m data g c t p att inf -> against o k m data g c t p att' inf' -> att = att' /\ inf = inf'.
  Proof.
    intros [u [a3 [a2 [a1 [v [S1 [E ->]]]]]]] [u' [a3' [a2' [a1' [v' [S2 [E' ->]]]]]]]. rewrite <- (sample_unique _ _ _ _ _ _ _ S1 S2) in *. rewrite E in E'. injection E' as -> _ _ _ ->. auto.
  Qed.
  Lemma against_ids g c t p att inf : against o k m data g c t p att inf -> NoDup (map fst inf) /\ inf <> [].
  Proof.
    intros [u [a3 [a2 [a1 [v [[S1 H1] [E ->]]]]]]]. pose proof (ddd_inf_len _ _ _ _ _ _ E) as L.
    assert (M : map fst (combine (map t_id u) v) = map t_id u) by (rewrite (map_combine_fst (fun x => x)) by (rewrite map_length; congruence); apply map_id).
    rewrite M. split; [apply ssorted_lt_nodup, S1|]. intros N. rewrite N in M. destruct u as [|x u]; [|discriminate M].
    unfold ddd_panel in E. cbn in E. discriminate E.
  Qed.

  (** ** one cell *)
  Definition cell_ok (g t p : Z) (c : mp_cell) : Prop :=
    mc_g c = g /\ mc_t c = t /\
    ((p = t /\ mc_att c = 0 /\ mc_inf c = None /\ mc_se2 c = None) \/
     (p <> t /\ exists cs, NoDup cs /\ (forall z, In z cs <-> controls_of never data g t p z) /\
      ((exists z inf, cs = [z] /\ against o k m data g z t p (mc_att c) inf /\ mc_inf c = Some (scale_inf n inf) /\ mc_se2 c = None) \/
       ((2 <= length cs)%nat /\ exists rs, NoDup (map fst rs) /\ rs <> [] /\ (forall z a inf, In (z, (a, inf)) rs <-> In z cs /\ against o k m data g z t p a inf) /\
         (exists inf se, multi_ddd o q k m n g t p cs (cell_rows never g t p data) = Some (mc_att c, inf, se) /\
           somes (map (fun z => single_ddd o k m g t p (control_rows g z (cell_rows never g t p data))) cs) = map snd rs /\
           mc_inf c = Some inf /\ mc_se2 c = Some se))))).

  Fixpoint estimable (f : grp -> option (Qc * list (Z * Qc))) (cs : list grp) : list (grp * (Qc * list (Z * Qc))) :=
    match cs with [] => [] | z :: cs' => match f z with Some r => (z, r) :: estimable f cs' | None => estimable f cs' end end.
  Lemma estimable_snd f cs : map snd (estimable f cs) = somes (map f cs).
  Proof. induction cs as [|z cs IH]; [reflexivity|]. cbn. destruct (f z); cbn; rewrite IH; reflexivity. Qed.
  Lemma estimable_in f cs z r : In (z, r) (estimable f cs) <-> In z cs /\ f z = Some r.
  Proof.
    induction cs as [|y cs IH]; [cbn; tauto|]. cbn. destruct (f y) as [s|] eqn:E; cbn; rewrite IH.
    - split; [intros [H|[H1 H2]]; [injection H as -> ->; auto|auto]|]. intros [[->|H] H2]; [left; congruence|auto].
    - split; [intros [H1 H2]; auto|]. intros [[->|H] H2]; [congruence|auto].
  Qed.
  Lemma estimable_nodup f cs : NoDup cs -> NoDup (map fst (estimable f cs)).
  Proof.
    induction 1 as [|y cs N H IH]; [constructor|]. cbn. destruct (f y) as [r|]; [|exact IH]. cbn. constructor; [|exact IH].
    intros I. apply in_map_iff in I. destruct I as [[z s] [E I]]. cbn in E. subst z. apply estimable_in in I. tauto.
  Qed.

  Lemma process_some g i c : is_cohort data g -> (i < length tl - tfac b)%nat -> process_cell o q k m b never data g i = Some c ->
    exists p, base_for b data g (nth (i + tfac b) tl 0%Z) p /\ cell_ok g (nth (i + tfac b) tl 0%Z) p c.
  Proof.
    intros [G _] Hi. unfold process_cell. cbn zeta. fold tl. set (t := nth (i + tfac b) tl 0%Z).
    destruct (mp_pret b g t i tl) as [p|] eqn:EP; [|discriminate]. apply (mp_pret_iff b data g i p Hi) in EP. fold tl t in EP.
    intros E. exists p. split; [exact EP|].
    destruct (match b with Universal => (p =? t)%Z | Varying => false end) eqn:EU.
    - injection E as <-. unfold cell_ok. cbn. split; [reflexivity|]. split; [reflexivity|]. left. destruct b; [|discriminate EU]. apply Z.eqb_eq in EU. auto.
    - assert (PT : p <> t). { destruct b; cbn in EP; [apply Z.eqb_neq, EU|]. destruct EP as [_ [L _]]. lia. }
      pose proof (fun z => cell_controls_in never g t p data z G) as CI. pose proof (cell_controls_nodup g (cell_rows never g t p data)) as CN.
      pose proof (one_control_rows never data g) as OC.
      destruct (cell_controls g (cell_rows never g t p data)) as [|z [|z' cs]] eqn:EC; [discriminate| |].
      + destruct (single_ddd o k m g t p (cell_rows never g t p data)) as [[att inf]|] eqn:ES; [|discriminate]. injection E as <-.
        split; [reflexivity|]. split; [reflexivity|]. right. split; [exact PT|]. exists [z]. split; [exact CN|]. split; [exact CI|]. left. exists z, inf.
        split; [reflexivity|]. split; [|split; reflexivity]. apply (single_ddd_iff o k m never data g z t p att inf K G).
        { apply CI. left. reflexivity. } rewrite (OC z t p G EC). exact ES.
      + set (cs0 := z :: z' :: cs) in *. destruct (multi_ddd o q k m (length (mp_ids data)) g t p cs0 (cell_rows never g t p data)) as [[[att inf] se]|] eqn:EM; [|discriminate]. injection E as <-.
        split; [reflexivity|]. split; [reflexivity|]. right. split; [exact PT|]. exists cs0. split; [exact CN|]. split; [exact CI|]. right. split; [cbn; lia|].
        set (f := fun z => single_ddd o k m g t p (control_rows g z (cell_rows never g t p data))). exists (estimable f cs0).
        split; [apply estimable_nodup, CN|]. split.
        { intros N. unfold multi_ddd in EM. fold f in EM. rewrite <- estimable_snd, N in EM. discriminate EM. }
        split.
        { intros y a inf'. rewrite estimable_in. unfold f. split; intros [H1 H2]; (split; [exact H1|]).
          - apply (single_ddd_iff o k m never) in H2; [exact H2|exact K|exact G|apply CI, H1].
          - apply (single_ddd_iff o k m never); [exact K|exact G|apply CI, H1|exact H2]. }
        exists inf, se. split; [exact EM|]. split; [rewrite estimable_snd; reflexivity|]. split; reflexivity.
  Qed.
  Lemma process_present g i : is_cohort data g -> (i < length tl - tfac b)%nat ->
    (exists c, process_cell o q k m b never data g i = Some c) <->
    exists p, base_for b data g (nth (i + tfac b) tl 0%Z) p /\
      (p = nth (i + tfac b) tl 0%Z \/ exists z att inf, controls_of never data g (nth (i + tfac b) tl 0%Z) p z /\ against o k m data g z (nth (i + tfac b) tl 0%Z) p att inf).
  Proof.
    intros GC Hi. split.
    - intros [c E]. destruct (process_some g i c GC Hi E) as [p [BF [_ [_ CO]]]]. exists p. split; [exact BF|]. destruct CO as [[PT _]|[_ [cs [_ [CI [[z [inf [-> [A _]]]]|[_ [rs [_ [NE [RI _]]]]]]]]]]]; [left; exact PT| |].
      + right. exists z, (mc_att c), inf. split; [apply CI; left; reflexivity|exact A].
      + right. destruct rs as [|[z [a inf]] rs]; [congruence|]. exists z, a, inf. destruct (proj1 (RI z a inf) (or_introl eq_refl)) as [I A]. split; [apply CI, I|exact A].
    - intros [p [BF H]]. destruct GC as [G _]. unfold process_cell. cbn zeta. fold tl. set (t := nth (i + tfac b) tl 0%Z) in *.
      pose proof (proj2 (mp_pret_iff b data g i p Hi) BF) as PR. cbn zeta in PR. fold tl in PR. fold t in PR. rewrite PR. destruct (match b with Universal => (p =? t)%Z | Varying => false end) eqn:EU; [eauto|].
      destruct H as [H|[z [att [inf [C A]]]]].
      + exfalso. destruct b; [apply Z.eqb_neq in EU; contradiction|]. destruct BF as [_ [L _]]. lia.
      + pose proof (one_control_rows never data g) as OC. assert (CM : may_control never g t p z) by apply C. apply (cell_controls_in never g t p data z G) in C.
        assert (SD : single_ddd o k m g t p (control_rows g z (cell_rows never g t p data)) = Some (att, inf)) by (apply (single_ddd_iff o k m never); assumption).
        destruct (cell_controls g (cell_rows never g t p data)) as [|y [|y' cs]] eqn:EC; [destruct C| |].
        * destruct C as [->|[]]. rewrite (OC z t p G EC) in SD. rewrite SD. eauto.
        * set (cs0 := y :: y' :: cs) in *. unfold multi_ddd.
          assert (I : In (att, inf) (somes (map (fun c => single_ddd o k m g t p (control_rows g c (cell_rows never g t p data))) cs0))).
          { apply somes_in. rewrite <- SD. apply (in_map (fun c => single_ddd o k m g t p (control_rows g c (cell_rows never g t p data)))), C. }
          destruct (somes _) as [|r rs]; [destruct I|]. cbn zeta. destruct (gmm_aggregate _ _ _ _) as [[a2 i2] s2]. eauto.
  Qed.

  (** ** the table *)
  Lemma jobs_in g i : In (g, i) (mp_jobs b data) <-> is_cohort data g /\ (i < length tl - tfac b)%nat.
  Proof. unfold mp_jobs. rewrite in_prod_iff, glist_in, in_seq. fold tl. intuition lia. Qed.
  Lemma table_rows rows cols ses : ddd_mp o q k m b never data = MTable rows cols ses ->
    rows = map (fun c => (mc_g c, mc_t c, mc_att c)) (somes (map (fun j => process_cell o q k m b never data (fst j) (snd j)) (mp_jobs b data))).
  Proof.
    unfold ddd_mp. cbn zeta. destruct (somes _) as [|c cs] eqn:E; [discriminate|]. intros H. injection H as <- _ _. reflexivity.
  Qed.
  Lemma table_in rows cols ses g t att : ddd_mp o q k m b never data = MTable rows cols ses -> In (g, t, att) rows <->
    exists i c, is_cohort data g /\ (i < length tl - tfac b)%nat /\ t = nth (i + tfac b) tl 0%Z /\ process_cell o q k m b never data g i = Some c /\ att = mc_att c.
  Proof.
    intros E. rewrite (table_rows _ _ _ E), in_map_iff. split.
    - intros [c [X H]]. apply somes_in, in_map_iff in H. destruct H as [[g' i] [P J]]. cbn in P. apply jobs_in in J. destruct J as [J1 J2].
      destruct (process_some g' i c J1 J2 P) as [p [_ [M1 [M2 _]]]]. injection X as X1 X2 X3. exists i, c. subst g t att. rewrite M1, M2. repeat split; try assumption; try apply J1.
    - intros [i [c [J1 [J2 [-> [P ->]]]]]]. exists c. destruct (process_some g i c J1 J2 P) as [p [_ [M1 [M2 _]]]]. split; [rewrite M1, M2; reflexivity|].
      apply somes_in, in_map_iff. exists (g, i). split; [exact P|]. apply jobs_in. auto.
  Qed.
  Lemma period_index t : (is_period data t /\ (b = Varying -> exists s, is_period data s /\ (s < t)%Z)) <-> exists i, (i < length tl - tfac b)%nat /\ t = nth (i + tfac b) tl 0%Z.
  Proof.
    split.
    - intros [P V]. apply tlist_in in P. fold tl in P. apply (In_nth _ _ 0%Z) in P. destruct P as [j [Hj E]]. destruct b; cbn [tfac].
      + exists j. rewrite Nat.add_0_r. split; [lia|congruence].
      + destruct (V eq_refl) as [s [Ps Ls]]. apply tlist_in in Ps. fold tl in Ps. apply (In_nth _ _ 0%Z) in Ps. destruct Ps as [h [Hh Eh]].
        destruct j as [|j]; [|exists j; rewrite Nat.add_1_r; split; [lia|congruence]]. exfalso. destruct h as [|h]; [lia|].
        pose proof (sorted_nth_lt _ (tlist_sorted data) 0 (S h)). fold tl in H. lia.
    - intros [i [Hi ->]]. split; [apply tlist_in, nth_In; fold tl; destruct b; cbn in *; lia|]. intros ->. cbn [tfac] in *. exists (nth i tl 0%Z). split; [apply tlist_in, nth_In; fold tl; lia|].
      rewrite Nat.add_1_r. apply sorted_nth_lt; [apply tlist_sorted|]. fold tl. lia.
  Qed.
  Lemma cells_present rows cols ses g t : ddd_mp o q k m b never data = MTable rows cols ses ->
    (exists att, In (g, t, att) rows) <->
    is_cohort data g /\ is_period data t /\ (b = Varying -> exists s, is_period data s /\ (s < t)%Z) /\
    exists p, base_for b data g t p /\ (p = t \/ exists z att inf, controls_of never data g t p z /\ against o k m data g z t p att inf).
  Proof.
    intros E. split.
    - intros [att H]. apply (table_in _ _ _ _ _ _ E) in H. destruct H as [i [c [J1 [J2 [-> [P ->]]]]]].
      destruct (proj2 (period_index _) (ex_intro _ i (conj J2 eq_refl))) as [A B]. split; [exact J1|]. split; [exact A|]. split; [exact B|].
      apply (process_present g i J1 J2). eauto.
    - intros [J1 [A [B H]]]. destruct (proj1 (period_index t) (conj A B)) as [i [J2 ->]]. apply (process_present g i J1 J2) in H. destruct H as [c P].
      exists (mc_att c). apply (table_in _ _ _ _ _ _ E). exists i, c. auto.
  Qed.
  Lemma raise_iff : ddd_mp o q k m b never data = MRaise <->
    forall g t, is_cohort data g -> is_period data t -> (b = Varying -> exists s, is_period data s /\ (s < t)%Z) ->
    ~ exists p, base_for b data g t p /\ (p = t \/ exists z att inf, controls_of never data g t p z /\ against o k m data g z t p att inf).
  Proof.
    unfold ddd_mp. cbn zeta. destruct (somes (map (fun j => process_cell o q k m b never data (fst j) (snd j)) (mp_jobs b data))) as [|c cs] eqn:E.
    - split; [|reflexivity]. intros _ g t J1 A B H. destruct (proj1 (period_index t) (conj A B)) as [i [J2 ->]]. apply (process_present g i J1 J2) in H. destruct H as [c P].
      assert (I : In c (somes (map (fun j => process_cell o q k m b never data (fst j) (snd j)) (mp_jobs b data)))); [|rewrite E in I; destruct I].
      apply somes_in, in_map_iff. exists (g, i). split; [exact P|]. apply jobs_in. auto.
    - split; [discriminate|]. intros H. exfalso. assert (I : In c (somes (map (fun j => process_cell o q k m b never data (fst j) (snd j)) (mp_jobs b data)))) by (rewrite E; left; reflexivity).
      apply somes_in, in_map_iff in I. destruct I as [[g i] [P J]]. cbn in P. apply jobs_in in J. destruct J as [J1 J2].
      destruct (proj2 (period_index _) (ex_intro _ i (conj J2 eq_refl))) as [A B]. apply (H g _ J1 A B). apply (process_present g i J1 J2). eauto.
  Qed.
  Lemma rows_once rows cols ses : ddd_mp o q k m b never data = MTable rows cols ses -> NoDup (map fst rows).
  Proof.
    intros E. rewrite (table_rows _ _ _ E), map_map. cbn.
    assert (JN : NoDup (mp_jobs b data)) by (apply NoDup_prod; [apply zuniq_nodup|apply seq_NoDup]).
    assert (JI : forall j, In j (mp_jobs b data) -> is_cohort data (fst j) /\ (snd j < length tl - tfac b)%nat) by (intros [g i] H; apply jobs_in, H).
    revert JN JI. generalize (mp_jobs b data). induction l as [|[g i] l IH]; intros JN JI; [constructor|]. inversion JN as [|? ? N JN']; subst. cbn.
    assert (IHl := IH JN' (fun j H => JI j (or_intror H))). destruct (process_cell o q k m b never data g i) as [c|] eqn:P; [|exact IHl]. cbn. constructor; [|exact IHl].
    intros I. apply in_map_iff in I. destruct I as [c' [X I]]. apply somes_in, in_map_iff in I. destruct I as [[g' i'] [P' J']]. cbn in P'.
    destruct (JI (g, i) (or_introl eq_refl)) as [C1 C2]. destruct (JI (g', i') (or_intror J')) as [C1' C2']. cbn in C1, C2, C1', C2'.
    destruct (process_some g i c C1 C2 P) as [p [_ [M1 [M2 _]]]]. destruct (process_some g' i' c' C1' C2' P') as [p' [_ [M1' [M2' _]]]].
    injection X as X1 X2. rewrite M1, M1' in X1. rewrite M2, M2' in X2. subst g'. apply N.
    assert (i' = i); [|subst; exact J']. pose proof (tlist_sorted data) as SO. fold tl in SO.
    destruct (lt_eq_lt_dec i' i) as [[L|L]|L]; [|exact L|]; exfalso.
    - pose proof (sorted_nth_lt _ SO (i' + tfac b) (i + tfac b)). lia.
    - pose proof (sorted_nth_lt _ SO (i + tfac b) (i' + tfac b)). lia.
  Qed.
End Mp.
