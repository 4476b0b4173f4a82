(** Property-shaped lemmas for C06-C10. *)
From Verif Require Import Base ListLib PreprocessModel PreprocessSpec PreprocessProofs PreprocessProofs2.

Lemma last_period_nonempty l m : last_period_of l m -> l <> [].
Proof. intros [[r [H _]] _] ->. destruct H. Qed.
Lemma first_period_nonempty l m : first_period_of l m -> l <> [].
Proof. intros [[r [H _]] _] ->. destruct H. Qed.
Lemma last_period_eq l m : last_period_of l m -> last (tlist l) 0%Z = m.
Proof. intros H. eapply last_period_unique; [apply last_period_last; eapply last_period_nonempty; exact H|exact H]. Qed.
Lemma first_period_eq l m : first_period_of l m -> hd 0%Z (tlist l) = m.
Proof. intros H. eapply first_period_unique; [apply first_period_hd; eapply first_period_nonempty; exact H|exact H]. Qed.

Lemma encode_step l m : last_period_of l m ->
    Forall2 (fun r r' => r_id r' = r_id r /\ r_t r' = r_t r /\ r_y r' = r_y r /\ r_w r' = r_w r /\ r_x r' = r_x r
                         /\ group_code m (r_g r) (r_g r')) l (encode l).
Proof.
  intros H. rewrite encode_map, (last_period_eq l m H). clear H.
  induction l as [|r l IH]; constructor; [|exact IH]. cbn. auto 6 using enc_g_code.
Qed.

Lemma group_codes_end_to_end c d out r m : did_pipeline c d = Some out -> In r out -> last_period_of (clean c d) m ->
    exists q g e, In q d /\ raw_t q = Some (r_t r) /\ raw_y q = Some (r_y r) /\
      (c_has_id c = true -> raw_id q = Some (r_id r)) /\
      raw_g q = Some g /\ group_code m g e /\
      (r_g r = e \/
       (c_never c = true /\ r_g r = Inf /\ exists z, e = Fin z /\ (r_t r < z - c_ant c)%Z /\
          no_never (early_filter c (did_stage_encoded c d)) /\
          latest_cohort (early_filter c (did_stage_encoded c d)) z)).
Proof.
  intros HP Hr HL. destruct (pipeline_provenance c d out r HP Hr) as [q [r0 [Hq [E [T [Y [X [W [I G]]]]]]]]].
  rewrite (last_period_eq _ _ HL) in G. cbn zeta in G.
  apply clean_row_fields in E as [E1 [E2 [E3 [_ [E4 _]]]]].
  exists q, (r_g r0), (enc_g m (r_g r0)). split; [exact Hq|]. split; [congruence|]. split; [congruence|].
  split; [intros h; rewrite I by auto; apply E4, h|]. split; [exact E2|]. split; [apply enc_g_code|].
  destruct G as [G|[G1 [G2 [G3 [z [G4 [G5 G6]]]]]]]; [left; exact G|]. right. eauto 9.
Qed.

Lemma no_early_cohort_left c d out r m z : did_pipeline c d = Some out -> In r out ->
    first_period_of (clean c d) m -> r_g r = Fin z -> (m + c_ant c < z)%Z.
Proof.
  intros HP Hr HF E. assert (H := pipeline_not_early c d out r HP Hr). rewrite (first_period_eq _ _ HF) in H.
  destruct (Z.lt_ge_cases (m + c_ant c) z) as [h|h]; [exact h|]. exfalso. apply H. exists z. auto.
Qed.

Lemma no_eligible_unit_removed c l r m : In r l -> first_period_of l m ->
    (forall r', In r' l -> (if c_has_id c then r_id r' = r_id r else r' = r) -> ~ treated_by (r_g r') (m + c_ant c)) ->
    In r (early_filter c l).
Proof.
  intros Hr HF H. apply early_filter_in. split; [exact Hr|]. unfold early_unit. rewrite (first_period_eq _ _ HF).
  destruct (c_has_id c).
  - intros [r' [A [B C]]]. apply (H r' A B C).
  - apply (H r Hr eq_refl).
Qed.

Lemma base_period_exists c d out m r z : did_pipeline c d = Some out ->
    (c_panel c = true -> c_has_id c = true /\ valid_panel d) ->
    first_period_of (clean c d) m ->
    (exists r0, In r0 (early_filter c (did_stage_encoded c d)) /\ r_t r0 = m) ->
    In r out -> r_g r = Fin z -> exists p, In p (d_times (build_did_data c out)) /\ (p < z - c_ant c)%Z.
Proof.
  intros HP V HF Hex Hr E. assert (Hz := no_early_cohort_left c d out r m z HP Hr HF E).
  exists m. split; [|lia]. unfold build_did_data, d_times.
  rewrite <- (first_period_eq _ _ HF) in *. apply (pipeline_first_kept c d out HP); [intros; apply V; assumption|intros; apply V; assumption|].
  exact Hex.
Qed.

Lemma base_period_refuted :
  exists c d out z, did_pipeline c d = Some out /\ c_panel c = true /\ c_unbal c = false /\ c_has_id c = true /\ valid_panel d /\
    In z (d_groups (build_did_data c out)) /\
    forall p, In p (d_times (build_did_data c out)) -> (z - c_ant c <= p)%Z.
Proof.
  exists {| c_panel := true; c_unbal := false; c_has_id := true; c_has_w := false; c_never := true; c_ant := 0 |}.
  pose (q := fun i t g => {| raw_id := Some i; raw_t := Some t; raw_g := Some (Fin g); raw_y := Some (qz t); raw_w := None; raw_x := [] |}).
  exists [q 1 1 1; q 1 2 1; q 1 3 1; q 2 2 2; q 2 3 2; q 3 2 0; q 3 3 0]%Z.
  eexists. exists 2%Z. split; [vm_compute; reflexivity|]. repeat (split; [reflexivity|]). split; [|split].
  - split.
    + cbn. repeat constructor; cbn; intuition congruence.
    + cbn. intros a b Ha Hb. intuition (subst; cbn in *; congruence).
  - vm_compute. auto.
  - intros p Hp. vm_compute in Hp. cbn. intuition lia.
Qed.

Lemma control_group_construction c l z : no_never l -> latest_cohort l z ->
    forall r, In r (control_creator c l) <->
      exists r0, In r0 l /\ (r_t r0 < z - c_ant c)%Z /\
        r_id r = r_id r0 /\ r_t r = r_t r0 /\ r_y r = r_y r0 /\ r_w r = r_w r0 /\ r_x r = r_x r0 /\
        ((c_never c = true /\ r_g r0 = Fin z /\ r_g r = Inf) \/
         ((c_never c = false \/ r_g r0 <> Fin z) /\ r_g r = r_g r0)).
Proof.
  intros Hn Hz r. destruct (control_creator_cases c l) as [[h _]|[[-> _]|[_ [z' [Hz' ->]]]]]; [contradiction| |].
  - destruct Hz as [[r0 [[] _]] _].
  - assert (z' = z) by (eapply latest_unique; eassumption). subst z'. cbn zeta. destruct (c_never c).
    + rewrite in_map_iff. split.
      * intros [r0 [<- H]]. apply filter_In in H as [H Ht]. apply Z.ltb_lt in Ht. exists r0. cbn.
        repeat (split; [assumption || reflexivity|]).
        destruct (grp_eqb_spec (r_g r0) (Fin z)); auto.
      * intros [r0 [H [Ht [I [T [Y [W [X G]]]]]]]]. exists r0. split.
        -- destruct r as [i1 t1 g1 y1 w1 x1]; cbn in *. subst. unfold set_g. f_equal.
           destruct (grp_eqb_spec (r_g r0) (Fin z)); destruct G as [[_ [G1 G2]]|[[G1|G1] G2]]; congruence.
        -- apply filter_In. split; [exact H|apply Z.ltb_lt, Ht].
    + rewrite filter_In, Z.ltb_lt. split.
      * intros [H Ht]. exists r. repeat (split; [assumption || reflexivity|]). right. auto.
      * intros [r0 [H [Ht [I [T [Y [W [X G]]]]]]]].
        assert (r = r0) as ->; [|auto]. destruct G as [[G _]|[_ G]]; [discriminate|]. destruct r as [i1 t1 g1 y1 w1 x1], r0 as [i2 t2 g2 y2 w2 x2]; cbn in *; congruence.
Qed.

Lemma control_untouched c l r : In r l -> r_g r = Inf -> control_creator c l = l.
Proof.
  intros Hr E. destruct (control_creator_cases c l) as [[_ H]|[[-> _]|[Hn _]]]; [exact H|destruct Hr|].
  exfalso. apply (Hn r Hr E).
Qed.

Lemma relabelled_never_treated c d out r m : did_pipeline c d = Some out -> In r out -> last_period_of (clean c d) m -> r_g r = Inf ->
    exists q g, In q d /\ raw_t q = Some (r_t r) /\ raw_y q = Some (r_y r) /\
      (c_has_id c = true -> raw_id q = Some (r_id r)) /\ raw_g q = Some g /\
      (g = Inf \/ g = Fin 0 \/ exists z, g = Fin z /\ ((m < z)%Z \/ (r_t r < z - c_ant c)%Z)).
Proof.
  intros HP Hr HL E. destruct (group_codes_end_to_end c d out r m HP Hr HL) as [q [g [e [A [B [C [D [F [G H]]]]]]]]].
  exists q, g. repeat (split; [assumption|]). destruct H as [H|[_ [_ [z [H1 [H2 _]]]]]].
  - rewrite E in H. subst e. inversion G; subst; eauto 6.
  - subst e. inversion G; subst. eauto 6.
Qed.

Lemma balance_exact c l out : c_panel c = true -> c_unbal c = false -> c_has_id c = true ->
    NoDup (map (fun r => (r_id r, r_t r)) l) -> balance c l = Some out ->
    (exists keep, out = filter keep l) /\
    (forall r, In r out <-> In r l /\ observed_always l (r_id r)) /\
    (forall r, In r out -> observed_always out (r_id r)) /\
    tlist out = tlist l /\
    length out = (length (zuniq (map r_id out)) * length (tlist out))%nat /\
    balance c out = Some out.
Proof.
  intros H1 H2 H3 N H.
  assert (No := balance_nodup c l out N H). assert (HB := balance_balanced c l out H1 H2 H3 N H).
  split; [eapply balance_sub; exact H|]. split; [apply (balance_in c l out); assumption|]. split; [exact HB|].
  split; [apply (balance_same_periods c l out); assumption|]. split; [apply balanced_count; assumption|].
  destruct (balance_filter c l out H1 H2 H3 H) as [_ Hne].
  assert (E : forall r, In r out -> (count_id (r_id r) out =? length (tlist out))%nat = true).
  { intros r Hr. apply Nat.eqb_eq, count_complete; [exact No|]. apply observed_always_iff, HB, Hr. }
  unfold balance. rewrite H1, H2, H3. cbn [negb orb]. rewrite (filter_all (fun r => zmem _ _) out).
  - destruct out; [congruence|reflexivity].
  - intros r Hr. match goal with |- zmem ?x ?s = _ => destruct (zmem_spec x s) as [h|h] end; [reflexivity|].
    exfalso. apply h. apply filter_In. split; [apply zuniq_in, in_map, Hr|apply E, Hr].
Qed.

Lemma balance_error c l : c_panel c = true -> c_unbal c = false -> c_has_id c = true ->
    NoDup (map (fun r => (r_id r, r_t r)) l) ->
    (balance c l = None <-> forall r, In r l -> ~ observed_always l (r_id r)).
Proof.
  intros H1 H2 H3 N. destruct (balance c l) as [out|] eqn:E.
  - split; [discriminate|]. intros H. exfalso. destruct (balance_filter c l out H1 H2 H3 E) as [_ Hne].
    destruct out as [|r out]; [congruence|].
    destruct (proj1 (balance_in c l _ H1 H2 H3 N E r) (or_introl eq_refl)) as [A B]. apply (H r A B).
  - split; [|reflexivity]. intros _ r Hr Ho. unfold balance in E. rewrite H1, H2, H3 in E. cbn [negb orb] in E.
    destruct (filter _ l) eqn:F in E; [|discriminate].
    assert (In r []); [|assumption]. rewrite <- F. apply filter_In. split; [exact Hr|].
    match goal with |- zmem ?x ?s = _ => destruct (zmem_spec x s) as [h|h] end; [reflexivity|].
    exfalso. apply h. apply filter_In. split; [apply zuniq_in, in_map, Hr|].
    apply Nat.eqb_eq, count_complete; [exact N|]. apply observed_always_iff, Ho.
Qed.

(** * Row order *)
Lemma tlist_perm l l' : Permutation l l' -> tlist l = tlist l'.
Proof.
  intros P. apply zuniq_ext. intros x. split; apply Permutation_in; [|symmetry]; apply Permutation_map, P.
Qed.
Lemma clean_perm c d d' : Permutation d d' -> Permutation (clean c d) (clean c d').
Proof. intros P. apply Permutation_flat_map. exact P. Qed.
Lemma encoded_perm c d d' : Permutation d d' -> Permutation (did_stage_encoded c d) (did_stage_encoded c d').
Proof.
  intros P. apply (clean_perm c) in P. unfold did_stage_encoded. rewrite !encode_map, !normalize_tlist.
  rewrite (tlist_perm _ _ P). unfold normalize_weights. rewrite (mean_perm r_w _ _ P).
  apply Permutation_map, Permutation_map, P.
Qed.
Lemma early_perm c l l' : Permutation l l' -> Permutation (early_filter c l) (early_filter c l').
Proof.
  intros P. unfold early_filter. rewrite (tlist_perm _ _ P). destruct (c_has_id c); [|apply filter_perm, P].
  rewrite (filter_ext_in' _ (fun r => negb (zmem (r_id r) (map r_id (filter (fun r0 => grp_lez (r_g r0) (hd 0%Z (tlist l') + c_ant c)) l')))) l).
  - apply filter_perm, P.
  - intros r _. f_equal.
    match goal with |- zmem ?x ?s = zmem _ ?s' => destruct (zmem_spec x s), (zmem_spec x s'); try reflexivity; exfalso end;
    apply n; (eapply Permutation_in; [|eassumption]); apply Permutation_map, filter_perm; [|symmetry]; exact P.
Qed.
Lemma finite_groups_perm l l' : Permutation l l' -> finite_groups l = finite_groups l'.
Proof.
  intros P. unfold finite_groups. apply zuniq_ext. intros x.
  split; apply Permutation_in; [|symmetry]; apply Permutation_flat_map, P.
Qed.
Lemma existsb_perm {A} (f : A -> bool) l l' : Permutation l l' -> existsb f l = existsb f l'.
Proof.
  intros P. apply eq_true_iff_eq. rewrite !existsb_exists.
  split; intros [x [H1 H2]]; exists x; (split; [|exact H2]); (eapply Permutation_in; [|exact H1]); [|symmetry]; exact P.
Qed.
Lemma control_perm c l l' : Permutation l l' -> Permutation (control_creator c l) (control_creator c l').
Proof.
  intros P. unfold control_creator. rewrite (existsb_perm _ _ _ P), (finite_groups_perm _ _ P).
  destruct (existsb _ l'); [exact P|]. destruct (finite_groups l'); [exact P|]. cbn zeta.
  destruct (c_never c); [apply Permutation_map|]; apply filter_perm, P.
Qed.
Lemma balance_perm c l l' out : c_panel c = true -> c_unbal c = false -> c_has_id c = true ->
  Permutation l l' -> balance c l = Some out -> exists out', balance c l' = Some out' /\ Permutation out out'.
Proof.
  intros H1 H2 H3 P H. destruct (balance_filter c l out H1 H2 H3 H) as [-> Hne].
  assert (EF : Permutation (filter (fun r => (count_id (r_id r) l =? length (tlist l))%nat) l)
                 (filter (fun r => (count_id (r_id r) l' =? length (tlist l'))%nat) l')).
  { rewrite (filter_ext_in' _ (fun r => (count_id (r_id r) l' =? length (tlist l'))%nat) l); [apply filter_perm, P|].
    intros r _. unfold count_id. rewrite (Permutation_length (filter_perm _ _ _ P)), (tlist_perm _ _ P). reflexivity. }
  exists (filter (fun r => (count_id (r_id r) l' =? length (tlist l'))%nat) l'). split; [|exact EF].
  destruct (balance c l') as [out'|] eqn:E'.
  - destruct (balance_filter c l' out' H1 H2 H3 E') as [-> _]. reflexivity.
  - exfalso. unfold balance in E'. rewrite H1, H2, H3 in E'. cbn [negb orb] in E'.
    destruct (filter _ l') eqn:F in E'; [|discriminate].
    assert (FN : filter (fun r => (count_id (r_id r) l' =? length (tlist l'))%nat) l' = []).
    { destruct (filter (fun r => (count_id (r_id r) l' =? length (tlist l'))%nat) l') as [|r m] eqn:G; [reflexivity|].
      assert (Hr : In r (filter (fun r => (count_id (r_id r) l' =? length (tlist l'))%nat) l')) by (rewrite G; left; reflexivity).
      apply filter_In in Hr as [Hr Hc]. exfalso. assert (In r []); [|assumption]. rewrite <- F. apply filter_In. split; [exact Hr|].
      match goal with |- zmem ?x ?s = _ => destruct (zmem_spec x s) as [h|h] end; [reflexivity|].
      exfalso. apply h. apply filter_In. split; [apply zuniq_in, in_map, Hr|exact Hc]. }
    rewrite FN in EF. apply Permutation_sym, Permutation_nil in EF. contradiction.
Qed.

Lemma sorter_perm_eq l l' : NoDup (map (fun r => (r_id r, r_t r)) l) -> Permutation l l' -> data_sorter l = data_sorter l'.
Proof.
  intros N P.
  assert (NL : NoDup l) by (eapply NoDup_map_inv; exact N).
  assert (SL : forall m, Permutation l m -> StronglySorted (fun a b => In a l /\ In b l /\ row_leb a b = true) (data_sorter m)).
  { intros m Pm. apply (ssorted_impl (fun a b => row_leb a b = true)); [|apply data_sorter_sorted].
    intros a b Ha Hb R. apply (proj1 (data_sorter_in _ _)) in Ha. apply (proj1 (data_sorter_in _ _)) in Hb.
    assert (Permutation m l) by (symmetry; exact Pm).
    split; [|split; [|exact R]]; eapply Permutation_in; eassumption. }
  apply (ssorted_ext (fun a b => In a l /\ In b l /\ row_leb a b = true)).
  - intros a b [Ha [Hb R1]] [_ [_ R2]]. apply row_leb_iff in R1, R2.
    assert (r_id a = r_id b /\ r_t a = r_t b) as [Ei Et].
    { destruct R1 as [R1|[R1 R1']], R2 as [R2|[R2 R2']]; try lia. split; [|exact R1].
      destruct R1' as [[A B]|[A B]], R2' as [[A' B']|[A' B']]; try congruence; [|lia].
      exfalso. apply B. apply grp_leb_anti; assumption. }
    clear -N Ha Hb Ei Et. induction l as [|x l IH]; [destruct Ha|]. cbn in N. inversion N as [|? ? Nx Nl]; subst.
    destruct Ha as [->|Ha], Hb as [->|Hb]; [reflexivity| | |apply IH; assumption].
    + exfalso. apply Nx. apply in_map_iff. exists b. split; [congruence|exact Hb].
    + exfalso. apply Nx. apply in_map_iff. exists a. split; [congruence|exact Ha].
  - apply SL. reflexivity.
  - apply SL. exact P.
  - eapply Permutation_NoDup; [apply Permutation_sym, data_sorter_perm|exact NL].
  - eapply Permutation_NoDup; [apply Permutation_sym, data_sorter_perm|]. eapply Permutation_NoDup; eassumption.
  - intros x. rewrite !data_sorter_in. split; apply Permutation_in; [|symmetry]; exact P.
Qed.

Lemma row_order_irrelevant c d d' out : c_panel c = true -> c_unbal c = false -> c_has_id c = true -> valid_panel d ->
    Permutation d d' -> did_pipeline c d = Some out -> did_pipeline c d' = Some out.
Proof.
  intros H1 H2 H3 V P H. apply pipeline_stages in H as [Hne [b [Hb ->]]].
  assert (PE := encoded_perm c d d' P).
  assert (N : NoDup (map (fun r => (r_id r, r_t r)) (did_stage_encoded c d))).
  { rewrite encoded_keys. apply clean_nodup; [exact H3|apply V]. }
  assert (PC := control_perm c _ _ (early_perm c _ _ PE)).
  destruct (balance_perm c _ _ b H1 H2 H3 PC Hb) as [b' [Hb' Pb]].
  unfold did_pipeline. destruct (clean c d') as [|r l] eqn:E.
  - exfalso. apply Hne. apply Permutation_nil. rewrite <- E. symmetry. apply clean_perm, P.
  - rewrite Hb', !rc_handler_panel by exact H1. f_equal. symmetry. apply sorter_perm_eq; [|exact Pb].
    eapply balance_nodup; [|exact Hb]. apply control_nodup, early_filter_nodup, N.
Qed.
