(** Event-study aggregation of the cells of a panel. *)
From Verif Require Import Base ListLib ReduceModel DrdidModel DrdidSpec SplineModel ContModel ContSpec ContProofs ContProofs2 ContProofs3 ContProofs4 ContProofs11 ContEsModel ContEsSpec ContEsProofs.
From Coq Require Import Sorting.Sorted.

Lemma sum_single (f : Z -> Qc) x : forall l, NoDup l -> sumf (fun t => ind (t =? x)%Z * f t) l = if zmem x l then f x else 0.
Proof.
  induction l as [|a l IH]; [reflexivity|]. intros H. inversion H as [|? ? N1 N2]; subst. rewrite sumf_cons, IH by assumption.
  destruct (Z.eqb_spec a x) as [->|E]; cbn [ind].
  - destruct (zmem_spec x l) as [M|_]; [tauto|]. destruct (zmem_spec x (x :: l)) as [_|M]; [ring|]. exfalso. apply M. now left.
  - destruct (zmem_spec x l) as [M|M], (zmem_spec x (a :: l)) as [M'|M']; try ring; exfalso; [apply M'; now right|destruct M'; [congruence|tauto]].
Qed.
Lemma ssorted_nodup l : StronglySorted Z.lt l -> NoDup l.
Proof. induction 1 as [|a l S IH F]; constructor; [|exact IH]. intros I. rewrite Forall_forall in F. specialize (F a I). lia. Qed.
Lemma combine_norm {A} (c : A -> Qc) (l : list A) : 0 < sumf c l -> combine l (safe_normalize (map c l)) = map (fun a => (a, c a / sumf c l)) l.
Proof.
  intros P. unfold safe_normalize. change (qsum (map c l)) with (sumf c l). destruct (Qcleb_spec (sumf c l) 0) as [F|_]; [exfalso; revert F; now apply Qclt_not_le|].
  rewrite map_map. rewrite <- (map_id l) at 1. apply combine_map.
Qed.
Lemma filter_perm_sum (us : list cunit) (gs : list Z) (f : cunit -> Qc) : NoDup gs -> (forall u g, In u us -> k_g u = Some g -> In g gs) ->
  sumf f (flat_map (cohort us) gs ++ filter (fun u => negb (og_fin (k_g u))) us) = sumf f us.
Proof.
  intros N H. rewrite sumf_app, sumf_flat_map, sumf_filter.
  rewrite (sumf_ext _ (fun g => sumf (fun u => ind (match k_g u with Some h => (g =? h)%Z | None => false end) * f u) us)).
  2:{ intros g _. unfold cohort. rewrite sumf_filter. apply sumf_ext. intros u _. destruct (k_g u); [|reflexivity]. now rewrite Z.eqb_sym. }
  rewrite sumf_swap, <- sumf_add. apply sumf_ext. intros u I. destruct (k_g u) as [h|] eqn:G; cbn [og_fin negb ind].
  - rewrite (sum_single (fun _ => f u) h gs N). destruct (zmem_spec h gs) as [_|M]; [ring|]. exfalso. apply M. now apply (H u).
  - rewrite sumf_zero; [ring|]. intros; cbn [ind]; ring.
Qed.

Lemma qn_inj a b : qn a = qn b -> a = b.
Proof.
  assert (L : forall x y, (x < y)%nat -> qn x <> qn y).
  { intros x y H E. replace y with (x + (y - x))%nat in E by lia. rewrite qn_add in E. assert (P := qn_pos (y - x) ltac:(lia)).
    apply (Qc_pos_neq0 _ P). replace (qn (y - x)) with (qn x + qn (y - x) - qn x) by ring. rewrite <- E. ring. }
  intros E. destruct (Nat.lt_trichotomy a b) as [H|[H|H]]; [now apply L in H|exact H|]. exfalso. apply (L b a H). now symmetry.
Qed.

Section Agg.
  Context (o : copts) (T : nat) (us : list cunit) (Ok : panel_ok (co_ant o) T us) (Cne : cohorts us <> []) (eo : eopts).
  Context (F : Z * Z -> ecell) (HF : forall p, ec_g (F p) = fst p /\ ec_t (F p) = snd p).
  Let T2 : (2 <= T)%nat := proj1 Ok.
  Let Hs : StronglySorted Z.lt (map k_id us) := proj1 (proj2 (proj2 (proj2 Ok))).
  Let Hu : forall u, In u us -> unit_ok (co_ant o) T u := proj2 (proj2 (proj2 (proj2 Ok))).
  Let cs := map F (pairs T us).
  Let r := aggregate_dynamic eo (rows T us) cs.
  Let ts := zuniq (map ec_t cs).
  Lemma pair_in p : In p (pairs T us) <-> In (fst p) (cohorts us) /\ (2 <= snd p <= Z.of_nat T)%Z.
  Proof.
    unfold pairs. rewrite in_flat_map. split.
    - intros [t [It H]]. apply in_map_iff in H. destruct H as [g [<- Ig]]. split; [exact Ig|]. now apply (tl_calendar_in o T us Ok) in It.
    - intros [A B]. exists (snd p). split; [now apply (tl_calendar_in o T us Ok)|]. apply in_map_iff. exists (fst p). split; [now destruct p|exact A].
  Qed.
  Lemma some_cohort : exists g, In g (cohorts us).
  Proof. destruct (cohorts us) as [|g q]; [easy|]. exists g. now left. Qed.
  Lemma gb g : In g (cohorts us) -> (2 <= g <= Z.of_nat T)%Z.
  Proof. intros H. assert (B := g_bounds' o T us Ok g H). assert (A := proj1 (proj2 Ok)). lia. Qed.
  Lemma estimate_eq g t : In (g, t) (pairs T us) -> estimate cs g t = ec_att (F (g, t)) /\ forall i, influence cs g t i = nth i (ec_inf (F (g, t))) 0.
  Proof.
    intros I. unfold estimate, influence, cs. assert (E : find (fun c => (ec_g c =? g)%Z && (ec_t c =? t)%Z) (map F (pairs T us)) = Some (F (g, t))).
    { revert I. generalize (pairs T us). induction l as [|p l IH]; [easy|]. intros I. cbn [map find]. destruct (HF p) as [-> ->].
      destruct (Z.eqb_spec (fst p) g) as [E1|E1], (Z.eqb_spec (snd p) t) as [E2|E2]; cbn [andb].
      - destruct p; cbn in *; now subst.
      - apply IH. destruct I as [->|I]; [cbn in *; congruence|exact I].
      - apply IH. destruct I as [->|I]; [cbn in *; congruence|exact I].
      - apply IH. destruct I as [->|I]; [cbn in *; congruence|exact I]. }
    rewrite E. auto.
  Qed.
  Lemma ts_eq : ts = calendar 1 (T - 1).
  Proof.
    unfold ts. apply ssorted_lt_ext; [apply zuniq_sorted|apply calendar_sorted|]. intros x. rewrite zuniq_in, calendar_in, in_map_iff. unfold cs. split.
    - intros [c [<- I]]. apply in_map_iff in I. destruct I as [p [<- I]]. rewrite (proj2 (HF p)). apply pair_in in I. lia.
    - intros B. destruct some_cohort as [g Ig]. exists (F (g, x)). split; [apply HF|]. apply in_map. apply pair_in. cbn. split; [exact Ig|lia].
  Qed.
  Lemma idx v : (2 <= v <= Z.of_nat T)%Z -> to_idx ts v = (v - 1)%Z.
  Proof.
    intros B. rewrite ts_eq. unfold to_idx. destruct (zmem_spec v (calendar 1 (T - 1))) as [_|N].
    - apply index_of_calendar. lia.
    - exfalso. apply N. apply calendar_in. lia.
  Qed.
  Lemma cell_idx c : In c cs -> exists g t, In g (cohorts us) /\ (2 <= t <= Z.of_nat T)%Z /\ c = F (g, t) /\ ec_g c = g /\ ec_t c = t /\ to_idx ts (ec_g c) = (g - 1)%Z /\ to_idx ts (ec_t c) = (t - 1)%Z.
  Proof.
    unfold cs. intros I. apply in_map_iff in I. destruct I as [[g t] [<- I]]. apply pair_in in I. cbn in I. destruct I as [I1 I2]. exists g, t. destruct (HF (g, t)) as [E1 E2]. cbn in E1, E2. rewrite E1, E2.
    assert (B := gb g I1). rewrite !idx by lia. auto 10.
  Qed.
  Lemma max_idx : fold_right Z.max 0%Z (map (fun c => to_idx ts (ec_t c)) cs) = (Z.of_nat T - 1)%Z.
  Proof.
    destruct some_cohort as [g Ig].
    assert (I : In (F (g, Z.of_nat T)) cs) by (unfold cs; apply in_map; apply pair_in; cbn; split; [exact Ig|lia]).
    assert (U : forall x, In x (map (fun c => to_idx ts (ec_t c)) cs) -> (x <= Z.of_nat T - 1)%Z).
    { intros x Hx. apply in_map_iff in Hx. destruct Hx as [c [<- Ic]]. destruct (cell_idx c Ic) as [g' [t [_ [B [_ [_ [_ [_ ->]]]]]]]]. lia. }
    assert (J : In (Z.of_nat T - 1)%Z (map (fun c => to_idx ts (ec_t c)) cs)).
    { apply in_map_iff. exists (F (g, Z.of_nat T)). split; [|exact I]. rewrite (proj2 (HF _)). cbn [snd]. apply idx. lia. }
    apply fold_max_calendar; [exact U|lia|right; exact J].
  Qed.
  Lemma gs_eq : zuniq (map ec_g cs) = cohorts us.
  Proof.
    unfold cs. rewrite map_map, <- (pair_groups o T us Ok). f_equal. apply map_ext. intros p. apply HF.
  Qed.
  (** first-period rows, cohort by cohort *)
  Lemma by_id_eq (l : list cunit) : StronglySorted Z.lt (map k_id l) -> let m := map (fun u => row_of u 1%Z) l in
    flat_map (fun i => filter (fun x => (c_id x =? i)%Z) m) (units m) = m.
  Proof.
    intros S m. assert (U : units m = map k_id l).
    { unfold units, m. apply ssorted_lt_ext; [apply zuniq_sorted|exact S|]. intros x. rewrite zuniq_in, map_map. reflexivity. }
    rewrite U. unfold m. clear U m. rewrite (flat_map_concat_map _ (map k_id l)), map_map, <- flat_map_concat_map. transitivity (flat_map (fun u => [row_of u 1%Z]) l); [|apply (flat_map_single (fun u => row_of u 1%Z))].
    apply flat_map_ext_in. intros u I. rewrite filter_map_comm. cbn [row_of c_id].
    assert (E : filter (fun v => (k_id v =? k_id u)%Z) l = [u]); [|now rewrite E].
    revert S I. induction l as [|v l IH]; [easy|]. cbn [map]. intros S I. inversion S as [|? ? S' Fa]; subst. rewrite Forall_forall in Fa. cbn [filter]. destruct I as [->|I].
    - rewrite Z.eqb_refl, filter_none; [reflexivity|]. intros w Hw. specialize (Fa (k_id w) (in_map k_id _ _ Hw)). apply Z.eqb_neq. lia.
    - specialize (Fa (k_id u) (in_map k_id _ _ I)). destruct (Z.eqb_spec (k_id v) (k_id u)); [lia|]. now apply IH.
  Qed.
  Lemma first_rows_eq : first_rows (rows T us) = map (fun u => row_of u 1%Z) (by_cohort us).
  Proof.
    unfold first_rows. cbv zeta. rewrite (first_period_rows o T us Ok).
    assert (G : groups_of (map (fun u => row_of u 1%Z) us) = cohorts us).
    { unfold groups_of, cohorts. apply zuniq_ext. intros x. rewrite !in_flat_map. split.
      - intros [y [Hy E]]. apply in_map_iff in Hy. destruct Hy as [u [<- I]]. exists u. auto.
      - intros [u [I E]]. exists (row_of u 1%Z). split; [now apply (in_map (fun u => row_of u 1%Z))|exact E]. }
    rewrite G. unfold by_cohort. rewrite map_app, map_flat_map. f_equal.
    - apply flat_map_ext_in. intros g _. rewrite filter_map_comm. cbn [row_of c_g]. apply by_id_eq. now apply filter_sorted_ids.
    - rewrite filter_map_comm. cbn [row_of c_g]. apply by_id_eq. now apply filter_sorted_ids.
  Qed.
  Lemma by_cohort_sum (f : cunit -> Qc) : sumf f (by_cohort us) = sumf f us.
  Proof.
    apply filter_perm_sum; [unfold cohorts; apply zuniq_nodup|]. intros u g I G. apply cohorts_in. eauto.
  Qed.
  Lemma by_cohort_len : length (by_cohort us) = length us.
  Proof.
    assert (E := by_cohort_sum (fun _ => 1)). rewrite !sumf_const, !Qcmult_1_r in E.
    now apply qn_inj.
  Qed.
  Definition pg_list : list (Z * Qc) := map (fun g => (g, share us g)) (cohorts us).
  Lemma pg_eq : combine (zuniq (map ec_g cs)) (safe_normalize (map (fun g => mean (fun x => c_w x * ind (og_eqb (c_g x) g)) (first_rows (rows T us))) (zuniq (map ec_g cs)))) = pg_list.
  Proof.
    rewrite gs_eq.
    assert (E : map (fun g => mean (fun x => c_w x * ind (og_eqb (c_g x) g)) (first_rows (rows T us))) (cohorts us) = map (cohort_share (rows T us)) (cohorts us)).
    { apply map_ext. intros g. unfold cohort_share. rewrite (first_period_rows o T us Ok), first_rows_eq, !mean_map. unfold mean. rewrite by_cohort_sum, by_cohort_len. reflexivity. }
    rewrite E, (shares_eq o T us Ok Cne). unfold pg_list. rewrite <- (map_id (cohorts us)) at 1. apply combine_map.
  Qed.
  Let pgf := fun c => match find (fun p => (fst p =? ec_g c)%Z) pg_list with Some p => snd p | None => 0 end.
  Lemma pgf_eq c : In c cs -> pgf c = share us (ec_g c).
  Proof.
    intros I. destruct (cell_idx c I) as [g [t [Hg [_ [_ [E _]]]]]]. unfold pgf, pg_list. rewrite E. now rewrite (find_combine_map (share us) g) by exact Hg.
  Qed.
  Let ev' := fun c => (ec_t c - ec_g c)%Z.
  Let incl' := fun c => kept eo T (ec_g c).
  Definition sel' (e : Z) : list ecell := filter (fun c => (ev' c =? e)%Z && incl' c) cs.
  Lemma ev_eq c : In c cs -> (to_idx ts (ec_t c) - to_idx ts (ec_g c) = ev' c)%Z.
  Proof. intros I. destruct (cell_idx c I) as [g [t [_ [_ [_ [E1 [E2 [-> ->]]]]]]]]. unfold ev'. rewrite E1, E2. lia. Qed.
  Lemma incl_eq c : In c cs -> match eo_balance eo with Some b => (b <=? fold_right Z.max 0%Z (map (fun c => to_idx ts (ec_t c)) cs) - to_idx ts (ec_g c))%Z | None => true end = incl' c.
  Proof.
    intros I. unfold incl', kept. destruct (eo_balance eo) as [b|]; [|reflexivity]. rewrite max_idx. destruct (cell_idx c I) as [g [t [_ [_ [_ [E1 [E2 [-> _]]]]]]]]. rewrite E1.
    apply Bool.eq_iff_eq_true. rewrite !Z.leb_le. lia.
  Qed.
  Definition events_list : list Z :=
    let e0 := zuniq (map ev' (filter incl' cs)) in
    let e1 := match eo_balance eo with Some b => filter (fun e => (e <=? b)%Z && (b - (Z.of_nat T - 1) + 1 <=? e)%Z) e0 | None => e0 end in
    let e2 := match eo_min eo with Some m => filter (fun e => (m <=? e)%Z) e1 | None => e1 end in
    match eo_max eo with Some m => filter (fun e => (e <=? m)%Z) e2 | None => e2 end.
  Lemma e0_eq : map (fun c => (to_idx ts (ec_t c) - to_idx ts (ec_g c))%Z) (filter (fun c => match eo_balance eo with Some b => (b <=? fold_right Z.max 0%Z (map (fun c => to_idx ts (ec_t c)) cs) - to_idx ts (ec_g c))%Z | None => true end) cs) = map ev' (filter incl' cs).
  Proof. rewrite (filter_ext_in' _ _ cs incl_eq). apply map_ext_in. intros c I. apply filter_In in I. now apply ev_eq. Qed.
  Lemma sel_eq e : filter (fun c => (to_idx ts (ec_t c) - to_idx ts (ec_g c) =? e)%Z && match eo_balance eo with Some b => (b <=? fold_right Z.max 0%Z (map (fun c => to_idx ts (ec_t c)) cs) - to_idx ts (ec_g c))%Z | None => true end) cs = sel' e.
  Proof. apply filter_ext_in'. intros c I. now rewrite (ev_eq c I), (incl_eq c I). Qed.
  Let u_row := fun i => nth i (map (fun u => (k_w u, match k_g u with Some g => to_idx ts g | None => 0%Z end)) (by_cohort us)) (0, 0%Z).
  Definition att' (e : Z) : Qc := sumf (fun p => ec_att (fst p) * snd p) (combine (sel' e) (safe_normalize (map pgf (sel' e)))).
  Definition inf' (e : Z) : list Qc :=
    map (fun i => sumf (fun p => nth i (ec_inf (fst p)) 0 * snd p) (combine (sel' e) (safe_normalize (map pgf (sel' e))))
                  + sumf (fun c => wif (map (fun c => (to_idx ts (ec_g c), pgf c)) (sel' e)) (fst (u_row i)) (snd (u_row i)) (to_idx ts (ec_g c), pgf c) * ec_att c) (sel' e)) (seq 0 (length us)).
  Lemma rows1_map : map (fun x => (c_w x, match c_g x with Some g => to_idx ts g | None => 0%Z end)) (first_rows (rows T us)) = map (fun u => (k_w u, match k_g u with Some g => to_idx ts g | None => 0%Z end)) (by_cohort us).
  Proof. rewrite first_rows_eq, map_map. reflexivity. Qed.
  Lemma n_units : length (units (rows T us)) = length us.
  Proof. rewrite (rows_units o T us Ok). apply map_length. Qed.
  Lemma fields : es_events r = events_list /\ es_att r = map att' events_list /\ es_inf r = map inf' events_list /\
    es_overall r = (match filter (fun e => (0 <=? e)%Z) events_list with [] => None | _ => Some (mean att' (filter (fun e => (0 <=? e)%Z) events_list)) end) /\
    es_overall_inf r = (match filter (fun e => (0 <=? e)%Z) events_list with [] => None
       | _ => Some (map (fun i => mean (fun e => nth i (inf' e) 0) (filter (fun e => (0 <=? e)%Z) events_list)) (seq 0 (length us))) end).
  Proof.
    unfold r, aggregate_dynamic. cbv zeta. fold ts. rewrite pg_eq, rows1_map, n_units. cbn [es_events es_att es_inf es_overall es_overall_inf].
    rewrite e0_eq. rewrite max_idx in *. fold pgf.
    assert (Ea : forall e, sumf (fun p => ec_att (fst p) * snd p) (combine (filter (fun c => (to_idx ts (ec_t c) - to_idx ts (ec_g c) =? e)%Z && match eo_balance eo with Some b => (b <=? Z.of_nat T - 1 - to_idx ts (ec_g c))%Z | None => true end) cs)
        (safe_normalize (map pgf (filter (fun c => (to_idx ts (ec_t c) - to_idx ts (ec_g c) =? e)%Z && match eo_balance eo with Some b => (b <=? Z.of_nat T - 1 - to_idx ts (ec_g c))%Z | None => true end) cs)))) = att' e).
    { intros e. unfold att'. rewrite <- sel_eq. rewrite max_idx. reflexivity. }
    split; [reflexivity|]. split; [apply map_ext; exact Ea|].
    match goal with |- map ?h _ = _ /\ _ => assert (Ei : forall e, h e = inf' e) end.
    { intros e. cbv beta. unfold inf'. rewrite <- sel_eq. rewrite max_idx. reflexivity. }
    split; [apply map_ext; exact Ei|]. fold events_list.
    split.
    - change (filter (fun e => (0 <=? e)%Z) _) with (filter (fun e => (0 <=? e)%Z) events_list). destruct (filter (fun e => (0 <=? e)%Z) events_list) as [|e0 q]; [reflexivity|].
      f_equal. apply mean_ext. intros e _. apply Ea.
    - change (filter (fun e => (0 <=? e)%Z) _) with (filter (fun e => (0 <=? e)%Z) events_list). destruct (filter (fun e => (0 <=? e)%Z) events_list) as [|e0 q]; [reflexivity|].
      f_equal. apply map_ext. intros i. apply mean_ext. intros e _. f_equal. apply Ei.
  Qed.
  Let ec := event_cohorts eo T us.
  Lemma ec_in e g : In g (ec e) <-> In g (cohorts us) /\ In (g, (g + e)%Z) (pairs T us) /\ kept eo T g = true.
  Proof.
    unfold ec, event_cohorts. rewrite filter_In, !andb_true_iff, !Z.leb_le, pair_in. cbn [fst snd]. tauto.
  Qed.
  Lemma sum_sel (f : ecell -> Qc) e : sumf f (sel' e) = sumf (fun g => f (F (g, (g + e)%Z))) (ec e).
  Proof.
    unfold sel', cs. rewrite filter_map_comm, sumf_map, sumf_filter. rewrite (sum_pairs T us). unfold ec, event_cohorts. rewrite sumf_filter. apply sumf_ext. intros g Hg.
    unfold ev', incl'. rewrite (sumf_ext _ (fun t => ind (t =? g + e)%Z * (ind (kept eo T g) * f (F (g, t))))).
    - rewrite sum_single.
      + assert (Q : zmem (g + e)%Z (tl (calendar 0 T)) = (2 <=? g + e)%Z && (g + e <=? Z.of_nat T)%Z).
        { apply Bool.eq_iff_eq_true. rewrite andb_true_iff, !Z.leb_le. destruct (zmem_spec (g + e)%Z (tl (calendar 0 T))) as [M|M]; rewrite (tl_calendar_in o T us Ok) in M; [tauto|]. split; [easy|tauto]. }
        rewrite Q. destruct ((2 <=? g + e)%Z && (g + e <=? Z.of_nat T)%Z); cbn [andb ind]; [reflexivity|ring].
      + apply ssorted_nodup. assert (S := calendar_sorted 0 T). destruct (calendar 0 T); [constructor|]. now inversion S.
    - intros t _. destruct (HF (g, t)) as [-> ->]. cbn [fst snd].
      replace (t - g =? e)%Z with (t =? g + e)%Z; [destruct (t =? g + e)%Z, (kept eo T g); cbn; ring|]. apply Bool.eq_iff_eq_true. rewrite !Z.eqb_eq. lia.
  Qed.
  Lemma sel_in e c : In c (sel' e) <-> exists g, In g (ec e) /\ c = F (g, (g + e)%Z).
  Proof.
    unfold sel'. rewrite filter_In, andb_true_iff, Z.eqb_eq. unfold ev', incl'. split.
    - intros [I [E K]]. unfold cs in I. apply in_map_iff in I. destruct I as [[g t] [<- I]]. destruct (HF (g, t)) as [Eg Et]. rewrite Eg, Et in *. cbn [fst snd] in *.
      exists g. replace t with (g + e)%Z in * by lia. split; [|reflexivity]. apply ec_in. split; [|auto]. apply pair_in in I. apply I.
    - intros [g [I ->]]. apply ec_in in I. destruct I as [I1 [I2 I3]]. destruct (HF (g, (g + e)%Z)) as [-> ->]. cbn [fst snd]. split; [|split; [lia|exact I3]].
      unfold cs. now apply in_map.
  Qed.
  Lemma cell_share e g : In g (ec e) -> pgf (F (g, (g + e)%Z)) = share us g.
  Proof.
    intros I. apply ec_in in I. destruct I as [I1 [I2 _]]. rewrite pgf_eq by (unfold cs; now apply in_map). now rewrite (proj1 (HF _)).
  Qed.
  Lemma den_eq e : sumf pgf (sel' e) = sumf (cohort_weight us) (ec e) / sumf k_w (adopters us).
  Proof. rewrite sum_sel. rewrite (sumf_ext _ (share us)) by (intros; now apply cell_share). unfold share. apply sumf_div. Qed.
  Lemma ew_pos e : ec e <> [] -> 0 < sumf (cohort_weight us) (ec e).
  Proof.
    intros N. assert (P : forall g, In g (ec e) -> 0 < cohort_weight us g) by (intros g I; apply ec_in in I; apply (cohort_pos o T us Ok), I).
    apply sumf_pos; [intros g I; now apply Qclt_le_weak, P|]. destruct (ec e) as [|g q]; [easy|]. exists g. split; [now left|]. apply P. now left.
  Qed.
  Lemma norm_eq e : ec e <> [] -> combine (sel' e) (safe_normalize (map pgf (sel' e))) = map (fun c => (c, pgf c / sumf pgf (sel' e))) (sel' e).
  Proof. intros N. apply combine_norm. rewrite den_eq. apply Qcdiv_pos; [now apply ew_pos|apply (adopters_pos o T us Ok Cne)]. Qed.
  Lemma wsum_eq e (f : ecell -> Qc) : ec e <> [] -> sumf (fun p => f (fst p) * snd p) (combine (sel' e) (safe_normalize (map pgf (sel' e)))) =
    cohort_mean us (ec e) (fun g => f (F (g, (g + e)%Z))).
  Proof.
    intros N. rewrite norm_eq by exact N. rewrite sumf_map. cbn [fst snd]. rewrite sum_sel. unfold cohort_mean. rewrite <- sumf_div. apply sumf_ext. intros g I. rewrite (cell_share e g I), den_eq.
    unfold share. fold (cohort_weight us g). assert (P1 := Qc_pos_neq0 _ (ew_pos e N)). assert (P2 := Qc_pos_neq0 _ (adopters_pos o T us Ok Cne)). field. auto.
  Qed.
  Lemma cohort_mean_ext gs (f f' : Z -> Qc) : (forall g, In g gs -> f g = f' g) -> cohort_mean us gs f = cohort_mean us gs f'.
  Proof. intros H. unfold cohort_mean. f_equal. apply sumf_ext. intros g I. now rewrite H. Qed.
  Definition est_at (e g : Z) : Qc := estimate cs g (g + e)%Z.
  Lemma est_F e g : In g (ec e) -> ec_att (F (g, (g + e)%Z)) = est_at e g.
  Proof. intros I. apply ec_in in I. symmetry. apply estimate_eq, I. Qed.
  Lemma att_eq e : ec e <> [] -> att' e = cohort_mean us (ec e) (est_at e).
  Proof. intros N. unfold att'. rewrite (wsum_eq e ec_att N). apply cohort_mean_ext. apply est_F. Qed.
  Lemma events_in e : In e events_list <-> ec e <> [] /\ in_window eo T e.
  Proof.
    assert (E0 : In e (zuniq (map ev' (filter incl' cs))) <-> ec e <> []).
    { rewrite zuniq_in, in_map_iff. split.
      - intros [c [E I]]. apply filter_In in I. destruct I as [I K]. assert (J : In c (sel' e)) by (unfold sel'; apply filter_In; rewrite K, E, Z.eqb_refl; auto).
        apply sel_in in J. destruct J as [g [J _]]. intros N. now rewrite N in J.
      - intros N. destruct (ec e) as [|g q] eqn:Q; [easy|]. assert (J : In (F (g, (g + e)%Z)) (sel' e)) by (apply sel_in; exists g; rewrite Q; split; [now left|reflexivity]).
        unfold sel' in J. apply filter_In in J. destruct J as [J1 J2]. apply andb_prop in J2. destruct J2 as [J2 J3]. exists (F (g, (g + e)%Z)). split; [now apply Z.eqb_eq|]. apply filter_In. auto. }
    unfold events_list, in_window. cbv zeta. rewrite <- E0. destruct (eo_max eo), (eo_min eo), (eo_balance eo); rewrite ?filter_In, ?andb_true_iff, ?Z.leb_le; tauto.
  Qed.
  Lemma events_sorted : StronglySorted Z.lt events_list.
  Proof.
    assert (Z0 := zuniq_sorted (map ev' (filter incl' cs))). unfold events_list. cbv zeta. destruct (eo_max eo), (eo_min eo), (eo_balance eo); repeat apply ssorted_filter; exact Z0.
  Qed.

  (** * Influence *)
  Lemma wif_sum e (w : Qc) (og : option Z) : ec e <> [] -> (forall h, og = Some h -> (2 <= h <= Z.of_nat T)%Z) ->
    let gi := match og with Some g => to_idx ts g | None => 0%Z end in
    sumf (fun c => wif (map (fun c => (to_idx ts (ec_g c), pgf c)) (sel' e)) w gi (to_idx ts (ec_g c), pgf c) * ec_att c) (sel' e)
    = match og with Some h => if zmem h (ec e) then w * (est_at e h - cohort_mean us (ec e) (est_at e)) / (sumf (cohort_weight us) (ec e) / sumf k_w (adopters us)) else 0 | None => 0 end.
  Proof.
    intros N Hh gi. assert (P1 := Qc_pos_neq0 _ (ew_pos e N)). assert (P2 := Qc_pos_neq0 _ (adopters_pos o T us Ok Cne)).
    set (den := sumf pgf (sel' e)). assert (Den : den = sumf (cohort_weight us) (ec e) / sumf k_w (adopters us)) by apply den_eq.
    assert (D0 : den <> 0). { rewrite Den. apply Qc_pos_neq0, Qcdiv_pos; [now apply ew_pos|apply (adopters_pos o T us Ok Cne)]. }
    set (h0 := fun c => ind (gi =? to_idx ts (ec_g c))%Z).
    set (I := sumf h0 (sel' e)).
    assert (W : forall c, wif (map (fun c => (to_idx ts (ec_g c), pgf c)) (sel' e)) w gi (to_idx ts (ec_g c), pgf c) = w / den * h0 c - w / den * I * (pgf c / den)).
    { intros c. unfold wif. cbv zeta. cbn [fst snd]. rewrite !sumf_map. cbn [fst snd].
      change (sumf (fun a => pgf a) (sel' e)) with den.
      assert (S1 : sumf (fun a => w * ind (gi =? to_idx ts (ec_g a))%Z - pgf a) (sel' e) = w * I - den) by (rewrite sumf_sub, sumf_mul_l; reflexivity).
      rewrite S1. change (ind (gi =? to_idx ts (ec_g c))%Z) with (h0 c). field. exact D0. }
    rewrite (sumf_ext _ (fun c => w / den * (h0 c * ec_att c) - w / den * I * (ec_att c * (pgf c / den)))) by (intros c _; rewrite W; ring).
    rewrite sumf_sub, !sumf_mul_l.
    assert (A1 : sumf (fun c => ec_att c * (pgf c / den)) (sel' e) = cohort_mean us (ec e) (est_at e)).
    { rewrite <- att_eq by exact N. unfold att'. rewrite norm_eq by exact N. rewrite sumf_map. reflexivity. }
    assert (H0 : forall g, In g (ec e) -> h0 (F (g, (g + e)%Z)) = match og with Some h => ind (g =? h)%Z | None => 0 end).
    { intros g Ig. apply ec_in in Ig. destruct Ig as [Ig _]. assert (B := gb g Ig). unfold h0. rewrite (proj1 (HF _)). cbn [fst]. rewrite (idx g B). unfold gi. destruct og as [h|].
      - rewrite (idx h (Hh h eq_refl)). f_equal. apply Bool.eq_iff_eq_true. rewrite !Z.eqb_eq. lia.
      - destruct (Z.eqb_spec 0 (g - 1)); [lia|reflexivity]. }
    assert (ND : NoDup (ec e)) by (unfold ec, event_cohorts; apply NoDup_filter; unfold cohorts; apply zuniq_nodup).
    assert (A2 : sumf (fun c => h0 c * ec_att c) (sel' e) = match og with Some h => if zmem h (ec e) then est_at e h else 0 | None => 0 end).
    { rewrite sum_sel. rewrite (sumf_ext _ (fun g => match og with Some h => ind (g =? h)%Z | None => 0 end * est_at e g)) by (intros g Ig; rewrite H0, est_F by exact Ig; reflexivity).
      destruct og as [h|]; [apply (sum_single (est_at e) h _ ND)|]. apply sumf_zero. intros; ring. }
    assert (A3 : I = match og with Some h => if zmem h (ec e) then 1 else 0 | None => 0 end).
    { unfold I. rewrite sum_sel. rewrite (sumf_ext _ (fun g => match og with Some h => ind (g =? h)%Z | None => 0 end * 1)) by (intros g Ig; rewrite H0 by exact Ig; ring).
      destruct og as [h|]; [apply (sum_single (fun _ => 1) h _ ND)|]. apply sumf_zero. intros; ring. }
    rewrite A1, A2, A3, <- Den. destruct og as [h|]; [destruct (zmem h (ec e))|]; field; exact D0.
  Qed.
  (** The weight term as computed: it differs from [weight_effect] by the factor [adopters' weight / number of units], and its rows are listed cohort by cohort. *)
  Lemma inf_eq e i u v : ec e <> [] -> nth_error us i = Some u -> nth_error (by_cohort us) i = Some v ->
    nth i (inf' e) 0 = cohort_mean us (ec e) (fun g => influence cs g (g + e)%Z i)
      + sumf k_w (adopters us) / qn (length us) * weight_effect us (ec e) (est_at e) v.
  Proof.
    intros N Hi Hv. assert (Li : (i < length us)%nat) by (apply nth_error_Some; congruence).
    unfold inf'. rewrite (nth_map_seq (fun i => _)) by exact Li. f_equal.
    - rewrite (wsum_eq e (fun c => nth i (ec_inf c) 0) N). apply cohort_mean_ext. intros g I. apply ec_in in I. symmetry. apply estimate_eq, I.
    - assert (E : u_row i = (k_w v, match k_g v with Some g => to_idx ts g | None => 0%Z end)).
      { unfold u_row. apply nth_error_nth. apply (map_nth_error (fun u => (k_w u, match k_g u with Some g => to_idx ts g | None => 0%Z end))). exact Hv. }
      rewrite E. cbn [fst snd]. assert (Iv := nth_error_In _ _ Hv).
      rewrite (wif_sum e (k_w v) (k_g v) N).
      + unfold weight_effect. assert (P1 := Qc_pos_neq0 _ (ew_pos e N)). assert (P2 := Qc_pos_neq0 _ (adopters_pos o T us Ok Cne)). assert (P3 := qn_neq0 (length us) ltac:(lia)).
        destruct (k_g v) as [h|]; [destruct (zmem h (ec e))|]; try ring. field. auto.
      + intros h Eh. apply gb. apply cohorts_in. exists v. split; [|exact Eh]. unfold by_cohort in Iv. apply in_app_or in Iv. destruct Iv as [Iv|Iv].
        * apply in_flat_map in Iv. destruct Iv as [g [_ Iv]]. apply filter_In in Iv. apply Iv.
        * apply filter_In in Iv. apply Iv.
  Qed.
  Lemma inf_len e : length (inf' e) = length us.
  Proof. unfold inf'. now rewrite map_length, seq_length. Qed.
  Lemma effect_sum e : ec e <> [] -> sumf (weight_effect us (ec e) (est_at e)) us = 0.
  Proof.
    intros N. assert (P1 := Qc_pos_neq0 _ (ew_pos e N)). set (M := cohort_mean us (ec e) (est_at e)).
    assert (P3 : qn (length us) <> 0). { apply qn_neq0. assert (U := proj1 (proj2 (proj2 Ok))). clear -U. destruct us; [easy|cbn; lia]. }
    set (K := sumf (cohort_weight us) (ec e) / qn (length us)).
    assert (ND : NoDup (ec e)) by (unfold ec, event_cohorts; apply NoDup_filter; unfold cohorts; apply zuniq_nodup).
    transitivity (sumf (fun g => cohort_weight us g * ((est_at e g - M) / K)) (ec e)).
    - unfold cohort_weight, cohort. rewrite (sumf_ext (fun g => _ * _) (fun g => sumf (fun u => ind (match k_g u with Some h => (h =? g)%Z | None => false end) * (k_w u * ((est_at e g - M) / K))) us)).
      2:{ intros g _. rewrite <- sumf_mul_r. now rewrite sumf_filter. }
      rewrite sumf_swap. apply sumf_ext. intros u _. unfold weight_effect. fold M K. destruct (k_g u) as [h|].
      + rewrite (sumf_ext _ (fun g => ind (g =? h)%Z * (k_w u * ((est_at e g - M) / K)))) by (intros; now rewrite Z.eqb_sym).
        rewrite (sum_single (fun g => k_w u * ((est_at e g - M) / K)) h _ ND). destruct (zmem h (ec e)); [|reflexivity]. unfold Qcdiv. ring.
      + rewrite sumf_zero; [reflexivity|]. intros; cbn [ind]; ring.
    - rewrite (sumf_ext _ (fun g => (cohort_weight us g * est_at e g - cohort_weight us g * M) / K)) by (intros; unfold Qcdiv; ring).
      rewrite sumf_div, sumf_sub, sumf_mul_r. unfold M, cohort_mean, K. field. auto.
  Qed.
  Lemma inf_sum_zero e : ec e <> [] -> (forall g, In g (ec e) -> sumf (influence cs g (g + e)%Z) (seq 0 (length us)) = 0) -> qsum (inf' e) = 0.
  Proof.
    intros N H. rewrite <- sum_nth, inf_len.
    rewrite (sumf_ext _ (fun i => cohort_mean us (ec e) (fun g => influence cs g (g + e)%Z i) + sumf k_w (adopters us) / qn (length us) * nth i (map (weight_effect us (ec e) (est_at e)) (by_cohort us)) 0)).
    - rewrite sumf_add, sumf_mul_l.
      assert (Q : sumf (fun i => nth i (map (weight_effect us (ec e) (est_at e)) (by_cohort us)) 0) (seq 0 (length us)) = 0).
      { assert (Le : length us = length (map (weight_effect us (ec e) (est_at e)) (by_cohort us))) by (now rewrite map_length, by_cohort_len).
        rewrite Le, sum_nth. change (qsum (map ?f ?l)) with (sumf f l). rewrite by_cohort_sum. exact (effect_sum e N). }
      rewrite Q.
      unfold cohort_mean. rewrite sumf_div, sumf_swap. rewrite (sumf_ext _ (fun g => 0)) by (intros g I; rewrite sumf_mul_l, (H g I); ring).
      rewrite sumf_zero by reflexivity. unfold Qcdiv. ring.
    - intros i Hi. apply in_seq in Hi. destruct (nth_error us i) as [u|] eqn:E1; [|apply nth_error_None in E1; lia].
      destruct (nth_error (by_cohort us) i) as [v|] eqn:E2; [|apply nth_error_None in E2; rewrite by_cohort_len in E2; lia].
      rewrite (inf_eq e i u v N E1 E2). f_equal. f_equal. symmetry. apply nth_error_nth. now apply map_nth_error.
  Qed.
End Agg.
