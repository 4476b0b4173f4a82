(** Proofs for C38. *)
From Coq Require Import Permutation Sorted.
From Verif Require Import Base ListLib PreprocessModel ReduceModel ReduceProofs AttGtModel AttGtSpec DistDidModel DistDrvModel DistDrvSpec.
Local Open Scope nat_scope.
Local Open Scope list_scope.

(** ** the cell table *)
Lemma last_map_some {A} (l : list A) a : last (map Some l) None = Some a -> exists l', l = l' ++ [a].
Proof.
  destruct l as [|x l] using rev_ind; [discriminate|]. rewrite map_app. cbn [map]. rewrite last_last. intros E. injection E as ->. eauto.
Qed.
Lemma last_map_none {A} (l : list A) : last (map Some l) None = None -> l = [].
Proof. destruct l as [|x l] using rev_ind; [reflexivity|]. rewrite map_app. cbn [map]. rewrite last_last. discriminate. Qed.
Lemma last_pre_some times bound p : StronglySorted Z.lt times -> last_pre times bound = Some p -> last_period_before times bound p.
Proof.
  intros S E. unfold last_pre in E. apply last_map_some in E as [l' E].
  pose proof (ssorted_filter Z.lt (fun q => (q <? bound)%Z) times S) as S'. rewrite E in S'.
  assert (Hp : In p (filter (fun q => (q <? bound)%Z) times)) by (rewrite E; apply in_or_app; right; left; reflexivity).
  apply filter_In in Hp as [H1 H2]. apply Z.ltb_lt in H2. split; [exact H1|]. split; [exact H2|]. intros q Hq Hb.
  assert (Hq' : In q (l' ++ [p])) by (rewrite <- E; apply filter_In; split; [exact Hq|apply Z.ltb_lt; exact Hb]).
  apply in_app_or in Hq' as [Hq'|[<-|[]]]; [|lia]. clear - S' Hq'. induction l' as [|a l' IH]; [destruct Hq'|]. cbn in S'. inversion S' as [|? ? S1 F]; subst.
  destruct Hq' as [<-|Hq']; [|apply IH; assumption]. rewrite Forall_forall in F. specialize (F p). assert (a < p)%Z by (apply F, in_or_app; right; left; reflexivity). lia.
Qed.
Lemma last_pre_none times bound : last_pre times bound = None -> no_period_before times bound.
Proof.
  intros E. unfold last_pre in E. apply last_map_none in E. intros q Hq. destruct (Z_lt_le_dec q bound) as [L|L]; [|exact L].
  assert (Hq' : In q (filter (fun q => (q <? bound)%Z) times)) by (apply filter_In; split; [exact Hq|apply Z.ltb_lt; exact L]). rewrite E in Hq'. destruct Hq'.
Qed.
Lemma ssorted_nth l : StronglySorted Z.lt l -> forall i j, i < j -> j < length l -> (nth i l 0 < nth j l 0)%Z.
Proof.
  induction 1 as [|a l S IH F]; intros i j Hij Hj; [cbn in Hj; lia|]. destruct j as [|j]; [lia|]. cbn in Hj. destruct i as [|i]; cbn.
  - rewrite Forall_forall in F. apply F, nth_In. lia.
  - apply IH; lia.
Qed.
Lemma nth_last_before times i : StronglySorted Z.lt times -> i + 1 < length times -> previous_period times (nth (i + 1) times 0%Z) (nth i times 0%Z).
Proof.
  intros S L. split; [apply nth_In; lia|]. split; [apply ssorted_nth; [exact S|lia|exact L]|]. intros q Hq Hlt.
  apply (In_nth _ _ 0%Z) in Hq as (j & Hj & <-). destruct (Nat.lt_trichotomy j i) as [K|[->|K]]; [|lia|].
  - apply Z.lt_le_incl, ssorted_nth; [exact S|exact K|lia].
  - exfalso. destruct (Nat.eq_dec j (i + 1)) as [->|N]; [lia|]. assert (nth (i + 1) times 0 < nth j times 0)%Z by (apply ssorted_nth; [exact S|lia|exact Hj]). lia.
Qed.

Lemma cell_spec_keys b ant times g j : cs_g (cell_spec b ant times g j) = g /\ cs_t (cell_spec b ant times g j) = nth (j + time_factor b) times 0%Z.
Proof.
  unfold cell_spec. destruct b; cbn [time_factor].
  - destruct (last_pre times (g - ant)) as [p|]; [destruct (p =? _)%Z|]; split; reflexivity.
  - destruct (g <=? _)%Z; [destruct (last_pre times (g - ant))|]; split; reflexivity.
Qed.
Lemma map_nth_seq_skip {A} (d : A) l k : map (fun j => nth (j + k) l d) (seq 0 (length l - k)) = skipn k l.
Proof.
  apply (nth_ext _ _ d d); [rewrite map_length, seq_length, skipn_length; reflexivity|]. intros i Hi. rewrite map_length, seq_length in Hi.
  rewrite (nth_indep _ d (nth (0 + k) l d)) by (rewrite map_length, seq_length; exact Hi).
  rewrite (map_nth (fun j => nth (j + k) l d)), seq_nth by exact Hi. cbn [Nat.add].
  rewrite <- (firstn_skipn k l) at 1. rewrite app_nth2 by (rewrite firstn_length; lia). f_equal. rewrite firstn_length. lia.
Qed.
Lemma grid b ant times glist : map (fun s => (cs_g s, cs_t s)) (cell_specs b ant times glist) = list_prod glist (skipn (time_factor b) times).
Proof.
  unfold cell_specs. induction glist as [|g gl IH]; [reflexivity|]. cbn [flat_map list_prod]. rewrite map_app, IH. f_equal.
  rewrite map_map, <- (map_nth_seq_skip 0%Z times (time_factor b)), map_map. apply map_ext. intros j. destruct (cell_spec_keys b ant times g j) as [-> ->]. reflexivity.
Qed.
Lemma documented b ant times g j : (0 <= ant)%Z -> StronglySorted Z.lt times -> j + time_factor b < length times ->
  cell_is_documented b ant times (cell_spec b ant times g j).
Proof.
  intros Ha S L. unfold cell_is_documented, cell_spec. destruct b; cbn [time_factor] in *.
  - destruct (last_pre times (g - ant)) as [p|] eqn:E; cbn [cs_act cs_g cs_t].
    + apply last_pre_some in E; [|exact S]. destruct (p =? nth (j + 0) times 0)%Z eqn:EP; cbn [cs_act cs_g cs_t cs_pre cs_post].
      * apply Z.eqb_eq in EP. split; [reflexivity|]. rewrite <- EP. split; [exact E|reflexivity].
      * apply Z.eqb_neq in EP. exists p. split; [reflexivity|]. split; [exact EP|]. split; [apply Z.leb_le|exact E].
    + apply last_pre_none in E. split; [exact E|left; reflexivity].
  - destruct (g <=? nth (j + 1) times 0)%Z eqn:EP; [destruct (last_pre times (g - ant)) as [p|] eqn:E|]; cbn [cs_act cs_g cs_t cs_pre cs_post].
    + apply last_pre_some in E; [|exact S]. rewrite EP. apply Z.leb_le in EP. exists p. split; [reflexivity|]. destruct E as (E1 & E2 & E3).
      split; [lia|]. split; [tauto|]. split; [exact E1|]. split; [exact E2|exact E3].
    + apply last_pre_none in E. split; [exact E|right; apply Z.leb_le; exact EP].
    + rewrite EP. apply Z.leb_gt in EP. exists (nth j times 0%Z). split; [reflexivity|]. pose proof (nth_last_before times j S L) as P.
      split; [destruct P as (_ & P & _); lia|]. split; [split; [discriminate|lia]|exact P].
Qed.
Lemma in_cell_specs s b ant times glist : In s (cell_specs b ant times glist) ->
  exists g j, In g glist /\ j + time_factor b < length times /\ s = cell_spec b ant times g j.
Proof.
  intros H. apply in_flat_map in H as (g & Hg & H). apply in_map_iff in H as (j & <- & Hj). apply in_seq in Hj. exists g, j.
  split; [exact Hg|]. split; [lia|reflexivity].
Qed.
Lemma specs_documented b ant times glist : (0 <= ant)%Z -> StronglySorted Z.lt times ->
  map (fun s => (cs_g s, cs_t s)) (cell_specs b ant times glist) = list_prod glist (skipn (time_factor b) times) /\
  Forall (cell_is_documented b ant times) (cell_specs b ant times glist).
Proof.
  intros Ha S. split; [apply grid|]. apply Forall_forall. intros s H. apply in_cell_specs in H as (g & j & _ & L & ->). apply documented; assumption.
Qed.

(** ** the same base periods as the local code *)
Lemma last_before_last_pre times bound : last_pre times bound = option_map (fun i => nth i times 0%Z) (last_before times bound).
Proof.
  unfold last_pre, last_before.
  assert (E : filter (fun p => (p <? bound)%Z) times = map (fun i => nth i times 0%Z) (filter (fun i => (nth i times 0 <? bound)%Z) (seq 0 (length times)))).
  { assert (G : forall l (f : nat -> Z), filter (fun p => (p <? bound)%Z) (map f l) = map f (filter (fun i => (f i <? bound)%Z) l)).
    { intros l f. induction l as [|a l IH]; [reflexivity|]. cbn. destruct (f a <? bound)%Z; cbn; rewrite IH; reflexivity. }
    rewrite <- (G (seq 0 (length times)) (fun i => nth i times 0%Z)). f_equal.
    pose proof (map_nth_seq_skip 0%Z times 0) as M. cbn [skipn] in M. rewrite Nat.sub_0_r in M. rewrite <- M at 1. apply map_ext. intros j. rewrite Nat.add_0_r. reflexivity. }
  rewrite E. destruct (filter _ (seq 0 (length times))) as [|x l _] using rev_ind; [reflexivity|].
  rewrite !map_app. cbn [map]. rewrite !last_last. reflexivity.
Qed.
Lemma spec_matches_local ant d b gi ti : ti + time_factor b < length (d_times d) ->
  let s := cell_spec b ant (d_times d) (nth gi (d_groups d) 0%Z) ti in
  match base_index ant d b gi ti with
  | Base i => cs_pre s = Some (nth i (d_times d) 0%Z) /\ (cs_act s = AZero <-> b = Universal /\ nth i (d_times d) 0%Z = cs_t s) /\ cs_act s <> ASkip /\
              (cs_act s = ACompute -> cs_post s = is_post d b gi ti)
  | PreNone | NoPre => cs_act s = ASkip
  end.
Proof.
  intros L. unfold cell_spec, base_index, is_post. rewrite last_before_last_pre. destruct b; cbn [time_factor] in *.
  - destruct (last_before (d_times d) (nth gi (d_groups d) 0 - ant)%Z) as [i|]; cbn [option_map]; [|reflexivity].
    destruct (Z.eqb_spec (nth i (d_times d) 0%Z) (nth (ti + 0) (d_times d) 0%Z)) as [E|E]; cbn; repeat split; auto; try discriminate; try tauto.
  - destruct (nth gi (d_groups d) 0 <=? nth (ti + 1) (d_times d) 0)%Z; [destruct (last_before (d_times d) (nth gi (d_groups d) 0 - ant)%Z) as [i|]|]; cbn;
      repeat split; auto; try discriminate; intros [K _]; discriminate K.
Qed.

(** ** scheduling *)
Definition one (outcome : nat -> cell_result) (c : nat * cspec) : list (nat * report) :=
  match process_one outcome c with Some l => l | None => [] end.
Definition raises (outcome : nat -> cell_result) (c : nat * cspec) : bool := match process_one outcome c with None => true | Some _ => false end.
Lemma process_cells_eq outcome cs : process_cells outcome cs = if existsb (raises outcome) cs then None else Some (flat_map (one outcome) cs).
Proof.
  induction cs as [|c cs IH]; [reflexivity|]. cbn [process_cells existsb flat_map]. rewrite IH.
  replace (raises outcome c) with (match process_one outcome c with None => true | Some _ => false end) by reflexivity.
  replace (one outcome c) with (match process_one outcome c with Some l => l | None => [] end) by reflexivity.
  destruct (process_one outcome c); cbn [orb]; [|reflexivity]. destruct (existsb (raises outcome) cs); reflexivity.
Qed.
Lemma gather_eq outcome specs order :
  gather outcome specs order = let cs := flat_map (cohort_cells specs) order in if existsb (raises outcome) cs then None else Some (flat_map (one outcome) cs).
Proof.
  induction order as [|g r IH]; [reflexivity|]. cbn [gather flat_map]. rewrite IH, process_cells_eq. cbv zeta. rewrite existsb_app, flat_map_app.
  destruct (existsb (raises outcome) (cohort_cells specs g)); cbn [orb]; [reflexivity|]. destruct (existsb _ _); reflexivity.
Qed.
Lemma filter_or {A} (p q : A -> bool) l : (forall a, In a l -> p a = true -> q a = false) -> Permutation (filter p l ++ filter q l) (filter (fun a => p a || q a) l).
Proof.
  induction l as [|a l IH]; intros H; [constructor|]. cbn. pose proof (H a (or_introl eq_refl)) as Ha. specialize (IH (fun x hx => H x (or_intror hx))).
  destruct (p a) eqn:P; cbn [orb].
  - rewrite (Ha eq_refl). cbn. constructor. exact IH.
  - destruct (q a); [|exact IH]. transitivity (a :: filter p l ++ filter q l); [symmetry; apply Permutation_middle|]. constructor. exact IH.
Qed.
Lemma split_keys specs order : NoDup order -> Permutation (flat_map (cohort_cells specs) order) (filter (fun c => zmem (cs_g (snd c)) order) (numbered specs)).
Proof.
  induction 1 as [|g r N ND IH]; [cbn; rewrite filter_none by reflexivity; constructor|]. cbn [flat_map].
  transitivity (cohort_cells specs g ++ filter (fun c => zmem (cs_g (snd c)) r) (numbered specs)); [apply Permutation_app_head, IH|].
  unfold cohort_cells. rewrite (filter_or (fun c : nat * cspec => (cs_g (snd c) =? g)%Z)).
  - rewrite (filter_ext_in' _ (fun c => zmem (cs_g (snd c)) (g :: r))); [reflexivity|]. intros c _. apply eq_true_iff_eq. rewrite orb_true_iff.
    destruct (zmem_spec (cs_g (snd c)) r), (zmem_spec (cs_g (snd c)) (g :: r)) as [K|K], (Z.eqb_spec (cs_g (snd c)) g); cbn in K; intuition congruence.
  - intros c _ E. apply Z.eqb_eq in E. destruct (zmem_spec (cs_g (snd c)) r) as [K|K]; [rewrite E in K; contradiction|reflexivity].
Qed.
Lemma numbered_keys specs : map fst (numbered specs) = seq 0 (length specs).
Proof. unfold numbered. generalize 0. induction specs as [|s l IH]; intros n; [reflexivity|]. cbn. f_equal. apply IH. Qed.
Lemma numbered_nth specs i s : In (i, s) (numbered specs) <-> nth_error specs i = Some s.
Proof.
  unfold numbered. assert (G : forall k l, In (i, s) (combine (seq k (length l)) l) <-> k <= i /\ nth_error l (i - k) = Some s).
  { intros k l. revert k. induction l as [|a l IH]; intros k; cbn [length seq combine In].
    - destruct (i - k); cbn; intuition discriminate.
    - rewrite IH. split.
      + intros [E|[L E]]; [injection E as -> ->; rewrite Nat.sub_diag; split; [lia|reflexivity]|].
        split; [lia|]. replace (i - k) with (S (i - S k)) by lia. exact E.
      + intros [L E]. destruct (Nat.eq_dec i k) as [->|N]; [rewrite Nat.sub_diag in E; cbn in E; injection E as ->; left; reflexivity|].
        right. split; [lia|]. replace (i - k) with (S (i - S k)) in E by lia. exact E. }
  rewrite (G 0), Nat.sub_0_r. intuition lia.
Qed.
Lemma order_perm b ant times glist order : NoDup glist -> Permutation order glist ->
  Permutation (flat_map (cohort_cells (cell_specs b ant times glist)) order) (numbered (cell_specs b ant times glist)).
Proof.
  intros N P. rewrite split_keys by (eapply Permutation_NoDup; [symmetry; exact P|exact N]). rewrite filter_all; [reflexivity|]. intros [i s] H.
  apply numbered_nth, nth_error_In, in_cell_specs in H as (g & j & Hg & _ & ->). cbn [snd]. destruct (cell_spec_keys b ant times g j) as [-> _].
  destruct (zmem_spec g order) as [K|K]; [reflexivity|]. exfalso. apply K. apply (Permutation_in g (Permutation_sym P)), Hg.
Qed.
Lemma existsb_perm {A} (p : A -> bool) l l' : Permutation l l' -> existsb p l = existsb p l'.
Proof.
  intros P. apply eq_true_iff_eq. rewrite !existsb_exists. split; intros (x & H & E); exists x; split; auto; [apply (Permutation_in x P H)|apply (Permutation_in x (Permutation_sym P) H)].
Qed.
Lemma flat_map_perm {A B} (f : A -> list B) l l' : Permutation l l' -> Permutation (flat_map f l) (flat_map f l').
Proof.
  induction 1; cbn; auto; [apply Permutation_app_head; assumption| |etransitivity; eassumption].
  rewrite !app_assoc. apply Permutation_app_tail, Permutation_app_comm.
Qed.
Lemma one_keys outcome cs : map fst (flat_map (one outcome) cs) = map fst (filter (fun c => match one outcome c with [] => false | _ => true end) cs).
Proof.
  induction cs as [|[i s] cs IH]; [reflexivity|]. cbn [flat_map]. rewrite map_app, IH. cbn [filter]. unfold one at 1 3, process_one.
  destruct (cs_act s); [reflexivity|reflexivity|]. destruct (outcome i); reflexivity.
Qed.
Lemma ss_lt_seq n : forall k, StronglySorted Nat.lt (seq k n).
Proof. induction n as [|n IH]; intros k; cbn; constructor; [apply IH|]. apply Forall_forall. intros x H. apply in_seq in H. lia. Qed.
Lemma numbered_sorted specs : StronglySorted (fun a b => fst a < fst b) (numbered specs).
Proof. apply (ssorted_map fst Nat.lt). rewrite numbered_keys. apply ss_lt_seq. Qed.
Lemma found_sorted outcome specs : StronglySorted (fun a b => fst a < fst b) (flat_map (one outcome) (numbered specs)).
Proof.
  apply (ssorted_map fst Nat.lt). rewrite one_keys. apply (ssorted_map fst Nat.lt), ssorted_filter, numbered_sorted.
Qed.
Lemma insert_counter_perm {A} (x : nat * A) l : Permutation (x :: l) (insert_counter x l).
Proof. induction l as [|y l IH]; cbn; [reflexivity|]. destruct (fst x <=? fst y); [reflexivity|]. transitivity (y :: x :: l); [constructor|]. constructor. exact IH. Qed.
Lemma sort_counter_perm {A} (l : list (nat * A)) : Permutation l (sort_counter l).
Proof. induction l as [|a l IH]; cbn; [constructor|]. transitivity (a :: sort_counter l); [constructor; exact IH|]. apply insert_counter_perm. Qed.
Lemma insert_counter_sorted {A} (x : nat * A) l : StronglySorted (fun a b => fst a <= fst b) l -> StronglySorted (fun a b => fst a <= fst b) (insert_counter x l).
Proof.
  induction 1 as [|y l S IH F]; cbn; [repeat constructor|]. destruct (Nat.leb_spec (fst x) (fst y)) as [L|L].
  - constructor; [constructor; assumption|]. constructor; [exact L|]. rewrite Forall_forall in *. intros z Hz. specialize (F z Hz). lia.
  - constructor; [exact IH|]. rewrite Forall_forall in *. intros z Hz. apply (Permutation_in z (Permutation_sym (insert_counter_perm x l))) in Hz. destruct Hz as [<-|Hz]; [lia|exact (F z Hz)].
Qed.
Lemma sort_counter_sorted {A} (l : list (nat * A)) : StronglySorted (fun a b => fst a <= fst b) (sort_counter l).
Proof. induction l as [|a l IH]; cbn; [constructor|]. apply insert_counter_sorted, IH. Qed.
Lemma ss_nodup_fst {A} (l : list (nat * A)) : StronglySorted (fun a b => fst a < fst b) l -> NoDup (map fst l).
Proof.
  induction 1 as [|a l S IH F]; cbn; constructor; [|exact IH]. intros H. apply in_map_iff in H as (b & E & H). rewrite Forall_forall in F. specialize (F b H). lia.
Qed.
Lemma sort_of_perm {A} (l l' : list (nat * A)) : StronglySorted (fun a b => fst a < fst b) l' -> Permutation l l' -> sort_counter l = l'.
Proof.
  intros S P. pose proof (ss_nodup_fst _ S) as N'.
  assert (NF : NoDup (map fst (sort_counter l))).
  { eapply Permutation_NoDup; [|exact N']. apply Permutation_map. transitivity l; [symmetry; exact P|apply sort_counter_perm]. }
  assert (S2 : StronglySorted (fun a b : nat * A => fst a < fst b) (sort_counter l)).
  { pose proof (sort_counter_sorted l) as S0. revert S0 NF. generalize (sort_counter l) as m. clear. induction m as [|a m IH]; intros S0 NF; [constructor|].
    inversion S0 as [|? ? S1 F]; subst. cbn in NF. inversion NF as [|? ? N1 N2]; subst. constructor; [apply IH; assumption|]. rewrite Forall_forall in *. intros b Hb.
    specialize (F b Hb). assert (fst a <> fst b) by (intros E; apply N1; rewrite E; apply in_map, Hb). lia. }
  apply (ssorted_ext (fun a b => fst a < fst b)); [intros a b; lia|exact S2|exact S| | |].
  - eapply NoDup_map_inv, NF.
  - eapply NoDup_map_inv, N'.
  - intros x. split; intros H; [apply (Permutation_in x P), (Permutation_in x (Permutation_sym (sort_counter_perm l))), H|].
    apply (Permutation_in x (sort_counter_perm l)), (Permutation_in x (Permutation_sym P)), H.
Qed.
Definition table (n : nat) outcome specs : drv_result :=
  if existsb (raises outcome) (numbered specs) then DRaise else
  match map snd (flat_map (one outcome) (numbered specs)) with
  | [] => DNoCells
  | rows => DTable rows (map (mat_column n outcome specs) (firstn (length rows) (non_skip specs)))
  end.
Lemma driver_table b ant times glist n outcome order : NoDup glist -> Permutation order glist ->
  driver b ant times glist n outcome order = table n outcome (cell_specs b ant times glist).
Proof.
  intros N P. unfold driver, table. rewrite gather_eq. cbv zeta. pose proof (order_perm b ant times glist order N P) as Q. rewrite (existsb_perm _ _ _ Q).
  destruct (existsb _ _); [reflexivity|]. rewrite (sort_of_perm _ (flat_map (one outcome) (numbered (cell_specs b ant times glist)))); [reflexivity| |].
  - apply found_sorted.
  - apply flat_map_perm, Q.
Qed.
Lemma schedule_independent b ant times glist n outcome order order' : NoDup glist -> Permutation order glist -> Permutation order' glist ->
  driver b ant times glist n outcome order = driver b ant times glist n outcome order'.
Proof. intros N P P'. rewrite !driver_table by assumption. reflexivity. Qed.
