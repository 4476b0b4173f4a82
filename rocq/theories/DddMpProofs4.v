(** Row order; sampling weights. *)
From Verif Require Import Base ListLib PreprocessModel PreprocessProofs AttGtModel SeModel ReduceModel DrdidModel DrdidSpec DddModel DddSpec DddMpModel DddMpSpec DddMpGmm DddMpProofs1 DddMpProofs2 DddMpProofs3.

(** ** order of the control cohorts in the GMM step *)
Lemma perm_index {A} (d : A) l l' : Permutation l l' -> exists s, Permutation (seq 0 (length l)) s /\ l' = map (fun i => nth i l d) s.
Proof.
  intros P. assert (E : l = map (fun i => nth i l d) (seq 0 (length l))).
  { apply (nth_ext _ _ d d); [rewrite map_length, seq_length; reflexivity|]. intros i Hi.
    rewrite (nth_indep (map _ _) d (nth 0 l d)) by (rewrite map_length, seq_length; exact Hi).
    rewrite (map_nth (fun i => nth i l d)), seq_nth by exact Hi. reflexivity. }
  rewrite E in P at 1. symmetry in P. apply Permutation_map_inv in P. destruct P as [s [E' P]]. exists s. auto.
Qed.
Lemma map_nth_perm {A B} (f : A -> B) (d : A) (s : list nat) l : (forall i, In i s -> (i < length l)%nat) ->
  map f (map (fun i => nth i l d) s) = map (fun i => nth i (map f l) (f d)) s.
Proof. intros H. rewrite map_map. apply map_ext. intros i. symmetry. apply map_nth. Qed.
Lemma perm_seq_bound c s : Permutation (seq 0 c) s -> length s = c /\ forall i, In i s -> (i < c)%nat.
Proof.
  intros P. split; [rewrite <- (Permutation_length P); apply seq_length|]. intros i Hi. apply (Permutation_in i (Permutation_sym P)) in Hi. apply in_seq in Hi. lia.
Qed.
Lemma nth_map_seq {A} (f : nat -> A) d c i : (i < c)%nat -> nth i (map f (seq 0 c)) d = f i.
Proof. intros H. rewrite (nth_indep _ d (f 0%nat)) by (rewrite map_length, seq_length; exact H). rewrite (map_nth f), seq_nth by exact H. reflexivity. Qed.
Lemma nth_map_list {A B} (f : A -> B) d d' l i : (i < length l)%nat -> nth i (map f l) d = f (nth i l d').
Proof. intros H. rewrite (nth_indep _ d (f d')) by (rewrite map_length; exact H). apply map_nth. Qed.
Lemma mget_mperm s M i j : (i < length s)%nat -> (j < length s)%nat -> mget (mperm s M) i j = mget M (nth i s 0%nat) (nth j s 0%nat).
Proof.
  intros Hi Hj. unfold mperm, mget. rewrite (nth_map_list (fun i => map (fun j => nth j (nth i M []) 0) s) [] 0%nat s i Hi).
  rewrite (nth_map_list (fun j => nth j (nth (nth i s 0%nat) M []) 0) 0 0%nat s j Hj). reflexivity.
Qed.
Lemma sumf_seq_nth (f : nat -> Qc) s : sumf (fun i => f (nth i s 0%nat)) (seq 0 (length s)) = sumf f s.
Proof. induction s as [|a s IH]; [reflexivity|]. cbn [length seq]. rewrite !sumf_cons, <- seq_shift, sumf_map. cbn. rewrite IH. reflexivity. Qed.
Lemma omega_perm cols s : Permutation (seq 0 (length cols)) s -> gmm_omega (map (fun i => nth i cols []) s) = mperm s (gmm_omega cols).
Proof.
  intros P. destruct (perm_seq_bound _ _ P) as [L B]. unfold gmm_omega at 1, mat_of. rewrite map_length.
  assert (X : forall {A} (f : nat -> A), map (fun i => f (nth i s 0%nat)) (seq 0 (length s)) = map f s).
  { intros A f. clear. induction s as [|a s IH]; [reflexivity|]. cbn [length seq map]. f_equal. rewrite <- seq_shift, map_map. exact IH. }
  unfold mperm. rewrite <- (X _ (fun i => map (fun j => mget (gmm_omega cols) i j) s)). apply map_ext_in. intros i Hi. apply in_seq in Hi.
  rewrite <- (X _ (fun j => mget (gmm_omega cols) (nth i s 0%nat) j)). apply map_ext_in. intros j Hj. apply in_seq in Hj.
  rewrite !(nth_map_list (fun i => nth i cols []) [] 0%nat s) by lia. symmetry. apply omega_get; apply B, nth_In; lia.
Qed.
Lemma gmm_perm q N rs rs' u : gmm_equivariant q -> Permutation rs rs' ->
  gmm_aggregate q N (map fst rs) (map (fun r : Qc * list (Z * Qc) => place u (snd r)) rs) = gmm_aggregate q N (map fst rs') (map (fun r => place u (snd r)) rs').
Proof.
  intros EQ P. destruct (perm_index (0, []) _ _ P) as [s [PS ->]]. destruct (perm_seq_bound _ _ PS) as [L B].
  set (f := fun r : Qc * list (Z * Qc) => place u (snd r)). set (cols := map f rs). set (atts := map fst rs).
  assert (LC : length cols = length rs) by apply map_length.
  assert (EC : map f (map (fun i => nth i rs (0, [])) s) = map (fun i => nth i cols []) s).
  { rewrite map_map. apply map_ext_in. intros i Hi. unfold cols. rewrite (nth_map_list f [] (0, [])) by (apply B, Hi). reflexivity. }
  assert (EA : map fst (map (fun i => nth i rs (0, [])) s) = map (fun i => nth i atts 0) s).
  { rewrite map_map. apply map_ext_in. intros i Hi. unfold atts. rewrite (nth_map_list fst 0 (0, [])) by (apply B, Hi). reflexivity. }
  rewrite EC, EA. rewrite <- LC in PS. unfold gmm_aggregate. cbn zeta. rewrite map_length, L, LC.
  set (M := gmm_omega cols). set (V := gmm_inverse q M).
  assert (LM : length M = length cols) by (unfold M, gmm_omega, mat_of; rewrite map_length, seq_length; reflexivity).
  assert (EV : gmm_inverse q (gmm_omega (map (fun i => nth i cols []) s)) = mperm s V).
  { rewrite (omega_perm cols s PS). fold M. unfold V, gmm_inverse. destruct (EQ (length cols) s M LM PS) as [E1 E2]. rewrite E1, E2. destruct (gm_inv q M); reflexivity. }
  rewrite EV. rewrite LC in PS.
  assert (SS : forall h : nat -> Qc, sumf h (seq 0 (length rs)) = sumf h s) by (intros h; apply sumf_perm, PS).
  assert (RW : forall i, (i < length rs)%nat -> sumf (fun j => mget (mperm s V) i j) (seq 0 (length rs)) = sumf (fun j => mget V (nth i s 0%nat) j) (seq 0 (length rs))).
  { intros i Hi. rewrite (SS (fun j => mget V (nth i s 0%nat) j)), <- (sumf_seq_nth (fun j => mget V (nth i s 0%nat) j) s), L. apply sumf_ext. intros j Hj. apply in_seq in Hj. apply mget_mperm; lia. }
  assert (TT : gmm_total (length rs) (mperm s V) = gmm_total (length rs) V).
  { unfold gmm_total. rewrite (SS (fun i => sumf (fun j => mget V i j) (seq 0 (length rs)))), <- (sumf_seq_nth (fun i => sumf (fun j => mget V i j) (seq 0 (length rs))) s), L.
    apply sumf_ext. intros i Hi. apply in_seq in Hi. apply RW. lia. }
  assert (WW : forall i, (i < length rs)%nat -> gmm_weight (length rs) (mperm s V) i = gmm_weight (length rs) V (nth i s 0%nat)).
  { intros i Hi. unfold gmm_weight. rewrite TT, RW by exact Hi. reflexivity. }
  rewrite TT. f_equal. f_equal.
  - rewrite (SS (fun i => gmm_weight (length rs) V i * nth i atts 0)), <- (sumf_seq_nth (fun i => gmm_weight (length rs) V i * nth i atts 0) s), L. apply sumf_ext. intros i Hi. apply in_seq in Hi.
    rewrite WW, (nth_map_list (fun i => nth i atts 0) 0 0%nat s) by lia. reflexivity.
  - assert (LN : length (nth 0 cols []) = length (nth 0 (map (fun i => nth i cols []) s) [])).
    { destruct rs as [|r rs0]; [cbn in L; destruct s; [reflexivity|discriminate L]|]. 
      assert (X : forall i, (i < length cols)%nat -> length (nth i cols []) = length u). { intros i Hi. unfold cols. rewrite (nth_map_list f [] (0, [])) by (rewrite <- LC; exact Hi). apply map_length. }
      rewrite X by (rewrite LC; cbn; lia). rewrite (nth_map_list (fun i => nth i cols []) [] 0%nat s) by (rewrite L; cbn; lia). rewrite X; [reflexivity|]. rewrite LC. apply B, nth_In. rewrite L. cbn. lia. }
    rewrite <- LN. apply map_ext. intros r.
    rewrite (SS (fun i => gmm_weight (length rs) V i * nth r (nth i cols []) 0)), <- (sumf_seq_nth (fun i => gmm_weight (length rs) V i * nth r (nth i cols []) 0) s), L. apply sumf_ext. intros i Hi. apply in_seq in Hi.
    rewrite WW, (nth_map_list (fun i => nth i cols []) [] 0%nat s) by lia. reflexivity.
Qed.

(** ** row order *)
Lemma keyed_perm data data' : Permutation data data' -> keyed data -> keyed data'.
Proof. intros P K. unfold keyed. apply (Permutation_NoDup (l := map (fun r => (l_id r, l_t r)) data)); [apply Permutation_map, P|exact K]. Qed.
Lemma period_rows_perm s rows rows' : keyed rows -> Permutation rows rows' -> period_rows s rows = period_rows s rows'.
Proof.
  intros K P. pose proof (period_rows_sorted s rows K) as S1. pose proof (period_rows_sorted s rows' (keyed_perm _ _ P K)) as S2. unfold ids_sorted in *.
  apply (ssorted_ext (fun a c => (l_id a < l_id c)%Z)); [intros; lia|apply (proj1 (ssorted_map l_id Z.lt _)), S1|apply (proj1 (ssorted_map l_id Z.lt _)), S2| | |].
  - apply (NoDup_map_inv l_id), ssorted_lt_nodup, S1.
  - apply (NoDup_map_inv l_id), ssorted_lt_nodup, S2.
  - intros r. rewrite !period_rows_in. split; intros [A B]; (split; [|exact B]); [apply (Permutation_in r P), A|apply (Permutation_in r (Permutation_sym P)), A].
Qed.
Lemma cell_units_perm g t p rows rows' : keyed rows -> Permutation rows rows' -> cell_units g t p rows = cell_units g t p rows'.
Proof. intros K P. unfold cell_units. rewrite (period_rows_perm t rows rows' K P), (period_rows_perm p rows rows' K P). reflexivity. Qed.
Lemma single_perm o k m g t p rows rows' : keyed rows -> Permutation rows rows' -> single_ddd o k m g t p rows = single_ddd o k m g t p rows'.
Proof. intros K P. unfold single_ddd. rewrite (cell_units_perm g t p rows rows' K P). reflexivity. Qed.
Lemma somes_perm {A} (l l' : list (option A)) : Permutation l l' -> Permutation (somes l) (somes l').
Proof.
  induction 1 as [|[a|] l l' P IH|[a|] [c|] l|]; cbn; try solve [constructor; assumption|constructor]; auto; try reflexivity.
  etransitivity; eassumption.
Qed.
Lemma map_zuniq_perm {A} (f : A -> Z) l l' : Permutation l l' -> zuniq (map f l) = zuniq (map f l').
Proof.
  intros P. apply zuniq_ext. intros x. split; apply Permutation_in; apply Permutation_map; [exact P|symmetry; exact P].
Qed.
Lemma multi_perm o q k m n g t p cs cs' rows rows' : gmm_equivariant q -> keyed rows -> Permutation rows rows' -> Permutation cs cs' ->
  multi_ddd o q k m n g t p cs rows = multi_ddd o q k m n g t p cs' rows'.
Proof.
  intros EQ K P PC. unfold multi_ddd.
  assert (E : map (fun c => single_ddd o k m g t p (control_rows g c rows')) cs' = map (fun c => single_ddd o k m g t p (control_rows g c rows)) cs').
  { apply map_ext. intros c. symmetry. apply single_perm; [apply keyed_control, K|apply filter_perm, P]. }
  rewrite E. pose proof (somes_perm _ _ (Permutation_map (fun c => single_ddd o k m g t p (control_rows g c rows)) PC)) as PS.
  destruct (somes (map _ cs)) as [|r rs] eqn:E1; [apply Permutation_nil in PS; rewrite PS; reflexivity|].
  destruct (somes (map _ cs')) as [|r' rs'] eqn:E2; [symmetry in PS; apply Permutation_nil in PS; discriminate PS|]. cbn zeta.
  assert (EU : zuniq (flat_map (fun r => map fst (snd r)) (r :: rs)) = zuniq (flat_map (fun r => map fst (snd r)) (r' :: rs'))).
  { apply zuniq_ext. intros x. rewrite !in_flat_map. split; intros [y [H1 H2]]; exists y; (split; [|exact H2]); [apply (Permutation_in y PS), H1|apply (Permutation_in y (Permutation_sym PS)), H1]. }
  rewrite EU. rewrite (gmm_perm q n (r :: rs) (r' :: rs') _ EQ PS). reflexivity.
Qed.
Lemma process_perm o q k m b never data data' g i : gmm_equivariant q -> keyed data -> Permutation data data' ->
  process_cell o q k m b never data g i = process_cell o q k m b never data' g i.
Proof.
  intros EQ K P. unfold process_cell. cbn zeta. unfold mp_tlist, mp_ids. rewrite (map_zuniq_perm l_t _ _ P), (map_zuniq_perm l_id _ _ P).
  destruct (mp_pret b g _ i (zuniq (map l_t data'))) as [p|]; [|reflexivity]. set (t := nth _ _ 0%Z). destruct (match b with Universal => (p =? t)%Z | Varying => false end); [reflexivity|].
  assert (PR : Permutation (cell_rows never g t p data) (cell_rows never g t p data')) by (apply filter_perm, P).
  assert (KR : keyed (cell_rows never g t p data)) by (apply keyed_cell, K).
  assert (PC : Permutation (cell_controls g (cell_rows never g t p data)) (cell_controls g (cell_rows never g t p data'))).
  { apply NoDup_Permutation; [apply cell_controls_nodup|apply cell_controls_nodup|]. intros c. unfold cell_controls. rewrite !uniq_in, !filter_In.
    split; intros [A B]; (split; [|exact B]); [apply (Permutation_in c (Permutation_map l_g PR)), A|apply (Permutation_in c (Permutation_map l_g (Permutation_sym PR))), A]. }
  destruct (cell_controls g (cell_rows never g t p data)) as [|c [|c2 cs]].
  - apply Permutation_nil in PC. rewrite PC. reflexivity.
  - apply Permutation_length_1_inv in PC. rewrite PC, (single_perm o k m g t p _ _ KR PR). reflexivity.
  - pose proof (Permutation_length PC) as L. destruct (cell_controls g (cell_rows never g t p data')) as [|c' [|c2' cs']]; [discriminate L|discriminate L|].
    rewrite (multi_perm o q k m _ g t p _ _ _ _ EQ KR PR PC). reflexivity.
Qed.
Lemma row_order o q k m b never data data' : gmm_equivariant q -> keyed data -> Permutation data data' -> ddd_mp o q k m b never data = ddd_mp o q k m b never data'.
Proof.
  intros EQ K P. unfold ddd_mp. cbn zeta.
  assert (EI : mp_ids data = mp_ids data') by (apply map_zuniq_perm, P).
  assert (EJ : mp_jobs b data = mp_jobs b data').
  { unfold mp_jobs. assert (E1 : mp_tlist data = mp_tlist data') by (apply map_zuniq_perm, P).
    assert (E2 : mp_glist data = mp_glist data').
    { unfold mp_glist. apply zuniq_ext. intros x. rewrite !in_flat_map. split; intros [y [H1 H2]]; exists y; (split; [|exact H2]); [apply (Permutation_in y (Permutation_map l_g P)), H1|apply (Permutation_in y (Permutation_map l_g (Permutation_sym P))), H1]. }
    rewrite E1, E2. reflexivity. }
  rewrite <- EI, <- EJ. rewrite (map_ext (fun j => process_cell o q k m b never data (fst j) (snd j)) (fun j => process_cell o q k m b never data' (fst j) (snd j))); [reflexivity|].
  intros j. apply process_perm; assumption.
Qed.

(** ** row transformations that change the weight only *)
Section Weight.
  Context (h : lrow -> Qc).
  Notation W := (set_weight h).
  Lemma filter_map' {A B} (f : A -> B) (p : B -> bool) l : filter p (map f l) = map f (filter (fun a => p (f a)) l).
  Proof. induction l as [|a l IH]; [reflexivity|]. cbn. destruct (p (f a)); cbn; rewrite IH; reflexivity. Qed.
  Lemma isort_map {A B} (f : A -> B) la lb l : (forall x y, lb (f x) (f y) = la x y) -> isort lb (map f l) = map f (isort la l).
  Proof.
    intros H. induction l as [|a l IH]; [reflexivity|]. change (insert lb (f a) (isort lb (map f l)) = map f (insert la a (isort la l))). rewrite IH. generalize (isort la l). intros s. induction s as [|y s IHs]; [reflexivity|]. cbn. rewrite H. destruct (la a y); [reflexivity|].
    cbn. rewrite IHs. reflexivity.
  Qed.
  Lemma w_units g t p rows : cell_units g t p (map W rows) = cell_units g t p rows.
  Proof.
    unfold cell_units, period_rows. rewrite !filter_map'. rewrite !(isort_map W by_id by_id) by reflexivity. cbn [set_weight l_t].
    set (A := isort by_id (filter (fun r => (l_t r =? t)%Z) rows)). set (B := isort by_id (filter (fun r => (l_t r =? p)%Z) rows)).
    change (fun a => (l_t (W a) =? t)%Z) with (fun r => (l_t r =? t)%Z). change (fun a => (l_t (W a) =? p)%Z) with (fun r => (l_t r =? p)%Z). fold A. fold B.
    assert (HI : forall X r, has_id (map W X) (W r) = has_id X r). { intros X r. unfold has_id. induction X as [|x X IH]; [reflexivity|]. cbn in *. rewrite IH. reflexivity. }
    rewrite !filter_map'. rewrite (filter_ext (fun a => has_id (map W B) (W a)) (has_id B)) by (intros; apply HI). rewrite (filter_ext (fun a => has_id (map W A) (W a)) (has_id A)) by (intros; apply HI).
    generalize (filter (has_id B) A) (filter (has_id A) B). intros l l'. revert l'. induction l as [|x l IH]; intros [|y l']; try reflexivity. cbn. rewrite IH. reflexivity.
  Qed.
  Lemma w_single o k m g t p rows : single_ddd o k m g t p (map W rows) = single_ddd o k m g t p rows.
  Proof. unfold single_ddd. rewrite w_units. reflexivity. Qed.
  Lemma w_map_l data : map l_g (map W data) = map l_g data /\ map l_t (map W data) = map l_t data /\ map l_id (map W data) = map l_id data.
  Proof. rewrite !map_map. repeat split. Qed.
  Lemma weights_ignored o q k m b never data : ddd_mp o q k m b never (map W data) = ddd_mp o q k m b never data.
  Proof.
    destruct (w_map_l data) as [E1 [E2 E3]].
    assert (PC : forall g i, process_cell o q k m b never (map W data) g i = process_cell o q k m b never data g i).
    { intros g i. unfold process_cell. cbn zeta. unfold mp_tlist, mp_ids. rewrite E2, E3. destruct (mp_pret b g _ i _) as [p|]; [|reflexivity]. set (t := nth _ _ 0%Z).
      destruct (match b with Universal => (p =? t)%Z | Varying => false end); [reflexivity|].
      assert (ER : cell_rows never g t p (map W data) = map W (cell_rows never g t p data)) by (unfold cell_rows; rewrite filter_map'; reflexivity).
      rewrite ER. assert (EC : cell_controls g (map W (cell_rows never g t p data)) = cell_controls g (cell_rows never g t p data)) by (unfold cell_controls; rewrite map_map; reflexivity).
      rewrite EC, w_single. destruct (cell_controls g (cell_rows never g t p data)) as [|c [|c2 cs]]; [reflexivity|reflexivity|].
      assert (EM : forall cs, multi_ddd o q k m (length (zuniq (map l_id data))) g t p cs (map W (cell_rows never g t p data)) = multi_ddd o q k m (length (zuniq (map l_id data))) g t p cs (cell_rows never g t p data)).
      { intros cs0. unfold multi_ddd. rewrite (map_ext (fun c => single_ddd o k m g t p (control_rows g c (map W (cell_rows never g t p data)))) (fun c => single_ddd o k m g t p (control_rows g c (cell_rows never g t p data)))); [reflexivity|].
        intros c0. unfold control_rows. rewrite filter_map'. apply w_single. }
      rewrite EM. reflexivity. }
    unfold ddd_mp. cbn zeta. unfold mp_ids, mp_jobs, mp_glist, mp_tlist. rewrite E1, E2, E3.
    rewrite (map_ext (fun j => process_cell o q k m b never (map W data) (fst j) (snd j)) (fun j => process_cell o q k m b never data (fst j) (snd j))) by (intros; apply PC). reflexivity.
  Qed.
End Weight.
