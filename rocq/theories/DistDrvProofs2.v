(** Proofs for C38, continued: the reported table. *)
From Coq Require Import Permutation Sorted.
From Verif Require Import Base ListLib ReduceModel ReduceProofs AttGtModel DistDidModel DistDrvModel DistDrvSpec DistDrvProofs.
Local Open Scope nat_scope.
Local Open Scope list_scope.

Section Table.
Context (n : nat) (outcome : nat -> cell_result) (specs : list cspec).
Definition nonskip (c : nat * cspec) : bool := match cs_act (snd c) with ASkip => false | _ => true end.
Definition report_of (c : nat * cspec) : report :=
  {| rp_g := cs_g (snd c); rp_t := cs_t (snd c);
     rp_att := match cs_act (snd c), outcome (fst c) with ACompute, CDone a _ => a | _, _ => 0%Qc end;
     rp_post := match cs_act (snd c) with ACompute => cs_post (snd c) | _ => false end |}.
Lemma one_eq c : one outcome c = if reported outcome c then [(fst c, report_of c)] else [].
Proof. destruct c as [i s]. unfold one, process_one, reported, report_of. cbn [fst snd]. destruct (cs_act s); [reflexivity|reflexivity|]. destruct (outcome i); reflexivity. Qed.
Lemma found_eq cs : map snd (flat_map (one outcome) cs) = map report_of (filter (reported outcome) cs).
Proof. induction cs as [|c cs IH]; [reflexivity|]. cbn [flat_map filter]. rewrite map_app, IH, one_eq. destruct (reported outcome c); reflexivity. Qed.
Lemma raises_iff c : raises outcome c = true <-> cs_act (snd c) = ACompute /\ outcome (fst c) = CRaise.
Proof. destruct c as [i s]. unfold raises, process_one. cbn [fst snd]. destruct (cs_act s); [| |destruct (outcome i)]; intuition congruence. Qed.
Lemma report_of_row c : reported outcome c = true -> row_of outcome c (report_of c).
Proof.
  destruct c as [i s]. unfold reported, row_of, report_of. cbn [fst snd]. destruct (cs_act s); [discriminate| |].
  - intros _. cbn. auto.
  - destruct (outcome i); try discriminate. intros _. cbn. eauto.
Qed.
Lemma report_of_reports c : In c (numbered specs) -> reported outcome c = true -> reports n outcome c (report_of c) (mat_column n outcome specs (fst c)).
Proof.
  destruct c as [i s]. intros H. apply numbered_nth in H. unfold reported, reports, report_of, mat_column. cbn [fst snd]. rewrite H. cbn [option_map].
  destruct (cs_act s); [discriminate| |].
  - intros _. destruct (outcome i); cbn; auto.
  - destruct (outcome i); try discriminate. intros _. cbn. auto.
Qed.
Lemma table_rows rows cols : table n outcome specs = DTable rows cols ->
  rows = map report_of (filter (reported outcome) (numbered specs)) /\
  cols = map (mat_column n outcome specs) (firstn (length rows) (non_skip specs)) /\
  (forall c, In c (numbered specs) -> raises outcome c = false) /\ rows <> [].
Proof.
  unfold table. destruct (existsb (raises outcome) (numbered specs)) eqn:E; [discriminate|]. rewrite found_eq. intros H.
  destruct (map report_of (filter (reported outcome) (numbered specs))) as [|r rs] eqn:ER; [discriminate|]. injection H as <- <-.
  repeat split; try discriminate. intros c Hc. destruct (raises outcome c) eqn:EC; [|reflexivity].
  assert (existsb (raises outcome) (numbered specs) = true) by (apply existsb_exists; exists c; auto). congruence.
Qed.
Lemma nonskip_cases c : raises outcome c = false -> nonskip c = reported outcome c || dropped outcome c.
Proof.
  destruct c as [i s]. unfold raises, process_one, nonskip, reported, dropped. cbn [fst snd]. destruct (cs_act s); try reflexivity. destruct (outcome i); try reflexivity. discriminate.
Qed.
Lemma non_skip_eq : non_skip specs = map fst (filter nonskip (numbered specs)). Proof. reflexivity. Qed.
Lemma Forall2_map_r {A B} (R : A -> B -> Prop) (f : A -> B) l : (forall a, In a l -> R a (f a)) -> Forall2 R l (map f l).
Proof. induction l as [|a l IH]; intros H; cbn; constructor; [apply H; left; reflexivity|apply IH; intros; apply H; right; assumption]. Qed.
Lemma rows_ok rows cols : table n outcome specs = DTable rows cols ->
  Forall2 (row_of outcome) (filter (reported outcome) (numbered specs)) rows /\ length cols = length rows.
Proof.
  intros H. apply table_rows in H as (E & Ec & NR & _). split.
  - rewrite E. apply Forall2_map_r. intros c Hc. apply filter_In in Hc as [_ Hc]. apply report_of_row, Hc.
  - rewrite Ec, map_length, firstn_length, E, map_length, non_skip_eq, map_length.
    assert (L : length (filter (reported outcome) (numbered specs)) <= length (filter nonskip (numbered specs))); [|lia].
    revert NR. generalize (numbered specs). clear. induction l as [|c l IH]; intros NR; [cbn; lia|]. cbn [filter]. specialize (IH (fun x hx => NR x (or_intror hx))).
    rewrite (nonskip_cases c) by (apply NR; left; reflexivity). destruct (reported outcome c); cbn [orb]; [cbn; lia|]. destruct (dropped outcome c); cbn; lia.
Qed.
Lemma filter_prefix {A} (key : A -> nat) (p q : A -> bool) l : StronglySorted (fun a b => key a < key b) l ->
  (forall a b, In a l -> In b l -> p a = true -> q b = true -> key a < key b) ->
  filter (fun a => p a || q a) l = filter p l ++ filter q l.
Proof.
  induction 1 as [|a l S IH F]; intros H; [reflexivity|]. cbn. specialize (IH (fun x y hx hy => H x y (or_intror hx) (or_intror hy))). rewrite Forall_forall in F.
  destruct (p a) eqn:P; cbn [orb].
  - destruct (q a) eqn:Q; [exfalso; specialize (H a a (or_introl eq_refl) (or_introl eq_refl) P Q); lia|]. cbn. rewrite IH. reflexivity.
  - destruct (q a) eqn:Q; [|exact IH].
    assert (N : filter p l = []).
    { apply filter_none. intros b Hb. destruct (p b) eqn:PB; [|reflexivity]. exfalso. specialize (H b a (or_intror Hb) (or_introl eq_refl) PB Q). specialize (F b Hb). lia. }
    rewrite N in *. cbn in *. rewrite IH. reflexivity.
Qed.
Lemma aligned rows cols : table n outcome specs = DTable rows cols ->
  (forall c c', In c (numbered specs) -> In c' (numbered specs) -> reported outcome c = true -> dropped outcome c' = true -> fst c < fst c') ->
  Forall2 (fun c rc => reports n outcome c (fst rc) (snd rc)) (filter (reported outcome) (numbered specs)) (combine rows cols).
Proof.
  intros H HB. apply table_rows in H as (E & Ec & NR & _).
  assert (EN : filter nonskip (numbered specs) = filter (reported outcome) (numbered specs) ++ filter (dropped outcome) (numbered specs)).
  { rewrite (filter_ext_in' nonskip (fun c => reported outcome c || dropped outcome c)) by (intros c Hc; apply nonskip_cases, NR, Hc).
    apply (filter_prefix (@fst nat cspec)); [apply numbered_sorted|exact HB]. }
  assert (Ecol : cols = map (fun c => mat_column n outcome specs (fst c)) (filter (reported outcome) (numbered specs))).
  { rewrite Ec, non_skip_eq, EN, map_app, E, map_length. rewrite <- (map_length (@fst nat cspec) (filter (reported outcome) (numbered specs))).
    rewrite firstn_app, firstn_all, Nat.sub_diag, firstn_O, app_nil_r, map_map. reflexivity. }
  rewrite E, Ecol.
  assert (G : forall l, (forall c, In c l -> In c (numbered specs) /\ reported outcome c = true) ->
    Forall2 (fun c rc => reports n outcome c (fst rc) (snd rc)) l (combine (map report_of l) (map (fun c => mat_column n outcome specs (fst c)) l))).
  { induction l as [|c l IH]; intros HI; cbn; constructor; [|apply IH; intros; apply HI; right; assumption].
    destruct (HI c (or_introl eq_refl)) as [H1 H2]. cbn. apply report_of_reports; assumption. }
  apply G. intros c Hc. apply filter_In in Hc. exact Hc.
Qed.
Lemma sorted_nth_error {A} (key : A -> nat) l : StronglySorted (fun a b => key a < key b) l -> forall i j a b, nth_error l i = Some a -> nth_error l j = Some b -> i < j -> key a < key b.
Proof.
  induction 1 as [|x l SS IH F]; intros i j a b Ha Hb L; [destruct i; discriminate|]. destruct j as [|j]; [lia|]. change (nth_error l j = Some b) in Hb. destruct i as [|i].
  - cbn in Ha. injection Ha as <-. rewrite Forall_forall in F. apply F. eapply nth_error_In, Hb.
  - change (nth_error l i = Some a) in Ha. apply (IH i j); auto. lia.
Qed.
Lemma nth_filter_le {A} (key : A -> nat) (p : A -> bool) l : StronglySorted (fun a b => key a < key b) l -> forall j c, nth_error (filter p l) j = Some c ->
  exists i, nth_error l i = Some c /\ j <= i.
Proof.
  induction 1 as [|a l SS IH F]; intros j c E; [destruct j; discriminate|]. cbn [filter] in E. destruct (p a).
  - destruct j as [|j]; [cbn in E; injection E as ->; exists 0; auto|]. change (nth_error (filter p l) j = Some c) in E. destruct (IH j c E) as (i & Ei & L). exists (S i). split; [exact Ei|lia].
  - destruct (IH j c E) as (i & Ei & L). exists (S i). split; [exact Ei|lia].
Qed.
Lemma nth_filter_lt {A} (key : A -> nat) (p : A -> bool) l : StronglySorted (fun a b => key a < key b) l -> forall j c e, nth_error (filter p l) j = Some c ->
  In e l -> p e = false -> key e < key c -> exists d, nth_error l j = Some d /\ key d < key c.
Proof.
  intros SS j c e E He Pe L. cut (exists i, nth_error l i = Some c /\ j < i).
  { intros (i & Ei & Li). destruct (nth_error l j) as [d|] eqn:Ed; [exists d; split; [reflexivity|eapply sorted_nth_error; eassumption]|].
    apply nth_error_None in Ed. assert (i < length l) by (apply nth_error_Some; congruence). lia. }
  revert j c e E He Pe L. induction SS as [|a l SS IH F]; intros j c e E He Pe L; [destruct He|]. cbn [filter] in E. rewrite Forall_forall in F. destruct (p a) eqn:PA.
  - destruct He as [<-|He]; [congruence|]. destruct j as [|j]; [cbn in E; injection E as ->; specialize (F e He); lia|]. change (nth_error (filter p l) j = Some c) in E.
    destruct (IH j c e E He Pe L) as (i & Ei & Li). exists (S i). split; [exact Ei|lia].
  - destruct (nth_filter_le key p l SS j c E) as (i & Ei & Li). exists (S i). split; [exact Ei|lia].
Qed.
Lemma misaligned rows cols c d : table n outcome specs = DTable rows cols -> In c (numbered specs) -> In d (numbered specs) ->
  reported outcome c = true -> dropped outcome d = true -> fst d < fst c ->
  exists j r k s, nth_error (filter (reported outcome) (numbered specs)) j = Some c /\ nth_error rows j = Some r /\ row_of outcome c r /\
    In (k, s) (numbered specs) /\ nth_error cols j = Some (mat_column n outcome specs k) /\ k < fst c.
Proof.
  intros H Hc Hd Rc Dd L. apply table_rows in H as (E & Ec & NR & _).
  assert (Hin : In c (filter (reported outcome) (numbered specs))) by (apply filter_In; auto). apply In_nth_error in Hin as [j Hj].
  assert (Hf : filter (reported outcome) (numbered specs) = filter (reported outcome) (filter nonskip (numbered specs))).
  { rewrite filter_filter. apply filter_ext_in'. intros x Hx. rewrite (nonskip_cases x) by (apply NR, Hx). destruct (reported outcome x); [reflexivity|]. rewrite andb_false_r. reflexivity. }
  destruct (nth_filter_lt (@fst nat cspec) (reported outcome) (filter nonskip (numbered specs))) with (j := j) (c := c) (e := d) as ([k s] & Ek & Lk).
  - apply ssorted_filter, numbered_sorted.
  - rewrite <- Hf. exact Hj.
  - apply filter_In. split; [exact Hd|]. rewrite (nonskip_cases d) by (apply NR, Hd). rewrite Dd. apply orb_true_r.
  - destruct d as [i s]. unfold dropped, reported in *. cbn [fst snd] in *. destruct (cs_act s); try discriminate. destruct (outcome i); try discriminate. reflexivity.
  - exact L.
  - cbn [fst] in Lk. assert (LJ : j < length rows) by (rewrite E, map_length; apply nth_error_Some; congruence).
    exists j, (report_of c), k, s. split; [exact Hj|]. split; [rewrite E; apply map_nth_error, Hj|]. split; [apply report_of_row, Rc|]. split; [apply nth_error_In, filter_In in Ek as [Ek _]; exact Ek|]. split; [|exact Lk].
    rewrite Ec. apply map_nth_error. rewrite non_skip_eq.
    assert (K : nth_error (map fst (filter nonskip (numbered specs))) j = Some k) by (apply (map_nth_error fst) in Ek; exact Ek).
    revert LJ K. generalize (map fst (filter nonskip (numbered specs))), (length rows). clear. intros l m. revert j m. induction l as [|a l IH]; intros j m Lm K; [destruct j; discriminate|].
    destruct m as [|m]; [lia|]. destruct j as [|j]; cbn in *; [exact K|]. apply IH; [lia|exact K].
Qed.
Lemma table_raise : table n outcome specs = DRaise <-> exists c, In c (numbered specs) /\ cs_act (snd c) = ACompute /\ outcome (fst c) = CRaise.
Proof.
  unfold table. destruct (existsb (raises outcome) (numbered specs)) eqn:E.
  - split; [|reflexivity]. intros _. apply existsb_exists in E as (c & Hc & Ec). exists c. split; [exact Hc|apply raises_iff, Ec].
  - split; [destruct (map snd _); discriminate|]. intros (c & Hc & Ec). exfalso. apply raises_iff in Ec.
    assert (existsb (raises outcome) (numbered specs) = true) by (apply existsb_exists; exists c; auto). congruence.
Qed.
Lemma table_none : table n outcome specs = DNoCells <-> forall c, In c (numbered specs) -> nonskip c = true -> dropped outcome c = true.
Proof.
  unfold table. destruct (existsb (raises outcome) (numbered specs)) eqn:E.
  - split; [discriminate|]. intros H. exfalso. apply existsb_exists in E as (c & Hc & Ec). apply raises_iff in Ec as [E1 E2]. specialize (H c Hc).
    unfold nonskip, dropped in H. rewrite E1, E2 in H. discriminate (H eq_refl).
  - rewrite found_eq. assert (NR : forall c, In c (numbered specs) -> raises outcome c = false).
    { intros c Hc. destruct (raises outcome c) eqn:EC; [|reflexivity]. assert (existsb (raises outcome) (numbered specs) = true) by (apply existsb_exists; exists c; auto). congruence. }
    destruct (filter (reported outcome) (numbered specs)) as [|c l] eqn:EF; cbn [map].
    + split; [|reflexivity]. intros _ c Hc N. rewrite (nonskip_cases c (NR c Hc)) in N. destruct (reported outcome c) eqn:R; [|exact N].
      assert (K : In c (filter (reported outcome) (numbered specs))) by (apply filter_In; auto). rewrite EF in K. destruct K.
    + split; [discriminate|]. intros H. exfalso. assert (K : In c (filter (reported outcome) (numbered specs))) by (rewrite EF; left; reflexivity). apply filter_In in K as [K1 K2].
      assert (N : nonskip c = true) by (rewrite (nonskip_cases c (NR c K1)), K2; reflexivity). specialize (H c K1 N).
      destruct c as [i s]. unfold reported, dropped in *. cbn [fst snd] in *. destruct (cs_act s); try discriminate. destruct (outcome i); discriminate.
Qed.
End Table.

(** ** chunked variance *)
Lemma cross_sum_app i j a b : cross_sum i j (a ++ b) = (cross_sum i j a + cross_sum i j b)%Qc.
Proof. apply sumf_app. Qed.
Lemma chunk_fold i j cs : forall v, fold_left (fun v c => (v + cross_sum i j c)%Qc) cs v = (v + cross_sum i j (concat cs))%Qc.
Proof.
  induction cs as [|c cs IH]; intros v; cbn [fold_left concat]; [unfold cross_sum; rewrite sumf_nil; ring|]. rewrite IH, cross_sum_app. ring.
Qed.
Lemma chunked_eq threshold chunk rows n i j : 1 <= chunk -> chunked_vcov threshold chunk rows n i j = (cross_sum i j rows / qn n)%Qc.
Proof.
  intros H. unfold chunked_vcov. destruct (length rows <=? threshold); [reflexivity|].
  rewrite chunk_fold. destruct (slices_facts chunk rows H) as [E _]. unfold slices in E. rewrite E. f_equal. ring.
Qed.
(** ** automatic partition count *)
Lemma auto_tune_ok n_default n_units k target : 1 <= target ->
  let m := auto_tune n_default n_units k target in
  n_default <= m /\ n_units * k * 8 <= target * Nat.max m 1 /\
  (forall m', n_default <= m' -> n_units * k * 8 <= target * Nat.max m' 1 -> m <= m').
Proof.
  intros Ht. cbv zeta. unfold auto_tune. set (B := n_units * k * 8). destruct (Nat.leb_spec B (target * Nat.max n_default 1)) as [L|L].
  - repeat split; auto.
  - pose proof (Nat.div_mod (B + target - 1) target ltac:(lia)) as D. pose proof (Nat.mod_upper_bound (B + target - 1) target ltac:(lia)) as U.
    set (q := (B + target - 1) / target) in *. set (r := (B + target - 1) mod target) in *.
    assert (Q : B <= target * q) by nia. split; [lia|]. split; [nia|]. intros m' H1 H2.
    apply Nat.max_lub; [exact H1|]. assert (1 <= q) by (destruct q; nia). destruct (Nat.le_gt_cases q m') as [?|G]; [assumption|]. exfalso.
    assert (Nat.max m' 1 <= q - 1 \/ (m' = 0 /\ q = 1)) by lia. destruct H0 as [K|[K1 K2]]; [nia|]. subst m'. assert (n_default = 0) by lia. subst n_default. nia.
Qed.
