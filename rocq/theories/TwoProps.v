(** C119 and C120: the two-period calls drdid, ordid and ipwdid on the user's data frame. *)
From Verif Require Import Base ListLib ReduceModel DrdidModel DrdidSpec DrdidProofs4 DrdidProofs5 DrdidWitness ImpModel ImpSpec ImpProofs2 RcModel RcSpec RcProofs RcProofs3 RcWitness Witness TwoModel TwoSpec TwoProofs TwoProofs2 TwoProofs3 TwoProofs4 TwoProofs5 ImpRcModel ImpRcProofs ImpRcProofs2.

(** * C119: panels *)
(** A panel is accepted exactly when it is well formed, its mean weight is not zero and it is usable. *)
Theorem C119_accepted : forall wn l, (exists us, preprocess_panel wn l = PData us) <-> well_formed wn l /\ mean (weight_of wn) l <> 0 /\ usable wn l.
Proof.
  intros wn l. split.
  - intros [us E]. apply panel_data in E. tauto.
  - intros [W [M U]]. destruct (panel_cases wn l) as [[H _]|[[_ [H _]]|[[_ [_ [H _]]]|[_ [_ [_ [us [E _]]]]]]]]; [tauto|tauto|tauto|exists us; exact E].
Qed.
Print Assumptions C119_accepted.
(** Then every call estimates from the units observed once in each period, read as the specification says. *)
Theorem C119_estimates : forall o k tl wn l, well_formed wn l -> mean (weight_of wn) l <> 0 -> usable wn l -> 0 < tl -> tl < 1 ->
  exists us, units_of wn l us /\
    run DrdidImp o k tl wn l = drdid_imp_panel o k tl us /\ run DrdidTrad o k tl wn l = drdid_panel o k tl us /\ run Ordid o k tl wn l = reg_did_panel o k us /\
    run Ipwdid o k tl wn l = ipw_did_panel o k tl us /\ run IpwdidStd o k tl wn l = std_ipw_did_panel o k tl us.
Proof.
  intros o k tl wn l W M U T0 T1. destruct (panel_cases wn l) as [[H _]|[[_ [H _]]|[[_ [_ [H _]]]|[_ [_ [_ [us [E UO]]]]]]]]; [tauto|tauto|tauto|]. exists us. split; [exact UO|].
  assert (V : valid_trim tl = true) by (unfold valid_trim; destruct (Qcltb_spec 0 tl), (Qcltb_spec tl 1); [reflexivity|contradiction..]).
  cbn [run]. unfold drdid_call, ordid_call, ipwdid_call. rewrite V, E. repeat split; reflexivity.
Qed.
Print Assumptions C119_estimates.
(** The estimator's units determine each other: the specification leaves no choice. *)
Theorem C119_units_unique : forall wn l us us', units_of wn l us -> units_of wn l us' -> us = us'.
Proof. exact units_unique. Qed.
Print Assumptions C119_units_unique.
(** Any other panel makes every call raise (or, when the weights sum to zero, report NaN); in particular one null in a column it uses. *)
Theorem C119_rejected : forall c o k tl wn l, (~ well_formed wn l -> run c o k tl wn l = PRaise) /\
  (mean (weight_of wn) l <> 0 -> ~ usable wn l -> run c o k tl wn l = PRaise) /\
  ((exists r, In r l /\ ~ complete true wn r) -> run c o k tl wn l = PRaise).
Proof.
  intros c o k tl wn l.
  assert (B : preprocess_panel wn l = PBad -> run c o k tl wn l = PRaise).
  { intros E. destruct c; cbn [run]; unfold drdid_call, ordid_call, ipwdid_call; rewrite ?E; try destruct (valid_trim tl); reflexivity. }
  assert (W : ~ well_formed wn l -> run c o k tl wn l = PRaise).
  { intros H. apply B. destruct (panel_cases wn l) as [[_ E]|[[H' _]|[[H' _]|[H' _]]]]; [exact E|tauto|tauto|tauto]. }
  split; [exact W|]. split.
  - intros M U. apply B. destruct (panel_cases wn l) as [[_ E]|[[_ [H' _]]|[[_ [_ [_ E]]]|[_ [_ [H' _]]]]]]; [exact E|tauto|exact E|tauto].
  - intros [r [H N]]. apply W. intros [C _]. exact (N (C r H)).
Qed.
Print Assumptions C119_rejected.
Lemma run_prep c o k tl wn wn' l l' : preprocess_panel wn l = preprocess_panel wn' l' -> run c o k tl wn l = run c o k tl wn' l'.
Proof. intros E. destruct c; cbn [run]; unfold drdid_call, ordid_call, ipwdid_call; rewrite E; reflexivity. Qed.
(** The order of the rows does not matter. *)
Theorem C119_row_order : forall c o k tl wn l l', Permutation l l' -> run c o k tl wn l = run c o k tl wn l'.
Proof. intros c o k tl wn l l' P. apply run_prep, panel_perm, P. Qed.
Print Assumptions C119_row_order.
Lemma max_above (m : list Z) z : In z m -> (z <= fold_right Z.max 0 m)%Z.
Proof. induction m as [|y m IH]; cbn [In fold_right]; [tauto|]. intros [E|H]; [subst; lia|specialize (IH H); lia]. Qed.
Lemma fresh_label l : exists z, forall lo hi, two_periods lo hi l -> hi <> z.
Proof.
  set (g := fun r : traw => match t_t r with Some t => t | None => 0%Z end). exists (Z.succ (fold_right Z.max 0%Z (map g l))).
  intros lo hi [_ [_ [_ [r [Hr Er]]]]] E. apply (in_map g) in Hr. apply max_above in Hr. unfold g at 1 in Hr. rewrite Er in Hr. lia.
Qed.
(** Only the order of the two period labels matters. *)
Theorem C119_period_labels : forall c o k tl wn l f, (forall x y, (x < y)%Z -> (f x < f y)%Z) -> run c o k tl wn (map (relabel f) l) = run c o k tl wn l.
Proof.
  intros c o k tl wn l f F. apply run_prep. destruct (fresh_label l) as [z Z].
  apply (panel_map wn wn (relabel f) f 1 l z); try reflexivity.
  - exact F.
  - intros r _. unfold weight_of, relabel. cbn [t_w]. ring.
  - discriminate.
  - intros r _. unfold complete, relabel. cbn. destruct (t_t r); cbn; [|tauto]. split; intros [A [_ B]]; (split; [exact A|split; [discriminate|exact B]]).
  - intros lo hi. apply Z.
Qed.
Print Assumptions C119_period_labels.
(** The covariates of the pre period are never used. *)
Theorem C119_pre_covariates : forall c o k tl wn l lo hi f, two_periods lo hi l -> run c o k tl wn (map (recovariate lo f) l) = run c o k tl wn l.
Proof.
  intros c o k tl wn l lo hi f TP. apply run_prep. apply (panel_map wn wn (recovariate lo f) (fun t => t) 1 l lo); try reflexivity.
  - intros r. unfold recovariate. cbn. destruct (t_t r); reflexivity.
  - intros x y H. exact H.
  - intros r _. unfold weight_of, recovariate. cbn [t_w]. ring.
  - discriminate.
  - intros r _. unfold complete, recovariate. cbn. destruct (t_t r) as [t|]; [destruct (t =? lo)%Z|]; [|tauto|tauto]. destruct (t_x r); cbn; [|tauto]. split; intros [A [B [C [D [E F]]]]]; repeat (split; [assumption|]); discriminate.
  - intros r _ N. unfold recovariate. cbn. destruct (t_t r) as [t|]; [|reflexivity]. destruct (Z.eqb_spec t lo) as [->|]; [contradiction|reflexivity].
  - intros lo' hi' TP'. destruct (two_periods_unique _ _ _ _ _ TP TP') as [-> ->]. destruct TP as [L _]. lia.
Qed.
Print Assumptions C119_pre_covariates.
(** The unit in which the sampling weights are measured does not matter. *)
Theorem C119_weight_units : forall c o k tl l s, s <> 0 -> run c o k tl true (map (rescale s) l) = run c o k tl true l.
Proof.
  intros c o k tl l s S. apply run_prep. destruct (fresh_label l) as [z Z]. apply (panel_map true true (rescale s) (fun t => t) s l z); try reflexivity.
  - intros r. unfold rescale. cbn. destruct (t_t r); reflexivity.
  - intros x y H. exact H.
  - intros r _. unfold weight_of, rescale. cbn [t_w]. destruct (t_w r); cbn; ring.
  - exact S.
  - intros r _. unfold complete, rescale. cbn. destruct (t_w r); cbn; [|tauto]. split; intros [A [B [C [D [E F]]]]]; repeat (split; [assumption|]); (split; [discriminate|assumption]).
  - intros lo hi. apply Z.
Qed.
Print Assumptions C119_weight_units.
(** Rows of units not observed exactly once in each period have no influence: removing them leaves every result unchanged. *)
Theorem C119_incomplete_units : forall c o k tl wn l lo hi, two_periods lo hi l -> (forall r, In r l -> 0 <= weight_of wn r) ->
  well_formed wn l -> mean (weight_of wn) l <> 0 -> usable wn l ->
  two_treatments (filter (is_observed lo hi l) l) -> mean (weight_of wn) (filter (is_observed lo hi l) l) <> 0 ->
  run c o k tl wn (filter (is_observed lo hi l) l) = run c o k tl wn l.
Proof.
  intros c o k tl wn l lo hi TP W0 WF M U TT M'. destruct (proj2 (C119_accepted wn l) (conj WF (conj M U))) as [us E].
  destruct (drop_incomplete lo hi (proj1 TP) l wn us TP W0 TT M' E) as [s [S E']].
  destruct c; cbn [run]; unfold drdid_call, ordid_call, ipwdid_call; rewrite E, E'; cbn [after]; try (destruct (valid_trim tl); cbn [negb]; [|reflexivity]).
  - apply imp_scale, S.
  - apply dr_scale, S.
  - apply reg_scale, S.
  - apply pht_scale, S.
  - apply ipw_scale, S.
Qed.
Print Assumptions C119_incomplete_units.
(** With no covariates in the formula the estimate is the weighted mean change of the treated minus that of the untreated. *)
Theorem C119_no_covariates : forall o tl wn l att inf, (forall r x, In r l -> t_x r = Some x -> x = 1 :: nil) ->
  (run DrdidTrad o 1 tl wn l = PEst att inf \/ run IpwdidStd o 1 tl wn l = PEst att inf \/ (wls_ok o 1 /\ inv_ok o 1 /\ run Ordid o 1 tl wn l = PEst att inf)) ->
  exists us, units_of wn l us /\ att = group_mean true p_dy us - group_mean false p_dy us.
Proof.
  intros o tl wn l att inf HX H.
  assert (P : exists us, preprocess_panel wn l = PData us).
  { cbn [run] in H. unfold drdid_call, ordid_call, ipwdid_call in H. destruct (preprocess_panel wn l) as [| |us] eqn:E; [| |exists us; reflexivity]; cbn [after] in H; destruct (valid_trim tl); cbn in H; destruct H as [H|[H|[_ [_ H]]]]; discriminate H. }
  destruct P as [us E]. assert (D := panel_data _ _ _ E). destruct D as [_ [_ [_ UO]]]. exists us. split; [exact UO|].
  assert (X : forall u, In u us -> p_x u = 1 :: nil).
  { intros u Hu. destruct UO as [lo [hi [_ [_ R]]]]. apply R in Hu. destruct Hu as [a [b [O [_ [_ [_ [Xb _]]]]]]]. apply (HX b); [|exact Xb]. destruct (observed_in l lo hi (p_id u) a b O) as [_ I]. exact I. }
  cbn [run] in H. unfold drdid_call, ordid_call, ipwdid_call in H. rewrite E in H. cbn [after] in H. destruct H as [H|[H|[W [I H]]]].
  - destruct (valid_trim tl); cbn [negb] in H; [|discriminate]. exact (nocov_dr us X o tl att inf H).
  - destruct (valid_trim tl); cbn [negb] in H; [|discriminate]. exact (nocov_ipw us X o tl att inf H).
  - exact (nocov_reg us X o att inf W I H).
Qed.
Print Assumptions C119_no_covariates.

(** ** Cases *)
Definition tr (i t : Z) (d y w : Qc) (x : list Qc) : traw := {| t_id := Some i; t_t := Some t; t_d := Some d; t_y := Some y; t_w := Some w; t_x := Some x |}.
(** units 1, 2 untreated, 3, 4 treated; 5 seen only in the post period and 6 twice in the pre period; rows in no particular order *)
Definition two_wit : list traw :=
  [tr 3 7 1 (qz 9) 1 (1 :: nil); tr 1 7 0 (qz 3) 1 (1 :: nil); tr 5 7 1 (qz 50) 1 (1 :: nil); tr 2 5 0 1 (qz 2) (1 :: nil); tr 4 5 1 1 1 (1 :: nil); tr 1 5 0 1 1 (1 :: nil);
   tr 6 5 0 (qz 8) (qz 3) (1 :: nil); tr 3 5 1 (qz 2) 1 (1 :: nil); tr 4 7 1 (qz 8) 1 (1 :: nil); tr 6 5 0 (qz 9) 1 (1 :: nil); tr 2 7 0 (qz 5) (qz 2) (1 :: nil)].
Definition prep_len {A} (p : prep A) : option nat := match p with PData us => Some (length us) | _ => None end.
Example C119_case : prep_len (preprocess_panel true two_wit) = Some 4%nat /\
  forallb (fun c => is_est (run c wit_oracle1 1 (qz 199 / qz 200) true two_wit)) [DrdidImp; DrdidTrad; Ordid; Ipwdid; IpwdidStd] = true /\
  two_periods 5 7 two_wit /\ two_treatments (filter (is_observed 5 7 two_wit) two_wit) /\ mean (weight_of true) (filter (is_observed 5 7 two_wit) two_wit) <> 0 /\
  length (filter (is_observed 5 7 two_wit) two_wit) = 8%nat.
Proof.
  split; [vm_compute; reflexivity|]. split; [vm_compute; reflexivity|]. split.
  { split; [lia|]. split; [intros r H; cbn in H; repeat (destruct H as [<-|H]; [cbn; tauto|]); destruct H|]. split; [exists (tr 1 5 0 1 1 (1 :: nil))|exists (tr 1 7 0 (qz 3) 1 (1 :: nil))]; (split; [cbn; tauto|reflexivity]). }
  assert (F : filter (is_observed 5 7 two_wit) two_wit = filter (fun r => match t_id r with Some i => (i <=? 4)%Z | None => false end) two_wit) by reflexivity. rewrite F.
  split. { split; [intros r H; cbn in H; repeat (destruct H as [<-|H]; [cbn; tauto|]); destruct H|]. split; [exists (tr 1 5 0 1 1 (1 :: nil))|exists (tr 3 7 1 (qz 9) 1 (1 :: nil))]; (split; [cbn; tauto|reflexivity]). }
  split; [intros X; vm_compute in X; discriminate X|reflexivity].
Qed.
(** That every estimate compares treated with untreated units is false: when the only treated unit is incomplete, ordid reports 0 while drdid reports nothing. *)
Definition two_lost : list traw := [tr 1 5 0 1 1 (1 :: nil); tr 1 7 0 (qz 3) 1 (1 :: nil); tr 2 5 0 1 1 (1 :: nil); tr 2 7 0 (qz 5) 1 (1 :: nil); tr 3 7 1 (qz 9) 1 (1 :: nil)].
Theorem C119_treated_lost_refuted : exists o k tl wn l us, preprocess_panel wn l = PData us /\ Forall (fun u => p_d u = false) us /\ run Ordid o k tl wn l = PZeroNoInf /\
  run DrdidTrad o k tl wn l <> PZeroNoInf.
Proof.
  exists wit_oracle1, 1%nat, (qz 199 / qz 200), false, two_lost.
  assert (A : match preprocess_panel false two_lost with PData us => forallb (fun u => negb (p_d u)) us | _ => false end = true) by (vm_compute; reflexivity).
  destruct (preprocess_panel false two_lost) as [| |us]; [discriminate A|discriminate A|]. exists us. split; [reflexivity|]. split.
  - apply Forall_forall. intros u Hu. rewrite forallb_forall in A. specialize (A u Hu). destruct (p_d u); [discriminate A|reflexivity].
  - split; [vm_compute; reflexivity|vm_compute; discriminate].
Qed.
Print Assumptions C119_treated_lost_refuted.

(** * C120: repeated cross-sections *)
(** The data are accepted exactly when no period or treatment is missing, there are two periods and both treatments, and both periods are
    left and the mean weight is not zero once the incomplete rows are dropped; every call then estimates from the complete rows, in order. *)
Theorem C120_accepted : forall wn l, (exists us, preprocess_rc wn l = PData us) <->
  (exists lo hi, two_periods lo hi l) /\ two_treatments l /\ (exists lo hi, two_periods lo hi (complete_rows wn l)) /\ mean (weight_of wn) (complete_rows wn l) <> 0.
Proof.
  intros wn l. split.
  - intros [us E]. apply rc_data in E. destruct E as [[A B] [lo [hi [C [D _]]]]]. split; [exact A|]. split; [exact B|]. split; [exists lo, hi; exact C|exact D].
  - intros [A [B [C D]]]. destruct (rc_cases wn l) as [[H _]|[[_ [H _]]|[_ [lo [hi [_ [[H _]|[_ [us [E _]]]]]]]]]]; [exfalso; apply H; split; assumption|tauto|tauto|exists us; exact E].
Qed.
Print Assumptions C120_accepted.
Theorem C120_estimates : forall o k tl wn l hi0 lo0, two_periods lo0 hi0 l -> two_treatments l -> (exists lo hi, two_periods lo hi (complete_rows wn l)) ->
  mean (weight_of wn) (complete_rows wn l) <> 0 -> 0 < tl -> tl < 1 ->
  exists us, Forall2 (rreads wn (mean (weight_of wn) (complete_rows wn l)) hi0) (complete_rows wn l) us /\
    rrun RDrdidImp o k tl wn l = drdid_imp_rc o k tl us /\ rrun RDrdidImpLocal o k tl wn l = drdid_imp_local_rc o k tl us /\
    rrun RDrdidTrad o k tl wn l = drdid_rc o k tl us /\ rrun RDrdidTradLocal o k tl wn l = drdid_trad_rc o k tl us /\ rrun ROrdid o k tl wn l = reg_did_rc o k us /\
    rrun RIpwdid o k tl wn l = ipw_did_rc o k tl us /\ rrun RIpwdidStd o k tl wn l = std_ipw_did_rc o k tl us.
Proof.
  intros o k tl wn l hi0 lo0 A B C D T0 T1. destruct (proj2 (C120_accepted wn l)) as [us E]; [split; [exists lo0, hi0; exact A|tauto]|].
  assert (R := rc_data _ _ _ E). destruct R as [_ [lo [hi [TP [_ F]]]]].
  assert (H : lo = lo0 /\ hi = hi0).
  { destruct TP as [L [_ [[r [Hr Er]] [s [Hs Es]]]]]. destruct A as [L0 [A _]]. apply filter_In in Hr, Hs. destruct Hr as [Hr _], Hs as [Hs _]. specialize (A r Hr) as A1. specialize (A s Hs) as A2. rewrite Er in A1. rewrite Es in A2.
    destruct A1 as [A1|A1], A2 as [A2|A2]; injection A1 as ->; injection A2 as ->; [lia|split; reflexivity|lia|lia]. }
  destruct H as [-> ->]. exists us. split; [exact F|].
  assert (V : valid_trim tl = true) by (unfold valid_trim; destruct (Qcltb_spec 0 tl), (Qcltb_spec tl 1); [reflexivity|contradiction..]).
  cbn [rrun]. unfold drdid_rc_call, ordid_rc_call, ipwdid_rc_call. rewrite V, E. repeat split; reflexivity.
Qed.
Print Assumptions C120_estimates.
(** A missing period or treatment, or a third period or treatment value, makes every call raise. *)
Theorem C120_rejected : forall c o k tl wn l, ~ ((exists lo hi, two_periods lo hi l) /\ two_treatments l) -> rrun c o k tl wn l = PRaise.
Proof.
  intros c o k tl wn l H. assert (E : preprocess_rc wn l = PBad) by (destruct (rc_cases wn l) as [[_ E]|[[H' _]|[H' _]]]; [exact E|exfalso; apply H, H'|exfalso; apply H, H']).
  destruct c; cbn [rrun]; unfold drdid_rc_call, ordid_rc_call, ipwdid_rc_call; rewrite ?E; try destruct (valid_trim tl); reflexivity.
Qed.
Print Assumptions C120_rejected.
Lemma rrun_prep c o k tl wn wn' l l' : preprocess_rc wn l = preprocess_rc wn' l' -> rrun c o k tl wn l = rrun c o k tl wn' l'.
Proof. intros E. destruct c; cbn [rrun]; unfold drdid_rc_call, ordid_rc_call, ipwdid_rc_call; rewrite E; reflexivity. Qed.
(** Rows with a null in another column used have no influence: dropping them first changes nothing. *)
Theorem C120_missing_rows : forall c o k tl wn l, (exists us, preprocess_rc wn l = PData us) -> two_treatments (complete_rows wn l) ->
  rrun c o k tl wn (complete_rows wn l) = rrun c o k tl wn l.
Proof. intros c o k tl wn l [us E] TT. apply rrun_prep. rewrite (rc_drop wn l us E TT), E. reflexivity. Qed.
Print Assumptions C120_missing_rows.
(** The identifier column, the period labels but for their order and the unit of the sampling weights do not matter. *)
Theorem C120_irrelevant : forall c o k tl wn l,
  (forall f, rrun c o k tl wn (map (reid f) l) = rrun c o k tl wn l) /\
  (forall f, (forall x y, (x < y)%Z -> (f x < f y)%Z) -> rrun c o k tl wn (map (relabel f) l) = rrun c o k tl wn l) /\
  (forall s, s <> 0 -> rrun c o k tl true (map (rescale s) l) = rrun c o k tl true l).
Proof.
  intros c o k tl wn l. split; [|split].
  - intros f. apply rrun_prep. apply (rc_map wn wn (reid f) (fun t => t) 1); try reflexivity; [intros r; cbn; destruct (t_t r); reflexivity|intros x y H; exact H|intros r _; unfold weight_of; cbn [reid t_w]; ring|discriminate].
  - intros f F. apply rrun_prep. apply (rc_map wn wn (relabel f) f 1); try reflexivity; [exact F|intros r _; unfold weight_of; cbn [relabel t_w]; ring|discriminate|].
    intros r. unfold is_complete, relabel. cbn. destruct (t_t r); reflexivity.
  - intros s S. apply rrun_prep. apply (rc_map true true (rescale s) (fun t => t) s); try reflexivity; [intros r; cbn; destruct (t_t r); reflexivity|intros x y H; exact H| |exact S|].
    + intros r _. unfold weight_of, rescale. cbn [t_w]. destruct (t_w r); cbn; ring.
    + intros r. unfold is_complete, rescale. cbn. destruct (t_w r); reflexivity.
Qed.
Print Assumptions C120_irrelevant.
(** Reordering the rows keeps the estimate and carries each row's influence value along. *)
Theorem C120_row_order : forall c o k tl wn l l', rfits_symmetric o -> Permutation l l' ->
  (exists us us', preprocess_rc wn l = PData us /\ preprocess_rc wn l' = PData us' /\ Permutation us us' /\ rsame_up_to_order us us' (rrun c o k tl wn l) (rrun c o k tl wn l')) \/
  rrun c o k tl wn l = rrun c o k tl wn l'.
Proof.
  intros c o k tl wn l l' S P. destruct (preprocess_rc wn l) as [| |us] eqn:E.
  - right. apply rrun_prep. apply rc_perm_fail; [exact P|]. rewrite E. discriminate.
  - right. apply rrun_prep. apply rc_perm_fail; [exact P|]. rewrite E. discriminate.
  - left. destruct (rc_perm wn l l' us P E) as [us' [E' P']]. exists us, us'. split; [reflexivity|]. split; [exact E'|]. split; [exact P'|].
    destruct c; cbn [rrun]; unfold drdid_rc_call, ordid_rc_call, ipwdid_rc_call; rewrite E, E'; cbn [after]; try (destruct (valid_trim tl); cbn [negb]; [|exact I]).
    + apply irc_perm; assumption.
    + apply ilr_perm; assumption.
    + apply rc_perm_loc; assumption.
    + apply rc_perm_trad; assumption.
    + apply rc_perm_reg; assumption.
    + apply rc_perm_ht; assumption.
    + apply rc_perm_ipw; assumption.
Qed.
Print Assumptions C120_row_order.
Lemma raw_cell wn m lo hi l us b t : m <> 0 -> (lo < hi)%Z -> (forall r, In r l -> t_t r = Some lo \/ t_t r = Some hi) -> Forall2 (rreads wn m hi) l us -> cell_mean b t r_y us = raw_mean wn (ind b) (if t : bool then hi else lo) l.
Proof.
  intros M L T F. unfold cell_mean, raw_mean, cell.
  assert (S : sumf (fun u => r_w u * r_y u) (filter (in_cell b t) us) = sumf (fun r => weight_of wn r * raw_y r) (filter (in_rcell (ind b) (if t then hi else lo)) l) / m /\
              sumf r_w (filter (in_cell b t) us) = sumf (weight_of wn) (filter (in_rcell (ind b) (if t then hi else lo)) l) / m).
  { induction F as [|r u l us H F IH]; [cbn [filter]; rewrite !sumf_nil; split; field; exact M|]. destruct IH as [I1 I2]; [intros q Hq; apply T; right; exact Hq|].
    assert (C : in_rcell (ind b) (if t then hi else lo) r = in_cell b t u).
    { destruct H as [_ [_ [D [_ [P _]]]]]. unfold in_rcell, in_cell. rewrite D. destruct (T r (or_introl eq_refl)) as [E|E]; rewrite E in P |- *; (f_equal; [destruct (r_d u), b; reflexivity|]).
      - destruct (r_post u); [destruct P as [P _]; specialize (P eq_refl); injection P; lia|]. destruct t; cbn; apply Z.eqb_neq || apply Z.eqb_eq; lia.
      - assert (H : r_post u = true) by (apply P; reflexivity). rewrite H. destruct t; cbn; apply Z.eqb_neq || apply Z.eqb_eq; lia. }
    cbn [filter]. rewrite C. destruct (in_cell b t u); [|split; assumption]. rewrite !sumf_cons, I1, I2. destruct H as [_ [Y [_ [_ [_ W]]]]]. assert (Y' : raw_y r = r_y u) by (unfold raw_y; rewrite Y; reflexivity). rewrite Y', W. split; field; exact M. }
  destruct S as [-> ->]. set (a := sumf _ _). set (d := sumf _ _). destruct (Qceqb_spec d 0) as [->|N]; [|field; split; assumption].
  replace (0 / m) with 0 by (field; exact M). unfold Qcdiv. change (/ 0) with 0. ring.
Qed.
(** With no covariates in the formula the estimate is the difference in differences of the four weighted cell means of the complete rows. *)
Theorem C120_no_covariates : forall o tl wn l lo hi att inf, two_periods lo hi l -> (forall r x, In r l -> t_x r = Some x -> x = 1 :: nil) ->
  (rrun RDrdidImp o 1 tl wn l = PEst att inf \/ rrun RDrdidImpLocal o 1 tl wn l = PEst att inf \/
   rrun RDrdidTrad o 1 tl wn l = PEst att inf \/ rrun RDrdidTradLocal o 1 tl wn l = PEst att inf \/ rrun RIpwdidStd o 1 tl wn l = PEst att inf \/
   (rwls_ok o 1 /\ rinv_ok o 1 /\ rrun ROrdid o 1 tl wn l = PEst att inf)) ->
  att = raw_did wn lo hi (complete_rows wn l).
Proof.
  intros o tl wn l lo hi att inf TP HX H.
  assert (P : exists us, preprocess_rc wn l = PData us).
  { cbn [rrun] in H. unfold drdid_rc_call, ordid_rc_call, ipwdid_rc_call in H. destruct (preprocess_rc wn l) as [| |us] eqn:E; [| |exists us; reflexivity]; cbn [after] in H; destruct (valid_trim tl); cbn in H; destruct H as [H|[H|[H|[H|[H|[_ [_ H]]]]]]]; discriminate H. }
  destruct P as [us E]. assert (R := rc_data _ _ _ E). destruct R as [_ [lo' [hi' [TP' [M F]]]]].
  assert (EQ : lo' = lo /\ hi' = hi).
  { destruct TP' as [L [_ [[r [Hr Er]] [s [Hs Es]]]]]. destruct TP as [L0 [A _]]. apply filter_In in Hr, Hs. destruct Hr as [Hr _], Hs as [Hs _]. specialize (A r Hr) as A1. specialize (A s Hs) as A2. rewrite Er in A1. rewrite Es in A2.
    destruct A1 as [A1|A1], A2 as [A2|A2]; injection A1 as ->; injection A2 as ->; [lia|split; reflexivity|lia|lia]. }
  destruct EQ as [-> ->].
  assert (X : forall u, In u us -> r_x u = 1 :: nil).
  { assert (SUB : forall r, In r (complete_rows wn l) -> In r l) by (intros r Hr; apply filter_In in Hr; tauto). revert SUB. clear TP' M E H. induction F as [|r u rs us' Hr F IH]; intros SUB v Hv; [destruct Hv|destruct Hv as [<-|Hv]].
    - destruct Hr as [_ [_ [_ [Xr _]]]]. apply (HX r); [apply SUB; left; reflexivity|exact Xr].
    - apply IH; [intros q Hq; apply SUB; right; exact Hq|exact Hv]. }
  assert (A : att = four_cells us).
  { cbn [rrun] in H. unfold drdid_rc_call, ordid_rc_call, ipwdid_rc_call in H. rewrite E in H. cbn [after] in H. destruct H as [H|[H|[H|[H|[H|[W [I H]]]]]]].
    - destruct (valid_trim tl); cbn [negb] in H; [|discriminate]. exact (nocov_irc us X o tl att inf H).
    - destruct (valid_trim tl); cbn [negb] in H; [|discriminate]. exact (nocov_ilr us X o tl att inf H).
    - destruct (valid_trim tl); cbn [negb] in H; [|discriminate]. exact (nocov_loc us X o tl att inf H).
    - destruct (valid_trim tl); cbn [negb] in H; [|discriminate]. exact (nocov_trad us X o tl att inf H).
    - destruct (valid_trim tl); cbn [negb] in H; [|discriminate]. exact (nocov_ripw us X o tl att inf H).
    - exact (nocov_rreg us X o att inf W I H). }
  rewrite A. unfold four_cells, raw_did. destruct TP' as [L [T _]].
  rewrite (raw_cell wn _ lo hi _ us true true M L T F), (raw_cell wn _ lo hi _ us true false M L T F), (raw_cell wn _ lo hi _ us false true M L T F), (raw_cell wn _ lo hi _ us false false M L T F). reflexivity.
Qed.
Print Assumptions C120_no_covariates.
(** Case: ten rows over periods 5 and 7, one with a null outcome and one with a null weight. *)
Definition rc_two_wit : list traw :=
  [tr 3 7 1 (qz 9) 1 (1 :: nil); tr 1 7 0 (qz 3) 1 (1 :: nil); tr 5 7 1 (qz 5) 1 (1 :: nil); tr 2 5 0 1 (qz 2) (1 :: nil); tr 4 5 1 1 1 (1 :: nil); tr 1 5 0 1 1 (1 :: nil);
   tr 6 5 1 (qz 8) (qz 3) (1 :: nil); tr 9 7 0 (qz 5) (qz 2) (1 :: nil);
   {| t_id := None; t_t := Some 5%Z; t_d := Some 1; t_y := None; t_w := Some 1; t_x := Some (1 :: nil) |};
   {| t_id := None; t_t := Some 7%Z; t_d := Some 0; t_y := Some 1; t_w := None; t_x := Some (1 :: nil) |}].
Example C120_case : prep_len (preprocess_rc true rc_two_wit) = Some 8%nat /\ two_periods 5 7 rc_two_wit /\ two_treatments (complete_rows true rc_two_wit) /\
  forallb (fun c => is_est (rrun c rwit1 1 (qz 199 / qz 200) true rc_two_wit)) [RDrdidImp; RDrdidImpLocal; RDrdidTrad; RDrdidTradLocal; ROrdid; RIpwdid; RIpwdidStd] = true /\
  raw_did true 5 7 (complete_rows true rc_two_wit) <> 0.
Proof.
  split; [vm_compute; reflexivity|]. split.
  { split; [lia|]. split; [intros r H; cbn in H; repeat (destruct H as [<-|H]; [cbn; tauto|]); destruct H|]. split; [exists (tr 1 5 0 1 1 (1 :: nil))|exists (tr 1 7 0 (qz 3) 1 (1 :: nil))]; (split; [cbn; tauto|reflexivity]). }
  split. { split; [intros r H; cbn in H; repeat (destruct H as [<-|H]; [cbn; tauto|]); destruct H|]. split; [exists (tr 1 5 0 1 1 (1 :: nil))|exists (tr 3 7 1 (qz 9) 1 (1 :: nil))]; (split; [cbn; tauto|reflexivity]). }
  split; [vm_compute; reflexivity|]. intros X. vm_compute in X. discriminate X.
Qed.
Example C120_fits : rfits_symmetric rwit2 /\ rwls_ok rwit1 1 /\ rinv_ok rwit1 1.
Proof. split; [exact rwit2_symmetric|]. split; [exact rwit1_wls_ok|exact rwit1_inv_ok]. Qed.
(** * Both: a trimming level outside (0, 1) raises, whatever the data *)
Theorem C119_trim_level : forall c o k tl wn l, ~ (0 < tl /\ tl < 1) -> c <> Ordid -> run c o k tl wn l = PRaise.
Proof.
  intros c o k tl wn l H N. assert (V : valid_trim tl = false) by (unfold valid_trim; destruct (Qcltb_spec 0 tl), (Qcltb_spec tl 1); try reflexivity; exfalso; apply H; split; assumption).
  destruct c; cbn [run]; unfold drdid_call, ipwdid_call; rewrite ?V; try reflexivity. contradiction.
Qed.
Print Assumptions C119_trim_level.
Theorem C120_trim_level : forall c o k tl wn l, ~ (0 < tl /\ tl < 1) -> c <> ROrdid -> rrun c o k tl wn l = PRaise.
Proof.
  intros c o k tl wn l H N. assert (V : valid_trim tl = false) by (unfold valid_trim; destruct (Qcltb_spec 0 tl), (Qcltb_spec tl 1); try reflexivity; exfalso; apply H; split; assumption).
  destruct c; cbn [rrun]; unfold drdid_rc_call, ipwdid_rc_call; rewrite ?V; try reflexivity. contradiction.
Qed.
Print Assumptions C120_trim_level.
Example C119_trim_case : ~ (0 < 1 /\ 1 < 1) /\ ~ (0 < 0 /\ 0 < 1).
Proof. split; intros [A B]; discriminate. Qed.
