(** C123: the Wald pre-test of parallel trends reported by att_gt. *)
From Verif Require Import Base ListLib AttGtModel AggteModel SeModel WaldModel WaldSpec WaldProofs.

(** The statistic is n att' V^-1 att over the tested cells: V x = att has a solution over them, and every solution gives the statistic. Its
    degrees of freedom are the number of tested cells, of which there is at least one. *)
Theorem C123_statistic : forall o n cells s q p, wsolve_ok o -> wtable n cells -> wald o n cells = WStat s q p ->
  let T := wtests n cells in
  q = length T /\ (0 < q)%nat /\ p = wo_pval o s q /\ (exists x, wsolves n T x) /\ forall x, wsolves n T x -> s = qn n * sumf (fun a => w_att a * x a) T.
Proof.
  intros o n cells s q p SO WT E. cbn zeta. rewrite <- (wpre_tests n cells WT). destruct (wald_value o n cells s q p SO WT E) as [A [B [C [D F]]]].
  split; [exact A|]. split; [exact C|]. split; [exact B|]. split; [exact D|exact F].
Qed.
Print Assumptions C123_statistic.
(** It is never negative, and zero exactly when every tested estimate is zero. *)
Theorem C123_sign : forall o n cells s q p, wsolve_ok o -> wtable n cells -> (0 < n)%nat -> wald o n cells = WStat s q p ->
  0 <= s /\ (s = 0 <-> forall c, wtested n cells c -> w_att c = 0).
Proof. exact wald_sign. Qed.
Print Assumptions C123_sign.
(** The test is reported exactly when some cell is tested and the influence functions of the tested cells are linearly independent. *)
Theorem C123_answered : forall o n cells, wsolve_ok o -> wrank_ok o (length (wtests n cells)) -> wsolve_total o (length (wtests n cells)) -> wtable n cells -> (0 < n)%nat ->
  (exists s q p, wald o n cells = WStat s q p) <-> wtests n cells <> [] /\ windep n (wtests n cells).
Proof. intros o n cells SO RO ST WT. rewrite <- (wpre_tests n cells WT) in *. apply wald_answered; assumption. Qed.
Print Assumptions C123_answered.
(** The order of the table does not matter. *)
Theorem C123_order : forall o n cells cells' s q p s' q' p', wsolve_ok o -> wtable n cells -> Permutation cells cells' ->
  wald o n cells = WStat s q p -> wald o n cells' = WStat s' q' p' -> s' = s /\ q' = q /\ p' = p.
Proof. exact wald_order. Qed.
Print Assumptions C123_order.
(** Nor do the units of the outcome, while no pre-treatment cell crosses the standard-error floor. *)
Theorem C123_units : forall o n cells c s q p s' q' p', wsolve_ok o -> wtable n cells -> c <> 0 ->
  (forall u, In u cells -> (w_t u < w_g u)%Z -> wtested n cells u <-> Q2Qc (100 # 4503599627370496) < c * c * wsqerr n u) ->
  wald o n cells = WStat s q p -> wald o n (map (wscale c) cells) = WStat s' q' p' -> s' = s /\ q' = q /\ p' = p.
Proof. exact wald_scale. Qed.
Print Assumptions C123_units.
(** Cells at or after treatment have no influence: they may be changed or removed. *)
Theorem C123_post_cells : forall o n cells f, (forall c, w_g (f c) = w_g c /\ w_t (f c) = w_t c) -> (forall c, (w_t c < w_g c)%Z -> f c = c) ->
  wald o n (map f cells) = wald o n cells /\ wald o n (filter (fun c => (w_t c <? w_g c)%Z) cells) = wald o n cells.
Proof.
  intros o n cells f K F. split; apply wald_post.
  - induction cells as [|c l IH]; [reflexivity|]. cbn [map filter]. destruct (K c) as [-> ->]. destruct (Z.ltb_spec (w_t c) (w_g c)) as [H|H]; [rewrite (F c H), IH; reflexivity|exact IH].
  - induction cells as [|c l IH]; [reflexivity|]. cbn [filter]. destruct (w_t c <? w_g c)%Z eqn:H; [cbn [filter]; rewrite H, IH; reflexivity|exact IH].
Qed.
Print Assumptions C123_post_cells.
(** With analytical standard errors the distributed back ends report the same test. *)
Theorem C123_distributed : forall o n cells, wald_dist o n (fun c => reported_se2 (se2 n (w_inf c))) cells = wald o n cells.
Proof. exact wald_dist_same. Qed.
Print Assumptions C123_distributed.

(** Two tested cells, a reference cell with zero influence values, and a treated cell; three units. *)
Definition wz (x : Z) : Qc := Q2Qc (inject_Z x).
Definition wwit : list wcell :=
  [{| w_g := 4; w_t := 1; w_att := wz 1; w_inf := [wz 1; wz 0; wz (-1)] |}; {| w_g := 4; w_t := 2; w_att := wz 2; w_inf := [wz 0; wz 1; wz (-1)] |};
   {| w_g := 4; w_t := 3; w_att := wz 0; w_inf := [wz 0; wz 0; wz 0] |}; {| w_g := 4; w_t := 4; w_att := wz 7; w_inf := [wz 2; wz 1; wz 1] |}].
Definition wstat_is (r : wald_result) (s : Qc) (q : nat) : bool := match r with WStat a b _ => Qceqb a s && (b =? q)%nat | WNone => false end.
Lemma wwit_table : wtable 3 wwit.
Proof.
  split; [intros c H; cbn in H; repeat (destruct H as [<-|H]; [reflexivity|]); destruct H|]. cbn [map wwit w_g w_t].
  repeat constructor; cbn; intros H; repeat (destruct H as [H|H]; [discriminate H|]); destruct H.
Qed.
Example C123_case : wsolve_ok wo2 /\ wrank_ok wo2 2 /\ wsolve_total wo2 2 /\ wtable 3 wwit /\ length (wtests 3 wwit) = 2%nat /\
  wstat_is (wald wo2 3 wwit) (wz 18) 2 = true /\ wstat_is (wald wo2 3 (rev wwit)) (wz 18) 2 = true /\ wstat_is (wald wo2 3 (map (wscale (wz 5)) wwit)) (wz 18) 2 = true /\
  wald wo2 3 (skipn 2 wwit) = WNone.
Proof.
  split; [exact wo2_solve|]. split; [exact wo2_rank|]. split; [exact wo2_total|]. split; [exact wwit_table|].
  repeat (split; [vm_compute; reflexivity|]). vm_compute. reflexivity.
Qed.

(** * cont_did *)
(** When every pre-treatment cell is above the floor, cont_did reports the same statistic and degrees of freedom. *)
Theorem C123_cont_did_same : forall o n cells, wtable n cells -> (forall c, In c cells -> (w_t c < w_g c)%Z -> Q2Qc (100 # 4503599627370496) < wsqerr n c) ->
  match wald o n cells with
  | WNone => wald_cont o n cells = WNone
  | WStat s q p => wald_cont o n cells = WStat s q (wo_pval_raw o s q)
  end.
Proof. exact cont_same. Qed.
Print Assumptions C123_cont_did_same.
(** With base_period="universal" the table contains the base cell, so cont_did never reports the test. *)
Theorem C123_cont_did_universal : forall o n cells g anticipation, wtable n cells -> (0 <= anticipation)%Z ->
  wrank_ok o (length (filter (fun c => (w_t c <? w_g c)%Z) cells)) -> In (base_cell n g anticipation) cells -> wald_cont o n cells = WNone.
Proof.
  intros o n cells g a WT Ha RO HI. refine (cont_zero o n cells _ WT RO HI _ _); [cbn; lia|]. intros u _. cbn [base_cell w_inf]. clear. revert u. induction n as [|n IH]; intros [|u]; cbn; auto.
Qed.
Print Assumptions C123_cont_did_universal.
(** So the two commands disagree on one table: att_gt reports a test and cont_did does not. *)
Definition wwit_base : list wcell := [{| w_g := 4; w_t := 2; w_att := wz 2; w_inf := [wz 0; wz 1; wz (-1)] |}; base_cell 3 4 0; {| w_g := 4; w_t := 4; w_att := wz 7; w_inf := [wz 2; wz 1; wz 1] |}].
Definition wo12 : woracle :=
  {| wo_full := fun v => match v with [[a]] => negb (Qceqb a 0) | _ => wo_full wo2 v end;
     wo_solve := fun v a => match v, a with [[b]], [c] => if Qceqb b 0 then None else Some [c / b] | _, _ => wo_solve wo2 v a end;
     wo_pval := wo_pval wo2; wo_pval_raw := wo_pval_raw wo2 |}.
Theorem C123_same_test_in_cont_did_refuted : exists o n cells, wsolve_ok o /\ wrank_ok o 2 /\ wtable n cells /\ In (base_cell n 4 0) cells /\
  (exists s q p, wald o n cells = WStat s q p) /\ wald_cont o n cells = WNone.
Proof.
  exists wo12, 3%nat, wwit_base.
  assert (R : wrank_ok wo12 2).
  { intros V LV HV. destruct (two_rows V LV HV) as [a [b [c [d ->]]]]. exact (wo2_rank _ LV HV). }
  assert (WT : wtable 3 wwit_base).
  { split; [intros c H; cbn in H; repeat (destruct H as [<-|H]; [reflexivity|]); destruct H|]. cbn [map wwit_base w_g w_t base_cell].
    repeat constructor; cbn; intros H; repeat (destruct H as [H|H]; [discriminate H|]); destruct H. }
  split.
  - intros V a x LV E. cbn [wo12 wo_solve] in E.
    destruct V as [|[|b [|b' r]] [|r2 V']]; try exact (wo2_solve _ _ _ LV E); try (destruct a as [|c [|]]; [discriminate E| |discriminate E]).
    destruct (Qceqb_spec b 0) as [|N]; [discriminate E|]. injection E as <-. split; [reflexivity|]. cbn [map]. unfold mrow. cbn [combine]. rewrite sumf_cons, sumf_nil. cbn [fst snd]. f_equal. field. exact N.
  - split; [exact R|]. split; [exact WT|]. split; [right; left; reflexivity|]. split.
    + assert (K : wstat_is (wald wo12 3 wwit_base) (wz 18) 1 = true) by (vm_compute; reflexivity).
      destruct (wald wo12 3 wwit_base) as [|s q p]; [discriminate K|eauto].
    + apply (C123_cont_did_universal wo12 3 wwit_base 4 0 WT); [lia|exact R|right; left; reflexivity].
Qed.
Print Assumptions C123_same_test_in_cont_did_refuted.
