(** Overall estimates and dose curves of a panel. *)
From Verif Require Import Base ListLib ReduceModel DrdidModel DrdidSpec SplineModel SplineSpec ContModel ContSpec ContProofs ContProofs2 ContProofs3 ContProofs4 ContProofs5.
From Coq Require Import Sorting.Sorted.

Lemma run_nonempty orc o T us r : panel_ok (co_ant o) T us -> co_univ o = false -> cont_did orc o (rows T us) = ContOk r -> cohorts us <> [].
Proof.
  intros Ok V H E. rewrite (run_eq orc o T us Ok V) in H. replace (run_cells orc o T us) with (@nil pcell) in H; [discriminate|].
  unfold run_cells, compute_pte. rewrite E. symmetry. apply flat_map_nil. reflexivity.
Qed.

(** Weighted averages of curves. *)
Lemma combine_const nd v (l : list (Qc * option (list Qc))) : sumf fst l <> 0 -> length v = nd ->
  (forall w c, In (w, c) l -> exists a, c = Some a /\ length a = nd /\ (w = 0 \/ a = v)) -> weighted_combine nd l = Some v.
Proof.
  intros T0 Lv H. unfold weighted_combine. destruct (Qceqb_spec (sumf fst l) 0); [contradiction|].
  replace (forallb _ l) with true.
  2:{ symmetry. apply forallb_forall. intros [w c] I. destruct (H w c I) as [a [-> _]]. reflexivity. }
  f_equal. apply (nth_ext _ _ 0 0); [rewrite map_length, seq_length; lia|]. intros j Hj. rewrite map_length, seq_length in Hj.
  set (f := fun j => sumf (fun p => fst p / sumf fst l * nth j (match snd p with Some a => a | None => [] end) 0) l).
  rewrite (nth_indep _ 0 (f 0%nat)) by (rewrite map_length, seq_length; lia). rewrite (map_nth f), seq_nth by lia. cbn [Nat.add]. unfold f.
  rewrite (sumf_ext _ (fun p => fst p * (nth j v 0 / sumf fst l))).
  - rewrite sumf_mul_r. field. exact T0.
  - intros [w c] I. cbn [fst snd]. destruct (H w c I) as [a [-> [_ [->| ->]]]]; unfold Qcdiv; ring.
Qed.

Section R.
  Context (orc : coracle) (o : copts) (T : nat) (us : list cunit) (Ok : panel_ok (co_ant o) T us) (V : co_univ o = false).
  Context (r : cont_result) (Run : cont_did orc o (rows T us) = ContOk r).
  Let Cne : cohorts us <> [] := run_nonempty orc o T us r Ok V Run.
  Let Inv := run_inv orc o T us Ok V Cne r Run.
  Definition estimated (g t : Z) : bool := match pc_out (process_cell orc o (run_knots o T us) (run_grid o T us) (rows T us) t g) with CEst _ => true | _ => false end.
  Lemma att_sum (Lok : lstsq_ok (co_lstsq orc)) :
    r_att r = sumf (fun g => share us g * mean (fun t => if estimated g t
        then match comparison (co_nyt o) us g t with [] => 0 | _ => did (co_nyt o) (co_ant o) us g t end else 0) (exposed T g)) (cohorts us).
  Proof.
    destruct Inv as [_ [_ [_ [_ [_ [-> _]]]]]]. apply (sum_cells orc o T us Ok (fun g t => if estimated g t
        then match comparison (co_nyt o) us g t with [] => 0 | _ => did (co_nyt o) (co_ant o) us g t end else 0)). intros g t Hg Ht.
    unfold estimated. destruct (pc_out _) as [| | |e] eqn:E; try ring.
    unfold wt_of. cbn [pc_g pc_t process_cell]. destruct (comparison (co_nyt o) us g t) as [|c q] eqn:C.
    - rewrite (cell_att_none orc o T us Ok V g t Hg Ht _ _ e E C). cbn [zero_of]. ring.
    - rewrite (cell_att orc o T us Ok V Lok g t Hg Ht _ _ e E) by (rewrite C; easy). cbn [zero_of]. ring.
  Qed.
  Lemma cells_inv c : In c (r_cells r) -> exists g t, In g (cohorts us) /\ (2 <= t <= Z.of_nat T)%Z /\ pc_g c = g /\ pc_t c = t /\
    c = process_cell orc o (run_knots o T us) (run_grid o T us) (rows T us) t g.
  Proof.
    destruct Inv as [-> _]. intros H. apply (cell_in orc o T us Ok) in H. destruct H as [g [t [Hg [Ht ->]]]]. exists g, t. auto.
  Qed.
  Lemma cells_all g t : In g (cohorts us) -> (2 <= t <= Z.of_nat T)%Z -> In (process_cell orc o (run_knots o T us) (run_grid o T us) (rows T us) t g) (r_cells r).
  Proof. intros Hg Ht. destruct Inv as [-> _]. apply (cell_in orc o T us Ok). exists g, t. auto. Qed.
  Lemma ests_in w e : In (w, e) (ests (map (fun c => (wt_of T us c, c)) (run_cells orc o T us))) ->
    exists g t, In g (cohorts us) /\ (2 <= t <= Z.of_nat T)%Z /\ pc_out (process_cell orc o (run_knots o T us) (run_grid o T us) (rows T us) t g) = CEst e /\ w = wt T us (g, t).
  Proof.
    intros H. unfold ests in H. apply in_flat_map in H. destruct H as [p [I H]]. apply in_map_iff in I. destruct I as [c [<- Ic]]. cbn [fst snd] in H.
    destruct (pc_out c) eqn:E; try easy. destruct H as [H|[]]. injection H as <- <-. apply (cell_in orc o T us Ok) in Ic. destruct Ic as [g [t [Hg [Ht ->]]]].
    exists g, t. split; [exact Hg|]. split; [exact Ht|]. split; [exact E|reflexivity].
  Qed.
  Lemma in_ests g t e : In g (cohorts us) -> (2 <= t <= Z.of_nat T)%Z -> pc_out (process_cell orc o (run_knots o T us) (run_grid o T us) (rows T us) t g) = CEst e ->
    In (wt T us (g, t), e) (ests (map (fun c => (wt_of T us c, c)) (run_cells orc o T us))).
  Proof.
    intros Hg Ht E. unfold ests. apply in_flat_map. set (c := process_cell orc o (run_knots o T us) (run_grid o T us) (rows T us) t g) in *. exists (wt_of T us c, c). split.
    - apply (in_map (fun c => (wt_of T us c, c))). apply (cell_in orc o T us Ok). exists g, t. auto.
    - cbn [fst snd]. rewrite E. left. reflexivity.
  Qed.
  Lemma curves : run_grid o T us <> [] ->
    r_att_d r = weighted_combine (length (run_grid o T us)) (map (fun p => (fst p, e_attd (snd p))) (ests (map (fun c => (wt_of T us c, c)) (run_cells orc o T us)))) /\
    r_acrt_d r = weighted_combine (length (run_grid o T us)) (map (fun p => (fst p, Some (e_acrtd (snd p)))) (ests (map (fun c => (wt_of T us c, c)) (run_cells orc o T us)))).
  Proof.
    intros G. destruct Inv as [_ [_ [_ [_ [_ [_ [_ H]]]]]]]. clear Inv. unfold process_dose in H. rewrite (pairs_eq orc o T us), (weights_eq o T us Ok Cne) in H. cbv zeta in H. rewrite (wc_eq orc o T us) in H.
    destruct (run_grid o T us) as [|d0 dv] eqn:Eg; [easy|]. rewrite <- Eg in *.
    destruct (bspline_basis (co_deg o) (run_grid o T us) (run_knots o T us) None false); [|discriminate].
    destruct (bspline_derivative (co_deg o) (run_grid o T us) (run_knots o T us) None false); [|discriminate]. injection H as <-. auto.
  Qed.
  (** A curve shared by all estimated post-treatment cells is the reported curve. *)
  Lemma curve_common (cv : cellres -> option (list Qc)) v : run_grid o T us <> [] -> length v = length (run_grid o T us) ->
    (exists g t, In g (cohorts us) /\ (g <= t <= Z.of_nat T)%Z /\ estimated g t = true) ->
    (forall g t e, In g (cohorts us) -> (2 <= t <= Z.of_nat T)%Z -> pc_out (process_cell orc o (run_knots o T us) (run_grid o T us) (rows T us) t g) = CEst e ->
       exists a, cv e = Some a /\ length a = length (run_grid o T us) /\ ((g <= t)%Z -> a = v)) ->
    weighted_combine (length (run_grid o T us)) (map (fun p => (fst p, cv (snd p))) (ests (map (fun c => (wt_of T us c, c)) (run_cells orc o T us)))) = Some v.
  Proof.
    intros G Lv [g0 [t0 [Hg0 [Ht0 E0]]]] H. apply combine_const; [|exact Lv|].
    - rewrite sumf_map. cbn [fst]. apply Qc_pos_neq0. apply sumf_pos.
      + intros [w e] I. cbn [fst]. apply ests_in in I. destruct I as [g [t [Hg [Ht [_ ->]]]]]. apply (wt_nonneg o T us Ok Cne). unfold pairs. apply in_flat_map. exists t.
        split; [now apply (tl_calendar_in o T us Ok)|]. apply in_map_iff. exists g. auto.
      + assert (B := g_bounds' o T us Ok g0 Hg0). assert (A0 : (0 <= co_ant o)%Z) by apply Ok. unfold estimated in E0. destruct (pc_out _) as [| | |e] eqn:E; try discriminate.
        exists (wt T us (g0, t0), e). split; [apply in_ests; auto; lia|]. cbn [fst]. unfold wt. cbn [fst snd]. destruct (Z.leb_spec g0 t0); [|lia].
        apply Qcdiv_pos; [now apply (share_pos o T us Ok Cne)|]. apply qn_pos, (exposed_pos o T us Ok g0 Hg0).
    - intros w c I. apply in_map_iff in I. destruct I as [[w' e] [E I]]. cbn [fst snd] in E. injection E as <- <-. apply ests_in in I.
      destruct I as [g [t [Hg [Ht [E ->]]]]]. destruct (H g t e Hg Ht E) as [a [E1 [E2 E3]]]. exists a. split; [exact E1|]. split; [exact E2|].
      unfold wt. cbn [fst snd]. destruct (Z.leb_spec g t); [right; auto|left; reflexivity].
  Qed.
  Lemma acrt_sum h : (forall g t e, In g (cohorts us) -> (g <= t <= Z.of_nat T)%Z -> pc_out (process_cell orc o (run_knots o T us) (run_grid o T us) (rows T us) t g) = CEst e -> e_acrt e = h g t) ->
    r_acrt r = sumf (fun g => share us g * mean (fun t => if estimated g t then h g t else 0) (exposed T g)) (cohorts us).
  Proof.
    intros H. destruct Inv as [_ [_ [_ [_ [_ [_ [-> _]]]]]]]. apply (sum_cells orc o T us Ok (fun g t => if estimated g t then h g t else 0)). intros g t Hg Ht.
    unfold estimated. destruct (pc_out _) as [| | |e] eqn:E; try ring. unfold wt_of. cbn [pc_g pc_t process_cell]. unfold wt. cbn [fst snd].
    destruct (Z.leb_spec g t); [|ring]. rewrite (H g t e Hg ltac:(lia) E). ring.
  Qed.
End R.
