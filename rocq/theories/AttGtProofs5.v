(** What a repeated-cross-section estimator is called with, and how its influence values are stored. *)
From Verif Require Import Base ListLib PreprocessModel PreprocessSpec PreprocessProofs PreprocessProofs2 AttGtModel AttGtSpec AttGtProofs AttGtProofs2 AttGtProofs3 AttGtProofs4.
Local Open Scope nat_scope.

Lemma sum_by_id_scatter ix ids v u : length ids = length ix -> length v = length (flags ix) ->
  sum_by_id ids (scatter ix v) u = sumf snd (filter (fun p => (fst p =? u)%Z) (combine (select ix ids) v)).
Proof.
  unfold sum_by_id. revert ids v. induction ix as [|[b|] ix IH]; intros [|i ids] v Hi Hv; try discriminate.
  - reflexivity.
  - destruct v as [|x v]; [discriminate|]. cbn [flags length] in *. assert (E := IH ids v ltac:(lia) ltac:(lia)).
    cbn [scatter select combine filter fst]. destruct (i =? u)%Z; rewrite ?sumf_cons, E; reflexivity.
  - cbn [flags length] in *. assert (E := IH ids v ltac:(lia) ltac:(lia)).
    cbn [scatter select combine filter fst]. destruct (i =? u)%Z; rewrite ?sumf_cons, E; cbn [snd]; ring.
Qed.
Lemma sumf_by_scale {A} (P : A -> bool) k (l : list A) v : length v = length l ->
  sumf snd (filter (fun p => P (fst p)) (combine l (scale k v))) = (k * sumf snd (filter (fun p => P (fst p)) (combine l v)))%Qc.
Proof.
  revert v. induction l as [|a l IH]; intros [|x v] H; try discriminate; [cbn; ring|].
  cbn [length] in H. assert (E := IH v ltac:(lia)). unfold scale in *. cbn [map combine filter fst]. destruct (P a); rewrite ?sumf_cons, E; cbn [snd]; ring.
Qed.
Lemma filter_map_fst {A B C} (f : A -> B) (P : B -> bool) (l : list A) (v : list C) :
  map snd (filter (fun p => P (fst p)) (combine (map f l) v)) = map snd (filter (fun p => P (f (fst p))) (combine l v)).
Proof. revert v. induction l as [|a l IH]; intros [|x v]; cbn; auto. destruct (P (f a)); cbn; rewrite IH; reflexivity. Qed.
Lemma sumf_map_snd {A} (l : list (A * Qc)) : sumf snd l = qsum (map snd l).
Proof. reflexivity. Qed.
Lemma select_values {A} (f : A -> option bool) l (v : list Qc) : length v = length l ->
  map snd (filter (fun p => match f (fst p) with Some _ => true | None => false end) (combine l v)) = select (map f l) v.
Proof. revert v. induction l as [|a l IH]; intros [|x v] H; cbn in *; try discriminate; auto. destruct (f a); cbn; rewrite IH by lia; reflexivity. Qed.

Lemma estimator_inputs_rc c l b e g_idx t_idx pre :
  let D := build_did_data c l in
  let g0 := nth g_idx (d_groups D) 0%Z in
  let year := nth (t_idx + time_factor b) (d_times D) 0%Z in
  let base := nth pre (d_times D) 0%Z in
  let in_period r := r_t r = year \/ r_t r = base in
  (0 <= c_ant c)%Z -> t_idx + time_factor b < length (d_times D) -> base_index (c_ant c) D b g_idx t_idx = Base pre ->
  (b = Universal -> base <> year) ->
  (exists r, In r l /\ in_period r /\ is_treated g0 (r_g r)) ->
  (exists r, In r l /\ in_period r /\ is_comparison (c_never c) (c_ant c) g0 year base (r_g r)) ->
  exists uses : row -> bool,
    (forall r, uses r = true <-> in_period r /\ (is_treated g0 (r_g r) \/ is_comparison (c_never c) (c_ant c) g0 year base (r_g r))) /\
    let R := filter uses l in
    match e (map r_y R) (map (fun r => (r_t r =? year)%Z) R) (map (fun r => grp_eqb (r_g r) (Fin g0)) R) (map (fun r => 1%Qc :: r_x r) R) (map r_w R) with
    | None => run_att_gt (ERc e) c D b g_idx t_idx = CNone
    | Some (att, psi) => exists inf, run_att_gt (ERc e) c D b g_idx t_idx = CEst att inf /\
        (length psi = length R ->
         if c_unbal c then
           inf = map (fun u => (qn (length (zuniq (map r_id l))) / qn (length R) * sumf snd (filter (fun p => (r_id (fst p) =? u)%Z) (combine R psi)))%Qc) (zuniq (map r_id l))
         else length inf = length l /\ (forall j, j < length l -> uses (nth j l drow0) = false -> nth j inf 0%Qc = 0%Qc) /\
           map snd (filter (fun p => uses (fst p)) (combine l inf)) = map (fun v => (qn (length l) / qn (length R) * v)%Qc) psi)
    end.
Proof.
  cbn zeta. set (D := build_did_data c l). intros Ha Ht HB HU [rt [Hrt [Prt Irt]]] [rc [Hrc [Prc Irc]]].
  assert (RS := fun r => roles_rc c l b g_idx t_idx pre r Ha Ht HB). cbn zeta in RS. fold D in RS.
  set (g0 := nth g_idx (d_groups D) 0%Z) in *. set (year := nth (t_idx + time_factor b) (d_times D) 0%Z) in *.
  set (base := nth pre (d_times D) 0%Z) in *. set (f := cohort_flag_rc c D b g_idx t_idx pre) in *.
  exists (fun r => match f r with Some _ => true | None => false end). split.
  { intros r. destruct (RS r) as [A [B C]]. destruct (f r) as [[|]|].
    - split; [intros _; destruct (proj1 A eq_refl); auto|reflexivity].
    - split; [intros _; destruct (proj1 B eq_refl); auto|reflexivity].
    - split; [discriminate|intros H; exfalso; exact (proj1 C eq_refl H)]. }
  set (R := filter _ l).
  assert (F1 : has_flag true (map f l) = true) by (apply has_flag_role; exists rt; split; [exact Hrt|apply RS; auto]).
  assert (F0 : has_flag false (map f l) = true) by (apply has_flag_role; exists rc; split; [exact Hrc|apply RS; auto]).
  assert (SR : select (map f l) l = R) by apply select_role.
  assert (LR : length (flags (map f l)) = length R) by (rewrite <- SR; symmetry; apply select_length; rewrite map_length; reflexivity).
  assert (FL : flags (map f l) = map (fun r => grp_eqb (r_g r) (Fin g0)) R).
  { rewrite flags_role, SR. apply map_ext_in. intros r Hr. apply filter_In in Hr. destruct Hr as [_ E]. destruct (RS r) as [A [B _]].
    destruct (f r) as [[|]|] eqn:Ef; [| |discriminate].
    - destruct (proj1 A eq_refl) as [_ T]. rewrite T. destruct (grp_eqb_spec (Fin g0) (Fin g0)); congruence.
    - destruct (proj1 B eq_refl) as [_ [T _]]. destruct (grp_eqb_spec (r_g r) (Fin g0)); congruence. }
  assert (RUN : run_att_gt (ERc e) c D b g_idx t_idx =
    run_drdid_rc e (c_unbal c) (d_ids D) (map r_id l) (map f l) (map r_y l) (map (fun r => (r_t r =? year)%Z) l) (map (fun r => 1%Qc :: r_x r) l) (map r_w l)).
  { unfold run_att_gt. rewrite HB. fold year. 
    assert (NU : match b with Universal => (nth pre (d_times D) 0 =? year)%Z | Varying => false end = false).
    { destruct b; [|reflexivity]. apply Z.eqb_neq. apply HU. reflexivity. }
    rewrite ?NU. unfold cohort_index_rc. fold f. change (d_rows D) with l. rewrite F1, F0. reflexivity. }
  rewrite RUN. unfold run_drdid_rc. rewrite FL, !select_map, SR. rewrite map_length.
  destruct (e _ _ _ _ _) as [[att psi]|] eqn:Ee; [|reflexivity].
  destruct (c_unbal c) eqn:EU.
  - eexists. split; [reflexivity|]. intros Hp. apply map_ext. intros u. change (d_ids D) with (length (zuniq (map r_id l))).
    rewrite sum_by_id_scatter; [|rewrite !map_length; reflexivity|unfold scale; rewrite map_length, LR; exact Hp].
    rewrite select_map, SR, (sumf_map_snd (filter _ (combine (map r_id R) _))), (filter_map_fst r_id (fun z => (z =? u)%Z)), <- sumf_map_snd. 
    rewrite (sumf_by_scale (fun r => (r_id r =? u)%Z)) by exact Hp. rewrite ?map_length. reflexivity.
  - eexists. split; [reflexivity|]. intros Hp. rewrite scatter_length, map_length. split; [reflexivity|]. split.
    + intros j Hj E. apply scatter_outside. rewrite nth_error_map, (nth_error_nth' l drow0 Hj). cbn. destruct (f (nth j l drow0)); [discriminate|reflexivity].
    + rewrite select_values by (rewrite scatter_length, map_length; reflexivity). rewrite select_scatter; [unfold scale; rewrite ?map_length; reflexivity|].
      unfold scale. rewrite map_length, LR. exact Hp.
Qed.
