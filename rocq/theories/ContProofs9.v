(** Runs whose cells are related; rescaled doses; transformed outcomes. *)
From Verif Require Import Base ListLib ReduceModel DrdidModel DrdidSpec SplineModel SplineSpec ContModel ContSpec ContProofs ContProofs2 ContProofs3 ContProofs4 ContProofs5 ContProofs6 ContProofs7 ContProofs8.
From Coq Require Import Sorting.Sorted.

Definition outs_rel (p q : Qc) (a b : cont_out) : Prop :=
  match a, b with
  | ContOk r, ContOk r' => result_rel p q r r'
  | ContRaise, ContRaise => True | ContUnmodelled, ContUnmodelled => True | _, _ => False
  end.
Lemma run_rel p q orc o o' T us us' : p <> 0 -> q <> 0 -> panel_ok (co_ant o) T us -> panel_ok (co_ant o') T us' -> co_univ o = false -> co_univ o' = false ->
  map k_id us' = map k_id us -> cohorts us' = cohorts us -> (forall g, share us' g = share us g) ->
  Forall2 (cell_rel p q) (run_cells orc o T us) (run_cells orc o' T us') ->
  length (run_grid o' T us') = length (run_grid o T us) ->
  bspline_basis (co_deg o') (run_grid o' T us') (run_knots o' T us') None false = bspline_basis (co_deg o) (run_grid o T us) (run_knots o T us) None false ->
  bspline_derivative (co_deg o') (run_grid o' T us') (run_knots o' T us') None false = option_map (map (sc (q / p))) (bspline_derivative (co_deg o) (run_grid o T us) (run_knots o T us) None false) ->
  outs_rel p q (cont_did orc o (rows T us)) (cont_did orc o' (rows T us')).
Proof.
  intros Hp Hq Ok Ok' V V' Ids Ch Sh F L B D. rewrite (run_eq orc o T us Ok V), (run_eq orc o' T us' Ok' V').
  destruct (rel_raise p q _ _ F) as [R N]. rewrite R, N.
  assert (Un : units (rows T us') = units (rows T us)).
  { unfold units, rows, rows_in. f_equal. rewrite !map_flat_map. clear -Ids. revert us' Ids. induction us as [|u us IH]; intros [|u' us'] E; cbn in E; try discriminate; [reflexivity|].
    cbn [flat_map]. rewrite !map_map. cbn [row_of c_id]. pose proof (f_equal (hd 0%Z) E) as E1. pose proof (f_equal (@tl Z) E) as E2. cbn in E1, E2. rewrite E1, (IH us' E2). reflexivity. }
  destruct (run_cells orc o T us) as [|c0 cs] eqn:Ec.
  { inversion F. exact I. }
  assert (Cne : cohorts us <> []).
  { intros E. unfold run_cells, compute_pte in Ec. rewrite E in Ec. cbn [map] in Ec. clear -Ec. induction (tl (calendar 0 T)) as [|t l IH]; [discriminate|]. cbn [flat_map app] in Ec. auto. }
  destruct (run_cells orc o' T us') as [|c1 cs'] eqn:Ec'; [inversion F|].
  destruct (existsb is_raise (c0 :: cs)); [exact I|]. destruct (existsb is_null (c0 :: cs)); [exact I|].
  rewrite <- Ec, <- Ec' in *.
  assert (W : overall_weights (rows T us') (map (fun c => (pc_g c, pc_t c)) (run_cells orc o T us)) = overall_weights (rows T us) (map (fun c => (pc_g c, pc_t c)) (run_cells orc o T us))).
  { assert (Pe : pairs T us' = pairs T us) by (unfold pairs; now rewrite Ch).
    rewrite (pairs_eq orc o T us). rewrite (weights_eq o T us Ok Cne). rewrite <- Pe at 1. rewrite (weights_eq o' T us' Ok') by (now rewrite Ch). rewrite Pe. f_equal. apply map_ext. intros c. unfold wt. now rewrite Sh. }
  assert (Q := rel_process p q Hp Hq o o' (run_knots o T us) (run_knots o' T us') (run_grid o T us) (run_grid o' T us') (rows T us) (rows T us') _ _ F Un W L B D).
  unfold outs_rel. destruct (process_dose o _ _ _ _), (process_dose o' _ _ _ _); try contradiction; auto. apply Q.
Qed.

Theorem dose_rescaled c orc o T us : 0 < c -> panel_ok (co_ant o) T us -> co_univ o = false ->
  outs_rel 1 (/ c) (cont_did orc o (rows T us)) (cont_did orc (sopts c o) (rows T (map (sdose c) us))).
Proof.
  intros Hc Ok V. assert (c0 := Qc_pos_neq0 c Hc).
  assert (i0 : / c <> 0). { intros H. assert (E : c * / c = 1) by (field; exact c0). rewrite H in E. replace (c * 0) with 0 in E by ring. discriminate E. }
  assert (Ok' := sdose_ok c Hc o T us Ok).
  apply run_rel; auto.
  - discriminate.
  - rewrite map_map. reflexivity.
  - apply cohorts_map. reflexivity.
  - intros g. apply share_map; reflexivity.
  - now apply cells_sc.
  - rewrite (run_grid_sc c Hc o T us). unfold sc. now rewrite map_length.
  - rewrite (run_grid_sc c Hc o T us), (run_knots_sc c Hc o T us). exact (bbasis_sc c Hc _ _ _ None).
  - rewrite (run_grid_sc c Hc o T us), (run_knots_sc c Hc o T us). replace (/ c / 1) with (/ c) by (unfold Qcdiv; replace (/ 1) with 1 by (apply Qc_is_canon; reflexivity); ring). exact (bderiv_sc c Hc _ _ _ None).
Qed.

(** * Outcomes *)
Section Y.
  Context (a : Qc) (Ha : a <> 0) (al : Z -> Qc) (de : Z -> Qc).
  Definition syu (u : cunit) : cunit := {| k_id := k_id u; k_g := k_g u; k_dose := k_dose u; k_w := k_w u; k_y := fun t => a * k_y u t + al (k_id u) + de t |}.
  Context (orc : coracle) (Lok : lstsq_ok (co_lstsq orc)) (Iok : cinv_ok (co_inv orc)).
  (** One fit. [s]: common shift of the changes. *)
  Definition shu (s : Qc) (u : Z * Qc * Qc) : Z * Qc * Qc := (id_of u, dose_of u, a * dy_of u + s).
  Definition shc (s : Qc) (l : list Qc) : list Qc := match l with [] => [] | x :: r => (a * x + s) :: sc a r end.
  Lemma shc_length s l : length (shc s l) = length l.
  Proof. destruct l; [reflexivity|]. cbn. unfold sc. now rewrite map_length. Qed.
  Lemma dotk_shc s t deg v l : l <> [] -> dotk (length l) (brow t deg v) (shc s l) = a * dotk (length l) (brow t deg v) l + s.
  Proof.
    intros N. destruct l as [|x r]; [easy|]. cbn [length shc]. unfold dotk. cbn [seq]. rewrite !sumf_cons, <- seq_shift, !sumf_map. cbn [nth brow].
    rewrite (sumf_ext (fun j => nth j (tl (basis_row t deg v)) 0 * nth j (sc a r) 0) (fun j => a * (nth j (tl (basis_row t deg v)) 0 * nth j r 0))) by (intros j _; rewrite nth_sc; ring).
    rewrite sumf_mul_l. ring.
  Qed.
  Lemma tl_shc s l : tl (shc s l) = sc a (tl l).
  Proof. destruct l; reflexivity. Qed.
  Lemma est_y deg t dvals coef bread tr comp s : coef <> [] -> tr <> [] ->
    est_rel a a (est_of deg t dvals coef bread tr comp) (est_of deg t dvals (shc s coef) bread (map (shu s) tr) (map (shu s) comp)).
  Proof.
    intros N Tn.
    assert (Fit : forall v, dotk (length (shc s coef)) (brow t deg v) (shc s coef) = a * dotk (length coef) (brow t deg v) coef + s) by (intros v; rewrite shc_length; now apply dotk_shc).
    assert (Sl : forall v, dotk (length (shc s coef) - 1) (drow t deg v) (tl (shc s coef)) = a * dotk (length coef - 1) (drow t deg v) (tl coef)) by (intros v; rewrite shc_length, tl_shc; apply dotk_sc_r).
    assert (Ac : mean (fun u => dotk (length (shc s coef) - 1) (drow t deg (dose_of u)) (tl (shc s coef))) (map (shu s) tr) = a * mean (fun u => dotk (length coef - 1) (drow t deg (dose_of u)) (tl coef)) tr).
    { rewrite mean_map, <- mean_mul_l. apply mean_ext. intros u _. apply Sl. }
    assert (Cm : cmean_of (map (shu s) comp) = option_map (fun m => a * m + s) (cmean_of comp)).
    { unfold cmean_of. destruct comp as [|x l]; [reflexivity|]. cbn [option_map]. change (match map (shu s) (x :: l) with [] => None | _ => Some (mean dy_of (map (shu s) (x :: l))) end) with (Some (mean dy_of (map (shu s) (x :: l)))). f_equal.
      rewrite mean_map. cbn [shu dy_of snd]. unfold mean. rewrite sumf_add, sumf_mul_l. 
      assert (Q : sumf (fun _ : Z * Qc * Qc => s) (x :: l) = s * qn (length (x :: l))) by (rewrite sumf_const; ring).
      rewrite Q. field. apply qn_neq0. cbn. lia. }
    unfold est_of, est_rel. cbn [e_attd e_acrtd e_att e_acrt e_inf e_coef e_bread e_score]. rewrite Cm.
    assert (Sc : forall u, vscale (dy_of (shu s u) - dotk (length (shc s coef)) (brow t deg (dose_of (shu s u))) (shc s coef)) (brow t deg (dose_of (shu s u)))
                 = sc a (vscale (dy_of u - dotk (length coef) (brow t deg (dose_of u)) coef) (brow t deg (dose_of u)))).
    { intros u. rewrite Fit. cbn [shu dy_of dose_of fst snd]. unfold vscale, sc. rewrite map_map. apply map_ext. intros z. change (snd (fst u)) with (dose_of u). ring. }
    split; [|split; [|split; [|split; [|split; [|split; [|split]]]]]]; try reflexivity.
    - destruct (cmean_of comp) as [m|]; [|reflexivity]. cbn [option_map]. f_equal. rewrite sc_map. apply map_ext. intros v. rewrite Fit. ring.
    - rewrite sc_map. apply map_ext. intros v. apply Sl.
    - destruct (cmean_of comp) as [m|]; [|reflexivity]. cbn [opt_sub option_map]. f_equal. rewrite mean_map.
      rewrite (mean_ext _ (fun u => a * dotk (length coef) (brow t deg (dose_of u)) coef + s)) by (intros u _; apply Fit). unfold mean. rewrite sumf_add, sumf_mul_l.
      assert (Q : sumf (fun _ : Z * Qc * Qc => s) tr = s * qn (length tr)) by (rewrite sumf_const; ring). rewrite Q. field. apply qn_neq0. destruct tr; cbn; [easy|lia].
    - exact Ac.
    - rewrite !map_map. apply map_ext. intros u. cbn [fst snd]. f_equal. rewrite Ac, Sc, Sl, shc_length.
      assert (Av : vec_of (length coef - 1) (fun j => mean (fun u => nth j (drow t deg (dose_of u)) 0) (map (shu s) tr)) = vec_of (length coef - 1) (fun j => mean (fun u => nth j (drow t deg (dose_of u)) 0) tr)).
      { apply vec_of_ext. intros j. now rewrite mean_map. }
      rewrite Av, dotk_vm_sc. change (dose_of (shu s u)) with (dose_of u). ring.
    - apply shc_length.
    - rewrite !map_map. apply map_ext. intros u. apply Sc.
  Qed.

  Context (o : copts) (T : nat) (us : list cunit) (Ok : panel_ok (co_ant o) T us) (V : co_univ o = false).
  Let us' := map syu us.
  Lemma syu_ok : panel_ok (co_ant o) T us'.
  Proof.
    destruct Ok as [A [B [N [S U]]]]. split; [exact A|]. split; [exact B|]. split; [unfold us'; destruct us; easy|]. split.
    - unfold us'. rewrite map_map. exact S.
    - intros u' Hu'. unfold us' in Hu'. apply in_map_iff in Hu'. destruct Hu' as [u [<- Hu]]. exact (U u Hu).
  Qed.
  Definition shift (g t : Z) : Qc := de t - de (reference (co_ant o) g t).
  Lemma change_y g t u : change (co_ant o) g t (syu u) = a * change (co_ant o) g t u + shift g t.
  Proof. unfold change, shift. cbn [syu k_y k_id]. ring. Qed.
  Lemma treated_y g t : treated o us' g t = map (shu (shift g t)) (treated o us g t).
  Proof. unfold treated, us'. rewrite cohort_map by reflexivity. rewrite !map_map. apply map_ext. intros u. unfold as_unit, shu. cbn [id_of dose_of dy_of fst snd syu k_id k_dose]. now rewrite change_y. Qed.
  Lemma compared_y g t : compared o us' g t = map (shu (shift g t)) (compared o us g t).
  Proof. unfold compared, us'. rewrite comparison_map by reflexivity. rewrite !map_map. apply map_ext. intros u. unfold as_unit, shu. cbn [id_of dose_of dy_of fst snd syu k_id k_dose]. now rewrite change_y. Qed.
  Lemma rows_y : rows T us' = map (fun r => {| c_id := c_id r; c_t := c_t r; c_g := c_g r; c_d := c_d r; c_y := a * c_y r + al (c_id r) + de (c_t r); c_w := c_w r |}) (rows T us).
  Proof. unfold rows, rows_in, us'. rewrite map_flat_map, flat_map_concat_map, map_map, <- flat_map_concat_map. apply flat_map_ext_in. intros u _. rewrite map_map. reflexivity. Qed.
  Lemma n1_y knots dvals g t : pc_n1 (process_cell orc o knots dvals (rows T us') t g) = pc_n1 (process_cell orc o knots dvals (rows T us) t g).
  Proof. cbn [process_cell pc_n1]. f_equal. unfold units. f_equal. unfold subset. rewrite !map_map. rewrite rows_y, filter_map_comm, map_map. f_equal. Qed.
  Lemma doses_y : positive_doses (rows T us') = positive_doses (rows T us).
  Proof. unfold positive_doses. rewrite rows_y, filter_map_comm, map_map. reflexivity. Qed.
  Lemma cell_y knots dvals g t : In g (cohorts us) -> (2 <= t <= Z.of_nat T)%Z ->
    cell_rel a a (process_cell orc o knots dvals (rows T us) t g) (process_cell orc o knots dvals (rows T us') t g).
  Proof.
    intros Hg Ht. split; [reflexivity|]. split; [reflexivity|]. split; [now rewrite <- n1_y|].
    assert (Hg' : In g (cohorts us')) by (unfold us'; now rewrite cohorts_map).
    rewrite (cell_eq orc o T us Ok V g t Hg Ht), (cell_eq orc o T us' syu_ok V g t Hg' Ht).
    destruct dvals as [|d0 dv]; [exact I|]. rewrite !fit_eq. cbv zeta.
    rewrite (treated_eq o T us Ok g t Ht), (comp_eq o T us Ok g t Ht), (treated_eq o T us' syu_ok g t Ht), (comp_eq o T us' syu_ok g t Ht).
    fold (treated o us g t) (treated o us' g t) (compared o us g t) (compared o us' g t). rewrite treated_y, compared_y. set (s := shift g t). set (tr := treated o us g t).
    assert (D : map dose_of (map (shu s) tr) = map dose_of tr) by (rewrite map_map; reflexivity). rewrite D.
    destruct (two_doses (map dose_of tr)) eqn:Tw; [|exact I]. cbn [negb].
    assert (Tn : tr <> []). { intros E. apply two_doses_ne in Tw. now rewrite E in Tw. }
    destruct (cell_knots (co_deg o) knots (map dose_of tr)) as [kt|] eqn:K; [|exact I].
    assert (X : dX kt (co_deg o) (map (shu s) tr) = dX kt (co_deg o) tr) by (unfold dX; rewrite map_map; reflexivity). rewrite X.
    assert (Y : map dy_of (map (shu s) tr) = map (fun u => a * dy_of u + s) tr) by (rewrite map_map; reflexivity). rewrite Y.
    assert (G : forall n, gram kt (co_deg o) n (map (shu s) tr) = gram kt (co_deg o) n tr).
    { intros n. unfold gram. apply mat_of_ext. intros i j. rewrite sumf_map, map_length. reflexivity. }
    destruct (co_lstsq orc (dX kt (co_deg o) tr) (map dy_of tr)) as [coef|] eqn:L.
    2:{ rewrite (proj2 Lok _ (map dy_of tr) (map (fun u => a * dy_of u + s) tr)); [exact I|now rewrite !map_length|exact L]. }
    destruct (co_lstsq orc (dX kt (co_deg o) tr) (map (fun u => a * dy_of u + s) tr)) as [coef'|] eqn:L'.
    2:{ exfalso. assert (Z0 : co_lstsq orc (dX kt (co_deg o) tr) (map dy_of tr) = None); [|congruence]. apply (proj2 Lok _ (map (fun u => a * dy_of u + s) tr)); [now rewrite !map_length|exact L']. }
    destruct (normal orc Lok (co_deg o) knots _ kt K tr Tn dy_of coef L) as [E N].
    destruct (normal orc Lok (co_deg o) knots _ kt K tr Tn (fun u => a * dy_of u + s) coef' L') as [E' N'].
    destruct ((0 <? co_deg o)%nat && negb (diff_ok kt (co_deg o))); [exact I|]. rewrite G, E', E.
    destruct (co_inv orc (gram kt (co_deg o) (n_basis kt (co_deg o)) tr)) as [bread|] eqn:Iv; [|exact I]. cbn [out_rel].
    assert (Cn : coef <> []). { intros C. rewrite C in E. cbn in E. pose proof (k_pos (co_deg o) knots _ kt K). lia. }
    assert (Ce : coef' = shc s coef).
    { apply (coef_unique (co_deg o) kt tr bread); [apply (Iok _ _ _ Iv); unfold gram, mat_of; now rewrite map_length, seq_length|exact E'|now rewrite shc_length|].
      intros j Hj. specialize (N j Hj). specialize (N' j Hj).
      rewrite (sumf_ext (fun u => nth j (brow kt (co_deg o) (dose_of u)) 0 * dotk (n_basis kt (co_deg o)) (brow kt (co_deg o) (dose_of u)) (shc s coef))
        (fun u => nth j (brow kt (co_deg o) (dose_of u)) 0 * (a * dy_of u + s) - a * (nth j (brow kt (co_deg o) (dose_of u)) 0 * (dy_of u - dotk (n_basis kt (co_deg o)) (brow kt (co_deg o) (dose_of u)) coef)))).
      2:{ intros u _. rewrite <- E at 1. rewrite (dotk_shc s) by exact Cn. rewrite E. ring. }
      rewrite sumf_sub, sumf_mul_l, N.
      rewrite (sumf_ext _ (fun u => nth j (brow kt (co_deg o) (dose_of u)) 0 * (a * dy_of u + s) - nth j (brow kt (co_deg o) (dose_of u)) 0 * dotk (n_basis kt (co_deg o)) (brow kt (co_deg o) (dose_of u)) coef')) in N' by (intros u _; ring).
      rewrite sumf_sub in N'. rewrite (sub0_eq _ _ N'). ring. }
    rewrite Ce. now apply est_y.
  Qed.
  Lemma cells_y : Forall2 (cell_rel a a) (run_cells orc o T us) (run_cells orc o T us').
  Proof.
    unfold run_cells, compute_pte. assert (Kn : run_knots o T us' = run_knots o T us) by (unfold run_knots, run_doses; now rewrite doses_y).
    assert (Gr : run_grid o T us' = run_grid o T us) by (unfold run_grid, run_doses; now rewrite doses_y).
    assert (Ch : cohorts us' = cohorts us) by (unfold us'; now rewrite cohorts_map). rewrite Kn, Gr, Ch.
    assert (Q : forall ts, (forall t, In t ts -> (2 <= t <= Z.of_nat T)%Z) -> forall gs, (forall g, In g gs -> In g (cohorts us)) ->
      Forall2 (cell_rel a a) (flat_map (fun tp => map (process_cell orc o (run_knots o T us) (run_grid o T us) (rows T us) tp) gs) ts)
        (flat_map (fun tp => map (process_cell orc o (run_knots o T us) (run_grid o T us) (rows T us') tp) gs) ts)).
    { intros ts H gs Hg. induction ts as [|t ts IH]; [constructor|]. cbn [flat_map]. apply Forall2_app; [|apply IH; intros; apply H; now right].
      assert (Ht : (2 <= t <= Z.of_nat T)%Z) by (apply H; now left). clear IH. induction gs as [|g l IHl]; [constructor|]. cbn [map]. constructor; [apply cell_y; [apply Hg; now left|exact Ht]|].
      apply IHl. intros; apply Hg; now right. }
    apply Q; [|auto]. intros t Ht. now apply (tl_calendar_in o T us Ok).
  Qed.
  Theorem outcome_transformed : outs_rel a a (cont_did orc o (rows T us)) (cont_did orc o (rows T us')).
  Proof.
    assert (Ok' := syu_ok).
    assert (Kn : run_knots o T us' = run_knots o T us) by (unfold run_knots, run_doses; now rewrite doses_y).
    assert (Gr : run_grid o T us' = run_grid o T us) by (unfold run_grid, run_doses; now rewrite doses_y).
    apply run_rel; auto.
    - unfold us'. rewrite map_map. reflexivity.
    - apply cohorts_map. reflexivity.
    - intros g. apply share_map; reflexivity.
    - apply cells_y.
    - now rewrite Gr.
    - now rewrite Gr, Kn.
    - rewrite Gr, Kn. destruct (bspline_derivative _ _ _ _ _) as [B|]; [|reflexivity]. cbn [option_map]. f_equal. rewrite <- (map_id B) at 1. apply map_ext. intros l. unfold sc.
      rewrite <- (map_id l) at 1. apply map_ext. intros x. field. exact Ha.
  Qed.
End Y.
