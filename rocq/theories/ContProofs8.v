(** Rescaling the dose by [c > 0]. *)
From Verif Require Import Base ListLib ReduceModel DrdidModel DrdidSpec SplineModel SplineSpec ContModel ContSpec ContProofs ContProofs2 ContProofs3 ContProofs4 ContProofs5 ContProofs6 ContProofs7.
From Coq Require Import Sorting.Sorted.

Section Sc.
  Context (c : Qc) (Hc : 0 < c).
  Let c0 : c <> 0 := Qc_pos_neq0 c Hc.
  Lemma mul_lt a b : a < b -> c * a < c * b.
  Proof. intros H. rewrite !(Qcmult_comm c). now apply Qcmult_lt_compat_r. Qed.
  Lemma mul_le a b : a <= b -> c * a <= c * b.
  Proof. intros H. rewrite !(Qcmult_comm c). apply Qcmult_le_compat_r; [exact H|now apply Qclt_le_weak]. Qed.
  Lemma eqb_sc a b : Qceqb (c * a) (c * b) = Qceqb a b.
  Proof.
    destruct (Qceqb_spec a b) as [E|N], (Qceqb_spec (c * a) (c * b)) as [E'|N']; try reflexivity; exfalso; [apply N'; now rewrite E|apply N; now apply (Qcmult_cancel_l c)].
  Qed.
  Lemma leb_sc a b : Qcleb (c * a) (c * b) = Qcleb a b.
  Proof.
    destruct (Qcleb_spec a b) as [E|N], (Qcleb_spec (c * a) (c * b)) as [E'|N']; try reflexivity; exfalso; [apply N'; now apply mul_le|].
    destruct (Qc_le_or_lt a b) as [|L]; [tauto|]. apply mul_lt in L. revert E'. now apply Qclt_not_le.
  Qed.
  Lemma ltb_sc a b : Qcltb (c * a) (c * b) = Qcltb a b.
  Proof. unfold Qcltb. change (Qle_bool ?x ?y) with (Qle_bool x y). assert (E := leb_sc b a). unfold Qcleb in E. now rewrite E. Qed.
  Lemma map_sc {A} (f : Qc -> A) s x : map f (sc s x) = map (fun v => f (s * v)) x.
  Proof. unfold sc. apply map_map. Qed.
  Lemma sc_map {A} (f : A -> Qc) s x : sc s (map f x) = map (fun v => s * f v) x.
  Proof. unfold sc. apply map_map. Qed.
  Lemma qins_sc x : forall l, qins (c * x) (sc c l) = sc c (qins x l).
  Proof. unfold sc. induction l as [|a l IH]; [reflexivity|]. cbn [map qins]. rewrite leb_sc. destruct (Qcleb x a); cbn [map]; [reflexivity|]. now rewrite IH. Qed.
  Lemma qsort_sc l : qsort (sc c l) = sc c (qsort l).
  Proof. unfold qsort. induction l as [|a l IH]; [reflexivity|]. cbn [sc map fold_right]. fold (sc c l). rewrite IH. apply qins_sc. Qed.
  Lemma qmin_sc l : qmin_l (sc c l) = c * qmin_l l.
  Proof.
    destruct l as [|a l]; [cbn; ring|]. cbn [sc map qmin_l]. induction l as [|b l IH]; [reflexivity|]. cbn [map fold_right]. rewrite IH, ltb_sc. destruct (Qcltb b _); reflexivity.
  Qed.
  Lemma qmax_sc l : qmax_l (sc c l) = c * qmax_l l.
  Proof.
    destruct l as [|a l]; [cbn; ring|]. cbn [sc map qmax_l]. induction l as [|b l IH]; [reflexivity|]. cbn [map fold_right]. rewrite IH, ltb_sc. destruct (Qcltb _ b); reflexivity.
  Qed.
  Definition scb (b : option (Qc * Qc)) : option (Qc * Qc) := option_map (fun p => (c * fst p, c * snd p)) b.
  Lemma boundary_sc x b : boundary (sc c x) (scb b) = scb (boundary x b).
  Proof.
    unfold boundary. destruct b as [[a d]|]; cbn [scb option_map fst snd].
    - rewrite eqb_sc, ltb_sc. destruct (Qceqb a d); [reflexivity|]. destruct (Qcltb a d); reflexivity.
    - rewrite qmin_sc, qmax_sc, eqb_sc. destruct x as [|x0 x]; [reflexivity|]. cbn [sc map]. destruct (Qceqb _ _); reflexivity.
  Qed.
  Lemma sc_app a b : sc c (a ++ b) = sc c a ++ sc c b.
  Proof. apply map_app. Qed.
  Lemma sc_repeat x n : sc c (repeat x n) = repeat (c * x) n.
  Proof. unfold sc. induction n as [|n IH]; [reflexivity|]. cbn [repeat map]. now rewrite IH. Qed.
  Lemma knots_sc deg x kn_ b : bspline_knots deg (sc c x) (sc c kn_) (scb b) = option_map (sc c) (bspline_knots deg x kn_ b).
  Proof.
    unfold bspline_knots. rewrite boundary_sc. destruct (boundary x b) as [[lo hi]|]; [|reflexivity]. cbn [scb option_map fst snd].
    assert (E : forallb (fun a => Qcltb (c * lo) a && Qcltb a (c * hi)) (sc c kn_) = forallb (fun a => Qcltb lo a && Qcltb a hi) kn_).
    { clear -Hc. induction kn_ as [|a l IH]; [reflexivity|]. cbn [sc map forallb]. fold (sc c l). rewrite IH, !ltb_sc. reflexivity. }
    rewrite E. destruct (forallb _ kn_); [|reflexivity]. cbn [option_map]. f_equal. unfold knot_seq. rewrite !sc_app, !sc_repeat, qsort_sc. reflexivity.
  Qed.
  Lemma kn_sc t i : kn (sc c t) i = c * kn t i.
  Proof. apply nth_sc. Qed.
  Lemma div_sc a b : (c * a) / (c * b) = a / b.
  Proof.
    destruct (Qceqb_spec b 0) as [->|N]; [|field; auto]. replace (c * 0) with 0 by ring. unfold Qcdiv. replace (/ 0) with 0 by (apply Qc_is_canon; reflexivity). ring.
  Qed.
  Lemma bs_sc t t' x l : (forall i, t' i = c * t i) -> forall k i, bs t' l k i (c * x) = bs t l k i x.
  Proof.
    intros H. induction k as [|k IH]; intros i; [reflexivity|]. cbn [bs]. rewrite !IH, !H.
    replace (c * x - c * t i) with (c * (x - t i)) by ring. replace (c * t (i + S k)%nat - c * t i) with (c * (t (i + S k)%nat - t i)) by ring.
    replace (c * t (i + S (S k))%nat - c * x) with (c * (t (i + S (S k))%nat - x)) by ring. replace (c * t (i + S (S k))%nat - c * t (S i)) with (c * (t (i + S (S k))%nat - t (S i))) by ring.
    now rewrite !div_sc.
  Qed.
  Lemma scan_sc t t' x : (forall i, t' i = c * t i) -> forall f l, scan t' (c * x) f l = scan t x f l.
  Proof. intros H. induction f as [|f IH]; intros l; [reflexivity|]. cbn [scan]. rewrite H, leb_sc, IH. reflexivity. Qed.
  Lemma nb_sc t k : n_basis (sc c t) k = n_basis t k.
  Proof. unfold n_basis, sc. now rewrite map_length. Qed.
  Lemma basis_row_sc t k x : basis_row (sc c t) k (c * x) = basis_row t k x.
  Proof.
    unfold basis_row, find_interval. rewrite nb_sc. rewrite (scan_sc (kn t) (kn (sc c t)) x (kn_sc t)). apply map_ext. intros i. apply bs_sc, kn_sc.
  Qed.
  Lemma trim_sc t : trim (sc c t) = sc c (trim t).
  Proof.
    unfold trim. destruct t as [|a t]; [reflexivity|]. cbn [sc map tl]. induction t as [|b t IH]; [reflexivity|]. destruct t as [|d t]; [reflexivity|].
    change (removelast (map (fun x => c * x) (b :: d :: t))) with (c * b :: removelast (map (fun x => c * x) (d :: t))). rewrite IH. reflexivity.
  Qed.
  Lemma dcoef_sc t k i j : dcoef (sc c t) k i j = / c * dcoef t k i j.
  Proof.
    unfold dcoef. rewrite !kn_sc. set (d := kn t (j + k + 1) - kn t (j + 1)). replace (c * kn t (j + k + 1) - c * kn t (j + 1)) with (c * d) by (unfold d; ring).
    destruct (Qceqb_spec d 0) as [->|N]; [|field; auto]. replace (c * 0) with 0 by ring. unfold Qcdiv. replace (/ 0) with 0 by (apply Qc_is_canon; reflexivity). ring.
  Qed.
  Lemma deriv_row_sc t k x : deriv_row (sc c t) k (c * x) = sc (/ c) (deriv_row t k x).
  Proof.
    destruct k as [|k]; cbn [deriv_row].
    - rewrite nb_sc. unfold sc. rewrite map_map. apply map_ext. intros. ring.
    - rewrite nb_sc, trim_sc, nb_sc. rewrite sc_map. apply map_ext. intros i. rewrite <- sumf_mul_l. apply sumf_ext. intros j _. rewrite dcoef_sc.
      unfold find_interval. rewrite (scan_sc (kn (trim t)) (kn (sc c (trim t))) x (kn_sc _)). rewrite (bs_sc (kn (trim t)) (kn (sc c (trim t))) x _ (kn_sc _)). ring.
  Qed.
  Lemma diff_ok_sc t k : diff_ok (sc c t) k = diff_ok t k.
  Proof. unfold diff_ok. rewrite nb_sc. generalize (seq 0 (n_basis t k - 1)). induction l as [|j l IH]; [reflexivity|]. cbn [forallb]. rewrite IH, !kn_sc, eqb_sc. reflexivity. Qed.
  Lemma tl_sc s l : tl (sc s l) = sc s (tl l).
  Proof. destruct l; reflexivity. Qed.
  Lemma brow_sc t k x : brow (sc c t) k (c * x) = brow t k x.
  Proof. unfold brow. now rewrite basis_row_sc. Qed.
  Lemma drow_sc t k x : drow (sc c t) k (c * x) = sc (/ c) (drow t k x).
  Proof. unfold drow. now rewrite deriv_row_sc, tl_sc. Qed.
  Lemma bbasis_sc deg x knots b : bspline_basis deg (sc c x) (sc c knots) (scb b) false = bspline_basis deg x knots b false.
  Proof.
    unfold bspline_basis. rewrite knots_sc. destruct (bspline_knots deg x knots b) as [t|]; [|reflexivity]. cbn [option_map]. f_equal. cbv zeta. rewrite map_sc. apply map_ext. intros v.
    now rewrite basis_row_sc.
  Qed.
  Lemma bderiv_sc deg x knots b : bspline_derivative deg (sc c x) (sc c knots) (scb b) false = option_map (map (sc (/ c))) (bspline_derivative deg x knots b false).
  Proof.
    unfold bspline_derivative. rewrite knots_sc. destruct (bspline_knots deg x knots b) as [t|]; [|reflexivity]. cbn [option_map]. rewrite diff_ok_sc.
    destruct ((0 <? deg)%nat && _); [reflexivity|]. cbn [option_map]. f_equal. cbv zeta. rewrite map_sc, map_map. apply map_ext. intros v. now rewrite deriv_row_sc, tl_sc.
  Qed.
  Lemma cell_knots_sc deg knots doses : cell_knots deg (sc c knots) (sc c doses) = option_map (sc c) (cell_knots deg knots doses).
  Proof. unfold cell_knots. rewrite qmin_sc, qmax_sc. exact (knots_sc deg doses knots (Some (qmin_l doses, qmax_l doses))). Qed.
  Lemma two_doses_sc l : two_doses (sc c l) = two_doses l.
  Proof. unfold two_doses. now rewrite qmin_sc, qmax_sc, eqb_sc. Qed.

  (** Units. *)
  Definition scu (u : Z * Qc * Qc) : Z * Qc * Qc := (id_of u, c * dose_of u, dy_of u).
  Definition ssc := sc.
  Lemma dotk_sc_l k s a b : dotk k (sc s a) b = s * dotk k a b.
  Proof. unfold dotk. rewrite <- sumf_mul_l. apply sumf_ext. intros j _. rewrite nth_sc. ring. Qed.
  Lemma est_sc deg t dvals coef bread tr comp : est_rel 1 (/ c) (est_of deg t dvals coef bread tr comp) (est_of deg (sc c t) (sc c dvals) coef bread (map scu tr) comp).
  Proof.
    assert (One : forall l, sc 1 l = l). { intros l. unfold sc. rewrite <- (map_id l) at 2. apply map_ext. intros. ring. }
    assert (Sl : forall v, dotk (length coef - 1) (drow (sc c t) deg (c * v)) (tl coef) = / c * dotk (length coef - 1) (drow t deg v) (tl coef)).
    { intros v. rewrite drow_sc. apply dotk_sc_l. }
    assert (Ac : mean (fun u => dotk (length coef - 1) (drow (sc c t) deg (dose_of u)) (tl coef)) (map scu tr) = / c * mean (fun u => dotk (length coef - 1) (drow t deg (dose_of u)) (tl coef)) tr).
    { rewrite mean_map, <- mean_mul_l. apply mean_ext. intros u _. apply Sl. }
    unfold est_of, est_rel. cbn [e_attd e_acrtd e_att e_acrt e_inf e_coef e_bread e_score].
    split; [|split; [|split; [|split; [|split; [|split; [|split]]]]]]; try reflexivity.
    - destruct (cmean_of comp) as [m|]; [|reflexivity]. cbn [option_map]. f_equal. rewrite One, map_sc. apply map_ext. intros v. now rewrite brow_sc.
    - rewrite map_sc, sc_map. apply map_ext. intros v. apply Sl.
    - unfold opt_sub. destruct (cmean_of comp) as [m|]; [|reflexivity]. cbn [option_map]. f_equal. rewrite mean_map. cbn [scu dose_of fst snd].
      rewrite (mean_ext _ (fun u => dotk (length coef) (brow t deg (dose_of u)) coef)) by (intros u _; now rewrite brow_sc). ring.
    - exact Ac.
    - rewrite !map_map. apply map_ext. intros u. cbn [fst snd]. f_equal. rewrite Ac. cbn [scu dose_of dy_of fst snd]. rewrite brow_sc, Sl.
      set (S := vm (length coef) _ bread).
      assert (Av : 0 :: vec_of (length coef - 1) (fun j => mean (fun u => nth j (drow (sc c t) deg (dose_of u)) 0) (map scu tr))
                 = sc (/ c) (0 :: vec_of (length coef - 1) (fun j => mean (fun u => nth j (drow t deg (dose_of u)) 0) tr))).
      { cbn [sc map]. f_equal; [ring|]. unfold vec_of. rewrite map_map. apply map_ext. intros j. rewrite mean_map, <- mean_mul_l. apply mean_ext. intros v _.
        cbn [scu dose_of fst snd]. now rewrite drow_sc, nth_sc. }
      rewrite Av. rewrite dotk_sc_r. change (snd (fst u)) with (dose_of u). ring.
    - rewrite !map_map. apply map_ext. intros u. rewrite One. cbn [scu dose_of dy_of fst snd]. now rewrite brow_sc.
  Qed.

  (** The panel. *)
  Context (orc : coracle) (o : copts) (T : nat) (us : list cunit) (Ok : panel_ok (co_ant o) T us) (V : co_univ o = false).
  Definition sdose (u : cunit) : cunit := {| k_id := k_id u; k_g := k_g u; k_dose := c * k_dose u; k_w := k_w u; k_y := k_y u |}.
  Definition sopts : copts := {| co_nyt := co_nyt o; co_ant := co_ant o; co_univ := co_univ o; co_deg := co_deg o; co_nknots := co_nknots o; co_dvals := option_map (sc c) (co_dvals o) |}.
  Let us' := map sdose us.
  Lemma sdose_ok : panel_ok (co_ant sopts) T us'.
  Proof.
    destruct Ok as [A [B [N [S U]]]]. split; [exact A|]. split; [exact B|]. split; [unfold us'; destruct us; easy|]. split.
    - unfold us'. rewrite map_map. exact S.
    - intros u' Hu'. unfold us' in Hu'. apply in_map_iff in Hu'. destruct Hu' as [u [<- Hu]]. destruct (U u Hu) as [P W]. split; [|exact W]. cbn [sdose k_g k_dose]. destruct (k_g u) as [g|].
      + destruct P as [P1 [P2 P3]]. split; [exact P1|]. split; [exact P2|]. replace 0 with (c * 0) by ring. now apply mul_lt.
      + rewrite P. ring.
  Qed.
  Lemma cohort_map (f : cunit -> cunit) g : (forall u, k_g (f u) = k_g u) -> cohort (map f us) g = map f (cohort us g).
  Proof. intros H. unfold cohort. rewrite filter_map_comm. f_equal. apply filter_ext_in'. intros u _. now rewrite H. Qed.
  Lemma comparison_map (f : cunit -> cunit) n g t : (forall u, k_g (f u) = k_g u) -> comparison n (map f us) g t = map f (comparison n us g t).
  Proof. intros H. unfold comparison. rewrite filter_map_comm. f_equal. apply filter_ext_in'. intros u _. now rewrite H. Qed.
  Lemma cohorts_map (f : cunit -> cunit) : (forall u, k_g (f u) = k_g u) -> cohorts (map f us) = cohorts us.
  Proof. intros H. unfold cohorts. f_equal. rewrite flat_map_concat_map, map_map, <- flat_map_concat_map. apply flat_map_ext_in. intros u _. now rewrite H. Qed.
  Lemma treated_sc g t : treated sopts us' g t = map scu (treated o us g t).
  Proof. unfold treated, us'. rewrite cohort_map by reflexivity. rewrite !map_map. reflexivity. Qed.
  Lemma compared_sc g t : compared sopts us' g t = compared o us g t.
  Proof. unfold compared, us'. rewrite comparison_map by reflexivity. rewrite map_map. reflexivity. Qed.
  Lemma n1_sc knots dvals g t : pc_n1 (process_cell orc sopts knots dvals (rows T us') t g) = pc_n1 (process_cell orc o knots dvals (rows T us) t g).
  Proof.
    cbn [process_cell pc_n1]. f_equal. unfold units. f_equal. unfold subset. rewrite !map_map.
    assert (E : rows T us' = map (fun r => set_d (c * c_d r) r) (rows T us)).
    { unfold rows, rows_in, us'. rewrite map_flat_map, flat_map_concat_map, map_map, <- flat_map_concat_map. apply flat_map_ext_in. intros u _. rewrite map_map. reflexivity. }
    rewrite E, filter_map_comm, map_map. f_equal.
  Qed.
  Lemma cell_sc knots dvals g t : In g (cohorts us) -> (2 <= t <= Z.of_nat T)%Z ->
    cell_rel 1 (/ c) (process_cell orc o knots dvals (rows T us) t g) (process_cell orc sopts (sc c knots) (sc c dvals) (rows T us') t g).
  Proof.
    intros Hg Ht. split; [reflexivity|]. split; [reflexivity|]. split; [now rewrite <- n1_sc|].
    assert (Hg' : In g (cohorts us')) by (unfold us'; now rewrite cohorts_map).
    rewrite (cell_eq orc o T us Ok V g t Hg Ht), (cell_eq orc sopts T us' sdose_ok V g t Hg' Ht).
    destruct dvals as [|d0 dv]; [exact I|]. cbn [sc map]. fold (sc c dv). change (c * d0 :: sc c dv) with (sc c (d0 :: dv)). rewrite !fit_eq. cbv zeta.
    rewrite (treated_eq o T us Ok g t Ht), (comp_eq o T us Ok g t Ht), (treated_eq sopts T us' sdose_ok g t Ht), (comp_eq sopts T us' sdose_ok g t Ht).
    fold (treated o us g t) (treated sopts us' g t) (compared o us g t) (compared sopts us' g t). rewrite treated_sc, compared_sc.
    assert (D : map dose_of (map scu (treated o us g t)) = sc c (map dose_of (treated o us g t))) by (unfold sc; rewrite !map_map; reflexivity).
    rewrite D, two_doses_sc. change (co_deg sopts) with (co_deg o). destruct (negb (two_doses (map dose_of (treated o us g t)))); [exact I|]. rewrite cell_knots_sc.
    destruct (cell_knots (co_deg o) knots (map dose_of (treated o us g t))) as [kt|]; [|exact I]. cbn [option_map].
    assert (X : dX (sc c kt) (co_deg o) (map scu (treated o us g t)) = dX kt (co_deg o) (treated o us g t)).
    { unfold dX. rewrite map_map. apply map_ext. intros u. cbn [scu dose_of fst snd]. apply brow_sc. }
    assert (Y : map dy_of (map scu (treated o us g t)) = map dy_of (treated o us g t)) by (rewrite map_map; reflexivity).
    rewrite X, Y. destruct (co_lstsq orc _ _) as [coef|]; [|exact I]. rewrite diff_ok_sc. destruct ((0 <? co_deg o)%nat && _); [exact I|].
    assert (G : gram (sc c kt) (co_deg o) (length coef) (map scu (treated o us g t)) = gram kt (co_deg o) (length coef) (treated o us g t)).
    { unfold gram. apply mat_of_ext. intros a b. rewrite sumf_map, map_length. f_equal. apply sumf_ext. intros u _. cbn [scu dose_of fst snd]. now rewrite brow_sc. }
    rewrite G. destruct (co_inv orc _) as [bread|]; [|exact I]. cbn [out_rel]. apply est_sc.
  Qed.
  Lemma doses_sc : positive_doses (rows T us') = sc c (positive_doses (rows T us)).
  Proof.
    unfold positive_doses.
    assert (E : rows T us' = map (fun r => set_d (c * c_d r) r) (rows T us)).
    { unfold rows, rows_in, us'. rewrite map_flat_map, flat_map_concat_map, map_map, <- flat_map_concat_map. apply flat_map_ext_in. intros u _. rewrite map_map. reflexivity. }
    rewrite E, filter_map_comm, map_map. unfold sc. rewrite map_map. cbn [set_d c_d]. f_equal. apply filter_ext_in'. intros r _. cbn [set_d c_g c_t c_d]. destruct (c_g r); [|reflexivity].
    f_equal. rewrite <- (ltb_sc 0 (c_d r)). f_equal. ring.
  Qed.
  Lemma quantile_sc s j m : quantile (sc c s) j m = c * quantile s j m.
  Proof.
    unfold quantile. replace (length (sc c s)) with (length s) by (unfold sc; now rewrite map_length). rewrite nth_sc.
    set (i := ((length s - 1) * j / (m + 1))%nat).
    assert (E : nth (i + 1) (sc c s) (c * nth i s 0) = c * nth (i + 1) s (nth i s 0)).
    { unfold sc. exact (map_nth (fun x => c * x) s (nth i s 0) (i + 1)). }
    rewrite E. ring.
  Qed.
  Lemma run_knots_sc : run_knots sopts T us' = sc c (run_knots o T us).
  Proof.
    unfold run_knots, run_doses, choose_knots. rewrite doses_sc. destruct (positive_doses (rows T us)) as [|x l]; [reflexivity|]. cbn [sc map]. fold (sc c l).
    cbn [co_nknots sopts]. change (c * x :: sc c l) with (sc c (x :: l)). rewrite qsort_sc, sc_map. apply map_ext. intros j. apply quantile_sc.
  Qed.
  Lemma run_grid_sc : run_grid sopts T us' = sc c (run_grid o T us).
  Proof.
    unfold run_grid, run_doses, dose_grid. rewrite doses_sc. cbn [sopts co_dvals]. destruct (co_dvals o); [reflexivity|]. cbn [option_map]. rewrite qmin_sc, qmax_sc.
    destruct (positive_doses (rows T us)) as [|x l]; [reflexivity|]. cbn [sc map]. fold (sc c l). rewrite sc_map. apply map_ext. intros j. ring.
  Qed.
  Lemma cells_sc : Forall2 (cell_rel 1 (/ c)) (run_cells orc o T us) (run_cells orc sopts T us').
  Proof.
    unfold run_cells, compute_pte. rewrite run_knots_sc, run_grid_sc. unfold us'. rewrite cohorts_map by reflexivity. fold us'.
    assert (Q : forall ts, (forall t, In t ts -> (2 <= t <= Z.of_nat T)%Z) ->
      Forall2 (cell_rel 1 (/ c)) (flat_map (fun tp => map (process_cell orc o (run_knots o T us) (run_grid o T us) (rows T us) tp) (cohorts us)) ts)
        (flat_map (fun tp => map (process_cell orc sopts (sc c (run_knots o T us)) (sc c (run_grid o T us)) (rows T us') tp) (cohorts us)) ts)).
    { induction ts as [|t ts IH]; intros H; [constructor|]. cbn [flat_map]. apply Forall2_app; [|apply IH; intros; apply H; now right].
      assert (Ht : (2 <= t <= Z.of_nat T)%Z) by (apply H; now left). assert (Hg : forall g, In g (cohorts us) -> In g (cohorts us)) by auto. revert Hg. generalize (cohorts us) at 1 3 4.
      induction l as [|g l IHl]; intros Hg; [constructor|]. cbn [map]. constructor; [apply cell_sc; [apply Hg; now left|exact Ht]|]. apply IHl. intros; apply Hg; now right. }
    apply Q. intros t Ht. now apply (tl_calendar_in o T us Ok).
  Qed.
  Lemma sumw_map (f : cunit -> cunit) l : (forall u, k_w (f u) = k_w u) -> sumf k_w (map f l) = sumf k_w l.
  Proof. intros H. rewrite sumf_map. apply sumf_ext. intros; apply H. Qed.
  Lemma share_map (f : cunit -> cunit) g : (forall u, k_g (f u) = k_g u) -> (forall u, k_w (f u) = k_w u) -> share (map f us) g = share us g.
  Proof.
    intros H W. unfold share. rewrite cohort_map by exact H. rewrite sumw_map by exact W. f_equal. unfold adopters. rewrite filter_map_comm, sumw_map by exact W. f_equal. apply filter_ext_in'. intros u _. now rewrite H.
  Qed.
End Sc.
