(** Inversion of the cell fit; the cells of a panel. *)
From Verif Require Import Base ListLib ReduceModel DrdidModel SplineModel ContModel ContSpec ContProofs.
From Coq Require Import Sorting.Sorted.

Definition brow (t : list Qc) (deg : nat) (v : Qc) : list Qc := 1 :: tl (basis_row t deg v).
Definition drow (t : list Qc) (deg : nat) (v : Qc) : list Qc := tl (deriv_row t deg v).
Definition cmean_of (comp : list (Z * Qc * Qc)) : option Qc := match comp with [] => None | _ => Some (mean dy_of comp) end.

(** The estimates of a cell in terms of its units. *)
Definition est_of (deg : nat) (t dvals coef : list Qc) (bread : matrix) (tr comp : list (Z * Qc * Qc)) : cellres :=
  let k := length coef in
  let fit := fun u => dotk k (brow t deg (dose_of u)) coef in
  let slope := fun v => dotk (k - 1) (drow t deg v) (tl coef) in
  let resid := fun u => dy_of u - fit u in
  let acrt := mean (fun u => slope (dose_of u)) tr in
  let avg := 0 :: vec_of (k - 1) (fun j => mean (fun u => nth j (drow t deg (dose_of u)) 0) tr) in
  let score := fun u => vscale (resid u) (brow t deg (dose_of u)) in
  {| e_attd := match cmean_of comp with Some m => Some (map (fun v => dotk k (brow t deg v) coef - m) dvals) | None => None end;
     e_acrtd := map slope dvals;
     e_att := opt_sub (cmean_of comp) (mean fit tr);
     e_acrt := acrt;
     e_inf := map (fun u => (id_of u, slope (dose_of u) - acrt + dotk k (vm k (score u) bread) avg)) tr;
     e_coef := coef; e_bread := bread; e_score := map score tr |}.
Definition gram (t : list Qc) (deg k : nat) (tr : list (Z * Qc * Qc)) : matrix :=
  mat_of k (fun a b => sumf (fun u => nth a (brow t deg (dose_of u)) 0 * nth b (brow t deg (dose_of u)) 0) tr / qn (length tr)).
Definition dX (t : list Qc) (deg : nat) (tr : list (Z * Qc * Qc)) : list (list Qc) := map (fun u => brow t deg (dose_of u)) tr.

Lemma combine_map {A B C} (f : A -> B) (g : A -> C) l : combine (map f l) (map g l) = map (fun a => (f a, g a)) l.
Proof. induction l as [|a l IH]; cbn; [reflexivity|]. now rewrite IH. Qed.
Lemma mat_of_ext k f g : (forall a b, f a b = g a b) -> mat_of k f = mat_of k g.
Proof. intros H. unfold mat_of. apply map_ext. intros i. apply map_ext. intros j. apply H. Qed.
Lemma vec_of_ext k f g : (forall a, f a = g a) -> vec_of k f = vec_of k g.
Proof. intros H. unfold vec_of. apply map_ext. exact H. Qed.
Lemma mean_map {A B} (h : A -> B) f l : mean f (map h l) = mean (fun a => f (h a)) l.
Proof. unfold mean. now rewrite sumf_map, map_length. Qed.

Definition cell_knots (deg : nat) (knots : list Qc) (doses : list Qc) : option (list Qc) :=
  bspline_knots deg doses knots (Some (qmin_l doses, qmax_l doses)).
(** The fit, in one equation. *)
Lemma fit_eq orc deg knots dvals q :
  fit_cell orc deg knots dvals q =
  let tr := filter is_treated q in let comp := filter is_zero_dose q in let doses := map dose_of tr in
  if negb (two_doses doses) then CFail else
  match cell_knots deg knots doses with
  | None => CRaise
  | Some t =>
    match co_lstsq orc (dX t deg tr) (map dy_of tr) with
    | None => CFail
    | Some coef =>
      if (0 <? deg)%nat && negb (diff_ok t deg) then CRaise else
      match co_inv orc (gram t deg (length coef) tr) with
      | None => CRaise
      | Some bread => CEst (est_of deg t dvals coef bread tr comp)
      end
    end
  end.
Proof.
  unfold fit_cell. cbv zeta. set (tr := filter is_treated q). set (comp := filter is_zero_dose q).
  destruct (negb (two_doses (map dose_of tr))); [reflexivity|].
  unfold bspline_basis, bspline_derivative.
  change (bspline_knots deg dvals knots (Some (qmin_l (map dose_of tr), qmax_l (map dose_of tr)))) with (cell_knots deg knots (map dose_of tr)).
  change (bspline_knots deg (map dose_of tr) knots (Some (qmin_l (map dose_of tr), qmax_l (map dose_of tr)))) with (cell_knots deg knots (map dose_of tr)).
  destruct (cell_knots deg knots (map dose_of tr)) as [t|]; [|reflexivity].
  unfold design. rewrite !map_map.
  change (map (fun x => 1 :: tl (basis_row t deg (dose_of x))) tr) with (dX t deg tr).
  destruct (co_lstsq orc (dX t deg tr) (map dy_of tr)) as [coef|]; [|reflexivity].
  destruct ((0 <? deg)%nat && negb (diff_ok t deg)); [reflexivity|].
  set (k := length coef).
  assert (G : mat_of k (fun a b => sumf (fun x => nth a x 0 * nth b x 0) (dX t deg tr) / qn (length (dX t deg tr))) = gram t deg k tr).
  { unfold gram. apply mat_of_ext. intros a b. unfold dX. now rewrite sumf_map, map_length. }
  rewrite G. destruct (co_inv orc (gram t deg k tr)) as [bread|]; [|reflexivity].
  unfold est_of. fold k. f_equal. unfold dX. rewrite !combine_map, !map_map, !combine_map, !map_map, !combine_map, !map_map.
  rewrite !combine_map. cbn [fst snd]. unfold cmean_of.
  f_equal.
  - destruct comp as [|c0 c1]; [reflexivity|]. now rewrite map_map.
  - now rewrite mean_map.
  - now rewrite mean_map.
  - apply map_ext. intros u. f_equal. rewrite mean_map. f_equal. f_equal. f_equal. apply vec_of_ext. intros j. now rewrite mean_map.
Qed.

Section Cells.
  Context (orc : coracle) (o : copts) (T : nat) (us : list cunit) (Ok : panel_ok (co_ant o) T us) (V : co_univ o = false).
  Context (g tp : Z) (Hg : In g (cohorts us)) (Ht : (2 <= tp <= Z.of_nat T)%Z).
  Let Hu : forall u, In u us -> unit_ok (co_ant o) T u := proj2 (proj2 (proj2 (proj2 Ok))).

  Lemma g_bounds : (2 + co_ant o <= g <= Z.of_nat T)%Z.
  Proof. destruct (proj1 (cohorts_in us g) Hg) as [u [I E]]. destruct (Hu u I) as [K _]. rewrite E in K. lia. Qed.
  Lemma base_eq : base_of o g tp = reference (co_ant o) g tp.
  Proof. unfold base_of, reference. now rewrite V. Qed.
  Lemma base_ok : (1 <= base_of o g tp)%Z /\ (base_of o g tp < tp)%Z.
  Proof. assert (B := g_bounds). assert (A : (0 <= co_ant o)%Z) by apply Ok. unfold base_of. rewrite V. destruct (Z.ltb_spec tp (g - co_ant o)); lia. Qed.

  Definition as_unit (d : cunit -> Qc) (u : cunit) : Z * Qc * Qc := (k_id u, d u, change (co_ant o) g tp u).
  Definition cell_us : list (Z * Qc * Qc) := map (as_unit (dose_in g)) (filter (in_gt o g tp) us).
  Lemma post_eq : post_units tp (subset o g tp (rows T us)) = map (mk g tp (reference (co_ant o) g tp)) (filter (in_gt o g tp) us).
  Proof. destruct base_ok as [B1 B2]. rewrite <- base_eq. apply post_units_rows; auto. lia. Qed.
  Lemma all_some_mk vs : all_some (map (mk g tp (reference (co_ant o) g tp)) vs) = Some (map (as_unit (dose_in g)) vs).
  Proof. induction vs as [|v vs IH]; cbn [map all_some]; [reflexivity|]. cbn [mk u_dy]. now rewrite IH. Qed.
  Lemma eqb_cohort u : og_eqb (k_g u) g = match k_g u with Some h => (h =? g)%Z | None => false end.
  Proof. reflexivity. Qed.
  Lemma treated_eq : filter is_treated cell_us = map (as_unit k_dose) (cohort us g).
  Proof.
    unfold cell_us. rewrite filter_map_comm, filter_filter. unfold cohort.
    assert (P : forall u, In u us -> in_gt o g tp u && is_treated (as_unit (dose_in g) u) = match k_g u with Some h => (h =? g)%Z | None => false end).
    { intros u I. rewrite <- eqb_cohort. unfold in_gt, is_treated, dose_of, as_unit, dose_in. cbn [fst snd]. destruct (og_eqb (k_g u) g) eqn:E; cbn [orb andb].
      - destruct (Hu u I) as [K _]. destruct (k_g u); [|easy]. destruct (Qcltb_spec 0 (k_dose u)); tauto.
      - destruct (Qcltb_spec 0 0) as [F|_]; [exfalso; revert F; apply Qcle_not_lt, Qcle_refl|]. apply andb_false_r. }
    rewrite (filter_ext_in' _ _ us P). apply map_ext_in. intros u I. apply filter_In in I. destruct I as [_ I]. unfold as_unit, dose_in. rewrite eqb_cohort. now rewrite I.
  Qed.
  Lemma comp_eq : filter is_zero_dose cell_us = map (as_unit (fun _ => 0)) (comparison (co_nyt o) us g tp).
  Proof.
    unfold cell_us. rewrite filter_map_comm, filter_filter. unfold comparison.
    assert (P : forall u, In u us -> in_gt o g tp u && is_zero_dose (as_unit (dose_in g) u)
        = match k_g u with None => true | Some h => co_nyt o && (tp <? h)%Z && negb (h =? g)%Z end).
    { intros u I. destruct (Hu u I) as [K _]. unfold in_gt, is_zero_dose, dose_of, as_unit, dose_in, og_eqb, og_gt, og_fin. cbn [fst snd].
      destruct (k_g u) as [h|].
      - destruct (Z.eqb_spec h g); cbn [orb andb negb].
        + rewrite andb_false_r. destruct (Qceqb_spec (k_dose u) 0) as [E|]; [|reflexivity]. rewrite E in K. exfalso. destruct K as [_ [_ K]]. revert K. apply Qcle_not_lt, Qcle_refl.
        + destruct (Qceqb_spec 0 0); [|tauto]. destruct (co_nyt o); rewrite ?andb_true_r; reflexivity.
      - destruct (Qceqb_spec 0 0); [|tauto]. destruct (co_nyt o); reflexivity. }
    rewrite (filter_ext_in' _ _ us P). apply map_ext_in. intros u I. apply filter_In in I. destruct I as [_ I]. unfold as_unit, dose_in. f_equal. f_equal.
    destruct (k_g u) as [h|]; [|reflexivity]. cbn. apply andb_prop in I. destruct I as [_ I]. now destruct (h =? g)%Z.
  Qed.

  Definition treated : list (Z * Qc * Qc) := map (as_unit k_dose) (cohort us g).
  Definition compared : list (Z * Qc * Qc) := map (as_unit (fun _ => 0)) (comparison (co_nyt o) us g tp).
  Lemma doses_eq : map dose_of treated = map k_dose (cohort us g).
  Proof. unfold treated. rewrite map_map. reflexivity. Qed.
  Lemma post_doses : map u_d (filter (fun u => Qcltb 0 (u_d u)) (map (mk g tp (reference (co_ant o) g tp)) (filter (in_gt o g tp) us))) = map k_dose (cohort us g).
  Proof.
    rewrite <- doses_eq. unfold treated. rewrite <- treated_eq. unfold cell_us. rewrite !filter_map_comm, !map_map. reflexivity.
  Qed.
  (** A cell of a panel: the fit on the cohort and the comparison units. *)
  Lemma cell_eq knots dvals : pc_out (process_cell orc o knots dvals (rows T us) tp g) =
    match dvals with [] => CFail | _ => fit_cell orc (co_deg o) knots dvals cell_us end.
  Proof.
    unfold process_cell. cbn [pc_out]. rewrite V. cbn [andb]. rewrite post_eq. unfold cont_did_acrt. destruct dvals as [|d0 dv]; [reflexivity|].
    rewrite post_doses, all_some_mk. fold cell_us. rewrite fit_eq. cbv zeta. rewrite treated_eq, comp_eq. fold treated compared. rewrite doses_eq.
    destruct (map k_dose (cohort us g)) as [|a l] eqn:E.
    - assert (W : two_doses [] = false) by reflexivity. rewrite W. reflexivity.
    - destruct (negb (two_doses (a :: l))); reflexivity.
  Qed.
  (** If it is estimated: *)
  Lemma cell_est knots dvals r : pc_out (process_cell orc o knots dvals (rows T us) tp g) = CEst r ->
    exists t coef bread, two_doses (map k_dose (cohort us g)) = true /\ cell_knots (co_deg o) knots (map k_dose (cohort us g)) = Some t /\
      ((0 <? co_deg o)%nat && negb (diff_ok t (co_deg o)) = false) /\
      co_lstsq orc (dX t (co_deg o) treated) (map dy_of treated) = Some coef /\
      co_inv orc (gram t (co_deg o) (length coef) treated) = Some bread /\
      r = est_of (co_deg o) t dvals coef bread treated compared.
  Proof.
    rewrite cell_eq. intros H. destruct dvals as [|d0 dv]; [discriminate|]. rewrite fit_eq in H. cbv zeta in H. rewrite treated_eq, comp_eq in H.
    fold treated compared in H. rewrite doses_eq in H. destruct (two_doses (map k_dose (cohort us g))); [|discriminate]. cbn [negb] in H.
    destruct (cell_knots (co_deg o) knots (map k_dose (cohort us g))) as [t|]; [|discriminate].
    destruct (co_lstsq orc (dX t (co_deg o) treated) (map dy_of treated)) as [coef|] eqn:L; [|discriminate].
    destruct ((0 <? co_deg o)%nat && negb (diff_ok t (co_deg o))) eqn:D; [discriminate|].
    destruct (co_inv orc (gram t (co_deg o) (length coef) treated)) as [bread|] eqn:I; [|discriminate].
    injection H as <-. exists t, coef, bread. auto 10.
  Qed.
End Cells.
