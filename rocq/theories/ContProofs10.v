(** The reported curves as functions of the dose. *)
From Verif Require Import Base ListLib Calc ReduceModel DrdidModel DrdidSpec SplineModel SplineSpec SplineProps ContModel ContSpec ContProofs ContProofs2 ContProofs3 ContProofs4 ContProofs5 ContProofs6.
From Coq Require Import Sorting.Sorted.

Definition with_grid (o : copts) (d : list Qc) : copts :=
  {| co_nyt := co_nyt o; co_ant := co_ant o; co_univ := co_univ o; co_deg := co_deg o; co_nknots := co_nknots o; co_dvals := Some d |}.
Lemma some_eq {A} (x y : A) : Some x = Some y -> x = y.
Proof. congruence. Qed.
Section C.
  Context (orc : coracle) (Lok : lstsq_ok (co_lstsq orc)) (o : copts) (T : nat) (us : list cunit) (Ok : panel_ok (co_ant o) T us) (V : co_univ o = false).
  Let kn_ := run_knots o T us.
  Let tr (p : Z * Z) := treated o us (fst p) (snd p).
  Let co (p : Z * Z) := compared o us (fst p) (snd p).
  Definition core (p : Z * Z) : option (list Qc * list Qc * matrix) :=
    if negb (two_doses (map dose_of (tr p))) then None else
    match cell_knots (co_deg o) kn_ (map dose_of (tr p)) with
    | None => None
    | Some t => match co_lstsq orc (dX t (co_deg o) (tr p)) (map dy_of (tr p)) with
      | None => None
      | Some coef => if (0 <? co_deg o)%nat && negb (diff_ok t (co_deg o)) then None else
          match co_inv orc (gram t (co_deg o) (length coef) (tr p)) with None => None | Some b => Some (t, coef, b) end
      end
    end.
  Definition kt_of (c : list Qc * list Qc * matrix) := fst (fst c).
  Definition cf_of (c : list Qc * list Qc * matrix) := snd (fst c).
  Definition attf (p : Z * Z) (c : list Qc * list Qc * matrix) (v : Qc) : Qc :=
    dotk (length (cf_of c)) (brow (kt_of c) (co_deg o) v) (cf_of c) - zero_of (cmean_of (co p)).
  Definition acrtf (c : list Qc * list Qc * matrix) (v : Qc) : Qc := dotk (length (cf_of c) - 1) (drow (kt_of c) (co_deg o) v) (tl (cf_of c)).
  Definition cores : list ((Z * Z) * (list Qc * list Qc * matrix)) := flat_map (fun p => match core p with Some c => ((p, c) :: nil) | None => nil end) (pairs T us).
  Definition tot : Qc := sumf (fun x => wt T us (fst x)) cores.
  Definition att_fun (v : Qc) : Qc := sumf (fun x => wt T us (fst x) / tot * attf (fst x) (snd x) v) cores.
  Definition acrt_fun (v : Qc) : Qc := sumf (fun x => wt T us (fst x) / tot * acrtf (snd x) v) cores.
  Lemma cell_core d0 d g t : In g (cohorts us) -> (2 <= t <= Z.of_nat T)%Z ->
    match pc_out (process_cell orc (with_grid o (d0 :: d)) kn_ (d0 :: d) (rows T us) t g) with
    | CEst e => exists c, core (g, t) = Some c /\ e = est_of (co_deg o) (kt_of c) (d0 :: d) (cf_of c) (snd c) (tr (g, t)) (co (g, t))
    | _ => core (g, t) = None
    end.
  Proof.
    intros Hg Ht. rewrite (cell_eq orc (with_grid o (d0 :: d)) T us Ok V g t Hg Ht). rewrite fit_eq. cbv zeta.
    rewrite (treated_eq (with_grid o (d0 :: d)) T us Ok g t Ht), (comp_eq (with_grid o (d0 :: d)) T us Ok g t Ht).
    change (map (as_unit (with_grid o (d0 :: d)) g t k_dose) (cohort us g)) with (tr (g, t)).
    change (map (as_unit (with_grid o (d0 :: d)) g t (fun _ => 0)) (comparison (co_nyt (with_grid o (d0 :: d))) us g t)) with (co (g, t)).
    unfold core. cbn [co_deg with_grid]. destruct (negb (two_doses (map dose_of (tr (g, t))))); [reflexivity|].
    destruct (cell_knots (co_deg o) kn_ (map dose_of (tr (g, t)))) as [kt|]; [|reflexivity]. destruct (co_lstsq orc _ _) as [coef|]; [|reflexivity].
    destruct ((0 <? co_deg o)%nat && _); [reflexivity|]. destruct (co_inv orc _) as [b|]; [|reflexivity]. exists (kt, coef, b). auto.
  Qed.
  Lemma run_knots_grid d : run_knots (with_grid o d) T us = kn_. Proof. reflexivity. Qed.
  Lemma run_grid_grid d : run_grid (with_grid o d) T us = d. Proof. reflexivity. Qed.
  Lemma ests_cores d0 d : ests (map (fun c => (wt_of T us c, c)) (run_cells orc (with_grid o (d0 :: d)) T us)) =
    map (fun x => (wt T us (fst x), est_of (co_deg o) (kt_of (snd x)) (d0 :: d) (cf_of (snd x)) (snd (snd x)) (tr (fst x)) (co (fst x)))) cores.
  Proof.
    unfold run_cells, compute_pte, cores, pairs. rewrite run_knots_grid, run_grid_grid.
    assert (G : forall ts, (forall t, In t ts -> (2 <= t <= Z.of_nat T)%Z) -> forall gs, (forall g, In g gs -> In g (cohorts us)) ->
      ests (map (fun c => (wt_of T us c, c)) (flat_map (fun tp => map (process_cell orc (with_grid o (d0 :: d)) kn_ (d0 :: d) (rows T us) tp) gs) ts)) =
      map (fun x => (wt T us (fst x), est_of (co_deg o) (kt_of (snd x)) (d0 :: d) (cf_of (snd x)) (snd (snd x)) (tr (fst x)) (co (fst x))))
        (flat_map (fun p => match core p with Some c => ((p, c) :: nil) | None => nil end) (flat_map (fun t => map (fun g => (g, t)) gs) ts))).
    { intros ts H gs Hg. induction ts as [|t ts IH]; [reflexivity|]. cbn [flat_map]. rewrite map_app. unfold ests at 1. rewrite flat_map_app. fold (ests (map (fun c => (wt_of T us c, c)) (flat_map (fun tp => map (process_cell orc (with_grid o (d0 :: d)) kn_ (d0 :: d) (rows T us) tp) gs) ts))).
      rewrite IH by (intros; apply H; now right). rewrite flat_map_app, map_app. f_equal. assert (Ht := H t (or_introl eq_refl)). clear IH H.
      induction gs as [|g gs IHg]; [reflexivity|]. cbn [map flat_map]. rewrite IHg by (intros; apply Hg; now right). rewrite map_app. f_equal. cbn [fst snd].
      assert (C := cell_core d0 d g t (Hg g (or_introl eq_refl)) Ht). destruct (pc_out _) as [| | |e]; try (rewrite C; reflexivity). destruct C as [c [-> ->]]. reflexivity. }
    apply G; [|auto]. intros t Ht. now apply (tl_calendar_in o T us Ok).
  Qed.
  Lemma map_nth_self (l : list Qc) (f : Qc -> Qc) : map (fun j => f (nth j l 0)) (seq 0 (length l)) = map f l.
  Proof.
    rewrite <- (map_map (fun j => nth j l 0) f). f_equal. apply (nth_ext _ _ 0 0); [now rewrite map_length, seq_length|]. intros i Hi. rewrite map_length, seq_length in Hi.
    rewrite (nth_indep _ 0 (nth 0 l 0)) by (rewrite map_length, seq_length; exact Hi). rewrite (map_nth (fun j => nth j l 0)), seq_nth by exact Hi. reflexivity.
  Qed.
  Lemma curves_fun d r : cont_did orc (with_grid o d) (rows T us) = ContOk r -> d <> nil ->
    (forall l, r_att_d r = Some l -> l = map att_fun d) /\ (forall l, r_acrt_d r = Some l -> l = map acrt_fun d).
  Proof.
    intros Run Dn. destruct d as [|d0 d]; [easy|]. destruct (curves orc (with_grid o (d0 :: d)) T us Ok V r Run Dn) as [-> ->]. rewrite ests_cores, run_grid_grid, !map_map. cbn [fst snd].
    unfold weighted_combine. rewrite !sumf_map. cbn [fst]. fold tot. destruct (Qceqb tot 0); [split; discriminate|]. split; intros l.
    - destruct (forallb _ _) eqn:F; [|discriminate]. intros E. apply some_eq in E. rewrite <- E. clear E. rewrite <- (map_nth_self (d0 :: d) att_fun). apply map_ext_in. intros j Hj. apply in_seq in Hj.
      rewrite sumf_map. unfold att_fun. apply sumf_ext. intros [p c] Hx. cbn [fst snd]. rewrite forallb_forall in F.
      assert (Fx := F _ (in_map (fun x => (wt T us (fst x), e_attd (est_of (co_deg o) (kt_of (snd x)) (d0 :: d) (cf_of (snd x)) (snd (snd x)) (tr (fst x)) (co (fst x))))) _ _ Hx)).
      cbn [fst snd] in Fx. unfold est_of in *. cbn [e_attd] in *. unfold attf. destruct (cmean_of (co p)) as [m|]; [|discriminate]. f_equal. cbn [zero_of].
      set (f := fun v => dotk (length (cf_of c)) (brow (kt_of c) (co_deg o) v) (cf_of c) - m). rewrite (nth_indep _ 0 (f 0)) by (rewrite map_length; lia).
      rewrite (map_nth f). reflexivity.
    - destruct (forallb _ _) eqn:F; [|discriminate]. intros E. apply some_eq in E. rewrite <- E. clear E. rewrite <- (map_nth_self (d0 :: d) acrt_fun). apply map_ext_in. intros j Hj. apply in_seq in Hj.
      rewrite sumf_map. unfold acrt_fun. apply sumf_ext. intros [p c] Hx. cbn [fst snd]. f_equal. unfold est_of. cbn [e_acrtd].
      set (f := fun v => dotk (length (cf_of c) - 1) (drow (kt_of c) (co_deg o) v) (tl (cf_of c))). rewrite (nth_indep _ 0 (f 0)) by (rewrite map_length; lia).
      rewrite (map_nth f). reflexivity.
  Qed.
  Lemma D_sumf {A} (l : list A) (f : A -> Qc -> Qc) (d : A -> Qc) : (forall a, In a l -> derivative_at_0 (f a) (d a)) -> derivative_at_0 (fun e => sumf (fun a => f a e) l) (sumf d l).
  Proof.
    induction l as [|a l IH]; intros H; [exact (D_const 0)|]. apply (D_ext (fun e => f a e + sumf (fun a => f a e) l)); [exists 1; split; [reflexivity|intros; reflexivity]|].
    rewrite sumf_cons. apply D_add; [apply H; now left|]. apply IH. intros; apply H; now right.
  Qed.
  Lemma cell_deriv p c v : In p (pairs T us) -> core p = Some c -> ~ In v kn_ \/ (2 <= co_deg o)%nat /\ NoDup kn_ -> derivative_at (attf p c) v (acrtf c v).
  Proof.
    intros Hp Hc Hv. unfold core in Hc. destruct (two_doses (map dose_of (tr p))) eqn:Tw; [|discriminate]. cbn [negb] in Hc.
    destruct (cell_knots (co_deg o) kn_ (map dose_of (tr p))) as [kt|] eqn:K; [|discriminate]. destruct (co_lstsq orc _ _) as [coef|] eqn:L; [|discriminate].
    destruct ((0 <? co_deg o)%nat && negb (diff_ok kt (co_deg o))) eqn:Df; [discriminate|]. destruct (co_inv orc _) as [b|]; [|discriminate]. injection Hc as <-.
    assert (Tn : tr p <> nil) by (intros E; apply two_doses_ne in Tw; now rewrite E in Tw).
    destruct (normal orc Lok (co_deg o) kn_ _ kt K (tr p) Tn dy_of coef L) as [E _].
    assert (Nb := nb_eq _ _ _ _ K). destruct coef as [|c0 cf]; [cbn in E; lia|].
    destruct (cell_knots_good _ _ _ _ K) as [lo [hi [B [_ _]]]].
    set (bnd := Some (qmin_l (map dose_of (tr p)), qmax_l (map dose_of (tr p)))) in *.
    assert (B' : boundary (v :: nil) bnd = Some (lo, hi)) by exact B.
    assert (K' : bspline_knots (co_deg o) (v :: nil) kn_ bnd = Some kt) by exact K.
    assert (Dv : bspline_derivative (co_deg o) (v :: nil) kn_ bnd true = Some (deriv_row kt (co_deg o) v :: nil)).
    { unfold bspline_derivative. rewrite K', Df. reflexivity. }
    destruct (C95_derivative (co_deg o) (v :: nil) kn_ bnd lo hi _ B' Dv) as [_ Q]. specialize (Q 0%nat ltac:(cbn; lia) Hv (0 :: cf) ltac:(cbn in E |- *; lia)). cbn [nth] in Q.
    unfold derivative_at in *. unfold attf, acrtf. cbn [kt_of cf_of fst snd]. set (m := zero_of _).
    assert (Lr : forall w, exists x, basis_row kt (co_deg o) w = x :: tl (basis_row kt (co_deg o) w)).
    { intros w. assert (Lw := basis_row_len kt (co_deg o) w). destruct (basis_row kt (co_deg o) w) as [|x q]; [cbn in Lw; lia|]. now exists x. }
    apply (D_ext (fun e => (c0 - m) + dotl (0 :: cf) (basis_at (co_deg o) lo hi kn_ true (v + e)))).
    - exists 1. split; [reflexivity|]. intros e _. rewrite (basis_at_eq _ _ _ _ (v :: nil) bnd kt _ true B' K'). cbv iota. destruct (Lr (v + e)) as [x Ex]. rewrite Ex, dotl_cons.
      rewrite (dotk_dotl (length (c0 :: cf))); [|rewrite (brow_length _ _ _ _ _ K); exact (eq_sym E)|reflexivity]. unfold brow. rewrite dotl_cons, (dotl_comm (tl _)). ring.
    - apply (D_eq _ (0 + dotl (0 :: cf) (deriv_row kt (co_deg o) v))).
      + assert (Ld := drow_length kt (co_deg o) v). unfold drow in *. cbn [length] in *. rewrite (dotk_dotl (S (length cf) - 1)); [|lia|cbn; lia]. cbn [tl].
        destruct (deriv_row kt (co_deg o) v) as [|x q]; [cbn in Ld |- *; assert (length cf = 0%nat) by lia; destruct cf; [cbn; ring|discriminate]|]. rewrite dotl_cons, dotl_comm. cbn [tl]. ring.
      + apply D_add; [apply D_const|exact Q].
  Qed.
  Lemma acrt_derivative v : ~ In v kn_ \/ (2 <= co_deg o)%nat /\ NoDup kn_ -> derivative_at att_fun v (acrt_fun v).
  Proof.
    intros Hv. unfold derivative_at, att_fun, acrt_fun. apply D_sumf. intros [p c] Hx. cbn [fst snd]. apply D_scale. unfold cores in Hx. apply in_flat_map in Hx. destruct Hx as [p' [Hp Hx]].
    destruct (core p') as [c'|] eqn:E; [|easy]. destruct Hx as [Hx|[]]. injection Hx as <- <-. exact (cell_deriv p' c' v Hp E Hv).
  Qed.
End C.
