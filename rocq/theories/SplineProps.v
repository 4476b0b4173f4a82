(** C94-C96: B-spline bases used for the dose response (moderndid.didcont.spline). *)
From Verif Require Import Base Calc SplineModel SplineSpec SplineProofs SplineProofs2 SplineProofs3 SplineProofs4 Witness.

(** * From the entry points to the knot sequence *)
Lemma boundary_given lo hi x : lo < hi -> boundary x (Some (lo, hi)) = Some (lo, hi).
Proof.
  intros H. cbn. destruct (Qceqb_spec lo hi) as [->|]; [exfalso; qclra|]. destruct (Qcltb_spec lo hi); [reflexivity|contradiction].
Qed.
Lemma knots_given degree lo hi internal v x bnd t : boundary x bnd = Some (lo, hi) -> bspline_knots degree x internal bnd = Some t ->
  bspline_knots degree (v :: nil) internal (Some (lo, hi)) = Some t /\ t = knot_seq degree lo hi internal /\ good degree lo hi internal.
Proof.
  intros B H. destruct (knots_good _ _ _ _ _ H) as [lo' [hi' [B' [Gd E]]]]. rewrite B in B'. injection B' as <- <-.
  split; [|split; assumption]. unfold bspline_knots in *. rewrite B in H. rewrite (boundary_given lo hi (v :: nil)) by exact (proj1 Gd). exact H.
Qed.
Lemma basis_at_eq degree lo hi internal x bnd t v complete : boundary x bnd = Some (lo, hi) -> bspline_knots degree x internal bnd = Some t ->
  basis_at degree lo hi internal complete v = if complete then basis_row t degree v else tl (basis_row t degree v).
Proof.
  intros B H. destruct (knots_given degree lo hi internal v x bnd t B H) as [E _]. unfold basis_at, bspline_basis. rewrite E. reflexivity.
Qed.
Lemma deriv_at_eq degree lo hi internal x bnd rows complete : boundary x bnd = Some (lo, hi) -> bspline_derivative degree x internal bnd complete = Some rows ->
  exists t, bspline_knots degree x internal bnd = Some t /\
  rows = map (fun v => if complete then deriv_row t degree v else tl (deriv_row t degree v)) x /\
  forall v c, derivative_row_at degree lo hi internal c v = if c then deriv_row t degree v else tl (deriv_row t degree v).
Proof.
  intros B H. unfold bspline_derivative in H. destruct (bspline_knots degree x internal bnd) as [t|] eqn:K; [|discriminate].
  exists t. split; [reflexivity|]. destruct ((0 <? degree)%nat && negb (diff_ok t degree)) eqn:D; [discriminate|]. injection H as <-.
  split; [reflexivity|]. intros v c. destruct (knots_given degree lo hi internal v x bnd t B K) as [E _].
  unfold derivative_row_at, bspline_derivative. rewrite E, D. reflexivity.
Qed.
Lemma fold_min_le : forall r a b, In b (a :: r) -> fold_right (fun x m => if Qcltb x m then x else m) a r <= b.
Proof.
  induction r as [|y r IH]; intros a b H; cbn [fold_right].
  - destruct H as [->|[]]. apply Qcle_refl.
  - set (m := fold_right _ a r) in *. assert (M : m <= b \/ y = b).
    { destruct H as [->|[->|H]]; [left; apply IH; left; reflexivity|right; reflexivity|left; apply IH; right; exact H]. }
    destruct (Qcltb_spec y m) as [h|h]; destruct M as [M|M]; try (subst; apply Qcle_refl); try exact M.
    + apply Qclt_le_weak. eapply Qclt_le_trans; eassumption.
    + subst. apply Qcnot_lt_le, h.
Qed.
Lemma fold_max_ge : forall r a b, In b (a :: r) -> b <= fold_right (fun x m => if Qcltb m x then x else m) a r.
Proof.
  induction r as [|y r IH]; intros a b H; cbn [fold_right].
  - destruct H as [->|[]]. apply Qcle_refl.
  - set (m := fold_right _ a r) in *. assert (M : b <= m \/ y = b).
    { destruct H as [->|[->|H]]; [left; apply IH; left; reflexivity|right; reflexivity|left; apply IH; right; exact H]. }
    destruct (Qcltb_spec m y) as [h|h]; destruct M as [M|M]; try (subst; apply Qcle_refl); try exact M.
    + apply Qclt_le_weak. eapply Qcle_lt_trans; eassumption.
    + subst. apply Qcnot_lt_le, h.
Qed.

(** * C94 *)
Theorem C94_bspline_basis : forall degree x internal bnd rows,
  bspline_basis degree x internal bnd true = Some rows ->
  length rows = length x /\
  exists lo hi, lo < hi /\ boundary x bnd = Some (lo, hi) /\
  forall i, (i < length x)%nat ->
    length (nth i rows nil) = (degree + 1 + length internal)%nat /\
    qsum (nth i rows nil) = 1 /\
    (lo <= nth i x 0 -> nth i x 0 <= hi -> forall v, In v (nth i rows nil) -> 0 <= v /\ v <= 1).
Proof.
  intros degree x internal bnd rows H. unfold bspline_basis in H. destruct (bspline_knots degree x internal bnd) as [t|] eqn:K; [|discriminate].
  injection H as <-. split; [apply map_length|]. destruct (knots_good _ _ _ _ _ K) as [lo [hi [B [Gd ->]]]].
  exists lo, hi. split; [exact (proj1 Gd)|]. split; [exact B|]. intros i Hi.
  set (f := fun v => basis_row (knot_seq degree lo hi internal) degree v).
  change (map _ x) with (map f x). rewrite (nth_indep _ nil (f 0)) by (rewrite map_length; exact Hi). rewrite (map_nth f). unfold f.
  split; [|split].
  - rewrite (basis_row_length degree lo hi internal), (n_eq degree lo hi internal). lia.
  - apply (basis_row_sum degree lo hi internal Gd).
  - intros H1 H2 v Hv. assert (P : forall w, In w (basis_row (knot_seq degree lo hi internal) degree (nth i x 0)) -> 0 <= w)
      by (intros w; apply (basis_row_nonneg degree lo hi internal Gd); assumption).
    split; [apply P, Hv|]. rewrite <- (basis_row_sum degree lo hi internal Gd (nth i x 0)).
    revert v Hv. revert P. generalize (basis_row (knot_seq degree lo hi internal) degree (nth i x 0)).
    induction l as [|a l IH]; intros P v Hv; [destruct Hv|]. cbn [qsum fold_right]. fold (qsum l).
    assert (Pl : 0 <= qsum l). { clear - P. assert (P' : forall w, In w l -> 0 <= w) by (intros; apply P; right; assumption). clear P.
      induction l as [|b l IH]; cbn [qsum fold_right]; [apply Qcle_refl|]. fold (qsum l).
      assert (X := P' b (or_introl eq_refl)). assert (Y := IH (fun w h => P' w (or_intror h))). qclra. }
    destruct Hv as [->|Hv]; [qclra|]. assert (X := P a (or_introl eq_refl)). assert (Y := IH (fun w h => P w (or_intror h)) v Hv). qclra.
Qed.
Print Assumptions C94_bspline_basis.

(** With the default boundary (the range of the data) no point is outside. *)
Theorem C94_default_range : forall degree x internal rows,
  bspline_basis degree x internal None true = Some rows ->
  forall r v, In r rows -> In v r -> 0 <= v /\ v <= 1.
Proof.
  intros degree x internal rows H r v Hr Hv. destruct (C94_bspline_basis _ _ _ _ _ H) as [Hlen [lo [hi [_ [B C]]]]].
  apply In_nth with (d := nil) in Hr as [i [Hi Ei]]. rewrite Hlen in Hi. destruct (C i Hi) as [_ [_ D]]. rewrite Ei in D.
  assert (R : lo <= nth i x 0 /\ nth i x 0 <= hi).
  { assert (I := nth_In x 0 Hi). unfold boundary in B. destruct x as [|a x]; [cbn in Hi; lia|].
    destruct (Qceqb _ _); [discriminate|]. injection B as <- <-. split; [apply fold_min_le, I|apply fold_max_ge, I]. }
  apply (D (proj1 R) (proj2 R) v Hv).
Qed.
Print Assumptions C94_default_range.

(** The reduced basis is the complete one without its first column. *)
Theorem C94_reduced : forall degree x internal bnd,
  bspline_basis degree x internal bnd false = option_map (map (@tl Qc)) (bspline_basis degree x internal bnd true) /\
  bspline_derivative degree x internal bnd false = option_map (map (@tl Qc)) (bspline_derivative degree x internal bnd true).
Proof.
  intros. unfold bspline_basis, bspline_derivative. destruct (bspline_knots degree x internal bnd) as [t|]; [|split; reflexivity].
  split; [cbn [option_map]; rewrite map_map; reflexivity|]. destruct (_ && _); [reflexivity|]. cbn [option_map]. rewrite map_map. reflexivity.
Qed.
Print Assumptions C94_reduced.

(** It fails exactly when the boundary knots coincide (or there is no data) or an interior knot is not strictly inside. *)
Theorem C94_fails_iff : forall degree x internal bnd,
  bspline_basis degree x internal bnd true = None <->
  (match bnd with Some (a, b) => a = b | None => forall a b, In a x -> In b x -> a = b end)
  \/ exists lo hi a, boundary x bnd = Some (lo, hi) /\ In a internal /\ ~ (lo < a /\ a < hi).
Proof.
  intros degree x internal bnd.
  assert (HB : boundary x bnd = None <-> match bnd with Some (a, b) => a = b | None => forall a b, In a x -> In b x -> a = b end).
  { unfold boundary. destruct bnd as [[a b]|].
    - destruct (Qceqb_spec a b); split; intros; try congruence.
    - destruct x as [|a x]; [split; intros; [destruct H0|reflexivity]|].
      destruct (Qceqb_spec (qmin_l (a :: x)) (qmax_l (a :: x))) as [e|e]; split; intros H; try congruence; try reflexivity.
      + intros b c Hb Hc. unfold qmin_l, qmax_l in e.
        assert (A1 := fold_min_le x a b Hb). assert (A2 := fold_max_ge x a b Hb). assert (A3 := fold_min_le x a c Hc). assert (A4 := fold_max_ge x a c Hc).
        rewrite <- e in A2, A4. apply Qcle_antisym; eapply Qcle_trans; eassumption.
      + exfalso. apply e. unfold qmin_l, qmax_l. apply Qcle_antisym.
        * eapply Qcle_trans; [apply fold_min_le; left; reflexivity|apply fold_max_ge; left; reflexivity].
        * assert (I1 : In (fold_right (fun x m => if Qcltb m x then x else m) a x) (a :: x)).
          { clear. induction x as [|y x IH]; cbn [fold_right]; [left; reflexivity|]. destruct (Qcltb _ y); [right; left; reflexivity|].
            destruct IH as [<-|h]; [left; reflexivity|right; right; exact h]. }
          assert (I2 : In (fold_right (fun x m => if Qcltb x m then x else m) a x) (a :: x)).
          { clear. induction x as [|y x IH]; cbn [fold_right]; [left; reflexivity|]. destruct (Qcltb y _); [right; left; reflexivity|].
            destruct IH as [<-|h]; [left; reflexivity|right; right; exact h]. }
          rewrite (H _ _ I1 I2). apply Qcle_refl. }
  unfold bspline_basis, bspline_knots. rewrite <- HB. destruct (boundary x bnd) as [[lo hi]|] eqn:B.
  - destruct (forallb _ internal) eqn:F; split; intros H; try discriminate; try reflexivity.
    + exfalso. destruct H as [H|[lo' [hi' [a [E [Ha N]]]]]]; [discriminate|]. injection E as <- <-. rewrite forallb_forall in F. apply F in Ha.
      apply andb_prop in Ha as [A1 A2]. apply N. destruct (Qcltb_spec lo a); [|discriminate]. destruct (Qcltb_spec a hi); [auto|discriminate].
    + right. exists lo, hi. clear H B. induction internal as [|a l IH]; [discriminate|]. cbn in F. destruct (Qcltb lo a && Qcltb a hi) eqn:E.
      * destruct (IH F) as [b [B1 [B2 B3]]]. exists b. auto using in_cons.
      * exists a. split; [reflexivity|]. split; [left; reflexivity|]. intros [h1 h2]. destruct (Qcltb_spec lo a); [|contradiction].
        destruct (Qcltb_spec a hi); [discriminate|contradiction].
  - split; [intros _; left; reflexivity|reflexivity].
Qed.
Print Assumptions C94_fails_iff.

(** * C95 *)
(** Each column of the derivative matrix is the derivative of the corresponding column of the basis, so any combination of basis functions has
    the combination of derivative columns as derivative: at every point that is not an interior knot, and at the interior knots too when the
    degree is at least 2 and the knots are distinct. *)
Theorem C95_derivative : forall degree x internal bnd lo hi rows,
  boundary x bnd = Some (lo, hi) ->
  bspline_derivative degree x internal bnd true = Some rows ->
  length rows = length x /\
  forall i, (i < length x)%nat ->
  ~ In (nth i x 0) internal \/ ((2 <= degree)%nat /\ NoDup internal) ->
  forall c, length c = (degree + 1 + length internal)%nat ->
  derivative_at (fun v => dotl c (basis_at degree lo hi internal true v)) (nth i x 0) (dotl c (nth i rows nil)).
Proof.
  intros degree x internal bnd lo hi rows B H. destruct (deriv_at_eq _ _ _ _ _ _ _ _ B H) as [t [K [-> D]]].
  split; [apply map_length|]. intros i Hi Hx c Hc.
  destruct (knots_given degree lo hi internal 0 x bnd t B K) as [_ [-> Gd]].
  set (f := fun v => deriv_row (knot_seq degree lo hi internal) degree v).
  change (map _ x) with (map f x). rewrite (nth_indep _ nil (f 0)) by (rewrite map_length; exact Hi). rewrite (map_nth f). unfold f.
  assert (Hn : length c = n_basis (knot_seq degree lo hi internal) degree) by (rewrite (n_eq degree lo hi internal); lia).
  unfold derivative_at. apply (D_ext (fun e => spline (knot_seq degree lo hi internal) degree c (nth i x 0 + e))).
  { apply near0_all. intros e. unfold spline. rewrite (basis_at_eq _ _ _ _ _ _ _ _ true B K). reflexivity. }
  fold (derivative_at (spline (knot_seq degree lo hi internal) degree c) (nth i x 0) (dotl c (deriv_row (knot_seq degree lo hi internal) degree (nth i x 0)))).
  destruct (in_dec Qc_eq_dec (nth i x 0) internal) as [h|h]; [|apply deriv_off; assumption].
  destruct Hx as [Hx|[H2 ND]]; [contradiction|]. destruct degree as [|[|p]]; try lia. apply (deriv_knot _ _ _ _ Gd c _ p); auto.
Qed.
Print Assumptions C95_derivative.

(** * C96 *)
(** Every polynomial of degree at most [degree] is a combination of the basis functions (in and out of the boundary knots), with the same
    combination of derivative columns equal to its derivative; likewise for a constant plus the reduced basis. *)
Theorem C96_polynomials : forall degree x internal bnd lo hi rows a,
  boundary x bnd = Some (lo, hi) ->
  bspline_derivative degree x internal bnd true = Some rows ->
  (length a <= degree + 1)%nat ->
  exists c, length c = (degree + 1 + length internal)%nat /\
    (forall v, dotl c (basis_at degree lo hi internal true v) = poly a v) /\
    (forall v, dotl c (derivative_row_at degree lo hi internal true v) = poly' a v).
Proof.
  intros degree x internal bnd lo hi rows a B H Ha. destruct (deriv_at_eq _ _ _ _ _ _ _ _ B H) as [t [K [-> D]]].
  destruct (knots_given degree lo hi internal 0 x bnd t B K) as [_ [-> Gd]].
  exists (pcoefs degree lo hi internal a). split; [|split].
  - rewrite pcoefs_length, (n_eq degree lo hi internal). lia.
  - intros v. rewrite (basis_at_eq _ _ _ _ _ _ _ _ true B K). apply (pcoefs_ok degree lo hi internal Gd). lia.
  - intros v. rewrite (D v true). apply (pcoefs_deriv degree lo hi internal Gd). lia.
Qed.
Print Assumptions C96_polynomials.

Lemma dotl_shift (d : Qc) : forall c r, length c = length r -> dotl (map (fun b => b - d) c) r = dotl c r - d * qsum r.
Proof.
  unfold dotl. induction c as [|a c IH]; intros [|b r] E; cbn in E; try discriminate; cbn [map combine qsum fold_right fst snd]; [ring|].
  fold (qsum (map (fun p => fst p * snd p) (combine (map (fun b => b - d) c) r))). rewrite IH by lia. unfold qsum. ring.
Qed.
Lemma qsum_deriv degree lo hi internal v : good degree lo hi internal -> qsum (deriv_row (knot_seq degree lo hi internal) degree v) = 0.
Proof.
  intros Gd. assert (E := pcoefs_deriv degree lo hi internal Gd (1 :: nil) v ltac:(cbn; lia)).
  set (T := knot_seq degree lo hi internal) in *.
  transitivity (dotl (map (fun _ => 1) (pcoefs degree lo hi internal (1 :: nil))) (deriv_row T degree v)).
  { assert (L : length (pcoefs degree lo hi internal (1 :: nil)) = length (deriv_row T degree v)) by (rewrite pcoefs_length, deriv_row_length_any; reflexivity).
    revert L. generalize (pcoefs degree lo hi internal (1 :: nil)) (deriv_row T degree v). unfold dotl.
    induction l as [|a l IH]; intros [|b r] L; cbn in L; try discriminate; [reflexivity|]. cbn [map combine qsum fold_right fst snd].
    fold (qsum r) (qsum (map (fun p => fst p * snd p) (combine (map (fun _ => 1) l) r))). rewrite (IH r) by lia. ring. }
  assert (L1 : length (map (fun _ : Qc => 1) (pcoefs degree lo hi internal (1 :: nil))) = n_basis T degree) by (rewrite map_length; apply pcoefs_length).
  etransitivity; [exact (dspline_eq degree lo hi internal _ v L1)|].
  apply (D_unique (fun e => sumf (fun i => nth i (map (fun _ : Qc => 1) (pcoefs degree lo hi internal (1 :: nil))) 0 *
      bs (kn T) (itv degree lo hi internal v) degree i (v + e)) (seq 0 (n_basis T degree)))).
  - apply (piece_sum degree lo hi internal Gd).
  - apply (D_ext (fun _ => 1)); [|apply D_const]. apply near0_all. intros e. symmetry.
    destruct (itv_range degree lo hi internal v) as [A B'].
    transitivity (sumf (fun i => bs (kn T) (itv degree lo hi internal v) degree i (v + e)) (seq 0 (n_basis T degree))); [|apply (partition (kn T) (length T) (t_mono degree lo hi internal Gd)); auto].
    + apply sumf_ext. intros i Hi. apply in_seq in Hi. rewrite (nth_indep _ 0 ((fun _ : Qc => 1) 0)) by (rewrite L1; lia).
      rewrite (map_nth (fun _ : Qc => 1) _ 0). ring.
    + fold T in B'. unfold n_basis in *. lia.
    + apply (itv_lt degree lo hi internal Gd).
Qed.
Theorem C96_with_intercept : forall degree x internal bnd lo hi rows a,
  boundary x bnd = Some (lo, hi) ->
  bspline_derivative degree x internal bnd true = Some rows ->
  (length a <= degree + 1)%nat ->
  exists b0 b, length b = (degree + length internal)%nat /\
    (forall v, b0 + dotl b (basis_at degree lo hi internal false v) = poly a v) /\
    (forall v, dotl b (derivative_row_at degree lo hi internal false v) = poly' a v).
Proof.
  intros degree x internal bnd lo hi rows a B H Ha. destruct (C96_polynomials _ _ _ _ _ _ _ a B H Ha) as [c [Lc [Hc Hd]]].
  destruct (deriv_at_eq _ _ _ _ _ _ _ _ B H) as [t [K [-> D]]].
  destruct (knots_given degree lo hi internal 0 x bnd t B K) as [_ [-> Gd]].
  destruct c as [|c0 c]; [cbn in Lc; lia|]. exists c0, (map (fun b => b - c0) c). set (T := knot_seq degree lo hi internal) in *.
  assert (En := n_eq degree lo hi internal). fold T in En. cbn [length] in Lc. split; [rewrite map_length; lia|]. split; intros v.
  - rewrite <- Hc, !(basis_at_eq _ _ _ _ _ _ _ v _ B K). assert (S1 := basis_row_sum degree lo hi internal Gd v). fold T in S1.
    assert (L := basis_row_length degree lo hi internal v). fold T in L. rewrite En in L.
    destruct (basis_row T degree v) as [|r0 r]; [cbn in L; lia|]. cbn [tl length qsum fold_right] in *. fold (qsum r) in S1.
    rewrite dotl_shift by lia. unfold dotl. cbn [combine map qsum fold_right fst snd]. fold (qsum (map (fun p => fst p * snd p) (combine c r))).
    replace r0 with (1 - qsum r) by (rewrite <- S1; ring). ring.
  - rewrite <- Hd, !(D v). assert (S1 := qsum_deriv degree lo hi internal v Gd). fold T in S1.
    assert (L := deriv_row_length_any T degree v). rewrite En in L.
    destruct (deriv_row T degree v) as [|r0 r]; [cbn in L; lia|]. cbn [tl length qsum fold_right] in *. fold (qsum r) in S1.
    rewrite dotl_shift by lia. unfold dotl. cbn [combine map qsum fold_right fst snd]. fold (qsum (map (fun p => fst p * snd p) (combine c r))).
    replace r0 with (- qsum r) by (assert (X : r0 = r0 + qsum r - qsum r) by ring; rewrite S1 in X; rewrite X; ring). ring.
Qed.
Print Assumptions C96_with_intercept.

(** * Examples: a cubic basis with two interior knots on [1, 4] *)
Definition q (n : Z) (d : positive) : Qc := Q2Qc (n # d).
Definition ex_x : list Qc := q 1 1 :: q 3 2 :: q 2 1 :: q 5 2 :: q 3 1 :: q 4 1 :: nil.
Definition ex_kn : list Qc := q 3 1 :: q 2 1 :: nil.
Definition rows_eqb (a : option (list (list Qc))) (b : list (list Qc)) : bool :=
  match a with Some r => forallb (fun p => (length (fst p) =? length (snd p))%nat && forallb (fun z => Qceqb (fst z) (snd z)) (combine (fst p) (snd p))) (combine r b) && (length r =? length b)%nat | None => false end.
Example C94_example :
  rows_eqb (bspline_basis 3 ex_x ex_kn None true)
   ((1 :: 0 :: 0 :: 0 :: 0 :: 0 :: nil) :: (q 1 8 :: q 19 32 :: q 25 96 :: q 1 48 :: 0 :: 0 :: nil) :: (0 :: q 1 4 :: q 7 12 :: q 1 6 :: 0 :: 0 :: nil)
    :: (0 :: q 1 32 :: q 15 32 :: q 15 32 :: q 1 32 :: 0 :: nil) :: (0 :: 0 :: q 1 6 :: q 7 12 :: q 1 4 :: 0 :: nil) :: (0 :: 0 :: 0 :: 0 :: 0 :: 1 :: nil) :: nil) = true.
Proof. vm_compute. reflexivity. Qed.
(** The same points with the derivative; the fifth is an interior knot. *)
Example C95_example :
  rows_eqb (bspline_derivative 3 (q 3 2 :: q 3 1 :: nil) ex_kn (Some (q 1 1, q 4 1)) true)
   ((q (-3) 4 :: q (-3) 16 :: q 13 16 :: q 1 8 :: 0 :: 0 :: nil) :: (0 :: 0 :: q (-1) 2 :: q (-1) 4 :: q 3 4 :: 0 :: nil) :: nil) = true
  /\ NoDup ex_kn /\ In (nth 4 ex_x 0) ex_kn.
Proof.
  split; [vm_compute; reflexivity|]. split; [|left; reflexivity].
  repeat constructor; cbn; intuition; try discriminate.
Qed.
