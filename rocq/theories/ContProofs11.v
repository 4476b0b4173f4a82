(** Influence functions. *)
From Verif Require Import Base ListLib ReduceModel DrdidModel DrdidSpec SplineModel SplineSpec ContModel ContSpec ContProofs ContProofs2 ContProofs3 ContProofs4 ContProofs5 ContProofs6 ContProofs7 DrdidProofs.
From Coq Require Import Sorting.Sorted.

Lemma nth_map_seq (f : nat -> Qc) n j : (j < n)%nat -> nth j (map f (seq 0 n)) 0 = f j.
Proof. intros H. rewrite (nth_indep _ 0 (f 0%nat)) by (rewrite map_length, seq_length; lia). rewrite (map_nth f), seq_nth by lia. reflexivity. Qed.
(** Linear in the first vector. *)
Lemma dotk_vm_sum {A} k (f : A -> list Qc) B w l : (forall j, (j < k)%nat -> sumf (fun a => nth j (f a) 0) l = 0) -> sumf (fun a => dotk k (vm k (f a) B) w) l = 0.
Proof.
  intros H. unfold dotk. rewrite sumf_swap. apply sumf_zero. intros j Hj. apply in_seq in Hj.
  rewrite (sumf_ext _ (fun a => sumf (fun i => nth i (f a) 0 * mget B i j * nth j w 0) (seq 0 k))).
  2:{ intros a _. unfold vm. rewrite (nth_map_seq (fun j => sumf (fun i => nth i (f a) 0 * mget B i j) (seq 0 k))) by lia. rewrite <- sumf_mul_r. reflexivity. }
  rewrite sumf_swap. apply sumf_zero. intros i Hi. apply in_seq in Hi. rewrite (sumf_ext _ (fun a => nth i (f a) 0 * (mget B i j * nth j w 0))) by (intros; ring).
  rewrite sumf_mul_r, H by lia. ring.
Qed.
Lemma find_none_id (i : Z) : forall l : list (Z * Qc), (forall x, In x l -> fst x <> i) -> find (fun p => (fst p =? i)%Z) l = None.
Proof. induction l as [|x l IH]; intros H; [reflexivity|]. cbn [find]. destruct (Z.eqb_spec (fst x) i); [exfalso; apply (H x); [now left|exact e]|]. apply IH. intros; apply H; now right. Qed.
Lemma find_id (f : cunit -> Qc) u : forall l, NoDup (map k_id l) -> In u l -> find (fun p => (fst p =? k_id u)%Z) (map (fun v => (k_id v, f v)) l) = Some (k_id u, f u).
Proof.
  induction l as [|v l IH]; intros N H; [easy|]. cbn [map find fst]. destruct H as [->|H].
  - now rewrite Z.eqb_refl.
  - destruct (Z.eqb_spec (k_id v) (k_id u)) as [E|_]; [|apply IH; [now inversion N|exact H]]. exfalso. inversion N as [|a b N1 N2]. apply N1. rewrite E. now apply in_map.
Qed.
Lemma pos_of_in : forall l i, In i l -> exists j, pos_of i l = Some j /\ (j < length l)%nat.
Proof.
  induction l as [|a l IH]; intros i H; [easy|]. cbn [pos_of]. destruct (Nat.eqb_spec a i); [exists 0%nat; cbn; split; [reflexivity|lia]|].
  destruct H as [H|H]; [contradiction|]. destruct (IH i H) as [j [E L]]. exists (S j). rewrite E. cbn. split; [reflexivity|lia].
Qed.
Lemma pos_of_none : forall l i, ~ In i l -> pos_of i l = None.
Proof. induction l as [|a l IH]; intros i H; [reflexivity|]. cbn [pos_of]. destruct (Nat.eqb_spec a i); [exfalso; apply H; now left|]. rewrite IH by (intros I; apply H; now right). reflexivity. Qed.
(** Summing over the members of [l] by rank. *)
Lemma sum_ranks (X : nat -> Qc) : forall l, NoDup l -> sumf (fun i => match pos_of i l with Some j => X j | None => 0 end) l = sumf X (seq 0 (length l)).
Proof.
  intros l. revert X. induction l as [|a l IH]; intros X N; [reflexivity|]. cbn [length seq]. rewrite !sumf_cons. cbn [pos_of]. rewrite Nat.eqb_refl. f_equal.
  inversion N as [|x y N1 N2]. subst. rewrite <- seq_shift, sumf_map, <- (IH (fun j => X (S j)) N2). apply sumf_ext. intros i Hi. destruct (Nat.eqb_spec a i); [subst; contradiction|].
  destruct (pos_of i l); reflexivity.
Qed.
Lemma sum_pos (X : nat -> Qc) pos n : NoDup pos -> (forall i, In i pos -> (i < n)%nat) ->
  sumf (fun i => match pos_of i pos with Some j => X j | None => 0 end) (seq 0 n) = sumf X (seq 0 (length pos)).
Proof.
  intros N B. rewrite <- (sum_ranks X pos N). set (f := fun i => match pos_of i pos with Some j => X j | None => 0 end).
  rewrite (sumf_ext f (fun i => if existsb (Nat.eqb i) pos then f i else 0)).
  2:{ intros i _. destruct (existsb (Nat.eqb i) pos) eqn:E; [reflexivity|]. unfold f. rewrite pos_of_none; [reflexivity|]. intros I.
      assert (existsb (Nat.eqb i) pos = true) by (apply existsb_exists; exists i; split; [exact I|apply Nat.eqb_refl]). congruence. }
  rewrite (sumf_filter_ind (fun i => existsb (Nat.eqb i) pos) f). apply sumf_perm. apply NoDup_Permutation; [apply NoDup_filter, seq_NoDup|exact N|].
  intros i. rewrite filter_In, in_seq, existsb_exists. split.
  - intros [_ [j [Hj E]]]. apply Nat.eqb_eq in E. now subst.
  - intros Hi. split; [specialize (B i Hi); lia|]. exists i. split; [exact Hi|apply Nat.eqb_refl].
Qed.

Lemma combine_map_r {A B} (f : A -> B) l : combine l (map f l) = map (fun a => (a, f a)) l.
Proof. induction l as [|a l IH]; cbn; [reflexivity|]. now rewrite IH. Qed.
Section I.
  Context (orc : coracle) (o : copts) (T : nat) (us : list cunit) (Ok : panel_ok (co_ant o) T us) (V : co_univ o = false).
  Lemma ids_nodup : NoDup (map k_id us).
  Proof. destruct Ok as [_ [_ [_ [S _]]]]. clear -S. induction S as [|a l S IH F]; [constructor|]. constructor; [|exact IH]. intros I. rewrite Forall_forall in F. specialize (F a I). lia. Qed.
  Lemma cohort_nodup g : NoDup (map k_id (cohort us g)).
  Proof.
    assert (N := ids_nodup). clear -N. unfold cohort. induction us as [|u l IH]; [constructor|]. cbn [map filter] in *. inversion N as [|a b N1 N2]. subst.
    destruct (match k_g u with Some h => (h =? g)%Z | None => false end); [|now apply IH]. cbn [map]. constructor; [|now apply IH]. intros I. apply N1. apply in_map_iff in I. destruct I as [v [E Hv]]. apply filter_In in Hv. rewrite <- E. now apply in_map.
  Qed.
  Lemma rows_units : units (rows T us) = map k_id us.
  Proof. destruct Ok as [A [_ [B [C _]]]]. apply (units_rows 0 T us); [lia|exact C]. Qed.
  Let n := length (map k_id us).
  (** [psi] of the member [u] of the cohort. *)
  Definition psi (deg : nat) (t coef : list Qc) (bread : matrix) (tr : list (Z * Qc * Qc)) (u : Z * Qc * Qc) : Qc :=
    let k := length coef in
    let slope := fun v => dotk (k - 1) (drow t deg v) (tl coef) in
    slope (dose_of u) - mean (fun u => slope (dose_of u)) tr
    + dotk k (vm k (vscale (dy_of u - dotk k (brow t deg (dose_of u)) coef) (brow t deg (dose_of u))) bread) (0 :: vec_of (k - 1) (fun j => mean (fun u => nth j (drow t deg (dose_of u)) 0) tr)).
  Lemma map_treated {A} (F : Z * Qc * Qc -> A) g t : map F (treated o us g t) = map (fun v => F (as_unit o g t k_dose v)) (cohort us g).
  Proof. apply map_map. Qed.
  Lemma sumf_treated (F : Z * Qc * Qc -> Qc) g t : sumf F (treated o us g t) = sumf (fun v => F (as_unit o g t k_dose v)) (cohort us g).
  Proof. apply sumf_map. Qed.
  Lemma cell_inf knots dvals g t : In g (cohorts us) -> (2 <= t <= Z.of_nat T)%Z -> let c := process_cell orc o knots dvals (rows T us) t g in
    exists f : cunit -> Qc, inf_column n (map k_id us) c = map (fun u => if match k_g u with Some h => (h =? g)%Z | None => false end then f u else 0) us /\
      (lstsq_ok (co_lstsq orc) -> sumf f (cohort us g) = 0).
  Proof.
    intros Hg Ht c. unfold inf_column. destruct (pc_out c) as [| | |e] eqn:E.
    1-3: exists (fun _ => 0); split; [rewrite map_map; apply map_ext; intros u; destruct (match k_g u with Some h => (h =? g)%Z | None => false end); reflexivity|intros _; now apply sumf_zero].
    destruct (cell_est orc o T us Ok V g t Hg Ht knots dvals e E) as [kt [coef [bread [Tw [K [D [L [B ->]]]]]]]].
    set (f := fun u => qn n / qn (pc_n1 c) * psi (co_deg o) kt coef bread (treated o us g t) (as_unit o g t k_dose u)). exists f.
    assert (Ei : e_inf (est_of (co_deg o) kt dvals coef bread (treated o us g t) (compared o us g t)) = map (fun v => (k_id v, psi (co_deg o) kt coef bread (treated o us g t) (as_unit o g t k_dose v))) (cohort us g)).
    { unfold est_of. cbn [e_inf]. rewrite map_treated. apply map_ext. intros u. reflexivity. }
    rewrite Ei. split.
    - rewrite map_map. apply map_ext_in. intros u Hu. destruct (match k_g u with Some h => (h =? g)%Z | None => false end) eqn:M.
      + rewrite (find_id (fun v => psi (co_deg o) kt coef bread (treated o us g t) (as_unit o g t k_dose v)) u); [reflexivity|apply cohort_nodup|]. apply filter_In. auto.
      + rewrite find_none_id; [reflexivity|]. intros x Hx I. apply in_map_iff in Hx. destruct Hx as [v [<- Hv]]. cbn [fst] in I. apply filter_In in Hv. destruct Hv as [Hv Mv].
        assert (v = u). { assert (N := ids_nodup). clear -N Hv Hu I. induction us as [|a l IH]; [easy|]. cbn [map] in N. inversion N as [|x y N1 N2]. subst. destruct Hv as [->|Hv], Hu as [->|Hu]; auto.
          - exfalso. apply N1. rewrite I. now apply in_map.
          - exfalso. apply N1. rewrite <- I. now apply in_map. }
        subst v. congruence.
    - intros Lok. unfold f. rewrite sumf_mul_l.
      assert (Q : sumf (fun u => psi (co_deg o) kt coef bread (treated o us g t) (as_unit o g t k_dose u)) (cohort us g) = sumf (psi (co_deg o) kt coef bread (treated o us g t)) (treated o us g t)).
      { symmetry. apply sumf_treated. }
      rewrite Q. set (tr := treated o us g t) in *.
      assert (Tn : tr <> []). { apply two_doses_ne in Tw. rewrite <- (doses_eq o us g t) in Tw. fold tr in Tw. destruct tr; [easy|discriminate]. }
      unfold psi. cbv zeta. rewrite sumf_add, sumf_sub, sumf_const.
      rewrite (dotk_vm_sum (length coef) (fun u => vscale (dy_of u - dotk (length coef) (brow kt (co_deg o) (dose_of u)) coef) (brow kt (co_deg o) (dose_of u)))).
      + set (S0 := sumf _ tr). unfold mean. fold S0. assert (Q0 : qn (length tr) <> 0) by (apply qn_neq0; destruct tr; cbn; [easy|lia]).
        assert (Q1 : S0 - qn (length tr) * (S0 / qn (length tr)) + 0 = 0) by (field; exact Q0). rewrite Q1. ring.
      + intros j Hj. destruct (normal orc Lok (co_deg o) knots _ kt K tr Tn dy_of coef L) as [Lc N]. rewrite Lc in Hj. specialize (N j Hj). refine (eq_trans _ N). apply sumf_ext. intros u _. rewrite nth_vscale, Lc. ring.
  Qed.
  Context (Cne : cohorts us <> []).
  Definition cols : list (list Qc) := map (inf_column n (map k_id us)) (run_cells orc o T us).
  Lemma inf_run r : cont_did orc o (rows T us) = ContOk r ->
    r_att_inf r = map (fun i => sumf (fun p => nth i (snd p) 0 * fst p) (combine (map (wt T us) (pairs T us)) cols)) (seq 0 n) /\ r_acrt_inf r = r_att_inf r /\
    (run_grid o T us <> [] -> exists B B', r_att_d_inf r = map (fun i => map (fun b => dose_influence n true (combine (map (wt T us) (pairs T us)) (combine (run_cells orc o T us) cols)) (1 :: b) i) B) (seq 0 n) /\
       r_acrt_d_inf r = map (fun i => map (fun b => dose_influence n false (combine (map (wt T us) (pairs T us)) (combine (run_cells orc o T us) cols)) (0 :: b) i) B') (seq 0 n) /\
       length B = length (run_grid o T us) /\ length B' = length (run_grid o T us)) /\
    (run_grid o T us = [] -> r_att_d_inf r = [] /\ r_acrt_d_inf r = []).
  Proof.
    intros Run. destruct (run_inv orc o T us Ok V Cne r Run) as [_ [_ [_ [_ [_ [_ [_ H]]]]]]]. unfold process_dose in H. rewrite (pairs_eq orc o T us), (weights_eq o T us Ok Cne) in H.
    cbv zeta in H. rewrite rows_units in H. fold n in H. fold cols in H.
    destruct (run_grid o T us) as [|d0 dv] eqn:Eg.
    - injection H as <-. cbn. split; [reflexivity|]. split; [reflexivity|]. split; [easy|auto].
    - rewrite <- Eg in *. destruct (bspline_basis (co_deg o) (run_grid o T us) (run_knots o T us) None false) as [B|] eqn:EB; [|discriminate].
      destruct (bspline_derivative (co_deg o) (run_grid o T us) (run_knots o T us) None false) as [B'|] eqn:EB'; [|discriminate]. injection H as <-. cbn. split; [reflexivity|]. split; [reflexivity|].
      split; [|rewrite Eg; easy]. intros _. exists B, B'. split; [reflexivity|]. split; [reflexivity|].
      unfold bspline_basis in EB. unfold bspline_derivative in EB'. destruct (bspline_knots _ _ _ _); [|discriminate]. injection EB as <-. destruct (_ && _); [discriminate|]. injection EB' as <-. now rewrite !map_length.
  Qed.
  Lemma col_in c : In c cols -> exists g (f : cunit -> Qc), In g (cohorts us) /\ c = map (fun u => if match k_g u with Some h => (h =? g)%Z | None => false end then f u else 0) us /\
      (lstsq_ok (co_lstsq orc) -> sumf f (cohort us g) = 0).
  Proof.
    intros H. unfold cols in H. apply in_map_iff in H. destruct H as [x [<- H]]. apply (cell_in orc o T us Ok) in H. destruct H as [g [t [Hg [Ht ->]]]].
    destruct (cell_inf (run_knots o T us) (run_grid o T us) g t Hg Ht) as [f [E S]]. exists g, f. auto.
  Qed.
  Lemma sum_nth (l : list Qc) : sumf (fun i => nth i l 0) (seq 0 (length l)) = qsum l.
  Proof. induction l as [|a l IH]; [reflexivity|]. cbn [length seq]. rewrite sumf_cons, <- seq_shift, sumf_map. cbn [nth]. rewrite IH. reflexivity. Qed.
  Lemma never_zero c i u : In c cols -> nth_error us i = Some u -> k_g u = None -> nth i c 0 = 0.
  Proof.
    intros Hc Hu Nu. destruct (col_in c Hc) as [g [f [_ [-> _]]]]. set (F := fun u => if match k_g u with Some h => (h =? g)%Z | None => false end then f u else 0).
    assert (E : nth_error (map F us) i = Some (F u)) by (now apply map_nth_error). apply nth_error_nth with (d := 0) in E. rewrite E. unfold F. now rewrite Nu.
  Qed.
  Lemma col_length c : In c cols -> length c = n.
  Proof. intros H. destruct (col_in c H) as [g [f [_ [-> _]]]]. unfold n. now rewrite !map_length. Qed.
  Lemma col_sum c : lstsq_ok (co_lstsq orc) -> In c cols -> qsum c = 0.
  Proof.
    intros L H. destruct (col_in c H) as [g [f [_ [-> S]]]]. refine (eq_trans _ (S L)). change (qsum (map ?F us)) with (sumf F us). exact (sumf_filter_ind (fun u => match k_g u with Some h => (h =? g)%Z | None => false end) f us).
  Qed.
  Lemma inf_never r i u : cont_did orc o (rows T us) = ContOk r -> nth_error us i = Some u -> k_g u = None -> nth i (r_att_inf r) 0 = 0.
  Proof.
    intros Run Hu Nu. destruct (inf_run r Run) as [-> _]. assert (Hi : (i < n)%nat) by (unfold n; rewrite map_length; apply nth_error_Some; congruence).
    rewrite (nth_map_seq (fun i => sumf (fun p => nth i (snd p) 0 * fst p) (combine (map (wt T us) (pairs T us)) cols))) by exact Hi.
    apply sumf_zero. intros [w c] Hp. cbn [fst snd]. apply in_combine_r in Hp. rewrite (never_zero c i u Hp Hu Nu). ring.
  Qed.
  Lemma inf_sum r : lstsq_ok (co_lstsq orc) -> cont_did orc o (rows T us) = ContOk r -> qsum (r_att_inf r) = 0.
  Proof.
    intros L Run. destruct (inf_run r Run) as [-> _]. change (qsum (map ?F ?l)) with (sumf F l). rewrite sumf_swap. apply sumf_zero. intros [w c] Hp. cbn [fst snd]. apply in_combine_r in Hp.
    rewrite sumf_mul_r, <- (col_length c Hp), sum_nth, (col_sum c L Hp). ring.
  Qed.
  Lemma wcc_in x : In x (combine (map (wt T us) (pairs T us)) (combine (run_cells orc o T us) cols)) ->
    exists g t, In g (cohorts us) /\ (2 <= t <= Z.of_nat T)%Z /\ snd x = (process_cell orc o (run_knots o T us) (run_grid o T us) (rows T us) t g, inf_column n (map k_id us) (process_cell orc o (run_knots o T us) (run_grid o T us) (rows T us) t g)) /\ fst x = wt T us (g, t).
  Proof.
    rewrite <- (pairs_eq orc o T us), map_map. unfold cols. rewrite combine_map_r, combine_map. intros H. apply in_map_iff in H. destruct H as [c [<- Hc]]. apply (cell_in orc o T us Ok) in Hc. destruct Hc as [g [t [Hg [Ht ->]]]].
    exists g, t. auto.
  Qed.
  Definition brow_ (kt : list Qc) (u : Z * Qc * Qc) : list Qc := ContProofs2.brow kt (co_deg o) (dose_of u).
  (** Units of a cell. *)
  Lemma n1_pos knots dvals g t : In g (cohorts us) -> (2 <= t <= Z.of_nat T)%Z -> (0 < pc_n1 (process_cell orc o knots dvals (rows T us) t g))%nat.
  Proof.
    intros Hg Ht. cbn [process_cell pc_n1]. destruct (base_ok o T us Ok V g t Hg Ht) as [B1 B2].
    rewrite (subset_rows o T us Ok g t B1 B2 (proj2 Ht)). assert (Hc := cohort_pos o T us Ok g Hg). destruct (cohort us g) as [|u l] eqn:E; [cbn in Hc; discriminate Hc|].
    assert (Hu : In u (filter (in_gt o g t) us)).
    { assert (I : In u (cohort us g)) by (rewrite E; now left). apply filter_In in I. apply filter_In. split; [apply I|]. unfold in_gt. rewrite eqb_cohort. now rewrite (proj2 I). }
    assert (Hm : In (k_id u) (units (flat_map (fun u => [trow g u (base_of o g t); trow g u t]) (filter (in_gt o g t) us)))).
    { unfold units. apply zuniq_in. apply in_map_iff. exists (trow g u t). split; [reflexivity|]. apply in_flat_map. exists u. split; [exact Hu|]. right. now left. }
    destruct (units _); [easy|]. cbn. lia.
  Qed.
  Lemma di_never b x brow i u : In x (combine (map (wt T us) (pairs T us)) (combine (run_cells orc o T us) cols)) -> nth_error us i = Some u -> k_g u = None ->
    dose_influence n b [x] brow i = 0.
  Proof.
    intros Hx Hu Nu. destruct (wcc_in x Hx) as [g [t [Hg [Ht [E _]]]]]. unfold dose_influence. rewrite sumf_cons, sumf_nil. rewrite E. cbn [fst snd].
    set (c := process_cell _ _ _ _ _ _ _) in *. assert (Hc : In (inf_column n (map k_id us) c) cols).
    { unfold cols. apply in_map. apply (cell_in orc o T us Ok). exists g, t. auto. }
    assert (Zr := never_zero _ i u Hc Hu Nu). rewrite comp_part_self. destruct (pc_out c); try ring. destruct (Qceqb (fst x) 0 || _); [ring|].
    rewrite pos_of_none; [destruct b; ring|]. unfold nonzero_pos. rewrite filter_In. rewrite Zr. intros [_ F]. discriminate F.
  Qed.
  Lemma length_filter_nth (p : Qc -> bool) l : length (filter (fun i => p (nth i l 0)) (seq 0 (length l))) = length (filter p l).
  Proof.
    induction l as [|a l IH]; [reflexivity|]. cbn [length seq filter]. change (nth 0 (a :: l) 0) with a. rewrite <- seq_shift, filter_map_comm. cbn [nth].
    destruct (p a); cbn [length]; rewrite map_length, IH; reflexivity.
  Qed.
  Lemma di_sum b x brow : lstsq_ok (co_lstsq orc) -> In x (combine (map (wt T us) (pairs T us)) (combine (run_cells orc o T us) cols)) ->
    (forall e, (pc_g (fst (snd x)) <= pc_t (fst (snd x)))%Z -> pc_out (fst (snd x)) = CEst e -> forall y, In y (e_inf e) -> snd y <> 0) ->
    sumf (fun i => dose_influence n b [x] brow i) (seq 0 n) = 0.
  Proof.
    intros Lok Hx Nz. destruct (wcc_in x Hx) as [g [t [Hg [Ht [E Ew]]]]]. unfold dose_influence. rewrite E in *. cbn [fst snd] in *.
    set (c := process_cell orc o (run_knots o T us) (run_grid o T us) (rows T us) t g) in *. set (col := inf_column n (map k_id us) c) in *.
    destruct (Qceqb_spec (fst x) 0) as [W0|W0].
    { apply sumf_zero. intros i _. rewrite sumf_cons, sumf_nil, comp_part_self. destruct (Qceqb_spec (fst x) 0); [|contradiction]. cbn [orb]. rewrite E. cbn [fst snd]. destruct (pc_out c); ring. }
    assert (Post : (g <= t)%Z). { rewrite Ew in W0. unfold wt in W0. cbn [fst snd] in W0. destruct (Z.leb_spec g t); [assumption|now elim W0]. }
    destruct (pc_out c) as [| | |e] eqn:Ec.
    1-3: apply sumf_zero; intros i _; rewrite sumf_cons, sumf_nil, E; cbn [fst snd]; rewrite Ec; ring.
    assert (NzE := Nz e Post eq_refl). clear Nz.
    assert (Ec0 := Ec). destruct (cell_est orc o T us Ok V g t Hg Ht _ _ e Ec) as [kt [coef [bread [Tw [K [D [L [B Ee]]]]]]]].
    set (tr := treated o us g t) in *. set (ps := fun u => psi (co_deg o) kt coef bread tr (as_unit o g t k_dose u)).
    assert (Ei : e_inf e = map (fun v => (k_id v, ps v)) (cohort us g)).
    { rewrite Ee. unfold est_of. cbn [e_inf]. unfold tr at 3. rewrite map_treated. apply map_ext. intros u. reflexivity. }
    assert (Es : e_score e = map (fun u => vscale (dy_of u - dotk (length coef) (brow_ kt u) coef) (brow_ kt u)) tr) by (rewrite Ee; reflexivity).
    assert (Tn : tr <> []). { apply two_doses_ne in Tw. rewrite <- (doses_eq o us g t) in Tw. fold tr in Tw. destruct tr; [easy|discriminate]. }
    assert (Lcol : col = map (fun u => if match k_g u with Some h => (h =? g)%Z | None => false end then qn n / qn (pc_n1 c) * ps u else 0) us).
    { unfold col, inf_column. rewrite Ec, Ei. rewrite map_map. apply map_ext_in. intros u Hu. destruct (match k_g u with Some h => (h =? g)%Z | None => false end) eqn:M.
      + rewrite (find_id ps u); [reflexivity|apply cohort_nodup|]. apply filter_In. auto.
      + rewrite find_none_id; [reflexivity|]. intros y Hy I. apply in_map_iff in Hy. destruct Hy as [v [<- Hv]]. cbn [fst] in I. apply filter_In in Hv. destruct Hv as [Hv Mv].
        assert (v = u). { assert (N := ids_nodup). clear -N Hv Hu I. induction us as [|a l IH]; [easy|]. cbn [map] in N. inversion N as [|x y N1 N2]. subst. destruct Hv as [->|Hv], Hu as [->|Hu]; auto.
          - exfalso. apply N1. rewrite I. now apply in_map.
          - exfalso. apply N1. rewrite <- I. now apply in_map. }
        subst v. congruence. }
    assert (Lc : length col = n) by (rewrite Lcol; unfold n; now rewrite !map_length).
    assert (Lp : length (nonzero_pos col) = length tr).
    { unfold nonzero_pos. rewrite (length_filter_nth (fun v => negb (Qceqb v 0))). unfold tr, treated. rewrite map_length. rewrite Lcol, filter_map_comm, map_length. unfold cohort. f_equal. apply filter_ext_in'. intros u Hu.
      destruct (match k_g u with Some h => (h =? g)%Z | None => false end) eqn:M; [|destruct (Qceqb_spec 0 0); [reflexivity|contradiction]].
      destruct (Qceqb_spec (qn n / qn (pc_n1 c) * ps u) 0) as [Q|]; [|reflexivity]. exfalso. assert (Hn1 := n1_pos (run_knots o T us) (run_grid o T us) g t Hg Ht). fold c in Hn1.
      assert (Hps : ps u <> 0). { apply (NzE (k_id u, ps u)). rewrite Ei. apply (in_map (fun v => (k_id v, ps v))). apply filter_In. auto. }
      assert (Hn : qn n <> 0). { apply qn_neq0. unfold n. rewrite map_length. destruct Ok as [_ [_ [Ne _]]]. clear -Ne. destruct us as [|? ?]; [now elim Ne|cbn; lia]. }
      assert (Q1 : qn (pc_n1 c) <> 0) by (apply qn_neq0; lia).
      apply Hps. apply (Qcmult_cancel_l (qn n / qn (pc_n1 c))); [|rewrite Q; ring]. intros Z0. apply Hn. replace (qn n) with (qn n / qn (pc_n1 c) * qn (pc_n1 c)) by (field; exact Q1). rewrite Z0. ring. }
    assert (Nd : NoDup (nonzero_pos col)) by (apply NoDup_filter, seq_NoDup).
    assert (Bd : forall i, In i (nonzero_pos col) -> (i < n)%nat). { intros i Hi. apply filter_In in Hi. destruct Hi as [Hi _]. apply in_seq in Hi. lia. }
    set (X := fun j => fst x * (qn n / qn (length (nonzero_pos col))) * dotk (length (e_coef e)) (vm (length (e_coef e)) (nth j (e_score e) []) (e_bread e)) brow).
    rewrite (sumf_ext _ (fun i => match pos_of i (nonzero_pos col) with Some j => X j | None => 0 end)).
    2:{ intros i _. rewrite sumf_cons, sumf_nil, E. cbn [fst snd]. fold col. rewrite Ec, comp_part_self. destruct (Qceqb_spec (fst x) 0); [contradiction|]. cbn [orb]. rewrite Lp.
        destruct (Nat.eqb_spec (length tr) 0) as [Z0|_]; [destruct tr; [easy|discriminate]|]. destruct (pos_of i (nonzero_pos col)) as [j|] eqn:P; [|destruct b; ring].
        assert (Lj : (j < length (e_score e))%nat).
        { rewrite Es, map_length, <- Lp. destruct (in_dec Nat.eq_dec i (nonzero_pos col)) as [I|I]; [|rewrite pos_of_none in P by exact I; discriminate].
          destruct (pos_of_in _ _ I) as [j' [P' Lj']]. congruence. }
        destruct (Nat.ltb_spec j (length (e_score e))); [|lia]. unfold X. rewrite Lp. destruct b; ring. }
    rewrite (sum_pos X (nonzero_pos col) n Nd Bd), Lp. unfold X. rewrite sumf_mul_l.
    assert (Q : sumf (fun j => dotk (length (e_coef e)) (vm (length (e_coef e)) (nth j (e_score e) []) (e_bread e)) brow) (seq 0 (length tr))
      = sumf (fun s => dotk (length (e_coef e)) (vm (length (e_coef e)) s (e_bread e)) brow) (e_score e)).
    { assert (Ls : length tr = length (e_score e)) by (rewrite Es; now rewrite map_length). rewrite Ls. generalize (e_score e). intros sc0. clear. induction sc0 as [|s l IH]; [reflexivity|].
      cbn [length seq]. rewrite !sumf_cons, <- seq_shift, sumf_map. cbn [nth]. now rewrite IH. }
    rewrite Q, Es, sumf_map. replace (e_coef e) with coef by (rewrite Ee; reflexivity).
    rewrite (dotk_vm_sum (length coef) (fun u => vscale (dy_of u - dotk (length coef) (brow_ kt u) coef) (brow_ kt u))); [ring|].
    intros j Hj. destruct (normal orc Lok (co_deg o) _ _ kt K tr Tn dy_of coef L) as [Lq N]. rewrite Lq in Hj. specialize (N j Hj). refine (eq_trans _ N). apply sumf_ext. intros u _. rewrite nth_vscale, Lq. unfold brow_. ring.
  Qed.
End I.
