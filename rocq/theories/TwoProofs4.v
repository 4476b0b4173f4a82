(** Proofs: units not observed once per period play no role. *)
From Verif Require Import Base ListLib DrdidModel DrdidSpec DrdidProofs2 RcModel TwoModel TwoSpec TwoProofs TwoProofs2 TwoProofs3.

Section Drop.
Context (lo hi : Z) (L : (lo < hi)%Z) (l : list traw).
Let lc := filter (is_observed lo hi l) l.
Lemma rows_id i r : In r (rows_of i l) <-> In r l /\ t_id r = Some i.
Proof.
  unfold rows_of. rewrite filter_In. destruct (t_id r) as [j|]; [rewrite Z.eqb_eq|]; (split; intros [H E]; (split; [exact H|])); congruence.
Qed.
Lemma obs_iff r i : t_id r = Some i -> (is_observed lo hi l r = true <-> exists a b, observed lo hi l i a b).
Proof.
  intros E. unfold is_observed. rewrite E, !andb_true_iff, Nat.eqb_eq, !existsb_exists. split.
  - intros [[C [a [Ha Ta]]] [b [Hb Tb]]]. destruct (t_t a) as [ta|] eqn:Ea; [|discriminate]. destruct (t_t b) as [tb|] eqn:Eb; [|discriminate]. apply Z.eqb_eq in Ta, Tb. subst ta tb. exists a, b. split; [|split; assumption].
    assert (a <> b) by (intros ->; rewrite Ea in Eb; injection Eb; lia).
    destruct (rows_of i l) as [|x [|y [|z s]]]; try discriminate C. destruct Ha as [->|[->|[]]], Hb as [->|[->|[]]]; try congruence; [reflexivity|apply perm_swap].
  - intros [a [b [P [Ta Tb]]]]. split; [split; [rewrite (Permutation_length P); reflexivity|]|].
    + exists a. split; [eapply Permutation_in; [symmetry; exact P|left; reflexivity]|rewrite Ta; apply Z.eqb_refl].
    + exists b. split; [eapply Permutation_in; [symmetry; exact P|right; left; reflexivity]|rewrite Tb; apply Z.eqb_refl].
Qed.
Lemma rows_lc i : (exists a b, observed lo hi l i a b) -> rows_of i lc = rows_of i l.
Proof.
  intros H. unfold lc, rows_of at 1. assert (X : forall M, filter (fun r => match t_id r with Some j => (j =? i)%Z | None => false end) (filter (is_observed lo hi l) M) = rows_of i M).
  { induction M as [|r M IH]; [reflexivity|]. cbn. destruct (t_id r) as [j|] eqn:E.
    - destruct (j =? i)%Z eqn:J.
      + apply Z.eqb_eq in J. subst j. rewrite (proj2 (obs_iff r i E) H). cbn. rewrite E, Z.eqb_refl. f_equal. exact IH.
      + destruct (is_observed lo hi l r); cbn; [rewrite E, J|]; exact IH.
    - destruct (is_observed lo hi l r); cbn; [rewrite E|]; exact IH. }
  apply X.
Qed.
Lemma observed_lc i a b : observed lo hi lc i a b <-> observed lo hi l i a b.
Proof.
  split; intros O.
  - assert (H : exists a b, observed lo hi l i a b).
    { destruct O as [P _]. assert (I : In a (rows_of i lc)) by (eapply Permutation_in; [symmetry; exact P|left; reflexivity]). unfold rows_of in I. apply filter_In in I. destruct I as [I E]. apply filter_In in I. destruct I as [_ I].
      destruct (t_id a) as [j|] eqn:T; [|discriminate]. apply Z.eqb_eq in E. subst j. apply (obs_iff a i T). exact I. }
    destruct O as [P T]. split; [|exact T]. rewrite <- (rows_lc i H). exact P.
  - destruct O as [P T] eqn:EO. split; [|exact T]. rewrite (rows_lc i); [exact P|]. exists a, b. exact O.
Qed.
Lemma in_lc r : In r lc -> In r l. Proof. intros H. apply filter_In in H. tauto. Qed.
Lemma drop_incomplete wn us : two_periods lo hi l -> (forall r, In r l -> 0 <= weight_of wn r) -> two_treatments lc -> mean (weight_of wn) lc <> 0 ->
  preprocess_panel wn l = PData us -> exists c, 0 < c /\ preprocess_panel wn lc = PData (map (scale_w c) us).
Proof.
  intros TP NN TT MC E. apply panel_data in E. destruct E as [[CP [_ [_ [CO _]]]] [MZ [[lo' [hi' [TP' [_ [_ W]]]]] [lo2 [hi2 [TP2 [S I]]]]]]].
  destruct (two_periods_unique l _ _ _ _ TP TP') as [<- <-]. destruct (two_periods_unique l _ _ _ _ TP TP2) as [<- <-].
  assert (EX : exists i a b, observed lo hi l i a b /\ In a lc /\ In b lc /\ t_id a = Some i /\ t_id b = Some i).
  { destruct TT as [_ [[r [Hr _]] _]]. pose proof Hr as Hr'. apply filter_In in Hr. destruct Hr as [Hr O]. destruct (t_id r) as [i|] eqn:T; [|unfold is_observed in O; rewrite T in O; discriminate]. apply (obs_iff r i T) in O. destruct O as [a [b O]]. exists i, a, b. split; [exact O|].
    assert (Ia : In a (rows_of i lc)) by (rewrite rows_lc by (exists a, b; exact O); destruct O as [P _]; eapply Permutation_in; [symmetry; exact P|left; reflexivity]).
    assert (Ib : In b (rows_of i lc)) by (rewrite rows_lc by (exists a, b; exact O); destruct O as [P _]; eapply Permutation_in; [symmetry; exact P|right; left; reflexivity]).
    unfold rows_of in Ia, Ib. apply filter_In in Ia, Ib. destruct Ia as [Ia Ea]. destruct Ib as [Ib Eb]. destruct (t_id a) as [j|]; [|discriminate]. destruct (t_id b) as [k|]; [|discriminate]. apply Z.eqb_eq in Ea, Eb. subst. tauto. }
  destruct EX as [i0 [a0 [b0 [O0 [Ia0 [Ib0 [Ja0 Jb0]]]]]]]. pose proof O0 as [P0 [Ta0 Tb0]].
  assert (R0 : length (rows_of i0 lc) = 2%nat) by (rewrite (rows_lc i0) by (exists a0, b0; exact O0); rewrite (Permutation_length P0); reflexivity).
  assert (TPc : two_periods lo hi lc). { split; [exact L|]. split; [intros r Hr; apply TP, in_lc, Hr|]. split; [exists a0|exists b0]; tauto. }
  set (m := mean (weight_of wn) l) in *. set (mc := mean (weight_of wn) lc) in *.
  assert (Pm : 0 < m /\ 0 < mc).
  { assert (A : forall M, (forall r, In r M -> 0 <= weight_of wn r) -> mean (weight_of wn) M <> 0 -> 0 < mean (weight_of wn) M).
    { intros M HM HZ. pose proof (mean_nonneg _ M HM) as G.
      apply Qcle_lt_or_eq in G. destruct G as [G|G]; [exact G|]. exfalso. apply HZ. symmetry. exact G. }
    split; [apply A; [exact NN|exact MZ]|apply A; [intros r Hr; apply NN, in_lc, Hr|exact MC]]. }
  destruct Pm as [Pm Pmc]. exists (m / mc). split; [apply Qcdiv_pos; assumption|]. apply data_panel; [| |exists lo, hi|exists lo, hi].
  - split; [intros r Hr; apply CP, in_lc, Hr|]. split; [exists lo, hi; exact TPc|]. split; [exact TT|]. split; [intros x y Hx Hy; apply CO; apply in_lc; assumption|].
    exists a0, i0. rewrite R0. repeat split; [exact Ia0|exact Ja0|discriminate].
  - exact MC.
  - split; [exact TPc|]. split; [exists a0, i0; tauto|]. split; [exists b0, i0; tauto|]. intros i x y O. apply observed_lc in O. exact (W i x y O).
  - split; [exact TPc|]. split.
    + clear - S. induction S as [|u r S IH F]; cbn; constructor; [exact IH|]. rewrite Forall_forall in *. intros v Hv. apply in_map_iff in Hv. destruct Hv as [v0 [<- Hv]]. exact (F v0 Hv).
    + intros u. fold mc. rewrite in_map_iff. split.
      * intros [v [<- Hv]]. apply I in Hv. destruct Hv as [x [y [O [R1 [R2 [R3 [R4 R5]]]]]]]. exists x, y. split; [apply observed_lc; exact O|]. unfold reads, scale_w. cbn. rewrite R5. fold m. repeat split; try assumption. field. split; [exact MC|exact MZ].
      * intros [x [y [O [R1 [R2 [R3 [R4 R5]]]]]]]. exists (scale_w (mc / m) u). split.
        -- unfold scale_w, set_w. cbn. destruct u as [i d y1 y0 w xx]. cbn. f_equal. field. split; [exact MZ|exact MC].
        -- apply I. exists x, y. split; [apply observed_lc in O; exact O|]. unfold reads, scale_w. cbn. rewrite R5. fold m. repeat split; try assumption. field. split; [exact MZ|exact MC].
Qed.
End Drop.
