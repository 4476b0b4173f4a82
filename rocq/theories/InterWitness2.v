(** did_multiplegt: executable checks of the hypotheses of the standard-error statements, and concrete panels (no property content). *)
From Verif Require Import Base ListLib PreprocessModel Witness InterModel InterSpec InterProofs1 InterProofs4 InterWitness.

Definition one_experimentb (c : icfg) (rows : list irow) (placebo : bool) (h f : Z) (u : list irow) : bool :=
  (2 <=? f)%Z
  && forallb (fun r => forallb (fun r' => same_baseline rows r r') u) u
  && forallb (fun r => grp_eqb (switch_date rows (i_g r)) (Fin f) || grp_eqb (switch_date rows (i_g r)) Inf) u
  && forallb (fun r => forallb (fun r' => negb (grp_eqb (switch_date rows (i_g r)) (Fin f) && grp_eqb (switch_date rows (i_g r')) (Fin f))
                                          || oq_eqb (d_at rows (i_g r) f) (d_at rows (i_g r') f)) u) u
  && forallb (fun r => existsb (fun r' => (i_g r' =? i_g r)%Z && (i_t r' =? f - 1 + h)%Z && is_some (i_y r') && is_some (h_change u placebo h r')) u) u.
Lemma one_experimentb_ok c rows placebo h f : one_experimentb c rows placebo h f (used rows c) = true -> one_experiment c rows placebo h f.
Proof.
  unfold one_experimentb, one_experiment. cbv zeta. generalize (used rows c). intros u.
  rewrite !andb_true_iff, !forallb_forall. intros ((((h1 & h2) & h3) & h4) & h5). split; [now apply Z.leb_le|]. split.
  { intros r r' Hr Hr'. specialize (h2 r Hr). rewrite forallb_forall in h2. auto. }
  split.
  { intros r Hr. specialize (h3 r Hr). apply orb_true_iff in h3 as [e|e]; apply grp_eqb_iff in e; auto. }
  split.
  { intros r r' Hr Hr' e e'. specialize (h4 r Hr). rewrite forallb_forall in h4. specialize (h4 r' Hr'). rewrite e, e' in h4.
    rewrite (proj2 (grp_eqb_iff (Fin f) (Fin f)) eq_refl) in h4. cbn in h4. now destruct (oq_eqb_spec (d_at rows (i_g r) f) (d_at rows (i_g r') f)). }
  intros r Hr. specialize (h5 r Hr). apply existsb_exists in h5 as (r' & q & q'). exists r'. rewrite !andb_true_iff, !Z.eqb_eq in q'. intuition.
Qed.
Definition clusters_okb (c : icfg) (rows : list irow) (h f : Z) (u : list irow) : bool :=
  forallb (fun r => is_some (i_cl r)) u
  && forallb (fun r => forallb (fun r' => negb (i_g r =? i_g r')%Z || oz_eqb (i_cl r) (i_cl r')) u) u
  && forallb (fun r => forallb (fun r' => existsb (fun x => (i_t x <? i_t r')%Z) u || existsb (fun r0 => (i_g r0 =? i_g r)%Z && (i_t r0 =? i_t r')%Z) u) u) u
  && forallb (fun g => let a := filter (fun r => (i_t r =? f - 1 + h)%Z && grp_eqb (switch_date rows (i_g r)) g) u in
                       existsb (fun r => existsb (fun r' => negb (oz_eqb (i_cl r) (i_cl r'))) a) a) [Fin f; Inf].
Lemma clusters_okb_ok c rows h f : clusters_okb c rows h f (used rows c) = true -> clusters_ok c rows h f.
Proof.
  unfold clusters_okb, clusters_ok, arm. cbv zeta. generalize (used rows c). intros u. rewrite !andb_true_iff, !forallb_forall. intros (((h1 & h2) & h3) & h4).
  split; [exact h1|]. split.
  { intros r r' Hr Hr' e. specialize (h2 r Hr). rewrite forallb_forall in h2. specialize (h2 r' Hr'). rewrite e, Z.eqb_refl in h2. cbn in h2.
    now destruct (oz_eqb_spec (i_cl r) (i_cl r')). }
  split.
  { intros r r' Hr Hr' Hm. specialize (h3 r Hr). rewrite forallb_forall in h3. specialize (h3 r' Hr'). apply orb_true_iff in h3 as [e|e].
    - apply existsb_exists in e as (x & q & q'). apply Z.ltb_lt in q'. specialize (Hm x q). lia.
    - apply existsb_exists in e as (x & q & q'). apply andb_true_iff in q' as [q1 q2]. apply Z.eqb_eq in q1, q2. eauto. }
  intros g Hg. specialize (h4 g). cbn [In] in h4. specialize (h4 ltac:(destruct Hg; auto)). cbv zeta in h4. apply existsb_exists in h4 as (r & q & q'). apply existsb_exists in q' as (r' & w & w').
  exists r, r'. split; [exact q|]. split; [exact w|]. apply negb_true_iff in w'. now destruct (oz_eqb_spec (i_cl r) (i_cl r')).
Qed.

(** two units switch in period 3, three never; period 3 and 4 outcomes differ within the arms *)
Definition exp5 : list irow :=
  [mk 1 1 0 0; mk 1 2 1 0; mk 1 3 7 1; mk 1 4 9 1; mk 2 1 0 0; mk 2 2 1 0; mk 2 3 4 1; mk 2 4 8 1;
   mk 3 1 1 0; mk 3 2 1 0; mk 3 3 2 0; mk 3 4 3 0; mk 4 1 4 0; mk 4 2 1 0; mk 4 3 5 0; mk 4 4 3 0; mk 5 1 0 0; mk 5 2 2 0; mk 5 3 4 0; mk 5 4 3 0]%Z.
(** clusters {1,3}, {2,4}, {5} *)
Definition exp5_cl : list irow :=
  map (fun r => mkr (i_g r) (i_t r) (i_y r) (i_d r) (i_w r) (Some (match i_g r with 1 | 3 => 10 | 2 | 4 => 20 | _ => 30 end)%Z)) exp5.
Definition clless : icfg :=
  {| ic_weighted := false; ic_dir := AnySw; ic_only_never := false; ic_same := false; ic_same_pl := false; ic_norm := false; ic_keep_bi := false;
     ic_drop_missing := false; ic_trends_lin := false; ic_cluster := true; ic_less := true; ic_effects := 2; ic_placebo := 1 |}.
