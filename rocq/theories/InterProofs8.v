(** did_multiplegt: the preprocessing only looks at whether an outcome is observed. *)
From Verif Require Import Base ListLib PreprocessModel InterModel InterSpec InterProofs1 InterProofs2 InterProofs3 InterProofs4 InterProofs5.

Lemma find_map_swap {A B} (f : A -> B) (p : B -> bool) l : find p (map f l) = option_map f (find (fun a => p (f a)) l).
Proof. induction l as [|a l IH]; cbn; [reflexivity|]. destruct (p (f a)); [reflexivity|exact IH]. Qed.
Lemma find_ext' {A} (p q : A -> bool) l : (forall a, p a = q a) -> find p l = find q l.
Proof. intros H. induction l as [|a l IH]; cbn; [reflexivity|]. now rewrite H, IH. Qed.
Lemma flat_map_map {A B C} (f : A -> B) (g : B -> list C) l : flat_map g (map f l) = flat_map (fun a => g (f a)) l.
Proof. induction l as [|a l IH]; cbn; [reflexivity|]. now rewrite IH. Qed.
Lemma isort_map {A B} (f : A -> B) (le : B -> B -> bool) l : isort le (map f l) = map f (isort (fun a b => le (f a) (f b)) l).
Proof.
  induction l as [|a l IH]; [reflexivity|]. change (insert le (f a) (isort le (map f l)) = map f (insert (fun a b => le (f a) (f b)) a (isort (fun a b => le (f a) (f b)) l))).
  rewrite IH. generalize (isort (fun a b => le (f a) (f b)) l). intros m.
  induction m as [|b m IHm]; cbn; [reflexivity|]. destruct (le (f a) (f b)); cbn; [reflexivity|]. now rewrite IHm.
Qed.
Lemma sort_gt_map {A B} (f : A -> B) gk tk gk' tk' l : (forall a, gk (f a) = gk' a) -> (forall a, tk (f a) = tk' a) ->
  sort_gt gk tk (map f l) = map f (sort_gt gk' tk' l).
Proof.
  intros Hg Ht. unfold sort_gt. rewrite isort_map. f_equal. 
  assert (E : forall le le' : A -> A -> bool, (forall a b, le a b = le' a b) -> forall m, isort le m = isort le' m).
  { intros le le' He m. induction m as [|a m IH]; [reflexivity|]. change (insert le a (isort le m) = insert le' a (isort le' m)). rewrite IH. generalize (isort le' m). intros n.
    induction n as [|b n IHn]; cbn; [reflexivity|]. rewrite He, IHn. reflexivity. }
  apply E. intros a b. now rewrite !Hg, !Ht.
Qed.
Definition hmap {A B} (f : A -> B) (a : A * list A) : B * list B := (f (fst a), map f (snd a)).
Lemma with_hist_map {A B} (f : A -> B) (un : B -> Z) (un' : A -> Z) l : (forall a, un (f a) = un' a) ->
  forall seen, with_hist un (map f seen) (map f l) = map (hmap f) (with_hist un' seen l).
Proof.
  intros Hu. induction l as [|r l IH]; intros seen; cbn; [reflexivity|]. unfold hmap at 1. cbn. f_equal.
  - f_equal. rewrite filter_map_swap. f_equal. apply filter_ext. intros s. now rewrite !Hu.
  - rewrite <- IH. reflexivity.
Qed.
Lemma lag_row_map {A B} (f : A -> B) k hist : lag_row k (map f hist) = option_map f (lag_row k hist).
Proof. unfold lag_row. now rewrite nth_error_map. Qed.

Section Nat.
  Context (c : icfg) (f : irow -> irow).
  (** only the outcome changes, not whether it is observed *)
  Definition outcome_only : Prop :=
    (forall r, i_g (f r) = i_g r /\ i_t (f r) = i_t r /\ i_d (f r) = i_d r /\ i_w (f r) = i_w r /\ i_cl (f r) = i_cl r /\ i_tr (f r) = i_tr r
      /\ is_some (i_y (f r)) = is_some (i_y r)).
  Context (Hf : outcome_only).
  Lemma f_g r : i_g (f r) = i_g r. Proof. apply Hf. Qed.
  Lemma f_t r : i_t (f r) = i_t r. Proof. apply Hf. Qed.
  Lemma f_d r : i_d (f r) = i_d r. Proof. apply Hf. Qed.
  Lemma f_tr r : i_tr (f r) = i_tr r. Proof. apply Hf. Qed.
  Lemma f_cl r : i_cl (f r) = i_cl r. Proof. apply Hf. Qed.
  Lemma f_y r : is_some (i_y (f r)) = is_some (i_y r). Proof. apply Hf. Qed.
  Lemma f_w r : gt_weight c (f r) = gt_weight c r.
  Proof. unfold gt_weight. destruct (Hf r) as (_ & _ & -> & -> & _ & _ & ->). reflexivity. Qed.
  Lemma f_blank g t : f (blank g t) = blank g t.
  Proof.
    destruct (Hf (blank g t)) as (h1 & h2 & h3 & h4 & h5 & h6 & h7). destruct (f (blank g t)) as [g' t' y d w cl tr]. cbn in *. subst.
    destruct y; [discriminate|]. reflexivity.
  Qed.
  Definition sf (s : srow) : srow := {| s_row := f (s_row s); s_F := s_F s; s_dsq := s_dsq s; s_dfg := s_dfg s; s_S := s_S s; s_L := s_L s |}.
  Definition pf (p : prow) : prow := {| p_s := sf (p_s p); p_w := p_w p; p_first := p_first p; p_T := p_T p |}.

  Lemma nat_missing rows : drop_missing_units (map f rows) = map f (drop_missing_units rows).
  Proof.
    unfold drop_missing_units. rewrite filter_map_swap. f_equal. apply filter_ext. intros r. rewrite !existsb_map_swap.
    f_equal; apply existsb_ext_in; intros s _; unfold of_unit; now rewrite ?f_g, ?f_d, ?f_y.
  Qed.
  Notation ha := (hmap f).
  Lemma nat_d_diff a : d_diff (ha a) = d_diff a.
  Proof. unfold d_diff, hmap. cbn [fst snd]. rewrite lag_row_map. destruct (lag_row 1 (snd a)); cbn [option_map]; [|reflexivity]. now rewrite !f_d. Qed.
  Lemma nat_switches a : switches (ha a) = switches a. Proof. unfold switches. now rewrite nat_d_diff. Qed.
  Lemma nat_first l g : first_switch (map ha l) g = first_switch l g.
  Proof.
    unfold first_switch. rewrite filter_map_swap, map_map.
    rewrite (filter_ext _ (fun a => of_unit g (fst a) && switches a)).
    - erewrite map_ext; [reflexivity|]. intros a. apply f_t.
    - intros a. rewrite nat_switches. unfold of_unit. cbn. now rewrite f_g.
  Qed.
  Lemma nat_base l g : base_treat (map f l) g = base_treat l g.
  Proof.
    unfold base_treat. rewrite filter_map_swap, map_map.
    rewrite (filter_ext _ (of_unit g)) by (intros r; unfold of_unit; now rewrite f_g).
    rewrite (map_ext _ i_t) by (intros; apply f_t). destruct (zmin _); [|reflexivity].
    rewrite find_map_swap. rewrite (find_ext' _ (fun r => of_unit g r && (i_t r =? z)%Z)).
    - destruct (find _ l); cbn; [apply f_d|reflexivity].
    - intros r. unfold of_unit. now rewrite f_g, f_t.
  Qed.
  Lemma map_fst_ha l : map fst (map ha l) = map f (map fst l). Proof. now rewrite !map_map. Qed.
  Lemma nat_len l g : horizon_len (map ha l) g = horizon_len l g.
  Proof.
    unfold horizon_len. rewrite nat_first, filter_map_swap, map_map.
    rewrite (filter_ext _ (fun a => of_unit g (fst a))) by (intros r; unfold of_unit; cbn; now rewrite f_g).
    rewrite (map_ext (fun a => i_t (fst (ha a))) (fun a => i_t (fst a))) by (intros; apply f_t). reflexivity.
  Qed.
  Lemma nat_ever p a : (forall r, p (f r) = p r) -> ever p (ha a) = ever p a.
  Proof. intros Hp. unfold ever. cbn. rewrite Hp, existsb_map_swap. f_equal. apply existsb_ext_in. intros; apply Hp. Qed.
  Lemma nat_bi l : drop_bidirectional c (map ha l) = map ha (drop_bidirectional c l).
  Proof.
    unfold drop_bidirectional. destruct (ic_keep_bi c); [reflexivity|]. rewrite filter_map_swap. f_equal. apply filter_ext. intros a.
    rewrite map_fst_ha, nat_base. cbn [hmap fst]. rewrite f_g. f_equal. f_equal; apply nat_ever; intros r; unfold above_base, below_base; now rewrite f_d.
  Qed.
  Lemma nat_treat l g : switch_treat (map ha l) g = switch_treat l g.
  Proof.
    unfold switch_treat. rewrite nat_first. destruct (first_switch l g); [|reflexivity]. rewrite map_fst_ha, find_map_swap.
    rewrite (find_ext' _ (fun r => of_unit g r && (i_t r =? z)%Z)).
    - destruct (find _ (map fst l)); cbn; [apply f_d|reflexivity].
    - intros r. unfold of_unit. now rewrite f_g, f_t.
  Qed.
  Lemma nat_sign l g : switch_sign (map ha l) g = switch_sign l g.
  Proof.
    unfold switch_sign. rewrite nat_first. destruct (first_switch l g); [|reflexivity]. rewrite find_map_swap.
    rewrite (find_ext' _ (fun a => of_unit g (fst a) && switches a)).
    - destruct (find _ l); cbn; [now rewrite nat_d_diff|reflexivity].
    - intros a. rewrite nat_switches. unfold of_unit. cbn. now rewrite f_g.
  Qed.
  Lemma nat_missing_pre l r : missing_preswitch (map ha l) (f r) = missing_preswitch l r.
  Proof.
    unfold missing_preswitch. rewrite filter_map_swap, map_map, !nat_first, f_g, f_t, f_d.
    rewrite (filter_ext _ (fun a => of_unit (i_g r) (fst a) && is_some (i_d (fst a)))) by (intros a; unfold of_unit; cbn; now rewrite f_g, f_d).
    rewrite (map_ext (fun a => i_t (fst (ha a))) (fun a => i_t (fst a))) by (intros; apply f_t). reflexivity.
  Qed.
  Lemma nat_identify rows : identify c (map f rows) = map sf (identify c rows).
  Proof.
    unfold identify. cbv zeta. rewrite (sort_gt_map f i_g i_t i_g i_t rows f_g f_t).
    replace (with_hist i_g [] (map f (sort_gt i_g i_t rows))) with (map ha (with_hist i_g [] (sort_gt i_g i_t rows)))
      by (symmetry; apply (with_hist_map f i_g i_g _ f_g [])).
    set (l0 := with_hist i_g [] (sort_gt i_g i_t rows)). rewrite nat_bi. set (l := drop_bidirectional c l0).
    match goal with |- (if _ then filter _ ?A else _) = _ => set (out := A) end.
    match goal with |- _ = map sf (if _ then filter _ ?A else _) => set (out' := A) end.
    assert (Eo : out = map sf out').
    { unfold out, out'. rewrite (map_fst_ha l), (map_map ha), (map_map _ sf). apply map_ext. intros a. unfold sf. cbn [hmap fst s_row s_F s_dsq s_dfg s_S s_L].
      rewrite !f_g, nat_first, nat_base, nat_treat, nat_sign, nat_len. reflexivity. }
    rewrite Eo. destruct (ic_drop_missing c); [|reflexivity]. rewrite filter_map_swap. f_equal. apply filter_ext. intros s. f_equal. apply nat_missing_pre.
  Qed.
  Lemma sf_g s : s_g (sf s) = s_g s. Proof. apply f_g. Qed.
  Lemma sf_t s : s_t (sf s) = s_t s. Proof. apply f_t. Qed.
  Lemma sf_base a b : same_base (sf a) (sf b) = same_base a b.
  Proof. unfold same_base, sf. cbn. now rewrite !f_tr. Qed.
  Lemma nat_switcher l : switcher_filter c (map sf l) = map sf (switcher_filter c l).
  Proof.
    unfold switcher_filter. cbv zeta.
    assert (E : forall v, filter (fun s => existsb (fun s' => (s_g s' =? s_g s)%Z && ((s_S s' =? v)%Z || (s_S s' =? 0)%Z)) (map sf l)) (map sf l)
       = map sf (filter (fun s => existsb (fun s' => (s_g s' =? s_g s)%Z && ((s_S s' =? v)%Z || (s_S s' =? 0)%Z)) l) l)).
    { intros v. rewrite filter_map_swap. f_equal. apply filter_ext. intros s. rewrite existsb_map_swap. apply existsb_ext_in. intros s' _. now rewrite !sf_g. }
    destruct (ic_dir c); auto.
  Qed.
  Lemma nat_svar l : svar (map sf l) = svar l.
  Proof.
    unfold svar. assert (Em : mean f_code (map sf l) = mean f_code l).
    { unfold mean. rewrite sumf_map, map_length. reflexivity. }
    rewrite Em, sumf_map, map_length. reflexivity.
  Qed.
  Lemma nat_fg l : fg_variation_filter (map sf l) = map sf (fg_variation_filter l).
  Proof.
    unfold fg_variation_filter. rewrite filter_map_swap. f_equal. apply filter_ext. intros s. rewrite filter_map_swap.
    rewrite (filter_ext _ (same_base s)) by (intros; apply sf_base). rewrite map_length, nat_svar. reflexivity.
  Qed.
  Lemma nat_ctf l : controls_time_filter (map sf l) = map sf (controls_time_filter l).
  Proof.
    unfold controls_time_filter. rewrite filter_map_swap. f_equal. apply filter_ext. intros s. rewrite existsb_map_swap. apply existsb_ext_in.
    intros s' _. unfold same_cell. now rewrite sf_base, !sf_t.
  Qed.
  Lemma nat_balance l : balance (map sf l) = map sf (balance l).
  Proof.
    unfold balance. rewrite !map_map. rewrite (map_ext (fun x => s_g (sf x)) s_g) by apply sf_g. rewrite (map_ext (fun x => s_t (sf x)) s_t) by apply sf_t.
    apply map_ext. intros k. rewrite !find_map_swap.
    rewrite (find_ext' _ (fun s => (s_g s =? fst k)%Z && (s_t s =? snd k)%Z)) by (intros; now rewrite sf_g, sf_t).
    destruct (find (fun s => (s_g s =? fst k)%Z && (s_t s =? snd k)%Z) l); cbn; [reflexivity|].
    rewrite (find_ext' _ (fun s => (s_g s =? fst k)%Z)) by (intros; now rewrite sf_g).
    destruct (find (fun s => (s_g s =? fst k)%Z) l); unfold sf; cbn; now rewrite f_blank.
  Qed.
  Lemma nat_trunc l s : f_trunc (map sf l) (sf s) = f_trunc l s.
  Proof.
    unfold f_trunc. cbn. destruct (s_F s); [reflexivity|]. rewrite filter_map_swap, map_map, sf_g.
    rewrite (filter_ext _ (fun s' => (s_g s' =? s_g s)%Z)) by (intros; now rewrite sf_g). rewrite (map_ext (fun x => s_t (sf x)) s_t) by apply sf_t. reflexivity.
  Qed.
  Lemma nat_prepare l : prepare c (map sf l) = map pf (prepare c l).
  Proof.
    unfold prepare. rewrite (sort_gt_map sf s_g s_t s_g s_t l sf_g sf_t). set (m := sort_gt s_g s_t l). rewrite !map_map. apply map_ext. intros s.
    unfold pf. cbn [p_s p_w p_first p_T]. f_equal.
    - apply f_w.
    - rewrite filter_map_swap, map_map, sf_g, sf_t. rewrite (filter_ext _ (fun s' => (s_g s' =? s_g s)%Z)) by (intros; now rewrite sf_g).
      rewrite (map_ext (fun x => s_t (sf x)) s_t) by apply sf_t. reflexivity.
    - rewrite filter_map_swap, map_map. rewrite (filter_ext _ (same_base s)) by (intros; apply sf_base).
      rewrite (map_ext (fun x => f_trunc (map sf m) (sf x)) (f_trunc m)) by apply nat_trunc. reflexivity.
  Qed.
  Definition kept (rows : list irow) : list srow :=
    balance (controls_time_filter (fg_variation_filter (switcher_filter c (identify c (drop_missing_units rows))))).
  Lemma nat_kept rows : kept (map f rows) = map sf (kept rows).
  Proof. unfold kept. now rewrite nat_missing, nat_identify, nat_switcher, nat_fg, nat_ctf, nat_balance. Qed.
  Lemma nat_pipeline rows : ic_trends_lin c = false -> pipeline c (map f rows) = map pf (pipeline c rows).
  Proof. intros H. unfold pipeline, detrend. rewrite H. fold (kept (map f rows)) (kept rows). now rewrite nat_kept, nat_prepare. Qed.
End Nat.
