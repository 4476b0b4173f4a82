(** did_multiplegt: sorting and lags. *)
From Verif Require Import Base ListLib PreprocessModel InterModel.

Lemma is_some_ex {A} (o : option A) : is_some o = true <-> exists a, o = Some a.
Proof. destruct o; cbn; split; try congruence; eauto. intros [a H]; discriminate. Qed.
Lemma oq_eqb_spec a b : reflect (a = b) (oq_eqb a b).
Proof. destruct a, b; cbn; try (constructor; congruence). destruct (Qceqb_spec q q0); constructor; congruence. Qed.
Lemma oz_eqb_spec a b : reflect (a = b) (oz_eqb a b).
Proof. destruct a, b; cbn; try (constructor; congruence). destruct (Z.eqb_spec z z0); constructor; congruence. Qed.

(** ** minimum and maximum of a column *)
Lemma zmin_none l : zmin l = None <-> l = [].
Proof. destruct l as [|x l]; cbn; [easy|]. change (fold_right _ None l) with (zmin l). destruct (zmin l); split; discriminate. Qed.
Lemma zmin_some l m : zmin l = Some m <-> In m l /\ forall x, In x l -> (m <= x)%Z.
Proof.
  revert m. induction l as [|x l IH]; intros m; cbn; [split; [discriminate|intros [[] _]]|].
  change (fold_right _ None l) with (zmin l).
  destruct (zmin l) as [k|] eqn:E.
  - destruct (IH k) as [H _]. destruct (H eq_refl) as [Hk Hl]. split.
    + intros [= <-]. split.
      * destruct (Z.min_spec x k) as [[_ e]|[_ e]]; rewrite e; auto.
      * intros y [<-|Hy]; [apply Z.le_min_l|]. specialize (Hl y Hy). lia.
    + intros [[<-|Hm] Hle]; f_equal.
      * specialize (Hle k (or_intror Hk)). lia.
      * specialize (Hl m Hm). specialize (Hle x (or_introl eq_refl)) as h1. specialize (Hle k (or_intror Hk)). lia.
  - apply zmin_none in E. subst l. split.
    + intros [= <-]. split; [auto|]. intros y [->|[]]. lia.
    + intros [[->|[]] _]. reflexivity.
Qed.
Lemma zmax_none l : zmax l = None <-> l = [].
Proof. destruct l as [|x l]; cbn; [easy|]. change (fold_right _ None l) with (zmax l). destruct (zmax l); split; discriminate. Qed.
Lemma zmax_some l m : zmax l = Some m <-> In m l /\ forall x, In x l -> (x <= m)%Z.
Proof.
  revert m. induction l as [|x l IH]; intros m; cbn; [split; [discriminate|intros [[] _]]|].
  change (fold_right _ None l) with (zmax l).
  destruct (zmax l) as [k|] eqn:E.
  - destruct (IH k) as [H _]. destruct (H eq_refl) as [Hk Hl]. split.
    + intros [= <-]. split.
      * destruct (Z.max_spec x k) as [[_ e]|[_ e]]; rewrite e; auto.
      * intros y [<-|Hy]; [apply Z.le_max_l|]. specialize (Hl y Hy). lia.
    + intros [[<-|Hm] Hle]; f_equal.
      * specialize (Hle k (or_intror Hk)). lia.
      * specialize (Hl m Hm). specialize (Hle x (or_introl eq_refl)) as h1. specialize (Hle k (or_intror Hk)). lia.
  - apply zmax_none in E. subst l. split.
    + intros [= <-]. split; [auto|]. intros y [->|[]]. lia.
    + intros [[->|[]] _]. reflexivity.
Qed.
Lemma zmin_ext l l' : (forall x, In x l <-> In x l') -> zmin l = zmin l'.
Proof.
  intros H. destruct (zmin l) as [m|] eqn:E.
  - symmetry. apply zmin_some in E as [E1 E2]. apply zmin_some. split; [apply H; exact E1|]. intros x Hx. apply E2, H, Hx.
  - symmetry. apply zmin_none. apply zmin_none in E. subst l. destruct l' as [|x l']; [reflexivity|]. destruct (proj2 (H x) (or_introl eq_refl)).
Qed.
Lemma zmax_ext l l' : (forall x, In x l <-> In x l') -> zmax l = zmax l'.
Proof.
  intros H. destruct (zmax l) as [m|] eqn:E.
  - symmetry. apply zmax_some in E as [E1 E2]. apply zmax_some. split; [apply H; exact E1|]. intros x Hx. apply E2, H, Hx.
  - symmetry. apply zmax_none. apply zmax_none in E. subst l. destruct l' as [|x l']; [reflexivity|]. destruct (proj2 (H x) (or_introl eq_refl)).
Qed.
Lemma zmin_in_some l x : In x l -> exists m, zmin l = Some m.
Proof. destruct (zmin l) eqn:E; eauto. apply zmin_none in E. subst; intros []. Qed.
Lemma zmax_in_some l x : In x l -> exists m, zmax l = Some m.
Proof. destruct (zmax l) eqn:E; eauto. apply zmax_none in E. subst; intros []. Qed.

(** ** histories *)
Lemma with_hist_fst {A} (u : A -> Z) l : forall seen, map fst (with_hist u seen l) = l.
Proof. induction l as [|r l IH]; intros seen; cbn; [reflexivity|]. now rewrite IH. Qed.
Lemma with_hist_in {A} (u : A -> Z) l : forall seen r hist, In (r, hist) (with_hist u seen l) ->
  exists l1 l2, l = l1 ++ r :: l2 /\ hist = filter (fun s => (u s =? u r)%Z) (rev l1 ++ seen).
Proof.
  induction l as [|x l IH]; intros seen r hist; cbn; [intros []|].
  intros [[= <- <-]|H].
  - exists [], l. auto.
  - destruct (IH _ _ _ H) as (l1 & l2 & -> & ->). exists (x :: l1), l2. split; [reflexivity|].
    cbn. now rewrite <- app_assoc.
Qed.

(** ** sorting by (unit, period) *)
Section Sorting.
  Context {A : Type} (gk tk : A -> Z).
  Let key (a : A) := (gk a, tk a).
  Definition key_lt (a b : A) : Prop := (gk a < gk b)%Z \/ (gk a = gk b /\ (tk a < tk b)%Z).
  Lemma sort_gt_perm l : Permutation (sort_gt gk tk l) l.
  Proof. apply isort_perm. Qed.
  Lemma sort_gt_in x l : In x (sort_gt gk tk l) <-> In x l.
  Proof. apply isort_in. Qed.
  Lemma le_gt_iff a b : le_gt (gk a) (tk a) (gk b) (tk b) = true <-> (gk a < gk b)%Z \/ (gk a = gk b /\ (tk a <= tk b)%Z).
  Proof. unfold le_gt. rewrite orb_true_iff, andb_true_iff, Z.ltb_lt, Z.eqb_eq, Z.leb_le. reflexivity. Qed.
  Lemma sort_gt_le l : StronglySorted (fun a b => le_gt (gk a) (tk a) (gk b) (tk b) = true) (sort_gt gk tk l).
  Proof.
    apply isort_sorted; [intros a b|intros a b d].
    - destruct (le_gt (gk a) (tk a) (gk b) (tk b)) eqn:E; [auto|right].
      apply le_gt_iff. unfold le_gt in E. rewrite orb_false_iff, andb_false_iff, Z.ltb_ge, Z.eqb_neq, Z.leb_gt in E. lia.
    - rewrite !le_gt_iff. lia.
  Qed.
  Lemma ssorted_strict l : StronglySorted (fun a b => le_gt (gk a) (tk a) (gk b) (tk b) = true) l -> NoDup (map (fun a => (gk a, tk a)) l) ->
    StronglySorted key_lt l.
  Proof.
    induction 1 as [|x l Hs IH Hx]; cbn; intros Hn; constructor; inversion Hn as [|? ? Hnx Hnl]; subst; auto.
    rewrite Forall_forall in *. intros y Hy. specialize (Hx y Hy). apply le_gt_iff in Hx.
    unfold key_lt. destruct Hx as [h|[h1 h2]]; [now left|right]. split; [exact h1|].
    apply Z.le_neq. split; [exact h2|]. intros e. apply Hnx. apply in_map_iff. exists y. split; [congruence|exact Hy].
  Qed.
  Lemma sort_gt_strict l : NoDup (map (fun a => (gk a, tk a)) l) -> StronglySorted key_lt (sort_gt gk tk l).
  Proof.
    intros H. apply ssorted_strict; [apply sort_gt_le|].
    eapply Permutation_NoDup; [|exact H]. apply Permutation_sym, Permutation_map, sort_gt_perm.
  Qed.
  Lemma key_lt_irrefl a : ~ key_lt a a. Proof. unfold key_lt. lia. Qed.
  Lemma key_lt_trans a b d : key_lt a b -> key_lt b d -> key_lt a d. Proof. unfold key_lt. lia. Qed.
  Lemma sorted_key_ext l l' : StronglySorted key_lt l -> StronglySorted key_lt l' -> (forall x, In x l <-> In x l') -> l = l'.
  Proof.
    revert l'. induction l as [|x l IH]; intros l' Hl Hl' H.
    - destruct l' as [|y l']; [reflexivity|]. destruct (proj2 (H y) (or_introl eq_refl)).
    - destruct l' as [|y l']; [destruct (proj1 (H x) (or_introl eq_refl))|].
      inversion Hl as [|? ? Hl1 Hlx]; inversion Hl' as [|? ? Hl1' Hly]; subst. rewrite Forall_forall in Hlx, Hly.
      assert (x = y).
      { destruct (proj1 (H x) (or_introl eq_refl)) as [e|e]; [auto|].
        destruct (proj2 (H y) (or_introl eq_refl)) as [e'|e']; [auto|].
        exfalso. apply (key_lt_irrefl x). eapply key_lt_trans; [apply Hlx; exact e'|apply Hly; exact e]. }
      subst y. f_equal. apply IH; auto. intros z. split; intros Hz.
      + destruct (proj1 (H z) (or_intror Hz)) as [<-|]; [|auto]. destruct (key_lt_irrefl x). now apply Hlx.
      + destruct (proj2 (H z) (or_intror Hz)) as [<-|]; [|auto]. destruct (key_lt_irrefl x). now apply Hly.
  Qed.
  (** row order does not matter once the keys are unique *)
  Lemma sort_gt_perm_eq l l' : NoDup (map (fun a => (gk a, tk a)) l) -> Permutation l l' -> sort_gt gk tk l = sort_gt gk tk l'.
  Proof.
    intros Hn Hp. apply sorted_key_ext.
    - now apply sort_gt_strict.
    - apply sort_gt_strict. eapply Permutation_NoDup; [apply Permutation_map; exact Hp|exact Hn].
    - intros x. rewrite !sort_gt_in. split; apply Permutation_in; [exact Hp|now apply Permutation_sym].
  Qed.

  Lemma ssorted_app_inv (R : A -> A -> Prop) l1 x l2 : StronglySorted R (l1 ++ x :: l2) ->
    Forall (fun a => R a x) l1 /\ Forall (R x) l2 /\ StronglySorted R l1 /\ StronglySorted R l2.
  Proof.
    induction l1 as [|a l1 IH]; cbn; intros H; inversion H as [|? ? H1 H2]; subst.
    - repeat split; auto; constructor.
    - destruct (IH H1) as (h1 & h2 & h3 & h4). rewrite Forall_forall in H2. repeat split; auto.
      + constructor; auto. apply H2. apply in_or_app. right; now left.
      + constructor; auto. apply Forall_forall. intros y Hy. apply H2. apply in_or_app. now left.
  Qed.
  (** the history of a row: the earlier rows of the unit, latest first *)
  Lemma hist_spec l r hist : NoDup (map (fun a => (gk a, tk a)) l) -> In (r, hist) (with_hist gk [] (sort_gt gk tk l)) ->
    In r l /\ (forall s, In s hist <-> In s l /\ gk s = gk r /\ (tk s < tk r)%Z) /\ StronglySorted (fun a b => (tk b < tk a)%Z) hist.
  Proof.
    intros Hn Hin. apply with_hist_in in Hin as (l1 & l2 & e & ->). rewrite app_nil_r.
    pose proof (sort_gt_strict l Hn) as Hs. rewrite e in Hs.
    apply ssorted_app_inv in Hs as (h1 & h2 & h3 & h4). rewrite Forall_forall in h1, h2.
    assert (Hl : forall s, In s l <-> In s l1 \/ s = r \/ In s l2).
    { intros s. rewrite <- (sort_gt_in s l), e, in_app_iff. cbn. intuition. }
    split; [apply Hl; auto|]. split.
    - intros s. rewrite filter_In, <- in_rev, Z.eqb_eq, Hl. split.
      + intros [Hs Hg]. specialize (h1 s Hs). unfold key_lt in h1. split; [auto|]. split; [exact Hg|lia].
      + intros ([Hs|[->|Hs]] & Hg & Ht); [auto|lia|]. specialize (h2 s Hs). unfold key_lt in h2. lia.
    - assert (StronglySorted (fun a b => key_lt b a) (rev l1)).
      { clear -h3. induction h3 as [|x l1 _ IH Hx]; cbn; [constructor|].
        rewrite Forall_forall in Hx. revert IH Hx. generalize (rev l1) (fun y => in_rev l1 y). intros l Hl IH Hx.
        assert (Hx' : forall y, In y l -> key_lt x y) by (intros y Hy; apply Hx, Hl, Hy). clear Hl Hx.
        induction IH as [|y l Hs IH Hy]; cbn; [repeat constructor|]. constructor.
        - apply IH. intros z Hz. apply Hx'. now right.
        - apply Forall_app. split; [exact Hy|]. constructor; [|constructor]. apply Hx'. now left. }
      apply (ssorted_filter _ (fun s => (gk s =? gk r)%Z)) in H.
      remember (filter (fun s => (gk s =? gk r)%Z) (rev l1)) as f eqn:Ef.
      assert (Hg : forall s, In s f -> gk s = gk r) by (intros s; subst f; rewrite filter_In, Z.eqb_eq; tauto).
      clear Ef. induction H as [|x f Hs IH Hx]; constructor.
      + apply IH. intros s Hs'. apply Hg. now right.
      + rewrite Forall_forall in *. intros y Hy. specialize (Hx y Hy). unfold key_lt in Hx.
        rewrite (Hg y (or_intror Hy)), (Hg x (or_introl eq_refl)) in Hx. lia.
  Qed.
  Lemma with_hist_exists l r : In r l -> exists hist, In (r, hist) (with_hist gk [] (sort_gt gk tk l)).
  Proof.
    intros H. rewrite <- (sort_gt_in r), <- (with_hist_fst gk (sort_gt gk tk l) []) in H.
    apply in_map_iff in H as ((r', hist) & <- & H). exists hist. exact H.
  Qed.

  (** lags in a panel where the unit is observed exactly in the periods [ts] *)
  Definition prev_period (ts : list Z) (k : nat) (t : Z) : option Z := nth_error (rev (filter (fun s => (s <? t)%Z) ts)) (k - 1).
  Definition row_at (l : list A) (g t : Z) : option A := find (fun a => (gk a =? g)%Z && (tk a =? t)%Z) l.
  Lemma row_at_some l g t a : NoDup (map (fun a => (gk a, tk a)) l) -> (row_at l g t = Some a <-> In a l /\ gk a = g /\ tk a = t).
  Proof.
    intros Hn. unfold row_at. split.
    - intros H. apply find_some in H as [H1 H2]. rewrite andb_true_iff, !Z.eqb_eq in H2. tauto.
    - intros (H1 & <- & <-). revert Hn H1. induction l as [|x l IH]; cbn; intros Hn Hin; [destruct Hin|].
      inversion Hn as [|? ? Hx Hl]; subst. destruct Hin as [->|Hin].
      + now rewrite !Z.eqb_refl.
      + destruct (Z.eqb_spec (gk x) (gk a)); cbn; [destruct (Z.eqb_spec (tk x) (tk a))|]; try (now apply IH).
        exfalso. apply Hx. apply in_map_iff. exists a. split; [congruence|exact Hin].
  Qed.
  Lemma row_at_none l g t : row_at l g t = None <-> forall a, In a l -> gk a = g -> tk a = t -> False.
  Proof.
    unfold row_at. split.
    - intros H a Ha <- <-. eapply find_none in H; [|exact Ha]. now rewrite !Z.eqb_refl in H.
    - intros H. destruct (find _ l) as [a|] eqn:E; [|reflexivity]. apply find_some in E as [E1 E2].
      rewrite andb_true_iff, !Z.eqb_eq in E2. destruct (H a E1); tauto.
  Qed.
  Lemma ssorted_rev_lt (l : list Z) : StronglySorted Z.lt l -> StronglySorted (fun a b => (b < a)%Z) (rev l).
  Proof.
    induction 1 as [|x l _ IH Hx]; cbn; [constructor|]. rewrite Forall_forall in Hx.
    assert (Hx' : forall y, In y (rev l) -> (x < y)%Z) by (intros y Hy; apply Hx; now apply in_rev). clear Hx.
    induction IH as [|y m Hs IH Hy]; cbn; [repeat constructor|]. constructor.
    - apply IH. intros z Hz. apply Hx'. now right.
    - apply Forall_app. split; [exact Hy|]. constructor; [|constructor]. apply Hx'. now left.
  Qed.
  Lemma ssorted_gt_ext l l' : StronglySorted (fun a b => (b < a)%Z) l -> StronglySorted (fun a b => (b < a)%Z) l' ->
    (forall x, In x l <-> In x l') -> l = l'.
  Proof.
    intros Hl Hl' H. rewrite <- (rev_involutive l), <- (rev_involutive l'). f_equal.
    assert (Hr : forall m, StronglySorted (fun a b => (b < a)%Z) m -> StronglySorted Z.lt (rev m)).
    { induction 1 as [|x m _ IH Hx]; cbn; [constructor|]. rewrite Forall_forall in Hx.
      assert (Hx' : forall y, In y (rev m) -> (y < x)%Z) by (intros y Hy; apply Hx; now apply in_rev). clear Hx.
      induction IH as [|y n Hs IH Hy]; cbn; [repeat constructor|]. constructor.
      - apply IH. intros z Hz. apply Hx'. now right.
      - apply Forall_app. split; [exact Hy|]. constructor; [|constructor]. apply Hx'. now left. }
    apply ssorted_lt_ext; auto. intros x. rewrite <- !in_rev. apply H.
  Qed.
  Lemma lag_lookup l ts r hist k : NoDup (map (fun a => (gk a, tk a)) l) -> StronglySorted Z.lt ts ->
    In (r, hist) (with_hist gk [] (sort_gt gk tk l)) ->
    (forall t, In t ts <-> exists a, In a l /\ gk a = gk r /\ tk a = t) ->
    lag_row k hist = match prev_period ts k (tk r) with Some t => row_at l (gk r) t | None => None end.
  Proof.
    intros Hn Hts Hin Hobs. destruct (hist_spec l r hist Hn Hin) as (Hr & Hm & Hs).
    assert (E : map tk hist = rev (filter (fun s => (s <? tk r)%Z) ts)).
    { apply ssorted_gt_ext.
      - clear -Hs. induction Hs as [|x l H IH Hx]; cbn; constructor; auto.
        rewrite Forall_forall in *. intros y Hy. apply in_map_iff in Hy as (z & <- & Hz). auto.
      - apply ssorted_rev_lt. now apply ssorted_filter.
      - intros t. rewrite <- in_rev, filter_In, Z.ltb_lt, Hobs, in_map_iff. split.
        + intros (s & <- & Hs'). apply Hm in Hs' as (h1 & h2 & h3). eauto.
        + intros ((a & h1 & h2 & <-) & h3). exists a. split; [reflexivity|]. apply Hm. auto. }
    unfold prev_period, lag_row. rewrite <- E, nth_error_map.
    destruct (nth_error hist (k - 1)) as [s|] eqn:Es; cbn; [|reflexivity].
    apply nth_error_In in Es. apply Hm in Es as (h1 & h2 & _). symmetry. now apply row_at_some.
  Qed.
End Sorting.

(** consecutive periods: the k-th previous period is t - k *)
Definition consecutive (ts : list Z) : Prop := forall s t, In s ts -> In t ts -> forall x, (s <= x <= t)%Z -> In x ts.
Lemma prev_consecutive ts k t : StronglySorted Z.lt ts -> consecutive ts -> In t ts -> (1 <= k)%nat ->
  prev_period ts k t = if zmem (t - Z.of_nat k) ts then Some (t - Z.of_nat k)%Z else None.
Proof.
  intros Hs Hc Ht Hk. unfold prev_period.
  set (p := rev (filter (fun s => (s <? t)%Z) ts)).
  assert (Hp : forall x, In x p <-> In x ts /\ (x < t)%Z) by (intros x; unfold p; rewrite <- in_rev, filter_In, Z.ltb_lt; reflexivity).
  assert (Sp : StronglySorted (fun a b => (b < a)%Z) p) by (unfold p; apply ssorted_rev_lt; now apply ssorted_filter).
  assert (G : forall i, nth_error p i = if zmem (t - Z.of_nat (S i)) ts then Some (t - Z.of_nat (S i))%Z else None).
  { clear Hk k. clearbody p.
    assert (Gen : forall u, (u <= t)%Z -> (forall x, In x p <-> In x ts /\ (x < u)%Z) -> In u ts ->
              forall i, nth_error p i = if zmem (u - Z.of_nat (S i)) ts then Some (u - Z.of_nat (S i))%Z else None).
    { clear Hp. induction Sp as [|x p Sp IH Hx]; intros u Hu Hp Huts i.
      - destruct (zmem_spec (u - Z.of_nat (S i)) ts) as [h|h]; [|now destruct i].
        exfalso. apply (proj2 (Hp (u - Z.of_nat (S i))%Z)). split; [exact h|lia].
      - rewrite Forall_forall in Hx. assert (Ex : x = (u - 1)%Z).
        { destruct (proj1 (Hp x) (or_introl eq_refl)) as [h1 h2].
          assert (In (u - 1)%Z ts) by (apply (Hc x u h1 Huts); lia).
          assert (H' : (u - 1 < u)%Z) by lia.
          destruct (proj2 (Hp (u - 1)%Z) (conj H H')) as [e|e]; [exact e|]. specialize (Hx _ e). lia. }
        destruct (proj1 (Hp x) (or_introl eq_refl)) as [h1 h2].
        destruct i as [|i]; cbn [nth_error].
        + replace (u - Z.of_nat 1)%Z with x by lia. destruct (zmem_spec x ts); [reflexivity|tauto].
        + rewrite (IH x ltac:(lia)).
          * replace (x - Z.of_nat (S i))%Z with (u - Z.of_nat (S (S i)))%Z by lia. reflexivity.
          * intros y. split.
            -- intros Hy. split; [apply Hp; now right|]. now apply Hx.
            -- intros [Hy1 Hy2]. assert (H' : (y < u)%Z) by lia. destruct (proj2 (Hp y) (conj Hy1 H')) as [e|e]; [lia|exact e].
          * exact h1. }
    apply Gen; auto. lia. }
  rewrite G. replace (S (k - 1)) with k by lia. reflexivity.
Qed.
