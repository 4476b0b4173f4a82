(** The panels of ContSpec pass preprocessing unchanged; what the cells of such a panel are. *)
From Verif Require Import Base ListLib ReduceModel DrdidModel SplineModel ContModel ContSpec.
From Coq Require Import Sorting.Sorted.

Lemma calendar_in s T t : In t (calendar s T) <-> (s + 1 <= t <= s + Z.of_nat T)%Z.
Proof.
  unfold calendar. rewrite in_map_iff. split.
  - intros [i [<- Hi]]. apply in_seq in Hi. lia.
  - intros H. exists (Z.to_nat (t - s)). split; [lia|]. apply in_seq. lia.
Qed.
Lemma calendar_sorted s T : StronglySorted Z.lt (calendar s T).
Proof.
  unfold calendar. generalize 1%nat. induction T as [|T IH]; intros a; cbn [seq map]; constructor; [apply IH|].
  apply Forall_forall. intros x Hx. apply in_map_iff in Hx. destruct Hx as [i [<- Hi]]. apply in_seq in Hi. lia.
Qed.
Lemma calendar_length s T : length (calendar s T) = T.
Proof. unfold calendar. now rewrite map_length, seq_length. Qed.
Lemma calendar_S T : (1 <= T)%nat -> calendar 0 T = 1%Z :: tl (calendar 0 T).
Proof. intros H. destruct T as [|T]; [lia|]. reflexivity. Qed.

Lemma flat_map_nil {A B} (f : A -> list B) l : (forall a, In a l -> f a = []) -> flat_map f l = [].
Proof. induction l as [|a l IH]; cbn; intros H; [reflexivity|]. rewrite H by now left. apply IH. auto. Qed.
Lemma flat_map_ext_in {A B} (f g : A -> list B) l : (forall a, In a l -> f a = g a) -> flat_map f l = flat_map g l.
Proof. induction l as [|a l IH]; cbn; intros H; [reflexivity|]. rewrite H by now left. f_equal. apply IH. auto. Qed.
Lemma filter_flat_map {A B} (p : B -> bool) (f : A -> list B) l : filter p (flat_map f l) = flat_map (fun a => filter p (f a)) l.
Proof. induction l as [|a l IH]; cbn; [reflexivity|]. now rewrite filter_app', IH. Qed.
Lemma map_flat_map {A B C} (h : B -> C) (f : A -> list B) l : map h (flat_map f l) = flat_map (fun a => map h (f a)) l.
Proof. induction l as [|a l IH]; cbn; [reflexivity|]. now rewrite map_app, IH. Qed.
Lemma filter_map_comm {A B} (p : B -> bool) (f : A -> B) l : filter p (map f l) = map f (filter (fun a => p (f a)) l).
Proof. induction l as [|a l IH]; cbn; [reflexivity|]. destruct (p (f a)); cbn; now rewrite IH. Qed.
Lemma flat_map_if {A B} (p : A -> bool) (f : A -> list B) l : flat_map (fun a => if p a then f a else []) l = flat_map f (filter p l).
Proof. induction l as [|a l IH]; cbn; [reflexivity|]. destruct (p a); cbn; now rewrite IH. Qed.
Lemma flat_map_single {A B} (f : A -> B) l : flat_map (fun a => [f a]) l = map f l.
Proof. induction l as [|a l IH]; cbn; [reflexivity|]. now rewrite IH. Qed.

(** Rows of one unit. *)
Lemma flat_map_unit {B} (us : list cunit) (f : cunit -> list B) (p : cunit -> B -> bool) u :
  StronglySorted Z.lt (map k_id us) -> In u us ->
  (forall v b, In v us -> In b (f v) -> v <> u -> p u b = false) ->
  filter (p u) (flat_map f us) = filter (p u) (f u).
Proof.
  intros S Hu H. induction us as [|v us IH]; [easy|]. cbn [flat_map]. rewrite filter_app'. cbn [map] in S. inversion S as [|? ? S' F]; subst.
  assert (D : ~ In v us). { intros I. rewrite Forall_forall in F. specialize (F (k_id v) (in_map k_id _ _ I)). lia. }
  destruct Hu as [->|Hu].
  - rewrite filter_flat_map, (flat_map_nil _ us), app_nil_r; [reflexivity|]. intros w Hw. apply filter_none. intros b Hb. apply (H w b); [now right|exact Hb|]. intros ->. tauto.
  - rewrite filter_none; [cbn; apply IH; [exact S'|exact Hu|]|].
    + intros w b Hw Hb N. apply (H w b); auto. now right.
    + intros b Hb. apply (H v b); auto; [now left|]. intros ->. tauto.
Qed.

  Lemma rows_in_row us cal r : In r (rows_in cal us) <-> exists u t, In u us /\ In t cal /\ r = row_of u t.
  Proof.
    unfold rows_in. rewrite in_flat_map. split.
    - intros [u [Hu H]]. apply in_map_iff in H. destruct H as [t [<- Ht]]. exists u, t. auto.
    - intros [u [t [Hu [Ht ->]]]]. exists u. split; [exact Hu|]. now apply in_map.
  Qed.
Section Panel.
  Context (s : Z) (T : nat) (us : list cunit) (H1 : (1 <= T)%nat) (Hne : us <> []) (Hs : StronglySorted Z.lt (map k_id us)).
  Lemma periods_rows : periods (rows_in (calendar s T) us) = calendar s T.
  Proof.
    unfold periods. apply ssorted_lt_ext; [apply zuniq_sorted|apply calendar_sorted|]. intros x. rewrite zuniq_in, in_map_iff. split.
    - intros [r [<- Hr]]. apply rows_in_row in Hr. destruct Hr as [u [t [_ [Ht ->]]]]. exact Ht.
    - intros Hx. destruct us as [|u q]; [easy|]. exists (row_of u x). split; [reflexivity|]. apply rows_in_row. exists u, x. split; [now left|]. auto.
  Qed.
  Lemma units_rows : units (rows_in (calendar s T) us) = map k_id us.
  Proof.
    unfold units. apply ssorted_lt_ext; [apply zuniq_sorted|exact Hs|]. intros x. rewrite zuniq_in, in_map_iff, in_map_iff. split.
    - intros [r [<- Hr]]. apply rows_in_row in Hr. destruct Hr as [u [t [Hu [Ht ->]]]]. now exists u.
    - intros [u [<- Hu]]. exists (row_of u (s + 1)%Z). split; [reflexivity|]. apply rows_in_row. exists u, (s + 1)%Z. split; [exact Hu|].
      split; [apply calendar_in; lia|reflexivity].
  Qed.
  Lemma unit_rows cal u : In u us -> filter (fun r => (c_id r =? k_id u)%Z) (rows_in cal us) = map (row_of u) cal.
  Proof.
    intros Hu. unfold rows_in. rewrite (flat_map_unit us (fun u => map (row_of u) cal) (fun u r => (c_id r =? k_id u)%Z) u Hs Hu).
    - apply filter_all. intros r Hr. apply in_map_iff in Hr. destruct Hr as [t [<- _]]. cbn. apply Z.eqb_refl.
    - intros v b Hv Hb N. apply in_map_iff in Hb. destruct Hb as [t [<- _]]. cbn. apply Z.eqb_neq. intros E. apply N.
      assert (ND : NoDup (map k_id us)) by now apply ssorted_lt_nodup.
      clear -ND E Hu Hv. induction us as [|w q IH]; [easy|]. cbn in ND. inversion ND as [|? ? N1 N2]; subst.
      destruct Hu as [->|Hu], Hv as [->|Hv]; [reflexivity| | |now apply IH].
      + exfalso. apply N1. rewrite <- E. now apply in_map.
      + exfalso. apply N1. rewrite E. now apply in_map.
  Qed.
  Lemma balance_rows : balance (rows_in (calendar s T) us) = rows_in (calendar s T) us.
  Proof.
    unfold balance. rewrite periods_rows, calendar_length. apply filter_all. intros r Hr. apply rows_in_row in Hr.
    destruct Hr as [u [t [Hu [Ht ->]]]]. cbn [c_id row_of]. rewrite unit_rows by exact Hu. rewrite map_length, calendar_length. apply Nat.eqb_refl.
  Qed.
End Panel.

Lemma index_of_calendar : forall T s t, (s + 1 <= t <= s + Z.of_nat T)%Z -> (1 + index_of t (calendar s T) = t - s)%Z.
Proof.
  unfold calendar. intros T s t H.
  assert (G : forall a, (s + Z.of_nat a <= t <= s + Z.of_nat a + Z.of_nat T - 1)%Z -> index_of t (map (fun i => (s + Z.of_nat i)%Z) (seq a T)) = (t - s - Z.of_nat a)%Z).
  { clear H. induction T as [|T IH]; intros a H; [lia|]. cbn [seq map index_of]. destruct (Z.eqb_spec (s + Z.of_nat a) t); [lia|].
    rewrite IH by lia. lia. }
  rewrite G by lia. lia.
Qed.
Lemma fold_max_calendar : forall l a, (forall x, In x l -> (x <= a)%Z) -> forall b, (b <= a)%Z -> In a (b :: l) -> fold_right Z.max b l = a.
Proof.
  induction l as [|x l IH]; intros a H b Hb I; cbn.
  - destruct I as [->|[]]. reflexivity.
  - assert (Hx : (x <= a)%Z) by (apply H; now left).
    assert (L : forall q c, (c <= a)%Z -> (forall y, In y q -> (y <= a)%Z) -> (fold_right Z.max c q <= a)%Z).
    { induction q as [|y q IHq]; intros c Hc Hq; cbn; [exact Hc|]. assert (y <= a)%Z by (apply Hq; now left). assert (fold_right Z.max c q <= a)%Z; [|lia].
      apply IHq; [exact Hc|]. intros z Hz. apply Hq. now right. }
    destruct I as [->|[->|I]].
    + rewrite (IH a); [lia| |lia|now left]. intros y Hy. apply H. now right.
    + specialize (L l b Hb (fun y Hy => H y (or_intror Hy))). lia.
    + rewrite (IH a); [lia| |exact Hb|now right]. intros y Hy. apply H. now right.
Qed.
Lemma fold_min_calendar : forall l a, (forall x, In x l -> (a <= x)%Z) -> forall b, (a <= b)%Z -> In a (b :: l) -> fold_right Z.min b l = a.
Proof.
  induction l as [|x l IH]; intros a H b Hb I; cbn.
  - destruct I as [->|[]]. reflexivity.
  - assert (Hx : (a <= x)%Z) by (apply H; now left).
    assert (L : forall q c, (a <= c)%Z -> (forall y, In y q -> (a <= y)%Z) -> (a <= fold_right Z.min c q)%Z).
    { induction q as [|y q IHq]; intros c Hc Hq; cbn; [exact Hc|]. assert (a <= y)%Z by (apply Hq; now left). assert (a <= fold_right Z.min c q)%Z; [|lia].
      apply IHq; [exact Hc|]. intros z Hz. apply Hq. now right. }
    destruct I as [->|[->|I]].
    + rewrite (IH a); [lia| |lia|now left]. intros y Hy. apply H. now right.
    + specialize (L l b Hb (fun y Hy => H y (or_intror Hy))). lia.
    + rewrite (IH a); [lia| |exact Hb|now right]. intros y Hy. apply H. now right.
Qed.

Lemma filter_sorted_ids p : forall us : list cunit, StronglySorted Z.lt (map k_id us) -> StronglySorted Z.lt (map k_id (filter p us)).
Proof.
  induction us as [|u q IH]; cbn; intros H; [constructor|]. inversion H as [|? ? S F]; subst. destruct (p u); [|now apply IH].
  cbn. constructor; [now apply IH|]. rewrite Forall_forall in *. intros x Hx. apply F. apply in_map_iff in Hx. destruct Hx as [v [<- Hv]]. apply filter_In in Hv. now apply in_map.
Qed.
Section Pre.
  Context (o : copts) (T : nat) (us : list cunit) (Ok : panel_ok (co_ant o) T us).
  Let T2 : (2 <= T)%nat := proj1 Ok.
  Let Ha : (0 <= co_ant o)%Z := proj1 (proj2 Ok).
  Let Hne : us <> [] := proj1 (proj2 (proj2 Ok)).
  Let Hs : StronglySorted Z.lt (map k_id us) := proj1 (proj2 (proj2 (proj2 Ok))).
  Let Hu : forall u, In u us -> unit_ok (co_ant o) T u := proj2 (proj2 (proj2 (proj2 Ok))).

  Lemma t_range r : In r (rows T us) -> (1 <= c_t r <= Z.of_nat T)%Z.
  Proof. intros H. apply rows_in_row in H. destruct H as [u [t [_ [Ht ->]]]]. apply calendar_in in Ht. cbn. lia. Qed.
  Lemma last_rows : fold_right Z.max (hd 0%Z (map c_t (rows T us))) (map c_t (rows T us)) = Z.of_nat T.
  Proof.
    assert (I : In (Z.of_nat T) (map c_t (rows T us))).
    { destruct us as [|u q] eqn:E; [easy|]. apply in_map_iff. exists (row_of u (Z.of_nat T)). split; [reflexivity|]. apply rows_in_row.
      exists u, (Z.of_nat T). split; [now left|]. split; [apply calendar_in; lia|reflexivity]. }
    assert (B : forall x, In x (map c_t (rows T us)) -> (x <= Z.of_nat T)%Z).
    { intros x Hx. apply in_map_iff in Hx. destruct Hx as [r [<- Hr]]. apply t_range in Hr. lia. }
    apply fold_max_calendar; [exact B| |now right]. destruct (map c_t (rows T us)) eqn:E; [easy|]. apply B. now left.
  Qed.
  Lemma first_rows : fold_right Z.min (hd 0%Z (map c_t (rows T us))) (map c_t (rows T us)) = 1%Z.
  Proof.
    assert (I : In 1%Z (map c_t (rows T us))).
    { destruct us as [|u q] eqn:E; [easy|]. apply in_map_iff. exists (row_of u 1%Z). split; [reflexivity|]. apply rows_in_row.
      exists u, 1%Z. split; [now left|]. split; [apply calendar_in; lia|reflexivity]. }
    assert (B : forall x, In x (map c_t (rows T us)) -> (1 <= x)%Z).
    { intros x Hx. apply in_map_iff in Hx. destruct Hx as [r [<- Hr]]. apply t_range in Hr. lia. }
    apply fold_min_calendar; [exact B| |now right]. destruct (map c_t (rows T us)) eqn:E; [easy|]. apply B. now left.
  Qed.
  Lemma g_range r g : In r (rows T us) -> c_g r = Some g -> (2 + co_ant o <= g <= Z.of_nat T)%Z /\ 0 < c_d r.
  Proof.
    intros H E. apply rows_in_row in H. destruct H as [u [t [I [_ ->]]]]. cbn in E. cbn. destruct (Hu u I) as [K _]. rewrite E in K. tauto.
  Qed.
  Lemma never_dose r : In r (rows T us) -> c_g r = None -> c_d r = 0.
  Proof. intros H E. apply rows_in_row in H. destruct H as [u [t [I [_ ->]]]]. cbn in E. cbn. destruct (Hu u I) as [K _]. rewrite E in K. exact K. Qed.
  Lemma map_id_in {A} (f : A -> A) l : (forall a, In a l -> f a = a) -> map f l = l.
  Proof. induction l as [|a l IH]; cbn; intros H; [reflexivity|]. rewrite H by now left. f_equal. apply IH. auto. Qed.

  Lemma preprocess_rows : preprocess o (rows T us) = rows T us.
  Proof.
    unfold preprocess.
    assert (E1 : encode_treatment (rows T us) = rows T us).
    { unfold encode_treatment. rewrite last_rows. apply map_id_in. intros r Hr. destruct r as [i t [g|] d y w] eqn:Er; [|reflexivity].
      rewrite <- Er in Hr. assert (G : c_g r = Some g) by now rewrite Er. destruct (g_range r g Hr G) as [G1 _]. unfold set_g. cbn.
      destruct (Z.eqb_spec g 0); [lia|]. destruct (Z.ltb_spec (Z.of_nat T) g); [lia|]. reflexivity. }
    rewrite E1.
    assert (E2 : recode_periods (rows T us) = rows T us).
    { unfold recode_periods. rewrite (periods_rows 0 T us Hne Hs : periods (rows T us) = _). apply map_id_in. intros r Hr. assert (R := t_range r Hr).
      rewrite index_of_calendar by lia. destruct r; unfold set_t; cbn in *. f_equal. lia. }
    rewrite E2.
    assert (E3 : drop_early o (rows T us) = rows T us).
    { unfold drop_early. rewrite first_rows. apply filter_all. intros r Hr. destruct (c_g r) as [g|] eqn:G; [|reflexivity].
      destruct (g_range r g Hr G) as [G1 _]. destruct (Z.ltb_spec g (1 + co_ant o + 1)); [lia|reflexivity]. }
    rewrite E3.
    assert (E4 : validate_dose (rows T us) = rows T us).
    { unfold validate_dose. rewrite map_id_in.
      - apply filter_all. intros r Hr. destruct (c_g r) as [g|] eqn:G; [|reflexivity]. destruct (g_range r g Hr G) as [_ G2].
        destruct (Qceqb_spec (c_d r) 0) as [E|_]; [rewrite E in G2; exfalso; revert G2; apply Qcle_not_lt, Qcle_refl|]. now rewrite andb_false_r.
      - intros r Hr. destruct (c_g r) as [g|] eqn:G; [reflexivity|]. assert (D := never_dose r Hr G). destruct r; unfold set_d; cbn in *. now subst. }
    rewrite E4. unfold rows. apply balance_rows; auto.
  Qed.
  Lemma pte_data_rows : pte_data o (rows T us) = rows T us.
  Proof.
    unfold pte_data. apply filter_all. intros r Hr. destruct (c_g r) as [g|] eqn:G; [|reflexivity]. destruct (g_range r g Hr G) as [G1 _].
    destruct (Z.leb_spec g (1 + co_ant o)); [lia|]. now rewrite andb_false_r.
  Qed.
  Lemma groups_rows : groups_of (rows T us) = cohorts us.
  Proof.
    unfold groups_of, cohorts. apply zuniq_ext. intros x. rewrite !in_flat_map. split.
    - intros [r [Hr E]]. apply rows_in_row in Hr. destruct Hr as [u [t [I [_ ->]]]]. exists u. split; [exact I|]. exact E.
    - intros [u [I E]]. exists (row_of u 1%Z). split; [|exact E]. apply rows_in_row. exists u, 1%Z. split; [exact I|]. split; [apply calendar_in; lia|reflexivity].
  Qed.
  Lemma cohorts_in g : In g (cohorts us) <-> exists u, In u us /\ k_g u = Some g.
  Proof.
    unfold cohorts. rewrite zuniq_in, in_flat_map. split.
    - intros [u [I E]]. exists u. split; [exact I|]. destruct (k_g u); [|easy]. destruct E as [->|[]]. reflexivity.
    - intros [u [I E]]. exists u. split; [exact I|]. rewrite E. now left.
  Qed.
  Lemma t_list_rows : co_univ o = false -> t_list o (rows T us) = tl (calendar 0 T).
  Proof. intros V. unfold t_list, rows. rewrite V, periods_rows by (auto; lia). reflexivity. Qed.
  Lemma tl_calendar_in t : In t (tl (calendar 0 T)) <-> (2 <= t <= Z.of_nat T)%Z.
  Proof.
    assert (S := calendar_sorted 0 T). assert (E := calendar_S T ltac:(lia)). rewrite E in S. inversion S as [|? ? S' F]; subst.
    rewrite Forall_forall in F. split.
    - intros H. specialize (F t H). assert (I : In t (calendar 0 T)) by (rewrite E; now right). apply calendar_in in I. lia.
    - intros H. assert (I : In t (calendar 0 T)) by (apply calendar_in; lia). rewrite E in I. destruct I as [I|I]; [lia|exact I].
  Qed.
  Lemma g_list_rows : co_univ o = false -> g_list o (rows T us) = cohorts us.
  Proof.
    intros V. unfold g_list. rewrite t_list_rows by exact V. rewrite groups_rows. unfold rows. rewrite periods_rows by (auto; lia).
    destruct (tl (calendar 0 T)) as [|p2 q] eqn:E.
    - exfalso. assert (I : In 2%Z (tl (calendar 0 T))) by (apply tl_calendar_in; lia). now rewrite E in I.
    - assert (P2 : p2 = 2%Z). { destruct T as [|[|n]]; [lia|lia|]. cbn in E. injection E as E _. lia. }
      apply filter_all. intros g Hg. apply cohorts_in in Hg. destruct Hg as [u [I G]]. destruct (Hu u I) as [K _]. rewrite G in K. destruct K as [K1 [K2 _]].
      subst p2. apply andb_true_iff. split; [|apply Z.leb_le; lia].
      rewrite <- E. destruct (zmem_spec g (tl (calendar 0 T))) as [_|N]; [reflexivity|]. exfalso. apply N. apply tl_calendar_in. lia.
  Qed.

  (** The units of a cell. *)
  Definition in_gt (g tp : Z) (u : cunit) : bool := og_eqb (k_g u) g || (if co_nyt o then og_gt (k_g u) tp else negb (og_fin (k_g u))).
  Definition dose_in (g : Z) (u : cunit) : Qc := if og_eqb (k_g u) g then k_dose u else 0.
  Definition trow (g : Z) (u : cunit) (t : Z) : crow := set_d (dose_in g u) (row_of u t).
  Lemma subset_rows g tp : let b := base_of o g tp in (1 <= b)%Z -> (b < tp)%Z -> (tp <= Z.of_nat T)%Z ->
    subset o g tp (rows T us) = flat_map (fun u => [trow g u b; trow g u tp]) (filter (in_gt g tp) us).
  Proof.
    intros b B1 B2 B3. unfold subset, rows, rows_in. rewrite filter_flat_map, map_flat_map. rewrite <- flat_map_if. apply flat_map_ext_in.
    intros u _. rewrite filter_map_comm, map_map.
    assert (E : filter (fun t => in_cell o g tp (row_of u t)) (calendar 0 T) = if in_gt g tp u then [b; tp] else []).
    { unfold in_cell. cbn [c_g c_t row_of]. fold (in_gt g tp u). fold b. destruct (in_gt g tp u); cbn [andb].
      - apply ssorted_lt_ext.
        + apply ssorted_filter. apply calendar_sorted.
        + repeat constructor. lia.
        + intros x. rewrite filter_In, calendar_in, orb_true_iff, Z.eqb_eq, Z.eqb_eq. cbn. split; [intros [_ [E|E]]; auto|]. intros [E|[E|[]]]; subst; lia.
      - now apply filter_none. }
    rewrite E. destruct (in_gt g tp u); reflexivity.
  Qed.
  Definition mk (g tp b : Z) (u : cunit) : cu := {| u_id := k_id u; u_d := dose_in g u; u_dy := Some (k_y u tp - k_y u b) |}.
  Lemma filter_ids_sorted p : StronglySorted Z.lt (map k_id (filter p us)).
  Proof. exact (filter_sorted_ids p us Hs). Qed.
  Lemma same_id u v (l : list cunit) : StronglySorted Z.lt (map k_id l) -> In u l -> In v l -> k_id u = k_id v -> u = v.
  Proof.
    intros S Hu' Hv E. induction l as [|w q IH]; [easy|]. cbn in S. inversion S as [|? ? S' F]; subst. rewrite Forall_forall in F.
    destruct Hu' as [->|Hu'], Hv as [->|Hv]; [reflexivity| | |now apply IH].
    - specialize (F (k_id v) (in_map k_id _ _ Hv)). lia.
    - specialize (F (k_id u) (in_map k_id _ _ Hu')). lia.
  Qed.
  Lemma post_units_rows g tp : let b := base_of o g tp in (1 <= b)%Z -> (b < tp)%Z -> (tp <= Z.of_nat T)%Z ->
    post_units tp (subset o g tp (rows T us)) = map (mk g tp b) (filter (in_gt g tp) us).
  Proof.
    intros b B1 B2 B3. rewrite subset_rows by assumption. fold b. set (vs := filter (in_gt g tp) us).
    assert (Sv : StronglySorted Z.lt (map k_id vs)) by apply filter_ids_sorted.
    set (f := fun u => [trow g u b; trow g u tp]).
    assert (U : units (flat_map f vs) = map k_id vs).
    { unfold units. apply ssorted_lt_ext; [apply zuniq_sorted|exact Sv|]. intros x. rewrite zuniq_in, map_flat_map, in_flat_map, in_map_iff. split.
      - intros [u [I H]]. cbn in H. exists u. split; [|exact I]. tauto.
      - intros [u [E I]]. exists u. split; [exact I|]. cbn. now left. }
    unfold post_units. rewrite U. rewrite (flat_map_concat_map _ (map k_id vs)), map_map, <- flat_map_concat_map.
    transitivity (flat_map (fun u => [mk g tp b u]) vs); [|apply flat_map_single].
    apply flat_map_ext_in. intros u I.
    assert (P : forall (p : crow -> bool), filter (fun r => (c_id r =? k_id u)%Z && p r) (flat_map f vs) = filter p (f u)).
    { intros p. rewrite (flat_map_unit vs f (fun u r => (c_id r =? k_id u)%Z && p r) u Sv I).
      - unfold f. cbn [filter]. cbn [trow c_id set_d row_of]. rewrite Z.eqb_refl. reflexivity.
      - intros v r Hv Hr N. apply andb_false_iff. left. apply Z.eqb_neq. intros E. apply N. apply (same_id v u vs Sv Hv I).
        destruct Hr as [<-|[<-|[]]]; exact E. }
    rewrite P. replace (filter (fun r => (c_t r =? tp)%Z) (f u)) with [trow g u tp].
    2:{ unfold f. cbn [filter trow c_t set_d row_of]. destruct (Z.eqb_spec b tp); [lia|]. now rewrite Z.eqb_refl. }
    cbn [map]. unfold mk. do 2 f_equal.
    unfold prev_y. cbn [trow c_id set_d row_of c_t]. fold (row_of u tp). rewrite P. unfold f. cbn [filter trow c_t set_d row_of].
    destruct (Z.ltb_spec b tp); [|lia]. rewrite Z.ltb_irrefl. reflexivity.
  Qed.
End Pre.
