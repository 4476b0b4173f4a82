(** The order of the rows does not matter. *)
From Verif Require Import Base ListLib ReduceModel DrdidModel DrdidSpec SplineModel SplineSpec SplineProofs3 ContModel ContSpec.
From Coq Require Import Permutation Sorting.Sorted.

Lemma ssorted_le_perm : forall l l' : list Qc, StronglySorted Qcle l -> StronglySorted Qcle l' -> Permutation l l' -> l = l'.
Proof.
  induction l as [|a l IH]; intros l' S1 S2 P; [apply Permutation_nil in P; now subst|].
  destruct l' as [|b l']; [symmetry in P; apply Permutation_nil in P; discriminate|].
  apply StronglySorted_inv in S1 as [S1 F1]. apply StronglySorted_inv in S2 as [S2 F2]. rewrite Forall_forall in F1, F2.
  assert (E : a = b).
  { assert (I1 : In a (b :: l')) by (apply (Permutation_in a P); now left). assert (I2 : In b (a :: l)) by (apply (Permutation_in b (Permutation_sym P)); now left).
    destruct I1 as [->|I1]; [reflexivity|]. destruct I2 as [->|I2]; [reflexivity|]. apply Qcle_antisym; [now apply F1|now apply F2]. }
  subst b. f_equal. apply IH; [exact S1|exact S2|]. now apply Permutation_cons_inv in P.
Qed.
Lemma qsort_perm_eq l l' : Permutation l l' -> qsort l = qsort l'.
Proof. intros P. apply ssorted_le_perm; [apply qsort_sorted|apply qsort_sorted|]. now rewrite <- !qsort_perm. Qed.
Lemma perm_nil {A} (l l' : list A) : Permutation l l' -> (l = [] <-> l' = []).
Proof. intros P. split; intros ->; [now apply Permutation_nil|apply Permutation_nil; now symmetry]. Qed.
Lemma fold_min_in x : forall l, In (fold_right (fun y m => if Qcltb y m then y else m) x l) (x :: l).
Proof. induction l as [|a l IH]; [now left|]. cbn [fold_right]. destruct (Qcltb a _); [right; now left|]. destruct IH as [E|I]; [left; exact E|right; now right]. Qed.
Lemma fold_max_in x : forall l, In (fold_right (fun y m => if Qcltb m y then y else m) x l) (x :: l).
Proof. induction l as [|a l IH]; [now left|]. cbn [fold_right]. destruct (Qcltb _ a); [right; now left|]. destruct IH as [E|I]; [left; exact E|right; now right]. Qed.
From Verif Require Import SplineProps DddMpProofs4.
Lemma qmin_perm l l' : Permutation l l' -> qmin_l l = qmin_l l'.
Proof.
  intros P. destruct l as [|a r], l' as [|b r']; try reflexivity; try (exfalso; apply Permutation_length in P; discriminate).
  apply Qcle_antisym; apply fold_min_le.
  - apply (Permutation_in _ (Permutation_sym P)), fold_min_in.
  - apply (Permutation_in _ P), fold_min_in.
Qed.
Lemma qmax_perm l l' : Permutation l l' -> qmax_l l = qmax_l l'.
Proof.
  intros P. destruct l as [|a r], l' as [|b r']; try reflexivity; try (exfalso; apply Permutation_length in P; discriminate).
  apply Qcle_antisym; apply fold_max_ge.
  - apply (Permutation_in _ P), fold_max_in.
  - apply (Permutation_in _ (Permutation_sym P)), fold_max_in.
Qed.
Lemma zmax_le : forall l a x, In x (a :: l) -> (x <= fold_right Z.max a l)%Z.
Proof. induction l as [|b l IH]; intros a x H; [destruct H as [->|[]]; cbn; lia|]. cbn [fold_right]. destruct H as [->|[->|H]]; [assert (h := IH x x (or_introl eq_refl)); lia|lia|]. assert (h := IH a x (or_intror H)). lia. Qed.
Lemma zmax_in : forall l a, In (fold_right Z.max a l) (a :: l).
Proof. induction l as [|b l IH]; intros a; [now left|]. cbn [fold_right]. destruct (Z.max_spec b (fold_right Z.max a l)) as [[_ ->]|[_ ->]]; [|right; now left]. destruct (IH a) as [E|I]; [left; exact E|right; now right]. Qed.
Lemma zmin_ge : forall l a x, In x (a :: l) -> (fold_right Z.min a l <= x)%Z.
Proof. induction l as [|b l IH]; intros a x H; [destruct H as [->|[]]; cbn; lia|]. cbn [fold_right]. destruct H as [->|[->|H]]; [assert (h := IH x x (or_introl eq_refl)); lia|lia|]. assert (h := IH a x (or_intror H)). lia. Qed.
Lemma zmin_in : forall l a, In (fold_right Z.min a l) (a :: l).
Proof. induction l as [|b l IH]; intros a; [now left|]. cbn [fold_right]. destruct (Z.min_spec b (fold_right Z.min a l)) as [[_ ->]|[_ ->]]; [right; now left|]. destruct (IH a) as [E|I]; [left; exact E|right; now right]. Qed.
Lemma hd_in (l : list Z) x : l <> [] -> In x (hd 0%Z l :: l) <-> In x l.
Proof. destruct l; [easy|]. intros _. cbn [hd]. split; [intros [->|h]; [now left|exact h]|intros h; now right]. Qed.
Lemma zmax_perm l l' : Permutation l l' -> fold_right Z.max (hd 0%Z l) l = fold_right Z.max (hd 0%Z l') l'.
Proof.
  intros P. destruct l as [|a l]; [apply Permutation_nil in P; now subst|]. assert (N' : l' <> []) by (intros ->; symmetry in P; now apply Permutation_nil in P).
  assert (N : a :: l <> []) by discriminate. set (m := a :: l) in *. clearbody m. apply Z.le_antisymm; apply zmax_le; rewrite hd_in by assumption.
  - apply (Permutation_in _ P). rewrite <- hd_in by assumption. apply zmax_in.
  - apply (Permutation_in _ (Permutation_sym P)). rewrite <- hd_in by assumption. apply zmax_in.
Qed.
Lemma zmin_perm l l' : Permutation l l' -> fold_right Z.min (hd 0%Z l) l = fold_right Z.min (hd 0%Z l') l'.
Proof.
  intros P. destruct l as [|a l]; [apply Permutation_nil in P; now subst|]. assert (N' : l' <> []) by (intros ->; symmetry in P; now apply Permutation_nil in P).
  assert (N : a :: l <> []) by discriminate. set (m := a :: l) in *. clearbody m. apply Z.le_antisymm; apply zmin_ge; rewrite hd_in by assumption.
  - apply (Permutation_in _ (Permutation_sym P)). rewrite <- hd_in by assumption. apply zmin_in.
  - apply (Permutation_in _ P). rewrite <- hd_in by assumption. apply zmin_in.
Qed.

Definition key (r : crow) : Z * Z := (c_id r, c_t r).
Definition keyed (l : list crow) : Prop := NoDup (map key l).
Lemma keyed_filter p l : keyed l -> keyed (filter p l).
Proof.
  unfold keyed. induction l as [|a l IH]; [auto|]. cbn [map filter]. intros N. apply NoDup_cons_iff in N as [N1 N2]. destruct (p a); [|auto]. cbn [map].
  constructor; [|auto]. intros I. apply N1. apply in_map_iff in I as [b [E I]]. apply filter_In in I as [I _]. rewrite <- E. now apply in_map.
Qed.
Lemma keyed_map f l : (forall r, key (f r) = key r) -> keyed l -> keyed (map f l).
Proof. intros H. unfold keyed. rewrite map_map. now rewrite (map_ext _ _ H). Qed.
Lemma keyed_perm l l' : Permutation l l' -> keyed l -> keyed l'.
Proof. intros P. apply Permutation_NoDup, Permutation_map, P. Qed.
Lemma keyed_inj l a b : keyed l -> In a l -> In b l -> key a = key b -> a = b.
Proof.
  unfold keyed. induction l as [|c l IH]; [easy|]. cbn [map]. intros N Ia Ib E. apply NoDup_cons_iff in N as [N1 N2].
  destruct Ia as [->|Ia], Ib as [->|Ib]; [reflexivity| | |now apply IH].
  - exfalso. apply N1. rewrite E. now apply in_map.
  - exfalso. apply N1. rewrite <- E. now apply in_map.
Qed.
Lemma keyed_nodup l : keyed l -> NoDup l.
Proof. apply NoDup_map_inv. Qed.
(** A permutation of a list with at most one element. *)
Lemma atmost1 {A} (l l' : list A) : Permutation l l' -> NoDup l -> (forall a b, In a l -> In b l -> a = b) -> l = l'.
Proof.
  intros P N U. destruct l as [|a [|b l]].
  - apply Permutation_nil in P. now subst.
  - apply Permutation_length_1_inv in P. now subst.
  - exfalso. apply NoDup_cons_iff in N as [N _]. apply N. rewrite (U a b); [now left|now left|right; now left].
Qed.
Lemma periods_perm l l' : Permutation l l' -> periods l = periods l'. Proof. apply map_zuniq_perm. Qed.
Lemma units_perm l l' : Permutation l l' -> units l = units l'. Proof. apply map_zuniq_perm. Qed.
Lemma groups_perm l l' : Permutation l l' -> groups_of l = groups_of l'.
Proof. intros P. unfold groups_of. apply zuniq_ext. intros x. rewrite !in_flat_map. split; intros [r [I H]]; exists r; (split; [|exact H]); [now apply (Permutation_in _ P)|now apply (Permutation_in _ (Permutation_sym P))]. Qed.
Lemma encode_perm l l' : Permutation l l' -> Permutation (encode_treatment l) (encode_treatment l').
Proof. intros P. unfold encode_treatment. rewrite (zmax_perm _ _ (Permutation_map c_t P)). now apply Permutation_map. Qed.
Lemma recode_perm l l' : Permutation l l' -> Permutation (recode_periods l) (recode_periods l').
Proof. intros P. unfold recode_periods. rewrite (periods_perm _ _ P). now apply Permutation_map. Qed.
Lemma early_perm o l l' : Permutation l l' -> Permutation (drop_early o l) (drop_early o l').
Proof. intros P. unfold drop_early. rewrite (zmin_perm _ _ (Permutation_map c_t P)). now apply filter_perm. Qed.
Lemma dose_perm l l' : Permutation l l' -> Permutation (validate_dose l) (validate_dose l').
Proof. intros P. unfold validate_dose. now apply filter_perm, Permutation_map. Qed.
Lemma balance_perm l l' : Permutation l l' -> Permutation (balance l) (balance l').
Proof.
  intros P. unfold balance. rewrite (periods_perm _ _ P). rewrite (filter_perm _ _ _ P). erewrite filter_ext; [apply Permutation_refl|]. intros r. cbv beta.
  now rewrite (Permutation_length (filter_perm (fun s => (c_id s =? c_id r)%Z) _ _ P)).
Qed.
Lemma index_inj : forall l x y, In x l -> In y l -> index_of x l = index_of y l -> x = y.
Proof.
  assert (Nn : forall l x, (0 <= index_of x l)%Z) by (induction l as [|a l IH]; intros x; cbn [index_of]; [lia|]; destruct (a =? x)%Z; [lia|]; specialize (IH x); lia).
  induction l as [|a l IH]; intros x y Ix Iy E; [easy|]. cbn [index_of] in E. assert (Hx := Nn l x). assert (Hy := Nn l y).
  destruct (Z.eqb_spec a x), (Z.eqb_spec a y); try lia. destruct Ix as [|Ix], Iy as [|Iy]; try contradiction. apply IH; auto. lia.
Qed.
Lemma keyed_recode l : keyed l -> keyed (recode_periods l).
Proof.
  intros K. unfold keyed, recode_periods. rewrite map_map. assert (N := keyed_nodup l K).
  assert (Inj : forall a b, In a l -> In b l -> key (set_t (1 + index_of (c_t a) (periods l))%Z a) = key (set_t (1 + index_of (c_t b) (periods l))%Z b) -> a = b).
  { intros a b Ia Ib E. apply (keyed_inj l a b K Ia Ib). unfold key in *. cbn [c_id c_t set_t] in E. assert (E1 := f_equal fst E). assert (E2 := f_equal snd E). cbn [fst snd] in E1, E2. rewrite E1. f_equal.
    apply (index_inj (periods l)); [apply zuniq_in; now apply in_map|apply zuniq_in; now apply in_map|lia]. }
  revert N Inj. generalize (periods l). intros ps. clear K. induction l as [|a l IH]; intros N Inj; [constructor|]. apply NoDup_cons_iff in N as [N1 N2]. cbn [map]. constructor.
  - intros I. apply in_map_iff in I as [b [E I]]. apply N1. rewrite (Inj a b); [exact I|now left|now right|now symmetry].
  - apply IH; [exact N2|]. intros x y Hx Hy. apply Inj; now right.
Qed.
Lemma preprocess_perm o l l' : Permutation l l' -> Permutation (preprocess o l) (preprocess o l').
Proof. intros P. unfold preprocess. now apply balance_perm, dose_perm, early_perm, recode_perm, encode_perm. Qed.
Lemma keyed_preprocess o l : keyed l -> keyed (preprocess o l).
Proof.
  intros K. unfold preprocess. apply keyed_filter, keyed_filter, keyed_map; [intros r; destruct (c_g r); reflexivity|]. apply keyed_filter, keyed_recode, keyed_map; [|exact K].
  intros r. destruct (c_g r); reflexivity.
Qed.
Lemma positive_perm l l' : Permutation l l' -> Permutation (positive_doses l) (positive_doses l').
Proof. intros P. unfold positive_doses. now apply Permutation_map, filter_perm. Qed.
Lemma knots_perm x x' m : Permutation x x' -> choose_knots x m = choose_knots x' m.
Proof.
  intros P. unfold choose_knots. rewrite (qsort_perm_eq _ _ P). destruct x, x'; try reflexivity; exfalso; apply Permutation_length in P; discriminate.
Qed.
Lemma grid_perm o x x' : Permutation x x' -> dose_grid o x = dose_grid o x'.
Proof.
  intros P. unfold dose_grid. rewrite (qmin_perm _ _ P), (qmax_perm _ _ P). destruct (co_dvals o); [reflexivity|]. destruct x, x'; try reflexivity; exfalso; apply Permutation_length in P; discriminate.
Qed.
Lemma post_perm o g tp l l' : keyed l -> Permutation l l' -> post_units tp (subset o g tp l) = post_units tp (subset o g tp l').
Proof.
  intros K P. assert (Ps : Permutation (subset o g tp l) (subset o g tp l')) by (unfold subset; now apply Permutation_map, filter_perm).
  assert (Ks : keyed (subset o g tp l)) by (unfold subset; apply keyed_map; [reflexivity|]; now apply keyed_filter).
  assert (T : forall r, In r (subset o g tp l) -> c_t r = tp \/ c_t r = base_of o g tp).
  { intros r H. apply in_map_iff in H as [x [<- H]]. apply filter_In in H as [_ H]. unfold in_cell in H. apply andb_prop in H as [_ H]. cbn [set_d c_t]. apply orb_prop in H. destruct H as [H|H]; apply Z.eqb_eq in H; auto. }
  set (s := subset o g tp l) in *. set (s' := subset o g tp l') in *. clearbody s s'. unfold post_units. rewrite (units_perm _ _ Ps). apply flat_map_ext. intros i.
  assert (E : filter (fun r => (c_id r =? i)%Z && (c_t r =? tp)%Z) s = filter (fun r => (c_id r =? i)%Z && (c_t r =? tp)%Z) s').
  { apply atmost1; [now apply filter_perm|apply keyed_nodup; now apply keyed_filter|]. intros a b Ia Ib. apply filter_In in Ia as [Ia Pa], Ib as [Ib Pb].
    apply andb_prop in Pa as [A1 A2], Pb as [B1 B2]. apply Z.eqb_eq in A1, A2, B1, B2. apply (keyed_inj s a b Ks Ia Ib). unfold key. congruence. }
  rewrite <- E. apply map_ext_in. intros r Hr. apply filter_In in Hr as [Ir Pr]. apply andb_prop in Pr as [R1 R2]. apply Z.eqb_eq in R1, R2. do 2 f_equal. unfold prev_y.
  assert (E' : filter (fun b => (c_id b =? c_id r)%Z && (c_t b <? c_t r)%Z) s = filter (fun b => (c_id b =? c_id r)%Z && (c_t b <? c_t r)%Z) s').
  { apply atmost1; [now apply filter_perm|apply keyed_nodup; now apply keyed_filter|]. intros a b Ia Ib. apply filter_In in Ia as [Ia Pa], Ib as [Ib Pb].
    apply andb_prop in Pa as [A1 A2], Pb as [B1 B2]. apply Z.eqb_eq in A1, B1. apply Z.ltb_lt in A2, B2. apply (keyed_inj s a b Ks Ia Ib). unfold key.
    destruct (T a Ia), (T b Ib); try lia. congruence. }
  now rewrite E'.
Qed.
Lemma process_cell_perm orc o knots dvals l l' tp g : keyed l -> Permutation l l' -> process_cell orc o knots dvals l tp g = process_cell orc o knots dvals l' tp g.
Proof.
  intros K P. unfold process_cell. rewrite (post_perm o g tp l l' K P). f_equal. f_equal. apply units_perm. unfold subset. now apply Permutation_map, filter_perm.
Qed.
Lemma share_perm l l' g : Permutation l l' -> cohort_share l g = cohort_share l' g.
Proof. intros P. unfold cohort_share. apply mean_perm. now apply filter_perm. Qed.
Lemma process_dose_perm o knots dvals l l' cells : Permutation l l' -> process_dose o knots dvals l cells = process_dose o knots dvals l' cells.
Proof.
  intros P. unfold process_dose. assert (E : forall c, overall_weights l c = overall_weights l' c).
  { intros c. unfold overall_weights. now rewrite (map_ext _ _ (fun g => share_perm l l' g P)). }
  rewrite E, (units_perm _ _ P). reflexivity.
Qed.
Lemma cont_did_perm orc o l l' : keyed l -> Permutation l l' -> cont_did orc o l = cont_did orc o l'.
Proof.
  intros K P. unfold cont_did. assert (Pp := preprocess_perm o _ _ P). assert (Kp := keyed_preprocess o l K).
  set (m := preprocess o l) in *. set (m' := preprocess o l') in *. clearbody m m'. unfold cont_run.
  assert (Pd : Permutation (pte_data o m) (pte_data o m')) by (unfold pte_data; now apply filter_perm). assert (Kd : keyed (pte_data o m)) by now apply keyed_filter.
  rewrite (knots_perm _ _ (co_nknots o) (positive_perm _ _ Pd)), (grid_perm o _ _ (positive_perm _ _ Pd)).
  assert (Et : t_list o m = t_list o m') by (unfold t_list; now rewrite (periods_perm _ _ Pp)).
  assert (Eg : g_list o m = g_list o m') by (unfold g_list; now rewrite Et, (periods_perm _ _ Pp), (groups_perm _ _ Pp)).
  rewrite Et, Eg. assert (Ec : forall k d ts gs, compute_pte orc o k d ts gs (pte_data o m) = compute_pte orc o k d ts gs (pte_data o m')).
  { intros k d ts gs. unfold compute_pte. apply flat_map_ext. intros t. apply map_ext. intros g. now apply process_cell_perm. }
  rewrite Ec. rewrite (process_dose_perm o _ _ _ _ _ Pd). reflexivity.
Qed.
