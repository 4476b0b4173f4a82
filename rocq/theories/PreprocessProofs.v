From Verif Require Import Base ListLib PreprocessModel PreprocessSpec.

(** * Groups *)
Lemma grp_eqb_spec a b : reflect (a = b) (grp_eqb a b).
Proof.
  apply iff_reflect. destruct a, b; cbn; try (split; congruence). rewrite Z.eqb_eq. split; congruence.
Qed.
Lemma grp_leb_total a b : grp_leb a b = true \/ grp_leb b a = true.
Proof. destruct a, b; cbn; auto. rewrite !Z.leb_le. lia. Qed.
Lemma grp_leb_trans a b c : grp_leb a b = true -> grp_leb b c = true -> grp_leb a c = true.
Proof. destruct a, b, c; cbn; auto; try discriminate. rewrite !Z.leb_le. lia. Qed.
Lemma grp_leb_anti a b : grp_leb a b = true -> grp_leb b a = true -> a = b.
Proof. destruct a, b; cbn; auto; try discriminate. rewrite !Z.leb_le. intros. f_equal. lia. Qed.

(** * Row order *)
Lemma row_leb_iff a b : row_leb a b = true <->
  (r_t a < r_t b)%Z \/ (r_t a = r_t b /\ ((grp_leb (r_g a) (r_g b) = true /\ r_g a <> r_g b) \/
                                       (r_g a = r_g b /\ (r_id a <= r_id b)%Z))).
Proof.
  unfold row_leb. destruct (Z.ltb_spec (r_t a) (r_t b)); [intuition|].
  destruct (Z.ltb_spec (r_t b) (r_t a)); [intuition (discriminate || lia)|].
  assert (r_t a = r_t b) by lia.
  destruct (grp_leb (r_g b) (r_g a)) eqn:E1; cbn [negb].
  - destruct (grp_leb (r_g a) (r_g b)) eqn:E2; cbn [negb].
    + assert (r_g a = r_g b) by (apply grp_leb_anti; assumption). rewrite Z.leb_le. intuition.
    + split; [discriminate|]. intros [h|[_ [[h _]|[h _]]]]; [lia|congruence|].
      rewrite h in E1, E2. congruence.
  - split; [|reflexivity]. intros _. right. split; [assumption|]. left.
    destruct (grp_leb_total (r_g a) (r_g b)) as [h|h]; [|congruence]. split; [exact h|].
    intros e. rewrite e in *. congruence.
Qed.
Lemma row_leb_total a b : row_leb a b = true \/ row_leb b a = true.
Proof.
  rewrite !row_leb_iff. destruct (Z.lt_trichotomy (r_t a) (r_t b)) as [h|[h|h]]; [auto| |auto].
  destruct (grp_eqb_spec (r_g a) (r_g b)) as [e|n].
  - destruct (Z.le_ge_cases (r_id a) (r_id b)); [left|right]; right; split; auto.
  - destruct (grp_leb_total (r_g a) (r_g b)); [left|right]; right; split; auto.
Qed.
Lemma row_leb_trans a b c : row_leb a b = true -> row_leb b c = true -> row_leb a c = true.
Proof.
  rewrite !row_leb_iff. intros [h1|[e1 h1]] [h2|[e2 h2]]; [left; lia|left; lia|left; lia|].
  right. split; [congruence|]. destruct h1 as [[l1 n1]|[e1' l1]], h2 as [[l2 n2]|[e2' l2]].
  - left. split; [eapply grp_leb_trans; eassumption|]. intros e. apply n1. rewrite <- e in l2.
    apply grp_leb_anti; assumption.
  - left. rewrite <- e2'. auto.
  - left. rewrite e1'. auto.
  - right. split; [congruence|lia].
Qed.

Lemma data_sorter_perm l : Permutation (data_sorter l) l. Proof. apply isort_perm. Qed.
Lemma data_sorter_in r l : In r (data_sorter l) <-> In r l. Proof. apply isort_in. Qed.
Lemma data_sorter_sorted l : StronglySorted (fun a b => row_leb a b = true) (data_sorter l).
Proof. apply isort_sorted; [apply row_leb_total | apply row_leb_trans]. Qed.

(** * zuniq extremes *)
Lemma zuniq_nil l : zuniq l = [] -> l = [].
Proof.
  destruct l as [|a l]; [reflexivity|]. intros H. assert (In a (zuniq (a :: l))) by (apply zuniq_in; left; reflexivity).
  rewrite H in H0. destruct H0.
Qed.
Lemma ssorted_hd l : StronglySorted Z.lt l -> forall x, In x l -> (hd 0 l <= x)%Z.
Proof.
  intros H x Hx. destruct H as [|a l Hs Hf]; [destruct Hx|]. cbn. destruct Hx as [->|Hx]; [lia|].
  rewrite Forall_forall in Hf. specialize (Hf x Hx). lia.
Qed.
Lemma ssorted_last l d : StronglySorted Z.lt l -> forall x, In x l -> (x <= last l d)%Z.
Proof.
  induction 1 as [|a l Hs IH Hf]; intros x Hx; [destruct Hx|]. destruct l as [|b l].
  - destruct Hx as [->|[]]. cbn. lia.
  - change (last (a :: b :: l) d) with (last (b :: l) d).
    destruct Hx as [<-|Hx]; [|apply IH, Hx].
    rewrite Forall_forall in Hf. assert (h := Hf b (or_introl eq_refl)).
    assert (h2 := IH b (or_introl eq_refl)). lia.
Qed.
Lemma last_in {A} (l : list A) d : l <> [] -> In (last l d) l.
Proof.
  induction l as [|a l IH]; intros H; [congruence|]. destruct l as [|b l]; [left; reflexivity|].
  right. apply IH. discriminate.
Qed.
Lemma hd_in {A} (l : list A) d : l <> [] -> In (hd d l) l.
Proof. destruct l; [congruence|]. left. reflexivity. Qed.

Lemma tlist_in l t : In t (tlist l) <-> exists r, In r l /\ r_t r = t.
Proof.
  unfold tlist. rewrite zuniq_in, in_map_iff. split; intros [r [H1 H2]]; exists r; auto.
Qed.
Lemma tlist_nonempty l : l <> [] -> tlist l <> [].
Proof. intros H E. apply zuniq_nil in E. destruct l; [congruence|discriminate]. Qed.
Lemma first_period_hd l : l <> [] -> first_period_of l (hd 0%Z (tlist l)).
Proof.
  intros H. split.
  - apply tlist_in, hd_in, tlist_nonempty, H.
  - intros r Hr. apply ssorted_hd; [apply zuniq_sorted|]. apply tlist_in. eauto.
Qed.
Lemma last_period_last l : l <> [] -> last_period_of l (last (tlist l) 0%Z).
Proof.
  intros H. split.
  - apply tlist_in, last_in, tlist_nonempty, H.
  - intros r Hr. apply ssorted_last; [apply zuniq_sorted|]. apply tlist_in. eauto.
Qed.
Lemma first_period_unique l m m' : first_period_of l m -> first_period_of l m' -> m = m'.
Proof.
  intros [[r [Hr <-]] H1] [[r' [Hr' <-]] H2]. specialize (H1 r' Hr'). specialize (H2 r Hr). lia.
Qed.
Lemma last_period_unique l m m' : last_period_of l m -> last_period_of l m' -> m = m'.
Proof.
  intros [[r [Hr <-]] H1] [[r' [Hr' <-]] H2]. specialize (H1 r' Hr'). specialize (H2 r Hr). lia.
Qed.
Lemma tlist_ext l l' : (forall t, (exists r, In r l /\ r_t r = t) <-> (exists r, In r l' /\ r_t r = t)) -> tlist l = tlist l'.
Proof.
  intros H. unfold tlist. apply zuniq_ext. intros t. rewrite !in_map_iff.
  specialize (H t). split; intros [r [E Hr]].
  - destruct (proj1 H) as [r' [A B]]; eauto.
  - destruct (proj2 H) as [r' [A B]]; eauto.
Qed.

(** * Encoding *)
Definition enc_g (m : Z) (g : grp) : grp :=
  let g1 := if grp_eqb g (Fin 0) then Inf else g in if grp_gtz g1 m then Inf else g1.
Lemma encode_map l : encode l = map (fun r => set_g r (enc_g (last (tlist l) 0%Z) (r_g r))) l.
Proof. unfold encode. rewrite map_map. apply map_ext. intros r. reflexivity. Qed.
Lemma enc_g_code m g : group_code m g (enc_g m g).
Proof.
  unfold enc_g. destruct (grp_eqb_spec g (Fin 0)) as [->|n]; [cbn; constructor|].
  destruct g as [z|]; cbn; [|constructor]. destruct (Z.ltb_spec m z).
  - apply gc_after. assumption.
  - apply gc_same; [congruence|assumption].
Qed.
Lemma group_code_fun m g a b : group_code m g a -> group_code m g b -> a = b.
Proof. intros H1 H2. destruct H1; inversion H2; subst; try reflexivity; try lia; try congruence. Qed.

Lemma encode_tlist l : tlist (encode l) = tlist l.
Proof. rewrite encode_map. unfold tlist. rewrite map_map. reflexivity. Qed.
Lemma encode_nil l : encode l = [] <-> l = [].
Proof. rewrite encode_map. destruct l; cbn; split; congruence. Qed.
Lemma normalize_nil l : normalize_weights l = [] <-> l = [].
Proof. unfold normalize_weights. destruct l; cbn; split; congruence. Qed.
Lemma normalize_tlist l : tlist (normalize_weights l) = tlist l.
Proof. unfold tlist, normalize_weights. rewrite map_map. reflexivity. Qed.

(** * Early filter *)
Definition early_unit (c : pconfig) (l : list row) (r : row) : Prop :=
  if c_has_id c then exists r', In r' l /\ r_id r' = r_id r /\ treated_by (r_g r') (hd 0%Z (tlist l) + c_ant c)
  else treated_by (r_g r) (hd 0%Z (tlist l) + c_ant c).
Lemma grp_lez_treated g p : grp_lez g p = true <-> treated_by g p.
Proof.
  unfold treated_by. destruct g as [z|]; cbn.
  - rewrite Z.leb_le. split; [intros; exists z; auto|]. intros [z' [e h]]. injection e as ->. exact h.
  - split; [discriminate|]. intros [z [e _]]. discriminate.
Qed.
Lemma early_filter_in c l r : In r (early_filter c l) <-> In r l /\ ~ early_unit c l r.
Proof.
  unfold early_filter, early_unit. destruct (c_has_id c); rewrite filter_In.
  - apply and_iff_compat_l. rewrite negb_true_iff. destruct (zmem_spec (r_id r) (map r_id (filter (fun r => grp_lez (r_g r) (hd 0%Z (tlist l) + c_ant c)) l))) as [h|h].
    + split; [discriminate|]. intros n. exfalso. apply n. apply in_map_iff in h as [r' [e h]].
      apply filter_In in h as [h1 h2]. exists r'. rewrite <- grp_lez_treated. auto.
    + split; [|reflexivity]. intros _ [r' [h1 [h2 h3]]]. apply h. rewrite <- h2. apply in_map.
      apply filter_In. rewrite grp_lez_treated. auto.
  - apply and_iff_compat_l. rewrite negb_true_iff, <- grp_lez_treated.
    destruct (grp_lez _ _); intuition congruence.
Qed.
Lemma early_filter_not_treated c l r : In r (early_filter c l) -> ~ treated_by (r_g r) (hd 0%Z (tlist l) + c_ant c).
Proof.
  intros H. apply early_filter_in in H as [H1 H2]. intros h. apply H2. unfold early_unit.
  destruct (c_has_id c); [|exact h]. exists r. auto.
Qed.

(** * Control-group creation *)
Definition no_never (l : list row) : Prop := forall r, In r l -> r_g r <> Inf.
(** [z] is the latest (finite) cohort of [l] *)
Definition latest_cohort (l : list row) (z : Z) : Prop :=
  (exists r, In r l /\ r_g r = Fin z) /\ forall r z', In r l -> r_g r = Fin z' -> (z' <= z)%Z.

Lemma finite_groups_in l z : In z (finite_groups l) <-> exists r, In r l /\ r_g r = Fin z.
Proof.
  unfold finite_groups. rewrite zuniq_in, in_flat_map. split.
  - intros [r [Hr H]]. exists r. destruct (r_g r); [|destruct H]. destruct H as [->|[]]. auto.
  - intros [r [Hr H]]. exists r. rewrite H. cbn. auto.
Qed.
Lemma existsb_inf l : existsb (fun r => grp_is_inf (r_g r)) l = false <-> no_never l.
Proof.
  unfold no_never. rewrite <- not_true_iff_false, existsb_exists. split.
  - intros H r Hr E. apply H. exists r. rewrite E. auto.
  - intros H [r [Hr E]]. apply (H r Hr). destruct (r_g r); [discriminate|reflexivity].
Qed.
Lemma latest_unique l z z' : latest_cohort l z -> latest_cohort l z' -> z = z'.
Proof.
  intros [[r [Hr E]] H1] [[r' [Hr' E']] H2]. specialize (H1 r' z' Hr' E'). specialize (H2 r z Hr E). lia.
Qed.

Lemma control_creator_cases c l :
  (~ no_never l /\ control_creator c l = l) \/
  (l = [] /\ control_creator c l = []) \/
  (no_never l /\ exists z, latest_cohort l z /\
     control_creator c l =
       let l' := filter (fun r => (r_t r <? z - c_ant c)%Z) l in
       if c_never c then map (fun r => set_g r (if grp_eqb (r_g r) (Fin z) then Inf else r_g r)) l' else l').
Proof.
  unfold control_creator. destruct (existsb _ l) eqn:E.
  - left. split; [|reflexivity]. rewrite <- existsb_inf. congruence.
  - apply existsb_inf in E. right. destruct (finite_groups l) as [|g0 gs] eqn:F.
    + left. destruct l as [|r l]; [auto|]. exfalso.
      destruct (r_g r) as [z|] eqn:G; [|apply (E r); [left; reflexivity|exact G]].
      assert (H : In z (finite_groups (r :: l))) by (apply finite_groups_in; exists r; cbn; auto).
      rewrite F in H. destruct H.
    + right. split; [exact E|]. exists (last (g0 :: gs) 0%Z). split; [|reflexivity].
      rewrite <- F. split.
      * apply finite_groups_in, last_in. rewrite F. discriminate.
      * intros r z' Hr Hz. apply ssorted_last; [apply zuniq_sorted|]. apply finite_groups_in. eauto.
Qed.

(** * Balancing *)
Lemma count_complete l i : NoDup (map (fun r => (r_id r, r_t r)) l) ->
  (count_id i l = length (tlist l) <-> (forall t, In t (tlist l) -> exists r, In r l /\ r_id r = i /\ r_t r = t)).
Proof.
  intros N. unfold count_id. set (li := filter (fun r => (r_id r =? i)%Z) l).
  assert (Ni : NoDup (map r_t li)).
  { unfold li. clear -N. induction l as [|a l IH]; [constructor|]. cbn in *. inversion N as [|? ? Na Nl]; subst.
    destruct (Z.eqb_spec (r_id a) i) as [e|n]; [|apply IH, Nl]. cbn. constructor; [|apply IH, Nl].
    intros H. apply in_map_iff in H as [b [Eb Hb]]. apply filter_In in Hb as [Hb1 Hb2]. apply Z.eqb_eq in Hb2.
    apply Na. apply in_map_iff. exists b. split; [congruence|exact Hb1]. }
  assert (Incl : incl (map r_t li) (tlist l)).
  { intros t Ht. apply in_map_iff in Ht as [r [<- Hr]]. apply filter_In in Hr as [Hr _]. apply tlist_in. eauto. }
  split.
  - intros E t Ht. assert (I2 : incl (tlist l) (map r_t li)).
    { apply NoDup_length_incl; [exact Ni|rewrite map_length; lia|exact Incl]. }
    apply I2, in_map_iff in Ht as [r [<- Hr]]. apply filter_In in Hr as [Hr1 Hr2]. apply Z.eqb_eq in Hr2. eauto.
  - intros H. assert (I2 : incl (tlist l) (map r_t li)).
    { intros t Ht. destruct (H t Ht) as [r [Hr [E1 E2]]]. apply in_map_iff. exists r. split; [exact E2|].
      apply filter_In. split; [exact Hr|apply Z.eqb_eq, E1]. }
    assert (L1 := NoDup_incl_length Ni Incl). assert (L2 := NoDup_incl_length (zuniq_nodup (map r_t l)) I2).
    rewrite map_length in L1. fold (tlist l) in L2. rewrite map_length in L2. unfold li in *. lia.
Qed.

Lemma observed_always_iff l i : observed_always l i <->
  (forall t, In t (tlist l) -> exists r, In r l /\ r_id r = i /\ r_t r = t).
Proof.
  unfold observed_always. split.
  - intros H t Ht. apply tlist_in in Ht as [r [Hr <-]]. destruct (H r Hr) as [r' [A [B C]]]. eauto.
  - intros H r Hr. destruct (H (r_t r)) as [r' [A [B C]]]; [apply tlist_in; eauto|]. eauto.
Qed.

Lemma balance_filter c l out : c_panel c = true -> c_unbal c = false -> c_has_id c = true ->
  balance c l = Some out ->
  out = filter (fun r => (count_id (r_id r) l =? length (tlist l))%nat) l /\ out <> [].
Proof.
  intros H1 H2 H3. unfold balance. rewrite H1, H2, H3. cbn [negb orb].
  set (f := filter (fun r => zmem _ _) l).
  assert (E : f = filter (fun r => (count_id (r_id r) l =? length (tlist l))%nat) l).
  { unfold f. apply filter_ext_in'. intros r Hr.
    match goal with |- zmem ?x ?s = _ => destruct (zmem_spec x s) as [h|h] end.
    - apply filter_In in h as [_ h]. symmetry. exact h.
    - destruct (count_id (r_id r) l =? length (tlist l))%nat eqn:Ec; [|reflexivity].
      exfalso. apply h. apply filter_In. split; [apply zuniq_in, in_map, Hr|exact Ec]. }
  rewrite <- E. destruct f; [discriminate|]. intros H. injection H as <-. split; [reflexivity|discriminate].
Qed.

Lemma balance_in c l out : c_panel c = true -> c_unbal c = false -> c_has_id c = true ->
  NoDup (map (fun r => (r_id r, r_t r)) l) -> balance c l = Some out ->
  forall r, In r out <-> In r l /\ observed_always l (r_id r).
Proof.
  intros H1 H2 H3 N H r. destruct (balance_filter c l out H1 H2 H3 H) as [-> _].
  rewrite filter_In, Nat.eqb_eq, count_complete, observed_always_iff by exact N. reflexivity.
Qed.

Lemma NoDup_map_filter {A B} (f : A -> B) (p : A -> bool) l : NoDup (map f l) -> NoDup (map f (filter p l)).
Proof.
  induction l as [|a l IH]; intros N; [constructor|]. cbn in *. inversion N as [|? ? Na Nl]; subst.
  destruct (p a); [|apply IH, Nl]. cbn. constructor; [|apply IH, Nl].
  intros H. apply Na. apply in_map_iff in H as [b [E Hb]]. apply filter_In in Hb as [Hb _].
  apply in_map_iff. eauto.
Qed.

Lemma balance_nodup c l out : NoDup (map (fun r => (r_id r, r_t r)) l) -> balance c l = Some out ->
  NoDup (map (fun r => (r_id r, r_t r)) out).
Proof.
  intros N. unfold balance. destruct (negb (c_panel c) || c_unbal c || negb (c_has_id c)).
  - intros H. injection H as <-. exact N.
  - destruct (filter _ l) eqn:E; [discriminate|]. intros H. injection H as <-. rewrite <- E.
    apply NoDup_map_filter, N.
Qed.

Lemma balance_same_periods c l out : c_panel c = true -> c_unbal c = false -> c_has_id c = true ->
  NoDup (map (fun r => (r_id r, r_t r)) l) -> balance c l = Some out -> tlist out = tlist l.
Proof.
  intros H1 H2 H3 N H. assert (HI := balance_in c l out H1 H2 H3 N H).
  destruct (balance_filter c l out H1 H2 H3 H) as [_ Hne].
  apply tlist_ext. intros t. split.
  - intros [r [Hr E]]. exists r. split; [apply HI, Hr|exact E].
  - intros [r [Hr E]]. destruct out as [|r0 out]; [congruence|].
    destruct (proj1 (HI r0) (or_introl eq_refl)) as [Hr0 Ho].
    destruct (Ho r Hr) as [r' [A [B C]]]. exists r'. split; [|congruence].
    apply HI. split; [exact A|]. rewrite B. exact Ho.
Qed.

Lemma balance_balanced c l out : c_panel c = true -> c_unbal c = false -> c_has_id c = true ->
  NoDup (map (fun r => (r_id r, r_t r)) l) -> balance c l = Some out ->
  forall r, In r out -> observed_always out (r_id r).
Proof.
  intros H1 H2 H3 N H r Hr s Hs. assert (HI := balance_in c l out H1 H2 H3 N H).
  apply HI in Hr as [_ Ho]. assert (Hs' := proj1 (HI s) Hs).
  destruct (Ho s (proj1 Hs')) as [r' [A [B C]]]. exists r'. split; [|auto].
  apply HI. split; [exact A|]. rewrite B. exact Ho.
Qed.

(** rows of a balanced panel: #units x #periods *)
Lemma balanced_count l : NoDup (map (fun r => (r_id r, r_t r)) l) ->
  (forall r, In r l -> observed_always l (r_id r)) ->
  length l = (length (zuniq (map r_id l)) * length (tlist l))%nat.
Proof.
  intros N HB.
  assert (P : Permutation (map (fun r => (r_id r, r_t r)) l) (list_prod (zuniq (map r_id l)) (tlist l))).
  { apply NoDup_Permutation; [exact N| |].
    - apply NoDup_prod; apply zuniq_nodup.
    - intros [i t]. rewrite in_prod_iff, zuniq_in, tlist_in, !in_map_iff. split.
      + intros [r [E Hr]]. injection E as <- <-. split; [exists r; auto|exists r; auto].
      + intros [[r [Ei Hr]] [s [Hs Et]]]. destruct (HB r Hr s Hs) as [r' [A [B C]]].
        exists r'. split; [congruence|exact A]. }
  apply Permutation_length in P. rewrite map_length, prod_length in P. exact P.
Qed.
