(** Proofs: invariances of the two-period panel preprocessing. *)
From Verif Require Import Base ListLib DrdidModel DrdidSpec DrdidProofs2 RcModel TwoModel TwoSpec TwoProofs TwoProofs2.

Lemma units_unique wn l us us' : units_of wn l us -> units_of wn l us' -> us = us'.
Proof.
  intros [lo [hi [TP [S I]]]] [lo' [hi' [TP' [S' I']]]]. destruct (two_periods_unique l _ _ _ _ TP TP') as [<- <-].
  apply (ssorted_ext (fun u v => (p_id u < p_id v)%Z)); [intros; lia|intros; lia|exact S|exact S'|]. intros u. rewrite I, I'. reflexivity.
Qed.
Lemma panel_data wn l us : preprocess_panel wn l = PData us -> well_formed wn l /\ mean (weight_of wn) l <> 0 /\ usable wn l /\ units_of wn l us.
Proof.
  destruct (panel_cases wn l) as [[_ E]|[[_ [_ E]]|[[_ [_ [_ E]]]|[W [Z [U [us' [E UO]]]]]]]]; rewrite E; intros X; try discriminate. injection X as <-. tauto.
Qed.
Lemma data_panel wn l us : well_formed wn l -> mean (weight_of wn) l <> 0 -> usable wn l -> units_of wn l us -> preprocess_panel wn l = PData us.
Proof.
  intros W Z U O. destruct (panel_cases wn l) as [[X _]|[[_ [X _]]|[[_ [_ [X _]]]|[_ [_ [_ [us' [E UO]]]]]]]]; try contradiction. rewrite E. f_equal. exact (units_unique wn l us' us UO O).
Qed.
Lemma same_prep wn wn' l l' : (well_formed wn l <-> well_formed wn' l') -> (well_formed wn l -> (mean (weight_of wn) l = 0 <-> mean (weight_of wn') l' = 0)) ->
  (well_formed wn l -> mean (weight_of wn) l <> 0 -> (usable wn l <-> usable wn' l')) -> (well_formed wn l -> mean (weight_of wn) l <> 0 -> forall us, units_of wn l us -> units_of wn' l' us) ->
  preprocess_panel wn l = preprocess_panel wn' l'.
Proof.
  intros HW HZ HU HO. destruct (panel_cases wn l) as [[W E]|[[W [Z E]]|[[W [Z [U E]]]|[W [Z [U [us [E UO]]]]]]]].
  - rewrite E. destruct (panel_cases wn' l') as [[_ E']|[[W' _]|[[W' _]|[W' _]]]]; [symmetry; exact E'|tauto|tauto|tauto].
  - rewrite E. specialize (HZ W). destruct (panel_cases wn' l') as [[W' _]|[[_ [_ E']]|[[_ [Z' _]]|[_ [Z' _]]]]]; [tauto|symmetry; exact E'|tauto|tauto].
  - rewrite E. specialize (HZ W). specialize (HU W Z). destruct (panel_cases wn' l') as [[_ E']|[[_ [Z' _]]|[[_ [_ [_ E']]]|[_ [_ [U' _]]]]]]; [symmetry; exact E'|tauto|symmetry; exact E'|tauto].
  - rewrite E. symmetry. apply data_panel; [tauto|rewrite <- (HZ W); exact Z|apply (HU W Z); exact U|apply (HO W Z); exact UO].
Qed.

(** * Row order *)
Lemma perm_filter {A} (p : A -> bool) l l' : Permutation l l' -> Permutation (filter p l) (filter p l').
Proof.
  induction 1 as [|x l l' H IH|x y l|l m r H1 IH1 H2 IH2]; cbn; [constructor| | |etransitivity; eassumption].
  - destruct (p x); [constructor|]; exact IH.
  - destruct (p x), (p y); try reflexivity. apply perm_swap.
Qed.
Lemma rows_perm i l l' : Permutation l l' -> Permutation (rows_of i l) (rows_of i l').
Proof. apply perm_filter. Qed.
Lemma observed_perm lo hi l l' i a b : Permutation l l' -> observed lo hi l i a b -> observed lo hi l' i a b.
Proof. intros P [O T]. split; [|exact T]. etransitivity; [apply rows_perm; symmetry; exact P|exact O]. Qed.
Lemma periods_perm lo hi l l' : Permutation l l' -> two_periods lo hi l -> two_periods lo hi l'.
Proof.
  intros P [L [A [[r [Hr Er]] [s [Hs Es]]]]]. split; [exact L|]. split; [|split].
  - intros q Hq. apply A. eapply Permutation_in; [symmetry; exact P|exact Hq].
  - exists r. split; [eapply Permutation_in; eassumption|exact Er].
  - exists s. split; [eapply Permutation_in; eassumption|exact Es].
Qed.
Lemma wf_perm wn l l' : Permutation l l' -> well_formed wn l -> well_formed wn l'.
Proof.
  intros P [C [[lo [hi TP]] [[T0 [T1 T2]] [CO [r [i [Hr [Ei N]]]]]]]]. assert (I : forall q, In q l' -> In q l) by (intros q; apply Permutation_in; symmetry; exact P). assert (J : forall q, In q l -> In q l') by (intros q; apply Permutation_in; exact P).
  split; [intros q Hq; apply C, I, Hq|]. split; [exists lo, hi; apply (periods_perm lo hi l l' P TP)|]. split; [|split].
  - split; [intros q Hq; apply T0, I, Hq|]. split; [destruct T1 as [q [Hq E]]|destruct T2 as [q [Hq E]]]; exists q; (split; [apply J; exact Hq|exact E]).
  - intros a b Ha Hb. apply CO; apply I; assumption.
  - exists r, i. split; [apply J; exact Hr|]. split; [exact Ei|]. rewrite <- (Permutation_length (rows_perm i l l' P)). exact N.
Qed.
Lemma usable_perm wn l l' : Permutation l l' -> usable wn l -> usable wn l'.
Proof.
  intros P [lo [hi [TP [[r [i [Hr [Ei [N T]]]]] [[s [j [Hs [Ej [N' T']]]]] W]]]]]. assert (J : forall q, In q l -> In q l') by (intros q; apply Permutation_in; exact P).
  exists lo, hi. split; [exact (periods_perm lo hi l l' P TP)|]. split; [|split].
  - exists r, i. rewrite <- (Permutation_length (rows_perm i l l' P)). split; [apply J; exact Hr|]. tauto.
  - exists s, j. rewrite <- (Permutation_length (rows_perm j l l' P)). split; [apply J; exact Hs|]. tauto.
  - intros k a b O. apply (W k). eapply observed_perm; [symmetry; exact P|exact O].
Qed.
Lemma panel_perm wn l l' : Permutation l l' -> preprocess_panel wn l = preprocess_panel wn l'.
Proof.
  intros P. assert (P' : Permutation l' l) by (symmetry; exact P). apply same_prep.
  - split; apply wf_perm; assumption.
  - intros _. rewrite (mean_perm _ l l' P). reflexivity.
  - intros _ _. split; apply usable_perm; assumption.
  - intros _ _ us [lo [hi [TP [S I]]]]. exists lo, hi. split; [exact (periods_perm lo hi l l' P TP)|]. split; [exact S|]. intros u. rewrite I, (mean_perm _ l l' P). split; intros [a [b [O R]]]; exists a, b; (split; [|exact R]); eapply observed_perm; eassumption.
Qed.

(** * Transformations row by row *)
Section Transform.
Context (wn wn' : bool) (g : traw -> traw) (f : Z -> Z) (c : Qc) (l : list traw) (lo0 : Z).
Context (Gi : forall r, t_id (g r) = t_id r) (Gd : forall r, t_d (g r) = t_d r) (Gy : forall r, t_y (g r) = t_y r) (Gt : forall r, t_t (g r) = option_map f (t_t r))
  (Fm : forall x y, (x < y)%Z -> (f x < f y)%Z) (Gw : forall r, In r l -> weight_of wn' (g r) = c * weight_of wn r) (Cn : c <> 0)
  (Gc : forall r, In r l -> (complete true wn' (g r) <-> complete true wn r)) (Gx : forall r, In r l -> t_t r <> Some lo0 -> t_x (g r) = t_x r)
  (Lo : forall lo hi, two_periods lo hi l -> hi <> lo0).
Lemma f_inj x y : f x = f y -> x = y.
Proof. intros E. destruct (Z.lt_total x y) as [H|[H|H]]; [apply Fm in H; lia|exact H|apply Fm in H; lia]. Qed.
Lemma rows_map i : rows_of i (map g l) = map g (rows_of i l).
Proof. unfold rows_of. clear - Gi. induction l as [|a r IH]; [reflexivity|]. cbn. rewrite Gi. destruct (t_id a) as [j|]; [destruct (j =? i)%Z|]; cbn; rewrite IH; reflexivity. Qed.
Lemma Gt_some r t : t_t (g r) = Some t -> exists s, t_t r = Some s /\ t = f s.
Proof. rewrite Gt. destruct (t_t r) as [s|]; cbn; [|discriminate]. intros E. injection E as <-. exists s. split; reflexivity. Qed.
Lemma periods_map lo hi : two_periods lo hi l -> two_periods (f lo) (f hi) (map g l).
Proof.
  intros [L [A [[r [Hr Er]] [s [Hs Es]]]]]. split; [apply Fm; exact L|]. split; [|split].
  - intros q Hq. apply in_map_iff in Hq. destruct Hq as [q0 [<- Hq]]. rewrite !Gt. destruct (A q0 Hq) as [->| ->]; [left|right]; reflexivity.
  - exists (g r). split; [apply in_map; exact Hr|rewrite Gt, Er; reflexivity].
  - exists (g s). split; [apply in_map; exact Hs|rewrite Gt, Es; reflexivity].
Qed.
Lemma periods_unmap lo' hi' : two_periods lo' hi' (map g l) -> exists lo hi, two_periods lo hi l.
Proof.
  intros [L [A [[r [Hr Er]] [s [Hs Es]]]]]. apply in_map_iff in Hr, Hs. destruct Hr as [r0 [<- Hr]]. destruct Hs as [s0 [<- Hs]]. apply Gt_some in Er, Es. destruct Er as [lo [Er ->]]. destruct Es as [hi [Es ->]].
  exists lo, hi. split; [destruct (Z.lt_total lo hi) as [H|[H|H]]; [exact H|subst; lia|apply Fm in H; lia]|]. split; [|split; [exists r0; tauto|exists s0; tauto]].
  intros q Hq. specialize (A (g q) (in_map g _ _ Hq)). destruct A as [A|A]; apply Gt_some in A; destruct A as [t [-> E]]; apply f_inj in E; subst; [left|right]; reflexivity.
Qed.
Lemma observed_map lo hi i a b : observed lo hi l i a b -> observed (f lo) (f hi) (map g l) i (g a) (g b).
Proof. intros [P [Ta Tb]]. split; [rewrite rows_map; apply (Permutation_map g) in P; exact P|]. rewrite !Gt, Ta, Tb. split; reflexivity. Qed.
Lemma observed_unmap lo hi i a' b' : observed (f lo) (f hi) (map g l) i a' b' -> exists a b, a' = g a /\ b' = g b /\ observed lo hi l i a b.
Proof.
  intros [P [Ta Tb]]. rewrite rows_map in P. apply Permutation_sym, Permutation_map_inv in P. destruct P as [l3 [E P]]. destruct l3 as [|a [|b [|? ?]]]; cbn in E; try discriminate. injection E as -> ->.
  exists a, b. split; [reflexivity|]. split; [reflexivity|]. apply Gt_some in Ta, Tb. destruct Ta as [x [Ta X]]. destruct Tb as [y [Tb Y]]. apply f_inj in X, Y. subst. split; [exact P|]. split; assumption.
Qed.
Lemma observed_in lo hi i a b : observed lo hi l i a b -> In a l /\ In b l.
Proof.
  intros [P _]. assert (Ia : In a (rows_of i l)) by (eapply Permutation_in; [symmetry; exact P|left; reflexivity]). assert (Ib : In b (rows_of i l)) by (eapply Permutation_in; [symmetry; exact P|right; left; reflexivity]).
  apply filter_In in Ia, Ib. tauto.
Qed.
Lemma mean_gmap : mean (weight_of wn') (map g l) = c * mean (weight_of wn) l.
Proof. rewrite mean_map. unfold mean. rewrite (sumf_ext (fun a => weight_of wn' (g a)) (fun a => c * weight_of wn a) l Gw), sumf_mul_l. unfold Qcdiv. ring. Qed.
Lemma wf_map : well_formed wn l <-> well_formed wn' (map g l).
Proof.
  split; intros [C [[lo [hi TP]] [[T0 [T1 T2]] [CO [r [i [Hr [Ei N]]]]]]]].
  - split; [intros q Hq; apply in_map_iff in Hq; destruct Hq as [q0 [<- Hq]]; apply (Gc q0 Hq), C, Hq|]. split; [exists (f lo), (f hi); apply periods_map; exact TP|]. split; [|split].
    + split; [intros q Hq; apply in_map_iff in Hq; destruct Hq as [q0 [<- Hq]]; rewrite Gd; apply T0, Hq|]. split; [destruct T1 as [q [Hq E]]|destruct T2 as [q [Hq E]]]; exists (g q); (split; [apply in_map; exact Hq|rewrite Gd; exact E]).
    + intros a b Ha Hb. apply in_map_iff in Ha, Hb. destruct Ha as [a0 [<- Ha]]. destruct Hb as [b0 [<- Hb]]. rewrite !Gi, !Gd. apply CO; assumption.
    + exists (g r), i. split; [apply in_map; exact Hr|]. split; [rewrite Gi; exact Ei|]. rewrite rows_map, map_length. exact N.
  - split; [intros q Hq; apply (Gc q Hq), C, in_map, Hq|]. split; [exact (periods_unmap lo hi TP)|]. split; [|split].
    + split; [intros q Hq; rewrite <- Gd; apply T0, in_map, Hq|]. split; [destruct T1 as [q [Hq E]]|destruct T2 as [q [Hq E]]]; apply in_map_iff in Hq; destruct Hq as [q0 [<- Hq]]; exists q0; (split; [exact Hq|rewrite <- Gd; exact E]).
    + intros a b Ha Hb E. rewrite <- (Gd a), <- (Gd b). apply CO; [apply in_map; exact Ha|apply in_map; exact Hb|rewrite !Gi; exact E].
    + apply in_map_iff in Hr. destruct Hr as [r0 [<- Hr]]. rewrite Gi in Ei. rewrite rows_map, map_length in N. exists r0, i. tauto.
Qed.
Lemma c_cancel (x y : Qc) : c * x = c * y -> x = y.
Proof. intros E. replace x with (c * x / c) by (field; exact Cn). rewrite E. field. exact Cn. Qed.
Lemma usable_map : usable wn l <-> usable wn' (map g l).
Proof.
  split.
  - intros [lo [hi [TP [[r [i [Hr [Ei [N T]]]]] [[s [j [Hs [Ej [N' T']]]]] W]]]]]. exists (f lo), (f hi). split; [apply periods_map; exact TP|]. split; [|split].
    + exists (g r), i. rewrite rows_map, map_length, Gi, Gt, T. split; [apply in_map; exact Hr|]. tauto.
    + exists (g s), j. rewrite rows_map, map_length, Gi, Gt, T'. split; [apply in_map; exact Hs|]. tauto.
    + intros k a b O. apply observed_unmap in O. destruct O as [a0 [b0 [-> [-> O]]]]. destruct (observed_in _ _ _ _ _ O) as [Ia Ib]. rewrite !Gw by assumption. f_equal. exact (W k a0 b0 O).
  - intros [lo' [hi' [TP' [R1 [R2 W]]]]]. destruct (periods_unmap lo' hi' TP') as [lo [hi TP]]. destruct (two_periods_unique _ _ _ _ _ TP' (periods_map lo hi TP)) as [-> ->].
    exists lo, hi. split; [exact TP|]. split; [|split].
    + destruct R1 as [r [i [Hr [Ei [N T]]]]]. apply in_map_iff in Hr. destruct Hr as [r0 [<- Hr]]. rewrite rows_map, map_length in N. rewrite Gi in Ei. apply Gt_some in T. destruct T as [t [T E]]. apply f_inj in E. subst t. exists r0, i. tauto.
    + destruct R2 as [r [i [Hr [Ei [N T]]]]]. apply in_map_iff in Hr. destruct Hr as [r0 [<- Hr]]. rewrite rows_map, map_length in N. rewrite Gi in Ei. apply Gt_some in T. destruct T as [t [T E]]. apply f_inj in E. subst t. exists r0, i. tauto.
    + intros k a b O. destruct (observed_in _ _ _ _ _ O) as [Ia Ib]. apply c_cancel. rewrite <- !Gw by assumption. exact (W k (g a) (g b) (observed_map _ _ _ _ _ O)).
Qed.
Lemma panel_map : preprocess_panel wn' (map g l) = preprocess_panel wn l.
Proof.
  symmetry. apply same_prep; [exact wf_map| |intros _ _; exact usable_map|].
  - intros _. rewrite mean_gmap. split; [intros ->; ring|]. intros E. apply c_cancel. rewrite E. ring.
  - intros _ Z us [lo [hi [TP [S I]]]]. exists (f lo), (f hi). split; [apply periods_map; exact TP|]. split; [exact S|]. intros u. rewrite I, mean_gmap. 
    assert (X : forall b, In b l -> weight_of wn' (g b) / (c * mean (weight_of wn) l) = weight_of wn b / mean (weight_of wn) l) by (intros b Hb; rewrite Gw by exact Hb; field; split; assumption).
    split.
    + intros [a [b [O [R1 [R2 [R3 [R4 R5]]]]]]]. exists (g a), (g b). split; [apply observed_map; exact O|]. destruct (observed_in _ _ _ _ _ O) as [_ Ib]. unfold reads. rewrite !Gy, Gd, (X b Ib). rewrite Gx; [tauto|exact Ib|]. destruct O as [_ [_ ->]]. intros E. injection E. exact (Lo lo hi TP).
    + intros [a' [b' [O R]]]. apply observed_unmap in O. destruct O as [a [b [-> [-> O]]]]. exists a, b. split; [exact O|]. destruct (observed_in _ _ _ _ _ O) as [_ Ib]. unfold reads in *. rewrite !Gy, Gd, (X b Ib) in R. rewrite Gx in R; [tauto|exact Ib|]. destruct O as [_ [_ ->]]. intros E. injection E. exact (Lo lo hi TP).
Qed.
End Transform.
