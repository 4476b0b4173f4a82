(** Proofs: what the two-period preprocessing accepts and returns. *)
From Verif Require Import Base ListLib DrdidModel RcModel DrdidProofs2 TwoModel TwoSpec TwoProofs.

Lemma two_periods_unique l lo hi lo' hi' : two_periods lo hi l -> two_periods lo' hi' l -> lo = lo' /\ hi = hi'.
Proof.
  intros [L [A [[p [Hp Ep]] [q [Hq Eq]]]]] [L' [A' [[p' [Hp' Ep']] [q' [Hq' Eq']]]]].
  destruct (A' p Hp) as [X|X], (A' q Hq) as [Y|Y], (A p' Hp') as [X'|X'], (A q' Hq') as [Y'|Y']; rewrite ?Ep, ?Eq, ?Ep', ?Eq' in *;
  injection X; injection Y; injection X'; injection Y'; intros; subst; split; try reflexivity; lia.
Qed.
Lemma div_cancel (x y m : Qc) : m <> 0 -> x / m = y / m -> x = y.
Proof. intros H E. replace x with (x / m * m) by (field; exact H). rewrite E. field. exact H. Qed.

Section Panel.
Context (wn : bool) (l : list traw) (R : list trow) (M : map (clean true wn) l = map Some R).
Let m := mean (weight_of wn) l.
Lemma mean_rows : mean q_w R = m.
Proof. unfold m. symmetry. apply (map_some_mean (clean true wn) _ _ _ _ M). intros a b _ E. apply clean_fields in E. tauto. Qed.
Let N := q_normalise R.
Definition nrm (mm : Qc) (r : trow) : trow := q_set_w (q_w r / mm) r.
Lemma N_eq : N = map (nrm m) R.
Proof. unfold N, q_normalise. rewrite mean_rows. reflexivity. Qed.
Lemma N_times lo hi : (lo < hi)%Z -> (two_periods lo hi l <-> periods N = lo :: hi :: nil).
Proof.
  intros L. assert (MT : map t_t l = map Some (map q_t N)).
  { rewrite N_eq, !map_map. cbn. rewrite <- (map_map q_t Some). clear - M. revert R M. induction l as [|a r IH]; intros [|b R] M; cbn in M; try discriminate; [reflexivity|]. injection M as M1 M2. cbn. rewrite (IH R M2). apply clean_fields in M1. destruct M1 as [_ [-> _]]. reflexivity. }
  symmetry. exact (two_periods_times l (map q_t N) lo hi MT L).
Qed.
Lemma N_filter i : map (clean true wn) (rows_of i l) = map Some (filter (fun r => (q_id r =? i)%Z) R).
Proof. apply (map_some_filter (clean true wn) _ _ _ _ M). intros a b _ E. apply clean_fields in E. destruct E as [E _]. rewrite (E eq_refl). reflexivity. Qed.
Lemma N_filter' i : filter (fun r => (q_id r =? i)%Z) N = map (nrm m) (filter (fun r => (q_id r =? i)%Z) R).
Proof. rewrite N_eq. clear. induction R as [|a r IH]; [reflexivity|]. cbn. destruct (q_id a =? i)%Z; cbn; rewrite IH; reflexivity. Qed.
Lemma N_count i : q_count i N = length (rows_of i l).
Proof. unfold q_count. rewrite N_filter', map_length. rewrite (map_some_length _ _ _ (N_filter i)). reflexivity. Qed.
Lemma N_in q : In q N <-> exists r q0, In r l /\ clean true wn r = Some q0 /\ q = nrm m q0.
Proof.
  rewrite N_eq, in_map_iff. split.
  - intros [q0 [<- H]]. apply (map_some_in _ _ _ _ M) in H. destruct H as [r [Hr E]]. exists r, q0. tauto.
  - intros [r [q0 [Hr [E ->]]]]. exists q0. split; [reflexivity|]. apply (map_some_in _ _ _ _ M). exists r. tauto.
Qed.
Lemma two_fwd lo hi i a b : observed lo hi l i a b -> exists qa qb, clean true wn a = Some qa /\ clean true wn b = Some qb /\
  Permutation (filter (fun r => (q_id r =? i)%Z) N) (nrm m qa :: nrm m qb :: nil) /\ q_t qa = lo /\ q_t qb = hi.
Proof.
  intros [P [Ta Tb]]. pose proof (Permutation_map (clean true wn) P) as Q. rewrite N_filter in Q. cbn [map] in Q.
  assert (Ca : In (clean true wn a) (map Some (filter (fun r => (q_id r =? i)%Z) R))) by (eapply Permutation_in; [symmetry; exact Q|left; reflexivity]).
  assert (Cb : In (clean true wn b) (map Some (filter (fun r => (q_id r =? i)%Z) R))) by (eapply Permutation_in; [symmetry; exact Q|right; left; reflexivity]).
  apply in_map_iff in Ca, Cb. destruct Ca as [qa [Ea _]]. destruct Cb as [qb [Eb _]]. exists qa, qb. split; [congruence|]. split; [congruence|].
  rewrite <- Ea, <- Eb in Q. change (Some qa :: Some qb :: nil) with (map Some (qa :: qb :: nil)) in Q. apply Permutation_map_inv in Q. destruct Q as [l3 [E3 P3]].
  apply (f_equal (map (fun o => match o with Some x => x | None => qa end))) in E3. rewrite !map_map in E3. rewrite !map_id in E3. subst l3.
  rewrite N_filter'. split; [apply (Permutation_map (nrm m)) in P3; symmetry; exact P3|].
  apply eq_sym, clean_fields in Ea. apply eq_sym, clean_fields in Eb. destruct Ea as [_ [Ea _]]. destruct Eb as [_ [Eb _]]. split; congruence.
Qed.
Lemma two_bwd i ra rb : Permutation (filter (fun r => (q_id r =? i)%Z) N) (ra :: rb :: nil) ->
  exists a b qa qb, Permutation (rows_of i l) (a :: b :: nil) /\ clean true wn a = Some qa /\ clean true wn b = Some qb /\ ra = nrm m qa /\ rb = nrm m qb.
Proof.
  rewrite N_filter'. intros P. apply Permutation_sym, Permutation_map_inv in P. destruct P as [l3 [E3 P3]]. destruct l3 as [|qa [|qb [|? ?]]]; cbn in E3; try discriminate. injection E3 as -> ->.
  apply (Permutation_map Some) in P3. rewrite <- N_filter in P3. apply Permutation_sym, Permutation_map_inv in P3. destruct P3 as [l4 [E4 P4]]. destruct l4 as [|a [|b [|? ?]]]; cbn in E4; try discriminate.
  injection E4 as Ea Eb. exists a, b, qa, qb. split; [exact P4|]. repeat split; congruence.
Qed.
End Panel.

Lemma wf_valid wn l : well_formed wn l <-> (valid_data l && valid_panel l = true /\ exists R, map (clean true wn) l = map Some R).
Proof.
  split.
  - intros [C [TP [TT [CO OB]]]]. split.
    + apply andb_true_iff. split; [apply valid_data_ok; tauto|]. apply valid_panel_ok; [intros r Hr; apply (C r Hr); reflexivity|]. split; assumption.
    + apply no_null. intros r Hr. apply clean_none, C, Hr.
  - intros [V [R M]]. apply andb_true_iff in V. destruct V as [VD VP]. apply valid_data_ok in VD. destruct VD as [TP TT].
    assert (C : forall r, In r l -> complete true wn r).
    { intros r Hr. apply clean_none. assert (X : In (clean true wn r) (map (clean true wn) l)) by (apply in_map; exact Hr). rewrite M in X. apply in_map_iff in X. destruct X as [q [E _]]. congruence. }
    apply valid_panel_ok in VP; [|intros r Hr; apply (C r Hr); reflexivity]. destruct VP as [OB CO]. repeat (split; [assumption|]). exact OB.
Qed.
Lemma sub_pair (xs : list Z) lo hi : StronglySorted Z.lt xs -> (forall x, In x xs -> x = lo \/ x = hi) -> (lo < hi)%Z -> In lo xs -> In hi xs -> xs = lo :: hi :: nil.
Proof.
  intros S A L I J. apply ssorted_lt_ext; [exact S|repeat constructor; exact L|]. intros x. split; [intros H; apply A in H; cbn; intuition|]. intros [<-|[<-|[]]]; assumption.
Qed.
Lemma pair_sub (xs : list Z) lo hi x y : StronglySorted Z.lt xs -> (forall x, In x xs -> x = lo \/ x = hi) -> (lo < hi)%Z -> xs = x :: y :: nil -> x = lo /\ y = hi.
Proof.
  intros S A L ->. inversion S as [|? ? _ F]; subst. inversion F as [|? ? XY _]; subst. destruct (A x ltac:(left; reflexivity)), (A y ltac:(right; left; reflexivity)); subst; split; try reflexivity; lia.
Qed.
Lemma map_sorted_lt {A} (f : A -> Z) l : StronglySorted Z.lt (map f l) -> StronglySorted (fun a b => (f a < f b)%Z) l.
Proof.
  induction l as [|a l IH]; intros S; [constructor|]. cbn in S. inversion S as [|? ? S' F]; subst. constructor; [apply IH; exact S'|]. rewrite Forall_forall in *. intros b Hb. apply F, in_map, Hb.
Qed.
Lemma map_fst_combine {A B} (l : list A) (r : list B) : length l = length r -> map fst (combine l r) = l.
Proof. revert r. induction l as [|a l IH]; intros [|b r] H; cbn in *; try discriminate; [reflexivity|]. f_equal. apply IH. lia. Qed.

Lemma panel_cases wn l :
  (~ well_formed wn l /\ preprocess_panel wn l = PBad) \/
  (well_formed wn l /\ mean (weight_of wn) l = 0 /\ preprocess_panel wn l = PUndef) \/
  (well_formed wn l /\ mean (weight_of wn) l <> 0 /\ ~ usable wn l /\ preprocess_panel wn l = PBad) \/
  (well_formed wn l /\ mean (weight_of wn) l <> 0 /\ usable wn l /\ exists us, preprocess_panel wn l = PData us /\ units_of wn l us).
Proof.
  unfold preprocess_panel. destruct (valid_data l && valid_panel l) eqn:V; cbn [negb].
  2: { left. split; [|reflexivity]. intros W. apply wf_valid in W. destruct W as [W _]. congruence. }
  destruct (all_some (clean true wn) l) as [R|] eqn:M.
  2: { left. split; [|reflexivity]. intros W. apply wf_valid in W. destruct W as [_ [R M']]. apply all_some_ok in M'. congruence. }
  apply all_some_ok in M. assert (W : well_formed wn l) by (apply wf_valid; split; [exact V|exists R; exact M]). right. rewrite (mean_rows wn l R M).
  destruct (Qceqb_spec (mean (weight_of wn) l) 0) as [Z0|NZ]; [left; tauto|right].
  pose proof W as [CP [[lo [hi TP]] [TT [CO OB]]]]. assert (L : (lo < hi)%Z) by apply TP.
  set (N := q_normalise R). set (m := mean (weight_of wn) l) in *.
  assert (PN : periods N = lo :: hi :: nil) by (apply (N_times wn l R M lo hi L); exact TP).
  assert (P2 : length (periods N) = 2%nat) by (rewrite PN; reflexivity).
  assert (T : forall r, In r N -> q_t r = lo \/ q_t r = hi).
  { intros r Hr. assert (X : In (q_t r) (periods N)) by (apply zuniq_in, in_map, Hr). rewrite PN in X. destruct X as [X|[X|[]]]; [left|right]; congruence. }
  set (D := q_balance N). assert (SD : forall x, In x (periods D) -> x = lo \/ x = hi).
  { intros x Hx. apply zuniq_in, in_map_iff in Hx. destruct Hx as [r [<- Hr]]. apply (bal_in N P2) in Hr. apply T, Hr. }
  assert (IN : forall t, In t (periods D) <-> exists r i, In r l /\ t_id r = Some i /\ length (rows_of i l) = 2%nat /\ t_t r = Some t).
  { intros t. unfold periods. rewrite zuniq_in, in_map_iff. split.
    - intros [q [E Hq]]. apply (bal_in N P2) in Hq. destruct Hq as [Hq C]. unfold N in Hq. apply (N_in wn l R M) in Hq. destruct Hq as [r [q0 [Hr [Cl ->]]]]. apply clean_fields in Cl. destruct Cl as [Ci [Ct _]].
      exists r, (q_id q0). split; [exact Hr|]. split; [apply Ci; reflexivity|]. split; [|cbn in E; congruence]. unfold N in C. rewrite (N_count wn l R M) in C. exact C.
    - intros [r [i [Hr [Ei [C Et]]]]]. destruct (clean true wn r) as [q0|] eqn:Cl; [|exfalso; apply (proj2 (clean_none true wn r) (CP r Hr)); exact Cl].
      pose proof Cl as Cl'. apply clean_fields in Cl'. destruct Cl' as [Ci [Ct _]]. exists (nrm m q0). split; [cbn; congruence|]. apply (bal_in N P2). split; [unfold N; apply (N_in wn l R M); exists r, q0; tauto|].
      unfold N. rewrite (N_count wn l R M). cbn. specialize (Ci eq_refl). rewrite Ei in Ci. injection Ci as <-. exact C. }
  set (a := common_sorted (at_time lo D) (at_time hi D)). set (b := common_sorted (at_time hi D) (at_time lo D)).
  assert (PI := pairs_in N lo hi L T P2 : forall ra rb, In (rb, ra) (combine b a) <-> _).
  assert (PA := pairs_all N lo hi L T P2 (fun _ _ => True) : forall f, qlist_eqb (map f a) (map f b) = true <-> (forall ra rb, In (rb, ra) (combine b a) -> f ra = f rb)).
  assert (DEQ : qlist_eqb (map q_d a) (map q_d b) = true).
  { apply PA. intros ra rb H. apply PI in H. destruct H as [P _]. apply (two_bwd wn l R M) in P. destruct P as [ta [tb [qa [qb [P [Ca [Cb [-> ->]]]]]]]]. cbn.
    assert (Ia : In ta (rows_of (q_id qb) l)) by (eapply Permutation_in; [symmetry; exact P|left; reflexivity]). assert (Ib : In tb (rows_of (q_id qb) l)) by (eapply Permutation_in; [symmetry; exact P|right; left; reflexivity]).
    apply filter_In in Ia, Ib. destruct Ia as [Ia Ea]. destruct Ib as [Ib Eb]. apply clean_fields in Ca, Cb. destruct Ca as [Ca [_ [Da _]]]. destruct Cb as [Cb [_ [Db _]]]. specialize (Ca eq_refl). specialize (Cb eq_refl). rewrite Ca in Ea. rewrite Cb in Eb. apply Z.eqb_eq in Ea, Eb.
    specialize (CO ta tb Ia Ib). rewrite Ca, Cb, Ea, Da, Db in CO. specialize (CO eq_refl). congruence. }
  assert (WEQ : qlist_eqb (map q_w a) (map q_w b) = true <-> (forall i x y, observed lo hi l i x y -> weight_of wn x = weight_of wn y)).
  { rewrite PA. split.
    - intros H i x y O. pose proof O as O'. apply (two_fwd wn l R M) in O. destruct O as [qa [qb [Ca [Cb [P [Ta Tb]]]]]]. assert (Ei : q_id qb = i).
      { assert (X : In (nrm m qb) (filter (fun r => (q_id r =? i)%Z) (q_normalise R))) by (eapply Permutation_in; [symmetry; exact P|right; left; reflexivity]). apply filter_In in X. destruct X as [_ X]. apply Z.eqb_eq in X. exact X. }
      assert (X : In (nrm m qb, nrm m qa) (combine b a)) by (apply PI; cbn; rewrite Ei; repeat split; assumption).
      apply H in X. cbn in X. apply (div_cancel _ _ _ NZ) in X. apply clean_fields in Ca, Cb. destruct Ca as [_ [_ [_ [_ [_ ->]]]]]. destruct Cb as [_ [_ [_ [_ [_ ->]]]]]. exact X.
    - intros H ra rb X. apply PI in X. destruct X as [P [Ta Tb]]. apply (two_bwd wn l R M) in P. destruct P as [ta [tb [qa [qb [P [Ca [Cb [-> ->]]]]]]]]. cbn in *. pose proof Ca as Ca'. pose proof Cb as Cb'. apply clean_fields in Ca, Cb.
      assert (O : observed lo hi l (q_id qb) ta tb) by (split; [exact P|]; split; [destruct Ca as [_ [-> _]]|destruct Cb as [_ [-> _]]]; congruence).
      apply H in O. destruct Ca as [_ [_ [_ [_ [_ E1]]]]]. destruct Cb as [_ [_ [_ [_ [_ E2]]]]]. rewrite E1, E2 in O. rewrite O. reflexivity. }
  assert (US : usable wn l <-> periods D = lo :: hi :: nil /\ qlist_eqb (map q_w a) (map q_w b) = true).
  { split.
    - intros [lo' [hi' [TP' [A1 [A2 A3]]]]]. destruct (two_periods_unique l _ _ _ _ TP TP') as [<- <-]. split; [|apply WEQ; exact A3]. apply sub_pair; [apply zuniq_sorted|exact SD|exact L|apply IN; exact A1|apply IN; exact A2].
    - intros [E Q]. exists lo, hi. split; [exact TP|]. split; [apply IN; rewrite E; left; reflexivity|]. split; [apply IN; rewrite E; right; left; reflexivity|]. apply WEQ. exact Q. }
  change (q_balance (q_normalise R)) with D. cbn zeta.
  destruct (periods D) as [|x [|y [|z r]]] eqn:PD; try (left; split; [exact W|]; split; [exact NZ|]; split; [intros U; apply US in U; destruct U as [U _]; discriminate U|reflexivity]).
  destruct (pair_sub (periods D) lo hi x y (zuniq_sorted _) ltac:(rewrite PD; exact SD) L PD) as [-> ->].
  fold a b. rewrite DEQ. cbn [negb]. destruct (qlist_eqb (map q_w a) (map q_w b)) eqn:Q; cbn [negb].
  2: { left. split; [exact W|]; split; [exact NZ|]; split; [intros U; apply US in U; destruct U as [_ U]; discriminate U|reflexivity]. }
  right. split; [exact W|]. split; [exact NZ|]. split; [apply US; split; reflexivity|]. exists (map unit_of (combine b a)). split; [reflexivity|].
  exists lo, hi. split; [exact TP|]. split.
  - apply map_sorted_lt. rewrite map_map. replace (map (fun x => p_id (unit_of x)) (combine b a)) with (map q_id (map fst (combine b a))) by (rewrite map_map; apply map_ext; intros [? ?]; reflexivity).
    rewrite map_fst_combine; [apply (b_sorted N lo hi L T P2)|]. pose proof (ab_ids N lo hi L T P2) as E. apply (f_equal (@length Z)) in E. rewrite !map_length in E. exact E.
  - intros u. rewrite in_map_iff. split.
    + intros [[rb ra] [E H]]. apply PI in H. destruct H as [P [Ta Tb]]. apply (two_bwd wn l R M) in P. destruct P as [ta [tb [qa [qb [P [Ca [Cb [-> ->]]]]]]]]. fold m in E. subst u. cbn in *. exists ta, tb.
      assert (Ib : In tb l). { assert (Ib : In tb (rows_of (q_id qb) l)) by (eapply Permutation_in; [symmetry; exact P|right; left; reflexivity]). apply filter_In in Ib. tauto. }
      apply clean_fields in Ca, Cb. destruct Ca as [_ [Ca1 [_ [Ca2 _]]]]. destruct Cb as [_ [Cb1 [Cb2 [Cb3 [Cb4 Cb5]]]]].
      split; [split; [exact P|]; split; congruence|]. unfold reads. cbn. rewrite Cb5. repeat split; try assumption. rewrite Cb2. destruct TT as [TT _]. specialize (TT tb Ib). rewrite Cb2 in TT.
      destruct (Qceqb_spec (q_d qb) 1) as [E|E]; destruct TT as [TT|TT]; injection TT as TT; cbn; congruence.
    + intros [ta [tb [O RD]]]. pose proof O as O'. apply (two_fwd wn l R M) in O. destruct O as [qa [qb [Ca [Cb [P [Ta Tb]]]]]]. fold m in P. assert (Ei : q_id qb = p_id u).
      { assert (X : In (nrm m qb) (filter (fun r => (q_id r =? p_id u)%Z) (q_normalise R))) by (eapply Permutation_in; [symmetry; exact P|right; left; reflexivity]). apply filter_In in X. destruct X as [_ X]. apply Z.eqb_eq in X. exact X. }
      exists (nrm m qb, nrm m qa). split; [|apply PI; cbn; rewrite Ei; repeat split; assumption].
      apply clean_fields in Ca, Cb. destruct Ca as [_ [_ [_ [Ca2 _]]]]. destruct Cb as [_ [Cb1 [Cb2 [Cb3 [Cb4 Cb5]]]]]. destruct RD as [R1 [R2 [R3 [R4 R5]]]]. destruct u as [i d y1 y0 w x]. cbn in *.
      rewrite R1 in Ca2. rewrite R2 in Cb3. rewrite R3 in Cb2. rewrite R4 in Cb4. injection Ca2 as <-. injection Cb3 as <-. injection Cb2 as <-. injection Cb4 as <-. rewrite Cb5 in R5. subst w i. f_equal. destruct d; reflexivity.
Qed.
