(** Proofs: two-period preprocessing of repeated cross-sections. *)
From Verif Require Import Base ListLib DrdidModel DrdidSpec DrdidProofs2 RcModel RcSpec TwoModel TwoSpec TwoProofs TwoProofs2 TwoProofs3.

Lemma is_complete_ok wn r : is_complete wn r = true <-> clean false wn r <> None.
Proof. unfold is_complete, clean. destruct wn, (t_t r), (t_d r), (t_y r), (t_x r), (t_w r); cbn; split; congruence. Qed.
Lemma keep_complete wn l : map (clean false wn) (complete_rows wn l) = map Some (keep_some (clean false wn) l).
Proof.
  assert (K : forall a l, keep_some (clean false wn) (a :: l) = match clean false wn a with Some b => b :: nil | None => nil end ++ keep_some (clean false wn) l) by reflexivity.
  unfold complete_rows. induction l as [|a l IH]; [reflexivity|]. rewrite K. cbn [filter]. destruct (is_complete wn a) eqn:E.
  - apply is_complete_ok in E. cbn [map]. rewrite IH. destruct (clean false wn a); [reflexivity|contradiction].
  - destruct (clean false wn a) eqn:C; [|exact IH]. exfalso. assert (X : is_complete wn a = true) by (apply is_complete_ok; congruence). congruence.
Qed.
Definition rc_valid (l : list traw) : Prop := (exists lo hi, two_periods lo hi l) /\ two_treatments l.
Lemma rc_times wn l : map t_t (complete_rows wn l) = map Some (map q_t (keep_some (clean false wn) l)).
Proof.
  pose proof (keep_complete wn l) as M. revert M. generalize (complete_rows wn l) (keep_some (clean false wn) l). intros c. induction c as [|a c IH]; intros [|b k] M; cbn [map] in M; try discriminate; [reflexivity|].
  injection M as M1 M2. cbn. rewrite (IH k M2). apply clean_fields in M1. destruct M1 as [_ [-> _]]. reflexivity.
Qed.
Lemma rc_cases wn l :
  (~ rc_valid l /\ preprocess_rc wn l = PBad) \/
  (rc_valid l /\ ~ (exists lo hi, two_periods lo hi (complete_rows wn l)) /\ preprocess_rc wn l = PBad) \/
  (rc_valid l /\ exists lo hi, two_periods lo hi (complete_rows wn l) /\
     ((mean (weight_of wn) (complete_rows wn l) = 0 /\ preprocess_rc wn l = PUndef) \/
      (mean (weight_of wn) (complete_rows wn l) <> 0 /\ exists us, preprocess_rc wn l = PData us /\ Forall2 (rreads wn (mean (weight_of wn) (complete_rows wn l)) hi) (complete_rows wn l) us))).
Proof.
  unfold preprocess_rc. destruct (valid_data l) eqn:V; cbn [negb].
  2: { left. split; [|reflexivity]. intros W. apply valid_data_ok in W. congruence. }
  apply valid_data_ok in V. right. set (R := keep_some (clean false wn) l).
  assert (Mn : mean q_w R = mean (weight_of wn) (complete_rows wn l)).
  { symmetry. apply (map_some_mean (clean false wn) _ _ _ _ (keep_complete wn l)). intros a b _ E. apply clean_fields in E. tauto. }
  cbn zeta. destruct (Nat.eq_dec (length (periods R)) 2) as [E2|N2].
  2: { left. split; [exact V|]. split.
       - intros [lo [hi TP]]. apply N2. assert (E : periods R = lo :: hi :: nil) by (apply (two_periods_times _ _ lo hi (rc_times wn l)); [apply TP|exact TP]). rewrite E. reflexivity.
       - destruct (periods R) as [|x [|y [|z r]]]; try reflexivity. exfalso. apply N2. reflexivity. }
  right. split; [exact V|]. unfold periods in E2. apply zuniq_two in E2. destruct E2 as [lo [hi [L E]]]. unfold periods. rewrite E. exists lo, hi. split; [apply (two_periods_times _ _ lo hi (rc_times wn l) L); exact E|].
  rewrite Mn. destruct (Qceqb_spec (mean (weight_of wn) (complete_rows wn l)) 0) as [Z0|NZ]; [left; split; [exact Z0|reflexivity]|right]. split; [exact NZ|]. eexists. split; [reflexivity|].
  unfold q_normalise. rewrite Mn, map_map. destruct V as [_ [TT _]]. assert (SUB : forall r, In r (complete_rows wn l) -> In r l) by (intros r H; apply filter_In in H; tauto). generalize (mean (weight_of wn) (complete_rows wn l)). intros m.
  pose proof (keep_complete wn l) as M. fold R in M. revert M SUB. generalize (complete_rows wn l) R. clear - TT. intros c. induction c as [|a c IH]; intros [|b k] M SUB; cbn [map] in M; try discriminate; [constructor|].
  injection M as M1 M2. cbn. constructor; [|apply IH; [exact M2|]; intros; apply SUB; right; assumption]. specialize (TT a (SUB a (or_introl eq_refl))).
  assert (Q0 : q_id b = 0%Z). { unfold clean in M1. destruct (t_t a), (t_d a), (t_y a), (if wn then t_w a else Some 1), (t_x a); try discriminate M1; injection M1 as <-; reflexivity. }
  apply clean_fields in M1. destruct M1 as [_ [Ct [Cd [Cy [Cx Cw]]]]]. unfold rreads. cbn. rewrite Cw, Ct, Cd. repeat split; try assumption.
  - rewrite Cd in TT. destruct (Qceqb_spec (q_d b) 1) as [X|X]; destruct TT as [TT|TT]; injection TT as TT; cbn; congruence.
  - intros H. apply Z.eqb_eq in H. congruence.
  - intros H. injection H as H. apply Z.eqb_eq. exact H.
Qed.
Lemma rreads_fun wn m hi r u v : rreads wn m hi r u -> rreads wn m hi r v -> u = v.
Proof.
  intros [A0 [A1 [A2 [A3 [A4 A5]]]]] [B0 [B1 [B2 [B3 [B4 B5]]]]]. destruct u as [i d p y w x], v as [i' d' p' y' w' x']. cbn in *.
  assert (y = y') by congruence. assert (x = x') by congruence. assert (w = w') by congruence. assert (d = d') by (rewrite A2 in B2; destruct d, d'; cbn in B2; try reflexivity; discriminate B2).
  assert (p = p') by (destruct p, p'; try reflexivity; [symmetry|]; tauto). congruence.
Qed.
Lemma forall2_fun {A B} (P : A -> B -> Prop) l m m' : (forall a b c, P a b -> P a c -> b = c) -> Forall2 P l m -> Forall2 P l m' -> m = m'.
Proof. intros F H. revert m'. induction H as [|a b l m Hab H IH]; intros m' H'; inversion H'; subst; [reflexivity|]. f_equal; [eapply F; eassumption|apply IH; assumption]. Qed.
Lemma rc_data wn l us : preprocess_rc wn l = PData us -> rc_valid l /\ exists lo hi, two_periods lo hi (complete_rows wn l) /\
  mean (weight_of wn) (complete_rows wn l) <> 0 /\ Forall2 (rreads wn (mean (weight_of wn) (complete_rows wn l)) hi) (complete_rows wn l) us.
Proof.
  intros E. destruct (rc_cases wn l) as [[_ X]|[[_ [_ X]]|[V [lo [hi [TP [[_ X]|[NZ [us' [X F]]]]]]]]]]; rewrite X in E; try discriminate. injection E as <-. split; [exact V|]. exists lo, hi. tauto.
Qed.
Lemma data_rc wn l lo hi us : rc_valid l -> two_periods lo hi (complete_rows wn l) -> mean (weight_of wn) (complete_rows wn l) <> 0 ->
  Forall2 (rreads wn (mean (weight_of wn) (complete_rows wn l)) hi) (complete_rows wn l) us -> preprocess_rc wn l = PData us.
Proof.
  intros V TP NZ F. destruct (rc_cases wn l) as [[X _]|[[_ [X _]]|[_ [lo' [hi' [TP' [[Z _]|[_ [us' [X F']]]]]]]]]]; [contradiction|exfalso; apply X; exists lo, hi; exact TP|contradiction|].
  destruct (two_periods_unique _ _ _ _ _ TP TP') as [<- <-]. rewrite X. f_equal. exact (forall2_fun _ _ _ _ (rreads_fun _ _ _) F' F).
Qed.
Lemma complete_idem wn l : complete_rows wn (complete_rows wn l) = complete_rows wn l.
Proof. unfold complete_rows. induction l as [|a l IH]; [reflexivity|]. cbn. destruct (is_complete wn a) eqn:E; [cbn; rewrite E, IH; reflexivity|exact IH]. Qed.
Lemma rc_drop wn l us : preprocess_rc wn l = PData us -> two_treatments (complete_rows wn l) -> preprocess_rc wn (complete_rows wn l) = PData us.
Proof.
  intros E TT. apply rc_data in E. destruct E as [_ [lo [hi [TP [NZ F]]]]]. apply (data_rc wn _ lo hi); rewrite ?complete_idem; try assumption. split; [exists lo, hi; exact TP|exact TT].
Qed.
Lemma rc_valid_perm l l' : Permutation l l' -> rc_valid l -> rc_valid l'.
Proof.
  intros P [[lo [hi TP]] [T0 [T1 T2]]]. assert (I : forall q, In q l' -> In q l) by (intros q; apply Permutation_in; symmetry; exact P). assert (J : forall q, In q l -> In q l') by (intros q; apply Permutation_in; exact P).
  split; [exists lo, hi; exact (periods_perm lo hi l l' P TP)|]. split; [intros q Hq; apply T0, I, Hq|]. split; [destruct T1 as [q [Hq E]]|destruct T2 as [q [Hq E]]]; exists q; (split; [apply J; exact Hq|exact E]).
Qed.
Lemma forall2_perm {A B} (P : A -> B -> Prop) l l' m : Permutation l l' -> Forall2 P l m -> exists m', Permutation m m' /\ Forall2 P l' m'.
Proof.
  intros H. revert m. induction H as [|x l l' H IH|x y l|l1 l2 l3 H1 IH1 H2 IH2]; intros m F.
  - exists m. split; [reflexivity|exact F].
  - inversion F as [|? b ? m0 Hx F0]; subst. destruct (IH m0 F0) as [m' [Q F']]. exists (b :: m'). split; [constructor; exact Q|constructor; assumption].
  - inversion F as [|? b ? m0 Hx F0]; subst. inversion F0 as [|? b' ? m1 Hy F1]; subst. exists (b' :: b :: m1). split; [apply perm_swap|repeat constructor; assumption].
  - destruct (IH1 m F) as [m1 [Q1 F1]]. destruct (IH2 m1 F1) as [m2 [Q2 F2]]. exists m2. split; [etransitivity; eassumption|exact F2].
Qed.
Lemma rc_perm wn l l' us : Permutation l l' -> preprocess_rc wn l = PData us -> exists us', preprocess_rc wn l' = PData us' /\ Permutation us us'.
Proof.
  intros P E. apply rc_data in E. destruct E as [V [lo [hi [TP [NZ F]]]]]. pose proof (perm_filter (is_complete wn) l l' P : Permutation (complete_rows wn l) (complete_rows wn l')) as PC.
  destruct (forall2_perm _ _ _ _ PC F) as [us' [Q F']]. exists us'. split; [|exact Q]. rewrite (mean_perm _ _ _ PC) in NZ, F'. apply (data_rc wn l' lo hi); [exact (rc_valid_perm l l' P V)|exact (periods_perm lo hi _ _ PC TP)|exact NZ|exact F'].
Qed.
Lemma rc_perm_fail wn l l' : Permutation l l' -> (forall us, preprocess_rc wn l <> PData us) -> preprocess_rc wn l = preprocess_rc wn l'.
Proof.
  intros P N. assert (P' : Permutation l' l) by (symmetry; exact P). pose proof (perm_filter (is_complete wn) l l' P : Permutation (complete_rows wn l) (complete_rows wn l')) as PC.
  assert (PC' : Permutation (complete_rows wn l') (complete_rows wn l)) by (symmetry; exact PC).
  destruct (rc_cases wn l) as [[V E]|[[V [T E]]|[V [lo [hi [TP [[Z E]|[NZ [us [E _]]]]]]]]]]; [| | |exfalso; exact (N us E)]; rewrite E.
  - destruct (rc_cases wn l') as [[_ E']|[[_ [_ E']]|[V' _]]]; [symmetry; exact E'|symmetry; exact E'|]. exfalso. apply V. exact (rc_valid_perm _ _ P' V').
  - destruct (rc_cases wn l') as [[_ E']|[[_ [_ E']]|[_ [lo [hi [TP _]]]]]]; [symmetry; exact E'|symmetry; exact E'|]. exfalso. apply T. exists lo, hi. exact (periods_perm _ _ _ _ PC' TP).
  - destruct (rc_cases wn l') as [[V' _]|[[_ [T' _]]|[_ [lo' [hi' [_ [[_ E']|[NZ' _]]]]]]]]; [exfalso; apply V'; exact (rc_valid_perm _ _ P V)|exfalso; apply T'; exists lo, hi; exact (periods_perm _ _ _ _ PC TP)|symmetry; exact E'|].
    exfalso. apply NZ'. rewrite <- (mean_perm _ _ _ PC). exact Z.
Qed.

(** Transformations row by row. *)
Section Transform.
Context (wn wn' : bool) (g : traw -> traw) (f : Z -> Z) (c : Qc).
Context (Gd : forall r, t_d (g r) = t_d r) (Gy : forall r, t_y (g r) = t_y r) (Gt : forall r, t_t (g r) = option_map f (t_t r)) (Gx : forall r, t_x (g r) = t_x r)
  (Fm : forall x y, (x < y)%Z -> (f x < f y)%Z) (Gw : forall r, is_complete wn r = true -> weight_of wn' (g r) = c * weight_of wn r) (Cn : c <> 0) (Gc : forall r, is_complete wn' (g r) = is_complete wn r).
Lemma crows_map l : complete_rows wn' (map g l) = map g (complete_rows wn l).
Proof. unfold complete_rows. induction l as [|a l IH]; [reflexivity|]. cbn. rewrite Gc. destruct (is_complete wn a); cbn; rewrite IH; reflexivity. Qed.
Lemma rc_valid_map l : rc_valid (map g l) <-> rc_valid l.
Proof.
  split; intros [[lo [hi TP]] [T0 [T1 T2]]].
  - split; [exact (periods_unmap g f l Gt Fm lo hi TP)|]. split; [intros q Hq; rewrite <- Gd; apply T0, in_map, Hq|]. split; [destruct T1 as [q [Hq E]]|destruct T2 as [q [Hq E]]]; apply in_map_iff in Hq; destruct Hq as [q0 [<- Hq]]; exists q0; (split; [exact Hq|rewrite <- Gd; exact E]).
  - split; [exists (f lo), (f hi); exact (periods_map g f l Gt Fm lo hi TP)|]. split; [intros q Hq; apply in_map_iff in Hq; destruct Hq as [q0 [<- Hq]]; rewrite Gd; apply T0, Hq|]. split; [destruct T1 as [q [Hq E]]|destruct T2 as [q [Hq E]]]; exists (g q); (split; [apply in_map; exact Hq|rewrite Gd; exact E]).
Qed.
Lemma cmean_map l : mean (weight_of wn') (complete_rows wn' (map g l)) = c * mean (weight_of wn) (complete_rows wn l).
Proof.
  rewrite crows_map, mean_map. unfold mean. rewrite (sumf_ext (fun a => weight_of wn' (g a)) (fun a => c * weight_of wn a)), sumf_mul_l; [unfold Qcdiv; ring|]. intros a Ha. apply Gw. apply filter_In in Ha. tauto.
Qed.
Lemma rc_map l : preprocess_rc wn' (map g l) = preprocess_rc wn l.
Proof.
  assert (CC : forall x : Qc, c * x = 0 -> x = 0) by (intros x E; replace x with (c * x / c) by (field; exact Cn); rewrite E; field; exact Cn).
  destruct (rc_cases wn l) as [[V E]|[[V [T E]]|[V [lo [hi [TP [[Z E]|[NZ [us [E F]]]]]]]]]]; rewrite E.
  - destruct (rc_cases wn' (map g l)) as [[_ E']|[[_ [_ E']]|[V' _]]]; [exact E'|exact E'|]. exfalso. apply V, rc_valid_map, V'.
  - destruct (rc_cases wn' (map g l)) as [[_ E']|[[_ [_ E']]|[_ [lo [hi [TP _]]]]]]; [exact E'|exact E'|]. exfalso. apply T. rewrite crows_map in TP. exact (periods_unmap g f _ Gt Fm lo hi TP).
  - destruct (rc_cases wn' (map g l)) as [[V' _]|[[_ [T' _]]|[_ [lo' [hi' [_ [[_ E']|[NZ' _]]]]]]]]; [exfalso; apply V', rc_valid_map, V|exfalso; apply T'; exists (f lo), (f hi); rewrite crows_map; exact (periods_map g f _ Gt Fm lo hi TP)|exact E'|].
    exfalso. apply NZ'. rewrite cmean_map, Z. ring.
  - apply (data_rc wn' (map g l) (f lo) (f hi)); [apply rc_valid_map, V|rewrite crows_map; exact (periods_map g f _ Gt Fm lo hi TP)|rewrite cmean_map; intros X; apply NZ, CC, X|].
    rewrite cmean_map, crows_map. assert (SUB : forall r, In r (complete_rows wn l) -> is_complete wn r = true) by (intros r H; apply filter_In in H; tauto).
    revert NZ F SUB. generalize (mean (weight_of wn) (complete_rows wn l)). intros m NZ F. clear TP E. induction F as [|a u r us' H F IH]; intros SUB; cbn [map]; [constructor|]. constructor; [|apply IH; intros; apply SUB; right; assumption].
    destruct H as [H0 [H1 [H2 [H3 [H4 H5]]]]]. unfold rreads. rewrite Gy, Gd, Gx, Gt, Gw by (apply SUB; left; reflexivity). split; [exact H0|]. split; [exact H1|]. split; [exact H2|]. split; [exact H3|]. split.
    + rewrite H4. destruct (t_t a) as [t|]; cbn; split; intros X; try discriminate; injection X as X; f_equal; [congruence|]. apply (f_inj f Fm). exact X.
    + rewrite H5. field. split; [exact NZ|exact Cn].
Qed.
End Transform.
