(** Proofs for C53 and C55: the triple difference is the combination of three two-group estimators, and its influence function is the
    derivative of the estimate. *)
From Verif Require Import Base ListLib ReduceModel ReduceProofs2 Calc DrdidModel DrdidSpec DrdidProofs DrdidProofs2 DrdidProofs3 DrdidProofs4 DrdidProofs5 DrdidProofs6 DrdidProofs7 DrdidProofs8 DrdidProofs9 DrdidProofs10 DddModel DddSpec DddProofs DddProofs2 DddProofs3 DddProofs4.

Lemma pair_intercept k c l : t_intercept k l -> has_intercept (pair_units c l) /\ (1 <= k)%nat.
Proof.
  intros [Hk H]. split; [|exact Hk]. intros p Hp. apply in_pair_units in Hp. destruct Hp as [u [Hu [_ ->]]]. exact (H u Hu).
Qed.
Lemma intercept_reweight k e h l : t_intercept k l -> t_intercept k (map (t_reweight e h) l).
Proof. intros [Hk H]. split; [exact Hk|]. intros u Hu. apply in_map_iff in Hu. destruct Hu as [v [<- Hv]]. exact (H v Hv). Qed.
Lemma pair_reweight c e h l : pair_units c (map (t_reweight e h) l) = map (reweight e (fun p => h (un_pair c p))) (pair_units c l).
Proof.
  induction l as [|u l IH]; [reflexivity|]. unfold pair_units in *. cbn [map filter]. change (in_pair c (t_reweight e h u)) with (in_pair c u).
  destruct (in_pair c u) eqn:E; [|exact IH]. cbn [map]. rewrite IH. f_equal. unfold reweight. rewrite (un_as c u E). reflexivity.
Qed.

Lemma ddd_two_group o k m l att a3 a2 a1 inf : inv_ok o k -> wls_ok o k -> fits_scale_free o ->
  (m = Reg -> t_intercept k l) -> (forall c, In c [3; 2; 1]%Z -> scores_interior o k m (pair_units c l)) ->
  ddd_panel o k m l = TEst att a3 a2 a1 inf ->
  forall b3 j3 b2 j2 b1 j1, two_group o k m (pair_units 3 l) = PEst b3 j3 -> two_group o k m (pair_units 2 l) = PEst b2 j2 ->
    two_group o k m (pair_units 1 l) = PEst b1 j1 ->
  a3 = b3 /\ a2 = b2 /\ a1 = b1 /\ att = b3 + b2 - b1 /\
  inf = map (fun p => share 3 l * fst (fst p) + share 2 l * snd (fst p) - share 1 l * snd p)
       (combine (combine (scatter (map (in_pair 3) l) j3) (scatter (map (in_pair 2) l) j2)) (scatter (map (in_pair 1) l) j1)).
Proof.
  intros IO WO FS RI SI E b3 j3 b2 j2 b1 j1 T3 T2 T1. apply ddd_inv in E. destruct E as [W [_ [i3 [i2 [i1 [E3 [E2 [E1 [-> ->]]]]]]]]].
  assert (P := t_mean_pos l W (pair_mean_weights _ _ _ _ _ _ _ _ E3)). rewrite pair_normalise in E3, E2, E1.
  assert (HR : forall c, m = Reg -> has_intercept (pair_units c l) /\ (1 <= k)%nat) by (intros c Hm; apply pair_intercept, RI, Hm).
  destruct (pair_bridge o k m _ _ _ _ _ _ P IO WO FS (SI 3%Z ltac:(cbn; auto)) (HR 3%Z) E3 T3) as [-> ->].
  destruct (pair_bridge o k m _ _ _ _ _ _ P IO WO FS (SI 2%Z ltac:(cbn; auto)) (HR 2%Z) E2 T2) as [-> ->].
  destruct (pair_bridge o k m _ _ _ _ _ _ P IO WO FS (SI 1%Z ltac:(cbn; auto)) (HR 1%Z) E1 T1) as [-> ->].
  repeat split. cbn zeta. assert (S : forall c, share c (t_normalise l) = share c l).
  { intros c. unfold share, t_normalise. rewrite filter_map, !map_length. reflexivity. }
  assert (M : forall c, map (in_pair c) (t_normalise l) = map (in_pair c) l) by (intros c; unfold t_normalise; rewrite map_map; reflexivity).
  rewrite !S, !M. reflexivity.
Qed.

Lemma interior_near o k m L h : (m <> Reg -> smooth_logit o k trim995 L h) -> near0 (fun e => scores_interior o k m (map (reweight e h) L)).
Proof.
  intros SM. unfold scores_interior.
  assert (X : m <> Reg -> near0 (fun e => forall gamma u, o_logit o (normalise (map (reweight e h) L)) = Some gamma -> In u (map (reweight e h) L) ->
      eps6 <= o_mu o (dotk k (p_x u) gamma) /\ o_mu o (dotk k (p_x u) gamma) <= 1 - eps6)).
  { intros Hm. specialize (SM Hm). assert (N := near0_forall L _ (fun u Hu => p_mu o k trim995 L h SM u Hu)).
    eapply near0_impl; [|exact N]. cbn beta. intros e He gamma u Eg Hu. apply in_map_iff in Hu. destruct Hu as [v [<- Hv]]. change (p_x (reweight e h v)) with (p_x v).
    specialize (He v Hv). assert (G : gamma_of o (map (reweight e h) L) = gamma) by (unfold gamma_of; rewrite Eg; reflexivity). rewrite G in He. rewrite He. apply ps_fit_bounds. }
  destruct m; [apply X; discriminate|apply near0_all; intros; exact I|apply X; discriminate].
Qed.
Lemma two_group_derivative o k m L h a i : inv_ok o k -> wls_ok o k -> (m <> Reg -> smooth_logit o k trim995 L h) -> two_group o k m L = PEst a i ->
  near0 (fun e => has_est (two_group o k m (map (reweight e h) L))) ->
  derivative_at_0 (fun e => att_of (two_group o k m (map (reweight e h) L))) (avg_with h L i).
Proof.
  intros IO WO SM E N. destruct m; cbn in *.
  - apply (dr_derivative o k trim995 L h a i WO IO (SM ltac:(discriminate)) E N).
  - apply (reg_derivative o k L h a i WO IO E N).
  - apply (ipw_derivative o k trim995 L h a i IO (SM ltac:(discriminate)) E N).
Qed.
(* scatter of a list on the mask positions, weighted and summed *)
Lemma sum_scatter c (h : tunit -> Qc) l : forall i, length i = length (pair_units c l) ->
  sumf (fun p => h (fst p) * snd p) (combine l (scatter (map (in_pair c) l) i)) = sumf (fun p => h (un_pair c (fst p)) * snd p) (combine (pair_units c l) i).
Proof.
  induction l as [|u l IH]; intros i Hi; [reflexivity|]. unfold pair_units in *. cbn [map filter] in *. destruct (in_pair c u) eqn:E.
  - cbn [map length] in Hi. destruct i as [|x i]; [discriminate|]. cbn [scatter hd tl combine map]. rewrite !sumf_cons, IH by (cbn in Hi; lia). cbn [fst snd]. rewrite (un_as c u E). reflexivity.
  - cbn [scatter combine]. rewrite sumf_cons, IH by exact Hi. cbn [fst snd]. ring.
Qed.
Lemma length_scatter mask : forall i, length (scatter mask i) = length mask.
Proof. induction mask as [|[|] m IH]; intros i; cbn; rewrite ?IH; reflexivity. Qed.
Lemma sum_combine3 (h : tunit -> Qc) x y z : forall l f3 f2 f1, length f3 = length l -> length f2 = length l -> length f1 = length l ->
  sumf (fun p => h (fst p) * snd p) (combine l (map (fun p => x * fst (fst p) + y * snd (fst p) - z * snd p) (combine (combine f3 f2) f1)))
  = x * sumf (fun p => h (fst p) * snd p) (combine l f3) + y * sumf (fun p => h (fst p) * snd p) (combine l f2) - z * sumf (fun p => h (fst p) * snd p) (combine l f1).
Proof.
  induction l as [|u l IH]; intros [|a f3] [|b f2] [|c f1]; cbn [length]; intros; try discriminate; cbn [combine map]; [unfold sumf, qsum; cbn; ring|].
  rewrite !sumf_cons. cbn [fst snd]. rewrite IH by congruence. ring.
Qed.
Lemma two_group_len o k m L a i : two_group o k m L = PEst a i -> length i = length L /\ L <> [].
Proof.
  intros T. assert (X : forall f : punit -> Qc, length (map f (normalise L)) = length L) by (intros f; rewrite map_length; unfold normalise; apply map_length).
  assert (Y : (exists f, mean f (normalise L) <> 0) -> L <> []) by (intros [f Hf] ->; apply Hf; reflexivity).
  destruct m; cbn in T.
  - apply dr_inv in T. destruct T as [_ [_ [g [b [M [H [_ [_ [Ht [_ [_ [_ [_ ->]]]]]]]]]]]]]. split; [apply X|apply Y; eauto].
  - apply reg_inv in T. destruct T as [_ [_ [b [M [_ [Ht [_ [_ ->]]]]]]]]. split; [apply X|apply Y; eauto].
  - apply ipw_inv in T. destruct T as [_ [_ [g [H [_ [Ht [_ [_ [_ ->]]]]]]]]]. split; [apply X|apply Y; eauto].
Qed.
Lemma filter_length_le_ {A} (p : A -> bool) l : (length (filter p l) <= length l)%nat.
Proof. induction l as [|a l IH]; cbn; [lia|]. destruct (p a); cbn; lia. Qed.
Lemma share_avg c l h i : pair_units c l <> [] -> length i = length (pair_units c l) ->
  share c l * sumf (fun p => h (fst p) * snd p) (combine l (scatter (map (in_pair c) l) i)) / qn (length l) = avg_with (fun p => h (un_pair c p)) (pair_units c l) i.
Proof.
  intros Hn Hi. rewrite (sum_scatter c h l i Hi). unfold avg_with, share.
  assert (EL : length (pair_units c l) = length (filter (in_pair c) l)) by (unfold pair_units; apply map_length). rewrite <- EL.
  assert (P : (0 < length (pair_units c l))%nat) by (destruct (pair_units c l); [congruence|cbn; lia]).
  assert (P2 : (0 < length l)%nat) by (rewrite EL in P; pose proof (filter_length_le_ (in_pair c) l); lia).
  destruct (Nat.ltb_spec 0 (length (pair_units c l))); [|lia].
  assert (Q1 := Qc_pos_neq0 _ (qn_pos _ P)). assert (Q2 := Qc_pos_neq0 _ (qn_pos _ P2)). field. split; assumption.
Qed.

Lemma ddd_derivative o k m l h att a3 a2 a1 inf : inv_ok o k -> wls_ok o k -> fits_scale_free o -> (m = Reg -> t_intercept k l) ->
  (m <> Reg -> forall c, In c [3; 2; 1]%Z -> smooth_logit o k trim995 (pair_units c l) (fun p => h (un_pair c p))) ->
  ddd_panel o k m l = TEst att a3 a2 a1 inf ->
  near0 (fun e => ddd_has_est (ddd_panel o k m (map (t_reweight e h) l)) /\
    forall c, In c [3; 2; 1]%Z -> has_est (two_group o k m (pair_units c (map (t_reweight e h) l)))) ->
  derivative_at_0 (fun e => ddd_att_of (ddd_panel o k m (map (t_reweight e h) l))) (t_avg_with h l inf).
Proof.
  intros IO WO FS RI SM E N.
  set (H := fun c (p : punit) => h (un_pair c p)). set (A := fun c e => att_of (two_group o k m (map (reweight e (H c)) (pair_units c l)))).
  assert (R : forall c e, pair_units c (map (t_reweight e h) l) = map (reweight e (H c)) (pair_units c l)) by (intros; apply pair_reweight).
  assert (NC : forall c, In c [3; 2; 1]%Z -> near0 (fun e => has_est (two_group o k m (map (reweight e (H c)) (pair_units c l))))).
  { intros c Hc. eapply near0_impl; [|exact N]. cbn beta. intros e [_ He]. rewrite <- R. apply He, Hc. }
  assert (I : near0 (fun e => forall c, In c [3; 2; 1]%Z -> scores_interior o k m (map (reweight e (H c)) (pair_units c l)))).
  { apply (near0_forall [3; 2; 1]%Z). intros c Hc. apply interior_near. intros Hm. exact (SM Hm c Hc). }
  (* the estimates at e = 0 *)
  assert (Z0 : map (t_reweight 0 h) l = l).
  { rewrite <- (map_id l) at 2. apply map_ext. intros u. unfold t_reweight, t_set_w. destruct u; cbn. f_equal. ring. }
  assert (B : forall c, In c [3; 2; 1]%Z -> exists a i, two_group o k m (pair_units c l) = PEst a i).
  { intros c Hc. destruct (near0_at0 _ N) as [_ X]. specialize (X c Hc). rewrite Z0 in X. exact X. }
  destruct (B 3%Z ltac:(cbn; auto)) as [b3 [j3 T3]]. destruct (B 2%Z ltac:(cbn; auto)) as [b2 [j2 T2]]. destruct (B 1%Z ltac:(cbn; auto)) as [b1 [j1 T1]].
  assert (I0 : forall c, In c [3; 2; 1]%Z -> scores_interior o k m (pair_units c l)).
  { intros c Hc. pose proof (near0_at0 _ I c Hc) as X. rewrite <- R, Z0 in X. exact X. }
  destruct (ddd_two_group o k m l att a3 a2 a1 inf IO WO FS RI I0 E b3 j3 b2 j2 b1 j1 T3 T2 T1) as [_ [_ [_ [_ EI]]]].
  apply (D_ext (fun e => A 3%Z e + A 2%Z e - A 1%Z e)).
  - eapply near0_impl; [|apply (near0_and _ _ N I)]. cbn beta. intros e [[[x [x3 [x2 [x1 [xi X]]]]] Y] IE]. rewrite X. cbn [ddd_att_of].
    destruct (Y 3%Z ltac:(cbn; auto)) as [c3 [k3 U3]]. destruct (Y 2%Z ltac:(cbn; auto)) as [c2 [k2 U2]]. destruct (Y 1%Z ltac:(cbn; auto)) as [c1 [k1 U1]].
    assert (IE' : forall c, In c [3; 2; 1]%Z -> scores_interior o k m (pair_units c (map (t_reweight e h) l))) by (intros c Hc; rewrite R; apply IE, Hc).
    destruct (ddd_two_group o k m _ x x3 x2 x1 xi IO WO FS (fun Hm => intercept_reweight k e h l (RI Hm)) IE' X c3 k3 c2 k2 c1 k1 U3 U2 U1) as [_ [_ [_ [-> _]]]].
    unfold A. rewrite <- !R, U3, U2, U1. reflexivity.
  - destruct (two_group_len _ _ _ _ _ _ T3) as [L3 P3]. destruct (two_group_len _ _ _ _ _ _ T2) as [L2 P2]. destruct (two_group_len _ _ _ _ _ _ T1) as [L1 P1].
    assert (EA : t_avg_with h l inf = avg_with (H 3%Z) (pair_units 3 l) j3 + avg_with (H 2%Z) (pair_units 2 l) j2 - avg_with (H 1%Z) (pair_units 1 l) j1).
    { unfold H. rewrite <- !share_avg by assumption. unfold t_avg_with. rewrite EI. rewrite sum_combine3 by (rewrite length_scatter; apply map_length). unfold Qcdiv. ring. }
    rewrite EA.
    assert (DA : forall c a i, In c [3; 2; 1]%Z -> two_group o k m (pair_units c l) = PEst a i -> derivative_at_0 (A c) (avg_with (H c) (pair_units c l) i)).
    { intros c a i Hc T. unfold A. apply (two_group_derivative o k m _ _ a i IO WO); [intros Hm; exact (SM Hm c Hc)|exact T|exact (NC c Hc)]. }
    assert (D3 : derivative_at_0 (A 3%Z) (avg_with (H 3%Z) (pair_units 3 l) j3)) by (apply (DA 3%Z b3 j3); [cbn; auto|exact T3]). assert (D2 : derivative_at_0 (A 2%Z) (avg_with (H 2%Z) (pair_units 2 l) j2)) by (apply (DA 2%Z b2 j2); [cbn; auto|exact T2]). assert (D1 : derivative_at_0 (A 1%Z) (avg_with (H 1%Z) (pair_units 1 l) j1)) by (apply (DA 1%Z b1 j1); [cbn; auto|exact T1]).
    exact (D_sub _ _ _ _ (D_add _ _ _ _ D3 D2) D1).
Qed.
