(** When the improved repeated cross-section estimators raise (C122). *)
From Verif Require Import Base ListLib ReduceModel DrdidModel DrdidSpec RcModel RcSpec RcProofs ImpRcModel ImpRcSpec ImpRcProofs.

Lemma cell_map_len (f : runit -> runit) b t l : (forall u, r_d (f u) = r_d u /\ r_post (f u) = r_post u) -> length (cell b t (map f l)) = length (cell b t l).
Proof.
  intros F. unfold cell. induction l as [|u l IH]; [reflexivity|]. cbn [map filter]. assert (E : in_cell b t (f u) = in_cell b t u) by (unfold in_cell; destruct (F u) as [-> ->]; reflexivity). rewrite E.
  destruct (in_cell b t u); cbn [length]; rewrite IH; reflexivity.
Qed.
Lemma cell_norm_len b t l : length (cell b t (rnormalise l)) = length (cell b t l).
Proof. apply (cell_map_len (fun u => rset_w (r_w u / mean r_w l) u)). intros u. split; reflexivity. Qed.
Lemma wols_raise o k ps b t l : wols_rc o k ps b t (rnormalise l) = FRaise <-> cell b t l = [].
Proof.
  assert (L := cell_norm_len b t l). unfold wols_rc. destruct (cell b t (rnormalise l)) as [|u c]; destruct (cell b t l) as [|v d]; try discriminate L.
  - tauto.
  - split; [|discriminate]. destruct (length (u :: c) <? k)%nat; [discriminate|]. destruct (ro_wls o _); discriminate.
Qed.
Lemma wols_rows o k ps b t l v : wols_rc o k ps b t (rnormalise l) = FCoef v -> (k <= length (cell b t l))%nat.
Proof.
  rewrite <- (cell_norm_len b t l). unfold wols_rc. destruct (cell b t (rnormalise l)) as [|u c]; [discriminate|]. destruct (Nat.ltb_spec (length (u :: c)) k) as [H|H]; [discriminate|]. intros _. exact H.
Qed.
Lemma rneg_iff l : rany_neg l = true <-> exists u, In u l /\ r_w u < 0.
Proof.
  unfold rany_neg. rewrite existsb_exists. split; intros [u [Hu H]]; exists u; (split; [exact Hu|]).
  - destruct (Qcltb_spec (r_w u) 0) as [X|X]; [exact X|discriminate H].
  - destruct (Qcltb_spec (r_w u) 0) as [X|X]; [reflexivity|contradiction].
Qed.
Lemma imp_raise o k tl l : drdid_imp_rc o k tl l = PRaise <->
  (exists u, In u l /\ r_w u < 0) \/ ro_logit o (rnormalise l) = None \/ exists t, cell false t l = [].
Proof.
  rewrite <- rneg_iff. unfold drdid_imp_rc. destruct (rany_neg l); [split; [left; reflexivity|reflexivity]|]. cbn zeta.
  destruct (ro_logit o (rnormalise l)) as [g|]; [|split; [right; left; reflexivity|reflexivity]].
  assert (R0 := wols_raise o k (rps_fit (ro_mu o) k g) false false l). assert (R1 := wols_raise o k (rps_fit (ro_mu o) k g) false true l).
  destruct (wols_rc o k (rps_fit (ro_mu o) k g) false false (rnormalise l)) as [| |b0]; [split; [intros _; right; right; exists false; apply R0; reflexivity|reflexivity]| |];
  (destruct (wols_rc o k (rps_fit (ro_mu o) k g) false true (rnormalise l)) as [| |b1]; [split; [intros _; right; right; exists true; apply R1; reflexivity|reflexivity]| |]);
  (split; [try discriminate; destruct (some_zero _ _ _); discriminate|intros [X|[X|[[|] X]]]; [discriminate X|discriminate X|apply R1 in X; discriminate X|apply R0 in X; discriminate X]]).
Qed.
Lemma local_raise o k tl l : drdid_imp_local_rc o k tl l = PRaise <->
  (exists u, In u l /\ r_w u < 0) \/ ro_logit o (rnormalise l) = None \/ exists b t, cell b t l = [].
Proof.
  rewrite <- rneg_iff. unfold drdid_imp_local_rc. destruct (rany_neg l); [split; [left; reflexivity|reflexivity]|]. cbn zeta.
  destruct (ro_logit o (rnormalise l)) as [g|]; [|split; [right; left; reflexivity|reflexivity]].
  assert (R := fun b t => wols_raise o k (rps_fit (ro_mu o) k g) b t l).
  assert (R00 := R false false). assert (R01 := R false true). assert (R10 := R true false). assert (R11 := R true true). clear R.
  set (F := wols_rc o k (rps_fit (ro_mu o) k g)) in *.
  assert (K : (F false false (rnormalise l) = FRaise \/ F false true (rnormalise l) = FRaise \/ F true false (rnormalise l) = FRaise \/ F true true (rnormalise l) = FRaise) <->
    (false = true \/ Some g = None \/ exists b t, cell b t l = [])).
  { rewrite R00, R01, R10, R11. split.
    - intros [X|[X|[X|X]]]; right; right; eauto.
    - intros [X|[X|[[|] [[|] X]]]]; try discriminate X; tauto. }
  rewrite <- K. clear K R00 R01 R10 R11.
  destruct (F false false (rnormalise l)); destruct (F false true (rnormalise l)); destruct (F true false (rnormalise l)); destruct (F true true (rnormalise l));
    try (destruct (ilr_zero _ _ _)); (split; [intros X; first [discriminate X|tauto]|intros [X|[X|[X|X]]]; first [discriminate X|reflexivity]]).
Qed.
Lemma imp_rows o k tl l att inf : drdid_imp_rc o k tl l = PEst att inf -> forall t, (k <= length (cell false t l))%nat.
Proof.
  intros E. apply irc_inv in E. destruct E as [_ [g [b0 [b1 [_ [E0 [E1 _]]]]]]]. cbn zeta in *. intros [|]; eapply wols_rows; eassumption.
Qed.
Lemma local_rows o k tl l att inf : drdid_imp_local_rc o k tl l = PEst att inf -> forall b t, (k <= length (cell b t l))%nat.
Proof.
  intros E. apply ilr_inv in E. destruct E as [_ [g [c0 [c1 [t0 [t1 [_ [E0 [E1 [E2 [E3 _]]]]]]]]]]]. cbn zeta in *. intros [|] [|]; eapply wols_rows; eassumption.
Qed.
