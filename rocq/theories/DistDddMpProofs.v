(** Lemmas for C112. No property content. *)
From Verif Require Import Base ListLib ReduceModel PreprocessModel PreprocessProofs DrdidModel DrdidSpec DrdidProofs DddModel DddSpec DddProofs DddProofs2 DddProofs3 DddMpModel DddMpSpec DddMpProofs1 DddMpProofs2 DddMpProofs3 DddMpProofs4 AttGtModel AttGtProofs4 DistDidModel DistDidSpec DistDidProofs DistDddModel DistDddSpec DistDddSpec2 DistDddMpModel DistDddMpSpec DistDddProofs DistDddProofs2 DistDddProofs3 DistDddProofs4.
Local Open Scope list_scope.

Lemma merge_in keep t p data x : In x (merge_rows keep t p data) <-> exists r1 r0, In r1 data /\ In r0 data /\ keep (l_g r1) = true /\ keep (l_g r0) = true /\
  l_t r1 = t /\ l_t r0 = p /\ l_id r0 = l_id r1 /\ x = merged_row r1 r0.
Proof.
  unfold merge_rows. cbn zeta. rewrite in_flat_map. split.
  - intros (r1 & H1 & H). apply filter_In in H1. destruct H1 as [H1 T1]. apply filter_In in H1. destruct H1 as [D1 K1].
    apply in_map_iff in H. destruct H as (r0 & <- & H0). apply filter_In in H0. destruct H0 as [H0 I0]. apply filter_In in H0. destruct H0 as [H0 T0].
    apply filter_In in H0. destruct H0 as [D0 K0]. apply Z.eqb_eq in T1, T0, I0. exists r1, r0. tauto.
  - intros (r1 & r0 & D1 & D0 & K1 & K0 & T1 & T0 & I & ->). exists r1. split.
    + apply filter_In. split; [apply filter_In; auto|apply Z.eqb_eq, T1].
    + apply in_map. apply filter_In. split; [|apply Z.eqb_eq, I]. apply filter_In. split; [apply filter_In; auto|apply Z.eqb_eq, T0].
Qed.
Lemma nodup_app {A} (a b : list A) : NoDup a -> NoDup b -> (forall x, In x a -> ~ In x b) -> NoDup (a ++ b).
Proof.
  induction 1 as [|x a Nx Na IH]; intros Hb HD; cbn; [exact Hb|]. constructor.
  - rewrite in_app_iff. intros [K|K]; [contradiction|]. apply (HD x); [left; reflexivity|exact K].
  - apply IH; [exact Hb|]. intros y Hy. apply HD. right. exact Hy.
Qed.
Lemma one_each (post pre : list lrow) : NoDup (map l_id post) -> (forall r r', In r pre -> In r' pre -> l_id r = l_id r' -> r = r') -> NoDup pre ->
  NoDup (map m_id (flat_map (fun r1 => map (merged_row r1) (filter (fun r0 => (l_id r0 =? l_id r1)%Z) pre)) post)).
Proof.
  intros HN HU HP. induction post as [|r post IH]; cbn; [constructor|]. inversion HN as [|? ? N1 N2]; subst. rewrite map_app.
  apply nodup_app; [|exact (IH N2)|].
  - assert (S1 : forall l, NoDup l -> (forall a b, In a l -> In b l -> a = b) -> NoDup (map m_id (map (merged_row r) l))).
    { intros [|a [|b l]] HL HE; cbn; [constructor|repeat constructor; auto|]. exfalso. inversion HL as [|? ? Na _]; subst. apply Na. rewrite (HE a b); cbn; auto. }
    apply S1; [apply NoDup_filter, HP|]. intros a b Ha Hb. apply filter_In in Ha, Hb. destruct Ha as [Ha Ea], Hb as [Hb Eb]. apply Z.eqb_eq in Ea, Eb. apply HU; congruence.
  - intros i Hi Hj. rewrite map_map in Hi. cbn in Hi. apply in_map_iff in Hi. destruct Hi as (a & <- & _). apply in_map_iff in Hj. destruct Hj as (x & Ex & Hx).
    apply in_flat_map in Hx. destruct Hx as (r1 & H1 & H2). apply in_map_iff in H2. destruct H2 as (r0 & <- & _). cbn in Ex. apply N1. rewrite <- Ex. apply in_map, H1.
Qed.
Lemma merge_nodup keep t p data : keyed data -> NoDup (map m_id (merge_rows keep t p data)).
Proof.
  intros K. unfold merge_rows. cbn zeta. apply one_each.
  - assert (K1 := keyed_filter (fun r => keep (l_g r)) data K). assert (K2 := keyed_filter (fun r => (l_t r =? t)%Z) _ K1). unfold keyed in K2. revert K2.
    generalize (filter (fun r => keep (l_g r)) data). intros l. induction l as [|r l IH]; cbn; [constructor|]. destruct (Z.eqb_spec (l_t r) t) as [E|E]; [|exact IH].
    cbn. intros H. inversion H as [|? ? H1 H2]; subst. constructor; [|apply IH, H2]. intros I. apply H1. apply in_map_iff in I. destruct I as (r' & E' & Hr).
    apply in_map_iff. exists r'. split; [|exact Hr]. apply filter_In in Hr. destruct Hr as [_ Hr]. apply Z.eqb_eq in Hr. congruence.
  - intros r r' H H' E. apply filter_In in H, H'. destruct H as [H T], H' as [H' T']. apply filter_In in H, H'. apply Z.eqb_eq in T, T'. apply (keyed_eq data); try tauto. congruence.
  - apply NoDup_filter, NoDup_filter. exact (NoDup_map_inv _ _ K).
Qed.

Section Cell.
Context (data : list lrow) (g t p : Z) (keep : grp -> bool) (M : list mrow).
Context (PL : plain_panel data) (G : (0 < g)%Z) (KG : keep (Fin g) = true) (PM : Permutation (merge_rows keep t p data) M).
Lemma m_nodup : NoDup (map m_id M).
Proof. eapply Permutation_NoDup; [apply Permutation_map, PM|]. apply merge_nodup, PL. Qed.
Lemma m_in x : In x M <-> exists r1 r0, In r1 data /\ In r0 data /\ keep (l_g r1) = true /\ keep (l_g r0) = true /\ l_t r1 = t /\ l_t r0 = p /\ l_id r0 = l_id r1 /\ x = merged_row r1 r0.
Proof. rewrite <- merge_in. split; apply Permutation_in; [apply Permutation_sym|]; exact PM. Qed.
Lemma dist_code r : In r data -> forall r0, dist_subgroup g (merged_row r r0) = subgroup_code (grp_eqb (l_g r) (Fin g)) (l_p r).
Proof.
  intros D r0. destruct PL as (KY & PL1 & PL2). unfold dist_subgroup, subgroup_code; cbn [merged_row m_g m_p].
  destruct (PL1 r D) as ([P0|P1] & _ & _); destruct (grp_eqb (l_g r) (Fin g)); [rewrite P0|rewrite P0|rewrite P1|rewrite P1]; reflexivity.
Qed.
Lemma sample_perm c u : keep c = true -> is_sample data g c t p u -> Permutation (control_sample g c M) u.
Proof.
  intros KC [HS HU]. apply NoDup_Permutation.
  - apply (NoDup_map_inv t_id). apply sample_ids, m_nodup.
  - apply (NoDup_map_inv t_id). clear - HS. induction HS as [|a l H IH F]; constructor; [|exact IH]. intros K. rewrite Forall_forall in F. specialize (F _ K). lia.
  - intros x. rewrite HU. unfold control_sample. rewrite in_map_iff. pose proof dist_code as DC. destruct PL as (KY & PL1 & PL2). split.
    + intros (y & <- & Hy). apply filter_In in Hy. destruct Hy as [Hy Gy]. apply m_in in Hy. destruct Hy as (r1 & r0 & D1 & D0 & K1 & K0 & T1 & T0 & I & ->). cbn in Gy.
      assert (C1 : l_g r1 = Fin g \/ l_g r1 = c). { apply orb_true_iff in Gy. destruct (grp_eqb_spec (l_g r1) (Fin g)); [auto|]. destruct (grp_eqb_spec (l_g r1) c); [auto|]. destruct Gy; discriminate. }
      assert (E0 : l_g r0 = l_g r1) by (apply PL2; auto).
      assert (SG : subgroup_is g r1 (t_sg (dist_unit g (merged_row r1 r0)))) by (apply subgroup_iff; cbn [dist_unit t_sg]; apply DC, D1).
      exists r1, r0. repeat (split; [solve [auto | rewrite E0; exact C1 | exact SG | reflexivity | cbn; apply PL1, D1]|]). reflexivity.
    + intros (r1 & r0 & D1 & D0 & T1 & T0 & I & C1 & C0 & I1 & SG & Y1 & Y0 & W & X).
      exists (merged_row r1 r0). split.
      * apply tunit_eq; cbn; try congruence.
        { apply subgroup_iff in SG. rewrite SG. apply DC, D1. }
        { rewrite W. apply PL1, D1. }
      * apply filter_In. split.
        { apply m_in. exists r1, r0. assert (Q : forall d, d = Fin g \/ d = c -> keep d = true) by (intros d [->| ->]; assumption). repeat split; auto. }
        { cbn. apply orb_true_iff. destruct (grp_eqb_spec (l_g r1) (Fin g)); [auto|]. destruct (grp_eqb_spec (l_g r1) c); [auto|]. tauto. }
Qed.
Lemma against_local o k m c att inf : fits_symmetric o -> keep c = true -> against o k m data g c t p att inf ->
  exists inf', local_control o k m g M c (att, inf') /\ Permutation inf' inf /\ NoDup (map fst inf).
Proof.
  intros FS KC A0. assert (A := A0). destruct A as (u & a3 & a2 & a1 & v & HS & E & ->). assert (P := sample_perm c u KC HS).
  assert (PD := ddd_perm o k m _ _ FS P). rewrite E in PD. destruct (ddd_panel o k m (control_sample g c M)) as [|b b3 b2 b1 w] eqn:E'; [destruct PD|].
  destruct PD as (-> & -> & -> & -> & PC). exists (combine (map t_id (control_sample g c M)) w). split; [|split].
  - exists a3, a2, a1, w. split; [exact E'|reflexivity].
  - assert (Q : forall l (z : list Qc), combine (map t_id l) z = map (fun q => (t_id (fst q), snd q)) (combine l z)).
    { induction l as [|x l IH]; intros [|y z]; cbn; try reflexivity. f_equal. apply IH. }
    rewrite !Q. apply Permutation_map, PC.
  - exact (proj1 (against_ids o k m data g c t p att _ A0)).
Qed.
End Cell.
