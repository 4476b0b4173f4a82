(** Lemmas for C111. No property content. *)
From Verif Require Import Base ListLib ReduceModel PreprocessModel PreprocessProofs DrdidModel DrdidSpec DrdidProofs DddModel DddSpec DddProofs DddProofs2 DddMpModel AttGtProofs4 DistDidModel DistDidSpec DistDidProofs DistDddModel DistDddSpec DistDddSpec2 DistDddProofs DistDddProofs2 DistDddProofs3.
Local Open Scope list_scope.

Lemma sample_concat g c parts : concat (map (control_sample g c) parts) = control_sample g c (concat parts).
Proof. induction parts as [|p q IH]; [reflexivity|]. cbn [map concat]. rewrite IH. unfold control_sample. rewrite filter_app, map_app. reflexivity. Qed.
Lemma sample_ids g c rows : NoDup (map m_id rows) -> NoDup (map t_id (control_sample g c rows)).
Proof.
  intros H. unfold control_sample. rewrite map_map. cbn [dist_unit t_id]. induction rows as [|r q IH]; cbn; [constructor|]. inversion H; subst.
  destruct (grp_eqb (m_g r) (Fin g) || grp_eqb (m_g r) c); [|apply IH; assumption]. cbn. constructor; [|apply IH; assumption].
  intros K. apply H2. apply in_map_iff in K. destruct K as (x & Ex & Hx). apply filter_In in Hx. apply in_map_iff. exists x. tauto.
Qed.
Lemma lookup_find (s : Qc) (l : list tunit) inf i : length inf = length l ->
  match find (fun p => (t_id (fst p) =? i)%Z) (combine l inf) with Some p => s * snd p | None => 0 end = s * DddMpModel.lookup (combine (map t_id l) inf) i.
Proof.
  revert inf. induction l as [|u l IH]; intros [|x inf] H; cbn in *; try discriminate; try (unfold DddMpModel.lookup; cbn; ring).
  unfold DddMpModel.lookup. cbn. destruct (t_id u =? i)%Z; [reflexivity|]. apply IH. lia.
Qed.
Lemma ctrl_equal o od k fan m g cell_ids parts completed c r :
  (2 <= fan)%nat -> Permutation parts completed -> NoDup (map m_id (concat parts)) ->
  linear_algebra_ok od k -> wls_ok o k -> inv_ok o k -> d_mu od = o_mu o ->
  length cell_ids = length (concat parts) ->
  in_first g parts c = true -> scores_ready o od k m g parts c ->
  local_control o k m g (concat parts) c r ->
  ctrl_cell od m k fan trim995 cell_ids g parts completed c = XDone (fst r) (place cell_ids (snd r)).
Proof.
  intros Hf HP Hd HLA HW HI Hmu Hlen Hfirst HS (a3 & a2 & a1 & inf & E & Es).
  unfold in_first in Hfirst. apply existsb_exists in Hfirst. destruct Hfirst as (x & Hx & Hg). unfold scores_ready in HS.
  set (cp := map (control_sample g c) parts) in *.
  assert (Hne : parts <> []) by (intros K; rewrite K in Hx; destruct Hx).
  assert (Hcp : cp <> []) by (unfold cp; destruct parts; [congruence|discriminate]).
  assert (Hhd : hd [] cp <> []).
  { unfold cp. destruct parts as [|p q]; [congruence|]. cbn in *. unfold control_sample. intros K. apply map_eq_nil in K.
    assert (L : In x (filter (fun r => grp_eqb (m_g r) (Fin g) || grp_eqb (m_g r) c) p)).
    { apply filter_In. split; [exact Hx|exact Hg]. }
    rewrite K in L. destruct L. }
  rewrite <- sample_concat in HS, E, Es. fold cp in HS, E, Es.
  destruct (comps_equal o od k fan m cp Hf Hcp HLA HW HI HS Hmu (fst r) a3 a2 a1 inf E) as (r3 & r2 & r1 & H1 & H2 & H3).
  unfold ctrl_cell. change (map (ctrl_part g c) parts) with cp. change (map (ctrl_part g c) completed) with (map (control_sample g c) completed).
  destruct cp as [|[|u p] q] eqn:Ecp; [congruence|cbn in Hhd; congruence|]. rewrite <- Ecp in *. rewrite H1.
  f_equal; [exact H2|]. rewrite (writes_column _ _ _ cp).
  - rewrite H3, Es. unfold place. apply map_ext. intros i. rewrite lookup_find.
    + f_equal. unfold comp_share. rewrite Hlen, combine_length, map_length.
      assert (Li : length inf = length (concat cp)) by (rewrite <- H3; apply map_length). rewrite Li, Nat.min_id.
      destruct (Nat.ltb_spec 0 (length (concat cp))) as [_|K]; [reflexivity|]. rewrite Ecp in K. cbn in K. lia.
    + rewrite <- H3. apply map_length.
  - rewrite Ecp, <- Ecp. subst cp. apply Permutation_map. exact HP.
  - subst cp. rewrite sample_concat. apply sample_ids, Hd.
Qed.
Lemma ctrl_absent od k fan m tl g cell_ids parts completed c : in_first g parts c = false ->
  ctrl_cell od m k fan tl cell_ids g parts completed c = XSkip.
Proof.
  intros H. unfold ctrl_cell. destruct parts as [|p q]; [reflexivity|]. cbn [map]. cbn [in_first hd] in H.
  assert (E : ctrl_part g c p = []).
  { unfold ctrl_part. unfold in_first in H. cbn [hd] in H. revert H. clear. induction p as [|r p IH]; cbn; [reflexivity|]. intros H. apply orb_false_iff in H. destruct H as [-> H]. apply IH, H. }
  rewrite E. reflexivity.
Qed.
Lemma loop_equal f (p : grp -> bool) cs rs : (forall c, In c cs -> p c = false -> f c = XSkip) ->
  Forall2 (fun c r => f c = XDone (fst r) (snd r)) (filter p cs) rs -> ctrl_loop f cs = Some rs.
Proof.
  intros Hs. revert rs. induction cs as [|c cs IH]; intros rs H; cbn in *.
  - inversion H. reflexivity.
  - destruct (p c) eqn:E.
    + inversion H as [|? r ? rs' H1 H2]; subst. rewrite H1, (IH (fun d Hd => Hs d (or_intror Hd)) rs' H2). destruct r; reflexivity.
    + rewrite (Hs c (or_introl eq_refl) E), (IH (fun d Hd => Hs d (or_intror Hd)) rs H). reflexivity.
Qed.
Lemma Forall2_map_r {A B C} (R : A -> C -> Prop) (f : B -> C) l l' : Forall2 (fun a b => R a (f b)) l l' -> Forall2 R l (map f l').
Proof. induction 1; constructor; auto. Qed.
Lemma dist_lookup w i : DistDidProofs.lookup i w = DddMpModel.lookup w i.
Proof. unfold DddMpModel.lookup. induction w as [|[j v] w IH]; cbn; [reflexivity|]. rewrite (Z.eqb_sym i). destruct (j =? i)%Z; [reflexivity|exact IH]. Qed.
Lemma lookup_scaled s (ids : list Z) inf i : DddMpModel.lookup (combine ids (map (fun v => s * v) inf)) i = s * DddMpModel.lookup (combine ids inf) i.
Proof.
  unfold DddMpModel.lookup. revert inf. induction ids as [|j ids IH]; intros [|v inf]; cbn; try ring. destruct (j =? i)%Z; [reflexivity|]. apply IH.
Qed.
Lemma gmm_inf_length q n rs ids : rs <> [] -> length (snd (fst (gmm_aggregate q n (map fst rs) (map (fun r : Qc * list (Z * Qc) => place ids (snd r)) rs)))) = length ids.
Proof. intros H. destruct rs as [|r rs]; [congruence|]. unfold gmm_aggregate. cbn [fst snd map nth]. rewrite map_length, seq_length. unfold place. apply map_length. Qed.

Lemma multi_equal o od q k fan m ids g controls parts completed rs :
  (2 <= fan)%nat -> (2 <= length controls)%nat -> Permutation parts completed -> NoDup (map m_id (concat parts)) ->
  linear_algebra_ok od k -> wls_ok o k -> inv_ok o k -> d_mu od = o_mu o ->
  (forall c, In c controls -> in_first g parts c = true -> scores_ready o od k m g parts c) ->
  Forall2 (local_control o k m g (concat parts)) (filter (in_first g parts) controls) rs ->
  multi_cell od q m k fan trim995 ids g controls parts completed =
    match rs with [] => ZSkip | _ => gmm_report q ids (zuniq (map m_id (concat parts))) rs end.
Proof.
  intros Hf Hc HP Hd HLA HW HI Hmu HS HR. set (cids := zuniq (map m_id (concat parts))).
  assert (Hlen : length cids = length (concat parts)) by (unfold cids; rewrite zuniq_length_nodup by exact Hd; apply map_length).
  assert (L : ctrl_loop (ctrl_cell od m k fan trim995 cids g parts completed) controls = Some (map (fun r => (fst r, place cids (snd r))) rs)).
  { apply (loop_equal _ (in_first g parts)).
    - intros c _ H. apply ctrl_absent, H.
    - apply Forall2_map_r. cbn [fst snd].
      assert (S1 : forall c, In c (filter (in_first g parts) controls) -> in_first g parts c = true /\ scores_ready o od k m g parts c).
      { intros c H. apply filter_In in H. destruct H. auto. }
      revert HR S1. generalize (filter (in_first g parts) controls). intros cs HR. induction HR as [|c r cs rs' H1 _ IH]; intros S1; constructor.
      + destruct (S1 c (or_introl eq_refl)) as [A B]. exact (ctrl_equal o od k fan m g cids parts completed c r Hf HP Hd HLA HW HI Hmu Hlen A B H1).
      + apply IH. intros d Hd'. apply S1. right. exact Hd'. }
  assert (Hne : rs <> [] -> (length (concat parts) =? 0)%nat = false).
  { intros N. destruct (Nat.eqb_spec (length (concat parts)) 0) as [K|_]; [|reflexivity]. exfalso. apply N. apply length_zero_iff_nil in K.
    assert (K2 : filter (in_first g parts) controls = []).
    { assert (hd [] parts = []) by (destruct parts as [|p w]; [reflexivity|cbn in *; apply app_eq_nil in K; tauto]). revert H. unfold in_first. intros ->. cbn. clear. induction controls; cbn; auto. }
    rewrite K2 in HR. inversion HR. reflexivity. }
  unfold multi_cell. fold cids. rewrite L.
  assert (E : forall r1 r2 : multi_result, (match controls with [_] => r1 | _ => r2 end) = r2) by (intros; destruct controls as [|a [|b cs]]; cbn in Hc; try lia; reflexivity).
  rewrite E. clear E. destruct rs as [|r rs]; [cbn [map]; destruct (length (concat parts) =? 0)%nat; reflexivity|].
  rewrite Hne by discriminate. cbn [map]. rewrite !map_map. cbn [fst snd].
  assert (GL := gmm_inf_length q (length ids) (r :: rs) cids ltac:(discriminate)). unfold gmm_report. cbn [map] in *.
  destruct (gmm_aggregate q (length ids) (fst r :: map fst rs) (place cids (snd r) :: map (fun r0 => place cids (snd r0)) rs)) as [[att inf] se2] eqn:EG.
  cbn [fst snd] in GL. f_equal. rewrite writes_zero.
  - unfold place. apply map_ext. intros i. rewrite dist_lookup, lookup_scaled. f_equal. rewrite combine_length, GL, Nat.min_id, Hlen. reflexivity.
  - assert (M : map fst (combine cids (map (fun v => qn (length ids) / qn (length (concat parts)) * v) inf)) = cids).
    { assert (G : forall A B (a : list A) (b : list B), length a = length b -> map fst (combine a b) = a) by (intros A B a; induction a; intros [|]; cbn; intros; try discriminate; f_equal; auto). apply G. rewrite map_length. congruence. }
    rewrite M. apply zuniq_nodup.
Qed.
