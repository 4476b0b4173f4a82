(** Lemmas for C112 (continued). No property content. *)
From Verif Require Import Base ListLib ReduceModel PreprocessModel PreprocessProofs DrdidModel DrdidSpec DrdidProofs DddModel DddSpec DddProofs DddProofs2 DddProofs3 DddMpModel DddMpSpec DddMpProofs1 DddMpProofs2 DddMpProofs3 DddMpProofs4 AttGtModel AttGtProofs4 DistDidModel DistDidSpec DistDidProofs DistDddModel DistDddSpec DistDddSpec2 DistDddMpModel DistDddMpSpec DistDddProofs DistDddProofs2 DistDddProofs3 DistDddProofs4 DistDddMpProofs.
Local Open Scope list_scope.

Lemma place_perm ids l l' : NoDup (map fst l) -> Permutation l l' -> place ids l = place ids l'.
Proof.
  intros N P. unfold place. rewrite (Permutation_length P). apply map_ext. intros i. f_equal. rewrite <- !dist_lookup. apply lookup_perm; assumption.
Qed.
Lemma merge_ext keep keep' t p data : (forall r, In r data -> keep (l_g r) = keep' (l_g r)) -> merge_rows keep t p data = merge_rows keep' t p data.
Proof. intros H. unfold merge_rows. rewrite (filter_ext_in (fun r => keep (l_g r)) (fun r => keep' (l_g r)) data H). reflexivity. Qed.
Lemma local_fst o k m g M c r : local_control o k m g M c r -> map fst (snd r) = map t_id (control_sample g c M).
Proof.
  intros (a3 & a2 & a1 & inf & E & ->). apply ddd_inf_len in E.
  assert (Gn : forall A B (a : list A) (b : list B), length a = length b -> map fst (combine a b) = a) by (intros A B a; induction a; intros [|]; cbn; intros; try discriminate; f_equal; auto).
  apply Gn. rewrite map_length. congruence.
Qed.
Definition same_result (r r' : Qc * list (Z * Qc)) : Prop := fst r = fst r' /\ Permutation (snd r) (snd r') /\ NoDup (map fst (snd r')).

Section E2E.
Context (o : oracle) (od : dist_oracle) (q : gmm_oracle) (k fan : nat) (m : emethod) (b : base_mode) (never : bool) (data : list lrow) (g t p : Z).
Context (layout : list mrow -> list (list mrow)) (order : list (list mrow) -> list (list mrow)).
Context (Hf : (2 <= fan)%nat) (PL : plain_panel data) (G : (0 < g)%Z) (HL : is_layout layout) (HO : is_order order).
Context (HLA : linear_algebra_ok od k) (HW : wls_ok o k) (HI : inv_ok o k) (Hmu : d_mu od = o_mu o) (FS : fits_symmetric o) (EQ : gmm_equivariant q).
Context (CO : cohorts_observed data t p).
Let keep := cell_keep never g t p.
Let parts := layout (merge_rows keep t p data).
Context (CR : cell_ready o od k m never data g t p parts).
Context (AG : forall z, controls_of never data g t p z -> exists att inf, against o k m data g z t p att inf).
Let M := concat parts.
Let ids := mp_ids data.

Lemma keep_g : keep (Fin g) = true. Proof. unfold keep, cell_keep. destruct (grp_eqb_spec (Fin g) (Fin g)); [reflexivity|congruence]. Qed.
Lemma keep_control r : In r data -> keep (l_g r) = true <-> l_g r = Fin g \/ controls_of never data g t p (l_g r).
Proof.
  intros D. assert (NI : l_g r <> Inf) by (apply PL, D). unfold keep, cell_keep.
  assert (OB : exists r', In r' data /\ l_g r' = l_g r /\ (l_t r' = t \/ l_t r' = p)) by (apply CO, D).
  split.
  - intros H. destruct (grp_eqb_spec (l_g r) (Fin g)) as [|Ng]; [auto|]. right. split; [|exact OB].
    destruct (grp_eqb_spec (l_g r) (Fin 0)); [left; assumption|]. cbn in H. apply andb_true_iff in H. destruct H as [Hn H]. right; right. destruct never; [discriminate|]. split; [reflexivity|].
    destruct (l_g r) as [z|] eqn:Eg; [|congruence]. exists z. cbn in H. apply Z.ltb_lt in H. split; [reflexivity|]. split; [lia|]. split; [lia|]. intros ->. apply Ng. reflexivity.
  - intros [E|[MC _]]; [rewrite E; destruct (grp_eqb_spec (Fin g) (Fin g)); [reflexivity|congruence]|]. apply orb_true_iff. destruct MC as [E|[E|(En & z & E & H1 & H2 & H3)]]; [left; rewrite orb_true_iff; right; rewrite E; reflexivity|congruence|].
    right. rewrite E, En. cbn. apply Z.ltb_lt. lia.
Qed.
Lemma control_keep z : controls_of never data g t p z -> keep z = true.
Proof. intros C. assert (C' := C). destruct C' as [_ (r & D & <- & _)]. apply (keep_control r D). right. exact C. Qed.
Lemma controls_list z : In z (dist_controls g t p data) <-> controls_of false data g t p z.
Proof.
  unfold dist_controls. rewrite in_map_iff. split.
  - intros (y & <- & Hy). rewrite zuniq_in, in_flat_map in Hy. destruct Hy as (c & Hc & Hy). apply in_map_iff in Hc. destruct Hc as (r & <- & D).
    destruct (l_g r) as [x|] eqn:E; [|destruct Hy]. destruct (negb (x =? g)%Z && ((x =? 0) || (Z.max t p <? x))%Z) eqn:B; [|destruct Hy]. destruct Hy as [<-|[]].
    apply andb_true_iff in B. destruct B as [B1 B2]. apply negb_true_iff, Z.eqb_neq in B1. destruct (CO r D) as (r' & D' & E' & T').
    split; [|exists r'; rewrite E', E; auto]. apply orb_true_iff in B2. destruct B2 as [B2|B2]; [apply Z.eqb_eq in B2; left; congruence|]. apply Z.ltb_lt in B2. right; right. split; [reflexivity|].
    exists x. repeat split; try lia.
  - intros [MC (r & D & <- & T)]. assert (NI : l_g r <> Inf) by (apply PL, D). destruct (l_g r) as [x|] eqn:E; [|congruence]. exists x. split; [reflexivity|].
    rewrite zuniq_in, in_flat_map. exists (Fin x). split; [rewrite <- E; apply in_map, D|].
    assert (B : negb (x =? g)%Z && ((x =? 0) || (Z.max t p <? x))%Z = true).
    { apply andb_true_iff. destruct MC as [X|[X|(_ & y & X & H1 & H2 & H3)]]; [|discriminate|]; injection X as ->.
      - split; [apply negb_true_iff, Z.eqb_neq; lia|reflexivity].
      - split; [apply negb_true_iff, Z.eqb_neq; exact H3|]. apply orb_true_iff. right. apply Z.ltb_lt. lia. }
    rewrite B. left. reflexivity.
Qed.
Lemma controls_nodup : NoDup (dist_controls g t p data).
Proof. unfold dist_controls. apply FinFun.Injective_map_NoDup; [intros x y E; congruence|apply zuniq_nodup]. Qed.

Lemma PM : Permutation (merge_rows keep t p data) M. Proof. apply HL. Qed.
Lemma results cs : (forall z, In z cs -> controls_of never data g t p z) -> exists rs rs',
  Forall2 (fun c r => single_ddd o k m g t p (control_rows g c (cell_rows never g t p data)) = Some r) cs rs /\
  Forall2 (local_control o k m g M) cs rs' /\ Forall2 same_result rs' rs.
Proof.
  induction cs as [|z cs IH]; intros H; [exists [], []; repeat constructor|].
  destruct IH as (rs & rs' & A & B & C); [intros y Hy; apply H; right; exact Hy|]. assert (Cz := H z (or_introl eq_refl)). destruct (AG z Cz) as (att & inf & Ag).
  destruct (against_local data g t p keep M PL keep_g PM o k m z att inf FS (control_keep z Cz) Ag) as (inf' & L1 & L2 & L3).
  exists ((att, inf) :: rs), ((att, inf') :: rs'). split; [|split]; constructor; auto.
  - apply (single_ddd_iff o k m never data g z t p att inf); [apply PL|exact G|apply Cz|exact Ag].
  - split; [reflexivity|]. split; [exact L2|exact L3].
Qed.
Lemma row_control x : In x M -> m_g x = Fin g \/ controls_of never data g t p (m_g x).
Proof.
  intros H. apply (m_in data t p keep M PM) in H. destruct H as (r1 & r0 & D1 & D0 & K1 & _ & _ & _ & _ & ->). cbn. apply (keep_control r1 D1), K1.
Qed.

Lemma single_path c att inf : (forall z, controls_of never data g t p z <-> z = c) -> against o k m data g c t p att inf ->
  multi_cell od q m k fan trim995 ids g [c] parts (order parts) = ZDone att (place ids inf) None.
Proof.
  intros UC Ag. assert (Cc : controls_of never data g t p c) by (apply UC; reflexivity).
  destruct (against_local data g t p keep M PL keep_g PM o k m c att inf FS (control_keep c Cc) Ag) as (inf' & L1 & L2 & L3).
  destruct (CR c Cc) as [CF CS].
  assert (AL : forall x, In x M -> grp_eqb (m_g x) (Fin g) || grp_eqb (m_g x) c = true).
  { intros x Hx. apply orb_true_iff. destruct (row_control x Hx) as [E|E]; [left|right; apply UC in E]; rewrite E; [destruct (grp_eqb_spec (Fin g) (Fin g))|destruct (grp_eqb_spec c c)]; congruence. }
  assert (PE : map (control_sample g c) parts = map (map (dist_unit g)) parts).
  { apply map_ext_in. intros l Hl. unfold control_sample. f_equal. apply filter_all. intros x Hx. apply AL. unfold M. apply in_concat. exists l. auto. }
  assert (ME : concat (map (map (dist_unit g)) parts) = control_sample g c M) by (rewrite <- PE; apply sample_concat).
  unfold multi_cell. destruct L1 as (a3 & a2 & a1 & v & E & Es). cbn [fst snd] in E, Es.
  rewrite (cell_equal o od k fan m ids (map (map (dist_unit g)) parts) (map (map (dist_unit g)) (order parts)) att a3 a2 a1 v); auto.
  - f_equal. rewrite <- (place_perm ids inf' inf (Permutation_NoDup (Permutation_map fst (Permutation_sym L2)) L3) L2). rewrite ME, Es. unfold ddd_column, place.
    assert (Lv := ddd_inf_len _ _ _ _ _ _ _ _ _ E). apply map_ext. intros i. rewrite lookup_find by exact Lv. rewrite combine_length, map_length, Lv, Nat.min_id. reflexivity.
  - unfold in_first in CF. apply existsb_exists in CF. destruct CF as (x & Hx & _). destruct parts as [|[|y l] w]; cbn in *; try contradiction. discriminate.
  - apply Permutation_map, HO.
  - rewrite ME. apply sample_ids. exact (m_nodup data t p keep M PL PM).
  - rewrite <- PE, sample_concat. fold M. exact CS.
  - rewrite ME. exact E.
Qed.
Lemma multi_path cs att inf se : (2 <= length cs)%nat -> (forall z, In z cs <-> controls_of never data g t p z) ->
  multi_ddd o q k m (length ids) g t p cs (cell_rows never g t p data) = Some (att, inf, se) ->
  multi_cell od q m k fan trim995 ids g cs parts (order parts) = ZDone att (map (fun i => DddMpModel.lookup inf i) ids) (Some se).
Proof.
  intros Hc UC E. destruct (results cs) as (rs & rs' & A & B & C); [intros z; apply UC|].
  assert (F1 : filter (in_first g parts) cs = cs).
  { apply filter_all. intros z Hz. apply CR, UC, Hz. }
  assert (ND := m_nodup data t p keep M PL PM).
  rewrite (multi_equal o od q k fan m ids g cs parts (order parts) rs' Hf Hc (HO parts) ND HLA HW HI Hmu); [|intros z Hz _; apply CR, UC, Hz|rewrite F1; exact B].
  assert (Nr : rs' <> []) by (inversion B; subst; cbn in Hc; [lia|discriminate]).
  assert (Ea : map fst rs' = map fst rs) by (clear - C; induction C as [|x y l l' H _ IH]; cbn; [reflexivity|]; destruct H as [-> _]; rewrite IH; reflexivity).
  assert (Ep : forall u, map (fun r => place u (snd r)) rs' = map (fun r => place u (snd r)) rs).
  { intros u. clear - C. induction C as [|x y l l' H _ IH]; cbn; [reflexivity|]. destruct H as (_ & P & N). rewrite IH. f_equal. symmetry. apply place_perm; [exact N|apply Permutation_sym, P]. }
  assert (Es : somes (map (fun c => single_ddd o k m g t p (control_rows g c (cell_rows never g t p data))) cs) = rs).
  { clear - A. induction A as [|c r cs rs H _ IH]; cbn; [reflexivity|]. rewrite H. cbn. f_equal. exact IH. }
  assert (Ei : zuniq (map m_id (concat parts)) = zuniq (flat_map (fun r => map fst (snd r)) rs)).
  { apply zuniq_ext. intros i. fold M. rewrite in_flat_map.
    assert (X : forall r, In r rs -> exists c, In c cs /\ forall j, In j (map fst (snd r)) <-> In j (map t_id (control_sample g c M))).
    { intros r Hr. clear - B C Hr. revert rs rs' B C r Hr. induction cs as [|c cs IH]; intros rs rs' B C r Hr; inversion B; subst; inversion C; subst; [destruct Hr|].
      destruct Hr as [<-|Hr].
      - exists c. split; [left; reflexivity|]. intros j. rewrite <- (local_fst _ _ _ _ _ _ _ H1). match goal with K : same_result _ _ |- _ => destruct K as (_ & P & _) end.
        split; apply Permutation_in; [apply Permutation_sym|]; apply Permutation_map, P.
      - match goal with K1 : Forall2 (local_control _ _ _ _ _) cs ?a, K2 : Forall2 same_result ?a ?d |- _ => destruct (IH d a K1 K2 r Hr) as (c' & I & J) end. exists c'. split; [right; exact I|exact J]. }
    assert (Y : forall c, In c cs -> exists r, In r rs /\ forall j, In j (map fst (snd r)) <-> In j (map t_id (control_sample g c M))).
    { intros c Hr. clear - B C Hr. revert rs rs' B C c Hr. induction cs as [|c0 cs IH]; intros rs rs' B C c Hr; inversion B; subst; inversion C; subst; [destruct Hr|].
      destruct Hr as [<-|Hr].
      - eexists. split; [left; reflexivity|]. intros j. rewrite <- (local_fst _ _ _ _ _ _ _ H1). match goal with K : same_result _ _ |- _ => destruct K as (_ & P & _) end.
        split; apply Permutation_in; [apply Permutation_sym|]; apply Permutation_map, P.
      - match goal with K1 : Forall2 (local_control _ _ _ _ _) cs ?a, K2 : Forall2 same_result ?a ?d |- _ => destruct (IH d a K1 K2 c Hr) as (r' & I & J) end. exists r'. split; [right; exact I|exact J]. }
    split.
    - intros H. apply in_map_iff in H. destruct H as (x & <- & Hx).
      assert (Q : exists c, In c cs /\ (m_g x = Fin g \/ m_g x = c)).
      { destruct (row_control x Hx) as [E'|E']; [destruct cs as [|c cs']; [cbn in Hc; lia|]; exists c; split; [left; reflexivity|auto]|]. exists (m_g x). split; [apply UC, E'|auto]. }
      destruct Q as (c & Ic & Gc). destruct (Y c Ic) as (r & Ir & J). exists r. split; [exact Ir|]. apply J. unfold control_sample. rewrite map_map. cbn [dist_unit t_id]. apply in_map.
      apply filter_In. split; [exact Hx|]. apply orb_true_iff. destruct Gc as [->| ->]; [left; destruct (grp_eqb_spec (Fin g) (Fin g))|right; destruct (grp_eqb_spec c c)]; congruence.
    - intros (r & Ir & Hi). destruct (X r Ir) as (c & _ & J). apply J in Hi. unfold control_sample in Hi. rewrite map_map in Hi. cbn [dist_unit t_id] in Hi.
      apply in_map_iff in Hi. destruct Hi as (x & <- & Hx). apply filter_In in Hx. apply in_map, Hx. }
  unfold multi_ddd in E. rewrite Es in E. destruct rs' as [|r0 rs0]; [congruence|]. unfold gmm_report. rewrite Ei, Ea, Ep.
  destruct rs as [|r1 rs1]; [inversion C|]. cbn zeta in E.
  assert (GL := gmm_inf_length q (length ids) (r1 :: rs1) (zuniq (flat_map (fun r => map fst (snd r)) (r1 :: rs1))) ltac:(discriminate)).
  destruct (gmm_aggregate q (length ids) (map fst (r1 :: rs1)) (map (fun r => place (zuniq (flat_map (fun r => map fst (snd r)) (r1 :: rs1))) (snd r)) (r1 :: rs1))) as [[a v] s]. cbn [fst snd] in GL.
  injection E as <- <- <-. f_equal. symmetry. apply scaled_column.
  assert (Gn : forall A B (a : list A) (b : list B), length a = length b -> map fst (combine a b) = a) by (intros A' B' a'; induction a'; intros [|]; cbn; intros; try discriminate; f_equal; auto).
  rewrite Gn by (symmetry; exact GL). apply zuniq_nodup.
Qed.
End E2E.

Lemma end_to_end o od q k fan m b never data g i p layout order c :
  (2 <= fan)%nat -> plain_panel data -> is_layout layout -> is_order order ->
  linear_algebra_ok od k -> wls_ok o k -> inv_ok o k -> d_mu od = o_mu o -> fits_symmetric o -> gmm_equivariant q ->
  is_cohort data g -> (i < length (mp_tlist data) - tfac b)%nat -> let t := nth (i + tfac b) (mp_tlist data) 0%Z in
  base_for b data g t p -> p <> t -> cohorts_observed data t p ->
  cell_ready o od k m never data g t p (layout (merge_rows (cell_keep never g t p) t p data)) ->
  (forall z, controls_of never data g t p z -> exists att inf, against o k m data g z t p att inf) ->
  DddMpModel.process_cell o q k m b never data g i = Some c ->
  dist_gt od q m k fan trim995 never data g t p layout order = ZDone (mc_att c) (mp_column (mp_ids data) (Some c)) (mc_se2 c).
Proof.
  intros Hf PL HL HO HLA HW HI Hmu FS EQ [G _] Hi t BF PT CO CR AG E. unfold DddMpModel.process_cell in E. cbn zeta in E. fold t in E.
  pose proof (proj2 (mp_pret_iff b data g i p Hi) BF) as PR. cbn zeta in PR. fold t in PR. rewrite PR in E.
  assert (EU : match b with Universal => (p =? t)%Z | Varying => false end = false) by (destruct b; [apply Z.eqb_neq, PT|reflexivity]). rewrite EU in E.
  pose proof (fun z => cell_controls_in never g t p data z G) as CI. pose proof (cell_controls_nodup g (cell_rows never g t p data)) as CN.
  pose proof (one_control_rows never data g) as OC.
  assert (KC := keep_control o od k fan m never data g t p layout Hf PL CO CR AG).
  set (parts := layout (merge_rows (cell_keep never g t p) t p data)) in *.
  assert (ONE : forall z att inf, cell_controls g (cell_rows never g t p data) = [z] -> single_ddd o k m g t p (cell_rows never g t p data) = Some (att, inf) ->
     multi_cell od q m k fan trim995 (mp_ids data) g [z] parts (order parts) = ZDone att (place (mp_ids data) inf) None /\ NoDup (map fst inf)).
  { intros z att inf EC ES. rewrite EC in CI. assert (UC : forall y, controls_of never data g t p y <-> y = z) by (intros y; rewrite <- CI; cbn; intuition congruence).
    rewrite <- (OC z t p G EC) in ES. apply (single_ddd_iff o k m never data g z t p att inf) in ES; [|apply PL|exact G|apply UC; reflexivity].
    split; [|exact (proj1 (against_ids o k m data g z t p att inf ES))].
    apply (single_path o od q k fan m never data g t p layout order) with (c := z) (att := att) (inf := inf); assumption. }
  destruct (cell_controls g (cell_rows never g t p data)) as [|z [|z' cs]] eqn:EC; [discriminate| |].
  - destruct (single_ddd o k m g t p (cell_rows never g t p data)) as [[att inf]|] eqn:ES; [|discriminate]. injection E as <-. cbn [mc_att mc_se2].
    destruct (ONE z att inf eq_refl eq_refl) as [R N]. unfold mp_column. cbn [mc_inf]. rewrite scaled_column by exact N.
    unfold dist_gt. cbn zeta. destruct never.
    + assert (Ez : z = Fin 0). { assert (Cz : controls_of true data g t p z) by (apply CI; left; reflexivity). destruct Cz as [[->|[->|[F _]]] (r & D & Eg & _)]; [reflexivity|exfalso; apply (proj1 (proj2 PL) r D), Eg|discriminate]. } subst z.
      rewrite (merge_ext (keep_never g) (cell_keep true g t p)); [exact R|]. intros r _. unfold keep_never, cell_keep. cbn. rewrite orb_false_r. apply orb_comm.
    + assert (DC : dist_controls g t p data = [z]).
      { assert (P : Permutation [z] (dist_controls g t p data)).
        { apply NoDup_Permutation; [exact CN|apply controls_nodup|]. intros y. rewrite CI. symmetry. apply (controls_list fan data g t p Hf PL G CO). }
        apply Permutation_length_1_inv in P. exact P. }
      rewrite DC. rewrite (merge_ext (keep_one g z) (cell_keep false g t p)); [exact R|]. intros r D. unfold keep_one.
      destruct (cell_keep false g t p (l_g r)) eqn:CK.
      * apply (KC r D) in CK. apply orb_true_iff. destruct CK as [CK|CK]; [right; rewrite CK; destruct (grp_eqb_spec (Fin g) (Fin g)); congruence|].
        apply CI in CK. destruct CK as [<-|[]]. left. destruct (grp_eqb_spec (l_g r) (l_g r)) ; [destruct (grp_eqb_spec z z)|]; congruence.
      * apply orb_false_iff. assert (NK : ~ (l_g r = Fin g \/ controls_of false data g t p (l_g r))) by (intros X; apply (KC r D) in X; congruence).
        split; [destruct (grp_eqb_spec (l_g r) z) as [X|]; [exfalso; apply NK; right; apply CI; left; congruence|reflexivity]|].
        destruct (grp_eqb_spec (l_g r) (Fin g)); [exfalso; apply NK; auto|reflexivity].
  - set (cs0 := z :: z' :: cs) in *. destruct (multi_ddd o q k m (length (mp_ids data)) g t p cs0 (cell_rows never g t p data)) as [[[att inf] se]|] eqn:EM; [|discriminate].
    injection E as <-. cbn [mc_att mc_se2]. unfold mp_column. cbn [mc_inf].
    assert (Hn : never = false).
    { destruct never; [|reflexivity]. exfalso. assert (Q : forall y, In y cs0 -> y = Fin 0).
      { intros y Hy. apply CI in Hy. destruct Hy as [[->|[->|[F _]]] (r & D & Eg & _)]; [reflexivity|exfalso; apply (proj1 (proj2 PL) r D), Eg|discriminate]. }
      unfold cs0 in CN. inversion CN as [|? ? N1 _]; subst. apply N1. rewrite (Q z), (Q z'); cbn; auto. }
    subst never.
    assert (P : Permutation cs0 (dist_controls g t p data)).
    { apply NoDup_Permutation; [exact CN|apply controls_nodup|]. intros y. rewrite CI. symmetry. apply (controls_list fan data g t p Hf PL G CO). }
    unfold dist_gt. cbn zeta. assert (LD : length (dist_controls g t p data) = length cs0) by (symmetry; apply Permutation_length, P).
    assert (RM : multi_cell od q m k fan trim995 (mp_ids data) g (dist_controls g t p data) parts (order parts) = ZDone att (map (fun i => DddMpModel.lookup inf i) (mp_ids data)) (Some se)).
    { apply (multi_path o od q k fan m false data g t p layout order); try assumption.
      - rewrite LD. cbn. lia.
      - apply (controls_list fan data g t p Hf PL G CO).
      - rewrite <- EM. apply multi_perm; [exact EQ|apply keyed_cell, PL|apply Permutation_refl|apply Permutation_sym, P]. }
    destruct (dist_controls g t p data) as [|y [|y' ys]]; [cbn in LD; lia|cbn in LD; lia|].
    rewrite (merge_ext (keep_later g t p) (cell_keep false g t p)); [exact RM|]. intros r _. unfold keep_later, cell_keep. cbn.
    destruct (grp_eqb (l_g r) (Fin g)), (grp_eqb (l_g r) (Fin 0)), (grp_gtz (l_g r) (Z.max t p)); reflexivity.
Qed.
