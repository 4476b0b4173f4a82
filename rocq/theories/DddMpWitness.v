(** Concrete cases meeting the hypotheses of C57-C63. No property content. *)
From Verif Require Import Base ListLib PreprocessModel PreprocessProofs AttGtModel SeModel ReduceModel Calc DrdidModel DrdidSpec DrdidProofs DrdidWitness DrdidWitness2 Witness DddModel DddSpec DddProofs DddWitness DddMpModel DddMpSpec DddMpGmm DddMpProofs1 DddMpProofs2 DddMpProofs3 DddMpProofs4 DddMpProofs5 DddMpProofs6.

(** ** inverse of matrices of size 1 and 2 *)
Definition inv12 (M : matrix) : option matrix :=
  match length M with
  | 1%nat => if Qceqb (mget M 0 0) 0 then None else Some [[/ mget M 0 0]]
  | 2%nat => let D := mget M 0 0 * mget M 1 1 - mget M 0 1 * mget M 1 0 in
             if Qceqb D 0 then None else Some [[mget M 1 1 / D; - mget M 0 1 / D]; [- mget M 1 0 / D; mget M 0 0 / D]]
  | _ => None
  end.
Definition g_oracle : gmm_oracle := {| gm_inv := inv12; gm_pinv := fun M => mat_of (length M) (fun i j => mget M i j) |}.
Lemma g_oracle_ok : gmm_inv_ok g_oracle.
Proof.
  intros c M V L E. cbn [g_oracle gm_inv] in E. unfold inv12 in E. rewrite L in E. destruct c as [|[|[|c]]]; try discriminate.
  - destruct (Qceqb_spec (mget M 0 0) 0) as [|N]; [discriminate|]. injection E as <-. split; [reflexivity|].
    intros i j Hi Hj. destruct i; [|lia]. destruct j; [|lia]. cbn [seq]. rewrite sumf_cons, sumf_nil. unfold mget at 2. cbn. field. exact N.
  - cbn zeta in E. destruct (Qceqb_spec (mget M 0 0 * mget M 1 1 - mget M 0 1 * mget M 1 0) 0) as [|N]; [discriminate|]. injection E as <-. split; [reflexivity|].
    intros i j Hi Hj. cbn [seq]. rewrite !sumf_cons, sumf_nil.
    destruct i as [|[|i]]; [| |lia]; (destruct j as [|[|j]]; [| |lia]); unfold mget; cbn [nth Nat.eqb ind]; fold (mget M 0 0) (mget M 0 1) (mget M 1 0) (mget M 1 1); field; exact N.
Qed.
(** ** a panel: periods 1, 2, 3; cohorts 2, 3 and never treated; two eligible and two ineligible units in each *)
Definition unit_rows (i : Z) (g : grp) (p y1 y2 y3 : Z) : list lrow :=
  map (fun s => {| l_id := i; l_t := fst s; l_g := g; l_p := p; l_y := qz (snd s); l_w := 1; l_x := [] |}) [(1, y1); (2, y2); (3, y3)]%Z.
Definition mp_data : list lrow :=
  unit_rows 1 (Fin 2) 1 1 8 9 ++ unit_rows 2 (Fin 2) 1 2 6 9 ++ unit_rows 3 (Fin 2) 0 1 3 4 ++ unit_rows 4 (Fin 2) 0 0 1 5 ++
  unit_rows 5 (Fin 3) 1 2 5 9 ++ unit_rows 6 (Fin 3) 1 1 4 8 ++ unit_rows 7 (Fin 3) 0 3 3 6 ++ unit_rows 8 (Fin 3) 0 1 3 3 ++
  unit_rows 9 Inf 1 2 4 4 ++ unit_rows 10 Inf 1 1 2 6 ++ unit_rows 11 Inf 0 0 1 2 ++ unit_rows 12 Inf 0 2 2 5.
Definition mp_always : list lrow := mp_data ++ unit_rows 13 (Fin 1) 1 2 4 5 ++ unit_rows 14 (Fin 1) 0 2 4 6.

(** ** decidable hypotheses *)
Definition pair_eqb (a b : Z * Z) : bool := ((fst a =? fst b) && (snd a =? snd b))%Z.
Lemma pair_eqb_spec a b : reflect (a = b) (pair_eqb a b).
Proof. destruct a as [a1 a2], b as [b1 b2]. unfold pair_eqb. cbn. destruct (Z.eqb_spec a1 b1); [|constructor; congruence]. destruct (Z.eqb_spec a2 b2); cbn; constructor; congruence. Qed.
Fixpoint nodup_b (l : list (Z * Z)) : bool := match l with [] => true | a :: l' => negb (existsb (pair_eqb a) l') && nodup_b l' end.
Lemma nodup_b_ok l : nodup_b l = true -> NoDup l.
Proof.
  induction l as [|a l IH]; intros H; [constructor|]. cbn in H. apply andb_true_iff in H. destruct H as [H1 H2]. constructor; [|apply IH, H2]. intros I.
  rewrite (proj2 (existsb_exists (pair_eqb a) l)) in H1; [discriminate|]. exists a. split; [exact I|]. destruct (pair_eqb_spec a a); congruence.
Qed.
Definition tc_b (data : list lrow) : bool := forallb (fun r => forallb (fun r' => negb (l_id r =? l_id r')%Z || (grp_eqb (l_g r) (l_g r') && (l_p r =? l_p r')%Z)) data) data.
Lemma tc_b_ok data : tc_b data = true -> time_constant data.
Proof.
  intros H r r' Hr Hr' E. unfold tc_b in H. rewrite forallb_forall in H. specialize (H r Hr). rewrite forallb_forall in H. specialize (H r' Hr'). rewrite E, Z.eqb_refl in H. cbn in H.
  apply andb_true_iff in H. destruct H as [H1 H2]. destruct (grp_eqb_spec (l_g r) (l_g r')); [|discriminate]. apply Z.eqb_eq in H2. auto.
Qed.
Lemma mp_keyed : keyed mp_data. Proof. apply nodup_b_ok. vm_compute. reflexivity. Qed.
Lemma mp_always_keyed : keyed mp_always. Proof. apply nodup_b_ok. vm_compute. reflexivity. Qed.
Lemma mp_tc : time_constant mp_data. Proof. apply tc_b_ok. vm_compute. reflexivity. Qed.

(** oracle facts *)
Lemma wit3_blind : logit_blind wit_oracle3.
Proof.
  intros l l' H. cbn [wit_oracle3 o_logit].
  assert (F : Forall2 same_view l l').
  { revert l' H. induction l as [|u l IH]; intros [|v l'] H; try discriminate; constructor; cbn in H; injection H; intros; [unfold same_view, logit_view; congruence|apply IH; assumption]. }
  assert (G : g2 p_w l 0 0 = g2 p_w l' 0 0). { unfold g2. apply (sumf_forall2 same_view); [exact F|]. intros u v Huv. destruct (same_view_inv _ _ Huv) as [D [W X]]. unfold x_at. rewrite W, X. reflexivity. }
  assert (V : v2 (fun u => p_w u * (p_D u - half)) l 0 = v2 (fun u => p_w u * (p_D u - half)) l' 0). { unfold v2. apply (sumf_forall2 same_view); [exact F|]. intros u v Huv. destruct (same_view_inv _ _ Huv) as [D [W X]]. unfold x_at, p_D. rewrite D, W, X. reflexivity. }
  rewrite G, V. reflexivity.
Qed.
Lemma wit3_wls_blind : wls_existence_blind wit_oracle3.
Proof.
  intros l l' H. cbn [wit_oracle3 wit_oracle1 o_wls]. cbn zeta.
  assert (F : Forall2 same_view l l').
  { revert l' H. induction l as [|u l IH]; intros [|v l'] H; try discriminate; constructor; cbn in H; injection H; intros; [unfold same_view, logit_view; congruence|apply IH; assumption]. }
  assert (G : g2 (fun u => p_w u * (1 - p_D u)) l 0 0 = g2 (fun u => p_w u * (1 - p_D u)) l' 0 0). { unfold g2. apply (sumf_forall2 same_view); [exact F|]. intros u v Huv. destruct (same_view_inv _ _ Huv) as [D [W X]]. unfold x_at, p_D. rewrite D, W, X. reflexivity. }
  rewrite G. destruct (Qceqb _ 0); split; congruence.
Qed.
Lemma map_seq_nth {B} (F : nat -> B) s : map (fun i => F (nth i s 0%nat)) (seq 0 (length s)) = map F s.
Proof. rewrite <- (map_map (fun i => nth i s 0%nat) F). f_equal. apply (nth_ext _ _ 0%nat 0%nat); [rewrite map_length, seq_length; reflexivity|]. intros i Hi. rewrite map_length, seq_length in Hi. exact (nth_map_seq (fun i => nth i s 0%nat) 0%nat (length s) i Hi). Qed.
Lemma perm2 s : Permutation [0; 1]%nat s -> s = [0; 1]%nat \/ s = [1; 0]%nat. Proof. apply Permutation_length_2_inv. Qed.
Lemma g_oracle_equiv : gmm_equivariant g_oracle.
Proof.
  intros c s M L P. split.
  - cbn [g_oracle gm_inv]. destruct c as [|[|[|c]]].
    + cbn in P. apply Permutation_nil in P. subst s. unfold inv12. rewrite L. reflexivity.
    + cbn in P. apply Permutation_length_1_inv in P. subst s. unfold inv12. rewrite L. change (length (mperm [0%nat] M)) with 1%nat. cbv iota.
      change (mget (mperm [0%nat] M) 0 0) with (mget M 0 0). destruct (Qceqb (mget M 0 0) 0); reflexivity.
    + cbn in P. destruct (perm2 s P) as [->| ->]; unfold inv12; rewrite L.
      * change (length (mperm [0; 1]%nat M)) with 2%nat. cbv iota zeta.
        change (mget (mperm [0; 1]%nat M) 0 0) with (mget M 0 0). change (mget (mperm [0; 1]%nat M) 0 1) with (mget M 0 1). change (mget (mperm [0; 1]%nat M) 1 0) with (mget M 1 0). change (mget (mperm [0; 1]%nat M) 1 1) with (mget M 1 1).
        destruct (Qceqb _ 0); reflexivity.
      * change (length (mperm [1; 0]%nat M)) with 2%nat. cbv iota zeta.
        change (mget (mperm [1; 0]%nat M) 0 0) with (mget M 1 1). change (mget (mperm [1; 0]%nat M) 0 1) with (mget M 1 0). change (mget (mperm [1; 0]%nat M) 1 0) with (mget M 0 1). change (mget (mperm [1; 0]%nat M) 1 1) with (mget M 0 0).
        replace (mget M 1 1 * mget M 0 0 - mget M 1 0 * mget M 0 1) with (mget M 0 0 * mget M 1 1 - mget M 0 1 * mget M 1 0) by ring.
        destruct (Qceqb _ 0); reflexivity.
    + unfold inv12. rewrite L. assert (LS : length (mperm s M) = S (S (S c))) by (unfold mperm; rewrite map_length; rewrite <- (Permutation_length P), seq_length; reflexivity). rewrite LS. reflexivity.
  - cbn [g_oracle gm_pinv]. destruct (perm_seq_bound c s P) as [LS BS]. assert (LM : length (mperm s M) = c) by (unfold mperm; rewrite map_length; exact LS). rewrite LM, L. clear LM P.
    subst c. rewrite <- LS in *. unfold mat_of at 1.
    rewrite (map_ext_in _ (fun i => map (fun j => mget M (nth i s 0%nat) (nth j s 0%nat)) (seq 0 (length s)))).
    + rewrite (map_seq_nth (fun a => map (fun j => mget M a (nth j s 0%nat)) (seq 0 (length s))) s). unfold mperm. apply map_ext_in. intros a Ha.
      rewrite (map_seq_nth (fun j => mget M a j) s). apply map_ext_in. intros d Hd. rewrite mget_mat_of by (apply BS; assumption). reflexivity.
    + intros i Hi. apply in_seq in Hi. apply map_ext_in. intros j Hj. apply in_seq in Hj. apply mget_mperm; lia.
Qed.

(** ** no collinearity with an intercept only *)
Definition full_b (data : list lrow) : bool :=
  forallb (fun g => forallb (fun e => forallb (fun t => forallb (fun p =>
    existsb (fun r1 => existsb (fun r0 => grp_eqb (l_g r1) g && grp_eqb (l_g r0) g && (l_p r1 =? e)%Z && (l_t r1 =? t)%Z && (l_t r0 =? p)%Z && (l_id r0 =? l_id r1)%Z) data) data)
    (mp_tlist data)) (mp_tlist data)) [0; 1]%Z) (uniq grp_eqb (map l_g data)).
Lemma full_b_ok data : full_b data = true -> forall g e t p, In g (map l_g data) -> (e = 0 \/ e = 1)%Z -> is_period data t -> is_period data p ->
  exists r1 r0, In r1 data /\ In r0 data /\ l_g r1 = g /\ l_g r0 = g /\ l_p r1 = e /\ l_t r1 = t /\ l_t r0 = p /\ l_id r0 = l_id r1.
Proof.
  intros H g e t p Hg He Ht Hp. unfold full_b in H. rewrite forallb_forall in H. specialize (H g). rewrite uniq_in in H. specialize (H Hg).
  rewrite forallb_forall in H. specialize (H e ltac:(destruct He as [->| ->]; cbn; auto)). rewrite forallb_forall in H. specialize (H t (proj2 (tlist_in data t) Ht)). rewrite forallb_forall in H. specialize (H p (proj2 (tlist_in data p) Hp)).
  apply existsb_exists in H. destruct H as [r1 [H1 H]]. apply existsb_exists in H. destruct H as [r0 [H0 H]]. rewrite !andb_true_iff in H. destruct H as [[[[[A B] C] D] E] F].
  exists r1, r0. destruct (grp_eqb_spec (l_g r1) g); [|discriminate]. destruct (grp_eqb_spec (l_g r0) g); [|discriminate]. apply Z.eqb_eq in C, D, E, F. auto 10.
Qed.
Lemma full_nc data g z t p u : full_b data = true -> In (Fin g) (map l_g data) -> In z (map l_g data) -> z <> Fin g -> is_period data t -> is_period data p ->
  is_sample data g z t p u -> ddd_no_collinearity 1 u.
Proof.
  intros FB Hg Hz NZ Ht Hp [_ IS] c Hc v H j Hj. assert (j = 0)%nat by lia. subst j.
  assert (X : exists gg e, (gg = Fin g \/ gg = z) /\ In gg (map l_g data) /\ (e = 0 \/ e = 1)%Z /\ forall r, l_g r = gg -> l_p r = e -> subgroup_is g r c).
  { destruct Hc as [<-|[<-|[<-|[]]]].
    - exists (Fin g), 0%Z. repeat (split; [auto|]). intros r A B. unfold subgroup_is. tauto.
    - exists z, 1%Z. repeat (split; [auto|]). intros r A B. unfold subgroup_is. right. right. left. rewrite A. auto.
    - exists z, 0%Z. repeat (split; [auto|]). intros r A B. unfold subgroup_is. right. right. right. left. rewrite A. auto. }
  destruct X as [gg [e [G1 [G2 [G3 G4]]]]]. destruct (full_b_ok data FB gg e t p G2 G3 Ht Hp) as [r1 [r0 [R1 [R0 [E1 [E0 [EP [T1 [T0 EI]]]]]]]]].
  set (x := {| t_id := l_id r1; t_sg := c; t_y1 := l_y r1; t_y0 := l_y r0; t_w := 1; t_x := 1 :: l_x r1 |}).
  assert (IX : In x u). { apply IS. exists r1, r0. rewrite E1, E0. repeat (split; [first [assumption|reflexivity]|]). split; [apply G4; assumption|]. auto. }
  specialize (H (as_pair x)). assert (C4 : (c =? 4)%Z = false) by (destruct Hc as [<-|[<-|[<-|[]]]]; reflexivity).
  assert (D0 : dotk 1 (p_x (as_pair x)) v = 0).
  { apply H; [|unfold as_pair; cbn; exact C4|reflexivity]. apply in_pair_units. exists x. split; [exact IX|]. split; [|reflexivity]. unfold in_pair. cbn. rewrite Z.eqb_refl. apply orb_true_r. }
  unfold dotk in D0. cbn [seq as_pair p_x x t_x] in D0. rewrite sumf_cons, sumf_nil in D0. change (1 * nth 0 v 0 + 0 = 0) in D0. transitivity (1 * nth 0 v 0 + 0); [ring|exact D0].
Qed.

(** ** regular covariance matrices *)
Definition pool_regular_b (o : oracle) (q : gmm_oracle) (k : nat) (m : emethod) (b : base_mode) (never : bool) (data : list lrow) : bool :=
  forallb (fun j => let t := nth (snd j + tfac b) (mp_tlist data) 0%Z in
    match mp_pret b (fst j) t (snd j) (mp_tlist data) with
    | None => true
    | Some p =>
        let rows := cell_rows never (fst j) t p data in let cs := cell_controls (fst j) rows in
        match cs with
        | _ :: _ :: _ =>
            let rs := somes (map (fun c => single_ddd o k m (fst j) t p (control_rows (fst j) c rows)) cs) in
            let u := zuniq (flat_map (fun r => map fst (snd r)) rs) in
            match gm_inv q (gmm_omega (map (fun r => place u (snd r)) rs)) with Some _ => true | None => false end
        | _ => true
        end
    end) (mp_jobs b data).
Lemma pool_regular_ok o q k m b never data : keyed data -> gmm_equivariant q -> pool_regular_b o q k m b never data = true ->
  forall g t p cols, in_grid b data g t -> base_for b data g t p -> pool_columns o k m never data g t p cols -> gm_inv q (gmm_omega cols) <> None.
Proof.
  intros K EQ PB g t p cols [GC GT] BF [[z [z' [ZN [Cz Cz']]]] [rs [ids [RNE [RN [RI [IS [II FC]]]]]]]].
  destruct (proj1 (period_index b data t) GT) as [i [Hi ET]]. assert (JI : In (g, i) (mp_jobs b data)) by (apply jobs_in; auto).
  unfold pool_regular_b in PB. rewrite forallb_forall in PB. specialize (PB (g, i) JI). cbn [fst snd] in PB. cbn zeta in PB. rewrite <- ET in PB.
  assert (EP : mp_pret b g t i (mp_tlist data) = Some p). { rewrite ET. apply (mp_pret_iff b data g i p Hi). rewrite <- ET. exact BF. }
  rewrite EP in PB. assert (G : (0 < g)%Z) by apply GC.
  pose proof (fun c => cell_controls_in never g t p data c G) as CI. pose proof (cell_controls_nodup g (cell_rows never g t p data)) as CN.
  destruct (cell_controls g (cell_rows never g t p data)) as [|c1 [|c2 cs]] eqn:EC.
  - exfalso. apply (proj2 (CI z) Cz).
  - exfalso. apply CI in Cz, Cz'. destruct Cz as [<-|[]]. destruct Cz' as [<-|[]]. apply ZN. reflexivity.
  - set (CS := c1 :: c2 :: cs) in *. set (F := fun c => single_ddd o k m g t p (control_rows g c (cell_rows never g t p data))) in *.
    set (rs0 := estimable F CS). assert (ES : somes (map F CS) = map snd rs0) by (unfold rs0; rewrite estimable_snd; reflexivity). rewrite ES in PB.
    assert (RI0 : forall z a i, In (z, (a, i)) rs0 <-> controls_of never data g t p z /\ against o k m data g z t p a i).
    { intros y a j. unfold rs0. rewrite estimable_in, CI. unfold F. split; intros [H1 H2]; (split; [exact H1|]).
      - apply (single_ddd_iff o k m never) in H2; [exact H2|exact K|exact G|apply H1].
      - apply (single_ddd_iff o k m never); [exact K|exact G|apply H1|exact H2]. }
    assert (PR : Permutation rs0 rs).
    { apply NoDup_Permutation; [apply (NoDup_map_inv fst), estimable_nodup, CN|apply (NoDup_map_inv fst), RN|]. intros [y [a j]]. rewrite RI, RI0. reflexivity. }
    set (u := zuniq (flat_map (fun r => map fst (snd r)) (map snd rs0))) in *.
    assert (EU : u = ids).
    { apply (ssorted_ext Z.lt); [intros; lia|apply zuniq_sorted|exact IS|apply ssorted_lt_nodup, zuniq_sorted|apply ssorted_lt_nodup, IS|]. intros x. unfold u. rewrite zuniq_in, in_flat_map, II. split.
      - intros [r [Hr Hx]]. apply in_map_iff in Hr. destruct Hr as [r1 [<- Hr]]. apply in_map_iff in Hx. destruct Hx as [[x' v] [E Hx]]. cbn in E. subst x'. exists r1, v. split; [apply (Permutation_in _ PR), Hr|exact Hx].
      - intros [r [v [Hr Hx]]]. exists (snd r). split; [apply in_map, (Permutation_in _ (Permutation_sym PR)), Hr|]. change x with (fst (x, v)). apply in_map, Hx. }
    assert (ECol : cols = map (fun r => place ids (snd (snd r))) rs).
    { assert (RA : forall r, In r rs -> NoDup (map fst (snd (snd r)))). { intros [y [a j]] H. apply RI in H. apply (against_ids o k m data g y t p a j). apply H. }
      clear - FC RA. induction FC as [|r cl l l' H FC IH]; [reflexivity|]. cbn [map]. f_equal; [apply is_column_place; [apply RA; left; reflexivity|exact H]|apply IH; intros; apply RA; right; assumption]. }
    rewrite EU in PB. rewrite map_map in PB. set (cols0 := map (fun r : grp * (Qc * list (Z * Qc)) => place ids (snd (snd r))) rs0) in *.
    assert (PC : Permutation cols0 cols) by (rewrite ECol; apply Permutation_map, PR).
    destruct (perm_index [] cols0 cols PC) as [s [PS EC2]]. rewrite EC2, (omega_perm cols0 s PS).
    destruct (EQ (length cols0) s (gmm_omega cols0)) as [E1 _]; [unfold gmm_omega, mat_of; rewrite map_length, seq_length; reflexivity|exact PS|].
    rewrite E1. destruct (gm_inv q (gmm_omega cols0)); [discriminate|discriminate PB].
Qed.
Lemma mp_regular : forall m g t p cols, in_grid Varying mp_data g t -> base_for Varying mp_data g t p -> pool_columns wit_oracle3 1 m false mp_data g t p cols -> gm_inv g_oracle (gmm_omega cols) <> None.
Proof. intros m. apply pool_regular_ok; [exact mp_keyed|exact g_oracle_equiv|]. destruct m; vm_compute; reflexivity. Qed.
Lemma mp_full : full_b mp_data = true. Proof. vm_compute. reflexivity. Qed.
Lemma mp_nc : forall b never g t p z u, in_grid b mp_data g t -> base_for b mp_data g t p -> controls_of never mp_data g t p z -> is_sample mp_data g z t p u -> ddd_no_collinearity 1 u.
Proof.
  intros b never g t p z u [[G [r [Hr Eg]]] [PT _]] BF [CM [r' [Hr' [Ez _]]]] IS. apply (full_nc mp_data g z t p u mp_full).
  - rewrite <- Eg. apply in_map, Hr.
  - rewrite <- Ez. apply in_map, Hr'.
  - apply (may_control_not_g never g t p z G CM).
  - exact PT.
  - destruct b; apply BF.
  - exact IS.
Qed.
(** ** a panel in which the pooled cell (3, 3) leaves out cohort 2 *)
Definition mp_se : list lrow :=
  unit_rows 1 (Fin 3) 1 1 8 9 ++ unit_rows 2 (Fin 3) 1 2 6 9 ++ unit_rows 3 (Fin 3) 0 1 3 4 ++ unit_rows 4 (Fin 3) 0 0 1 5 ++
  unit_rows 5 (Fin 4) 1 2 3 9 ++ unit_rows 6 (Fin 4) 1 1 4 8 ++ unit_rows 7 (Fin 4) 0 3 3 6 ++ unit_rows 8 (Fin 4) 0 1 3 3 ++
  unit_rows 9 Inf 1 2 4 4 ++ unit_rows 10 Inf 1 1 2 6 ++ unit_rows 11 Inf 0 0 1 2 ++ unit_rows 12 Inf 0 2 2 5 ++
  unit_rows 13 (Fin 2) 1 1 4 4 ++ unit_rows 14 (Fin 2) 1 2 4 4 ++ unit_rows 15 (Fin 2) 0 3 4 4 ++ unit_rows 16 (Fin 2) 0 1 5 4.
Lemma mp_se_keyed : keyed mp_se. Proof. apply nodup_b_ok. vm_compute. reflexivity. Qed.
Lemma latest_b data s p : last_before s (mp_tlist data) = Some p -> latest_before data s p.
Proof. intros H. apply last_before_iff. exact H. Qed.
(** plain numbers out of a result *)
Definition est_row (r : mp_result) (j : nat) : option (Z * Z * Qc) := match r with MTable rows _ _ => nth_error rows j | MRaise => None end.
Definition est_col (r : mp_result) (j : nat) : option (list Qc) := match r with MTable _ cols _ => nth_error cols j | MRaise => None end.
Definition est_se (r : mp_result) (j : nat) : option (option Qc) := match r with MTable _ _ ses => nth_error ses j | MRaise => None end.
Ltac by_parts := repeat first [apply (f_equal Some) | apply (f_equal2 pair) | (apply Qc_is_canon; reflexivity) | reflexivity].
