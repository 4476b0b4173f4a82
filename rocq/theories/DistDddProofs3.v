(** Proofs for C110: the three comparisons, the influence column. *)
From Verif Require Import Base ListLib ReduceModel ReduceProofs ReduceProofs2 DrdidModel DrdidSpec DrdidProofs DrdidProofs2 DrdidProofs3 DrdidProofs4 DddModel DddSpec DddProofs DddMpModel DistDidModel DistDidSpec DistDidProofs DistDidProofs2 DistDddModel DistDddSpec DistDddProofs2.
Local Open Scope Qc_scope.

Lemma pair_concat c parts : concat (comp_parts c parts) = pair_units c (concat parts).
Proof. unfold comp_parts, pair_units. induction parts as [|p q IH]; cbn; [reflexivity|]. rewrite IH, filter_app', map_app. reflexivity. Qed.
Lemma scale_nw c (u : punit) : scale_w (/ c) u = set_w (p_w u / c) u.
Proof. unfold scale_w. f_equal. unfold Qcdiv. ring. Qed.
Lemma pair_length c l : length (pair_units c l) = length (filter (in_pair c) l).
Proof. apply map_length. Qed.
Lemma normalise_in_pair c l : map (in_pair c) (t_normalise l) = map (in_pair c) l.
Proof. unfold t_normalise. rewrite map_map. reflexivity. Qed.
Lemma normalise_share c l : share c (t_normalise l) = comp_share (length l) (length (pair_units c l)).
Proof.
  unfold share, comp_share, t_normalise. rewrite map_length. rewrite pair_length. generalize (mean t_w l) as s. intros s.
  rewrite filter_map, map_length. reflexivity.
Qed.

Section Comps.
Context (o : oracle) (od : dist_oracle) (k fan : nat) (m : emethod) (parts : list (list tunit)).
Let l := concat parts.
Context (Hfan : (2 <= fan)%nat) (Hne : parts <> []) (HLA : linear_algebra_ok od k) (HW : wls_ok o k) (HI : inv_ok o k).
Context (HS : m = Reg \/ same_ddd_scores o od parts /\ unclipped o k l) (Hmu : d_mu od = o_mu o).

Lemma one_comp c a inf : In c [3; 2; 1]%Z -> (forall u, In u l -> 0 <= t_w u) -> mean t_w l <> 0 ->
  compute_did o k m trim995 (pair_units c (t_normalise l)) = Some (a, inf) ->
  exists r, comp_fit od m k fan (comp_parts c parts) = Some (c_fit r) /\
    comp_stats od m k fan trim995 (comp_parts c parts) (c_fit r) = Some (Some (c_agg r, c_n r)) /\
    c_n r = length (pair_units c l) /\ g_att (c_agg r) = a /\
    scatter (map (in_pair c) l) inf = map (comp_if od m k trim995 c r) l.
Proof.
  intros Hc Hw Hm0 E. rewrite pair_normalise in E. rewrite (map_ext _ _ (scale_nw (mean t_w l))) in E.
  assert (P : 0 < mean t_w l) by (apply mean_pos; assumption).
  destruct (pair_equal o od k fan trim995 m (comp_parts c parts)) with (c := mean t_w l) (a := a) (inf := inf) as (gamma & beta & g & F1 & F2 & F3 & F4).
  - exact Hfan.
  - unfold comp_parts. destruct parts; [congruence|discriminate].
  - exact HLA.
  - exact HW.
  - exact HI.
  - exact P.
  - intros u Hu. rewrite pair_concat in Hu. apply in_pair_units in Hu. destruct Hu as (v & Hv & _ & ->). apply Hw, Hv.
  - exact Hmu.
  - intros Hm. destruct HS as [K|[[_ K] _]]; [congruence|]. rewrite K by exact Hc. fold l. rewrite pair_normalise, pair_concat. f_equal. apply map_ext. apply scale_nw.
  - intros Hm gamma u Eg Hu. destruct HS as [K|[_ K]]; [congruence|]. apply (K c gamma u Hc).
    + rewrite pair_normalise. rewrite (map_ext _ _ (scale_nw (mean t_w l))). rewrite pair_concat in Eg. exact Eg.
    + rewrite pair_concat in Hu. exact Hu.
  - rewrite pair_concat. exact E.
  - exists {| c_fit := (gamma, beta); c_agg := g; c_n := length (concat (comp_parts c parts)) |}. cbn [c_fit c_agg c_n].
    split; [exact F1|]. split; [exact F2|]. split; [rewrite pair_concat; reflexivity|]. split; [exact F3|].
    rewrite <- F4, pair_concat. unfold pair_units. rewrite map_map. unfold comp_if. cbn [c_fit c_agg fst snd]. exact (scatter_map (in_pair c) _ l).
Qed.

Lemma comps_equal att a3 a2 a1 inf : ddd_panel o k m l = TEst att a3 a2 a1 inf ->
  exists r3 r2 r1, comps od m k fan trim995 parts = KDone r3 r2 r1 /\ comps_att r3 r2 r1 = att /\ map (ddd_if od m k trim995 (length l) r3 r2 r1) l = inf.
Proof.
  intros E. apply ddd_inv in E. destruct E as (Hw & _ & i3 & i2 & i1 & E3 & E2 & E1 & -> & ->).
  assert (Hm0 : mean t_w l <> 0) by (exact (pair_mean_weights _ _ _ _ _ _ _ _ E3)).
  destruct (one_comp 3 a3 i3 ltac:(cbn; auto) Hw Hm0 E3) as (r3 & A1 & A2 & A3 & A4 & A5).
  destruct (one_comp 2 a2 i2 ltac:(cbn; auto) Hw Hm0 E2) as (r2 & B1 & B2 & B3 & B4 & B5).
  destruct (one_comp 1 a1 i1 ltac:(cbn; auto) Hw Hm0 E1) as (r1 & C1 & C2 & C3 & C4 & C5).
  exists r3, r2, r1. split; [|split].
  - unfold comps. rewrite A1, B1, C1, A2, B2, C2. destruct r3, r2, r1; reflexivity.
  - unfold comps_att. rewrite A4, B4, C4. reflexivity.
  - cbv zeta. rewrite !normalise_in_pair, A5, B5, C5, !normalise_share.
    rewrite (combine3_map _ _ _ l (fun x y z => comp_share (length l) (length (pair_units 3 l)) * x + comp_share (length l) (length (pair_units 2 l)) * y - comp_share (length l) (length (pair_units 1 l)) * z)).
    apply map_ext. intros u. unfold ddd_if. rewrite A3, B3, C3. ring.
Qed.
End Comps.

(** the writes *)
Lemma writes_column s f ids parts completed : Permutation parts completed -> NoDup (map t_id (concat parts)) ->
  ddd_writes s f ids completed = map (fun i => match find (fun p => (t_id (fst p) =? i)%Z) (combine (concat parts) (map f (concat parts))) with Some p => s * snd p | None => 0 end) ids.
Proof.
  intros HP Hd. unfold ddd_writes. rewrite (flat_map_map (fun u => (t_id u, s * f u))). rewrite writes_zero.
  - apply map_ext. intros i. transitivity (DistDidProofs.lookup i (map (fun u => (t_id u, s * f u)) (concat parts))).
    + apply lookup_perm.
      * rewrite map_map. cbn [fst]. eapply Permutation_NoDup; [apply Permutation_map, concat_perm, HP|exact Hd].
      * apply Permutation_map, concat_perm, Permutation_sym, HP.
    + generalize (concat parts). intros q. induction q as [|u q IH]; cbn; [reflexivity|]. rewrite (Z.eqb_sym i). destruct (t_id u =? i)%Z; [reflexivity|]. exact IH.
  - rewrite map_map. cbn [fst]. eapply Permutation_NoDup; [apply Permutation_map, concat_perm, HP|exact Hd].
Qed.

Lemma cell_equal o od k fan m ids parts completed att a3 a2 a1 inf :
  (2 <= fan)%nat -> hd [] parts <> [] -> Permutation parts completed -> NoDup (map t_id (concat parts)) ->
  linear_algebra_ok od k -> wls_ok o k -> inv_ok o k -> d_mu od = o_mu o ->
  (m = Reg \/ same_ddd_scores o od parts /\ unclipped o k (concat parts)) ->
  ddd_panel o k m (concat parts) = TEst att a3 a2 a1 inf ->
  ddd_cell od m k fan trim995 ids parts completed = CDone att (ddd_column ids (concat parts) inf).
Proof.
  intros Hf Hh HP Hd HLA HW HI Hmu HS E. assert (Hne : parts <> []) by (intros K; rewrite K in Hh; cbn in Hh; congruence).
  destruct (comps_equal o od k fan m parts Hf Hne HLA HW HI HS Hmu att a3 a2 a1 inf E) as (r3 & r2 & r1 & H1 & H2 & H3).
  unfold ddd_cell. destruct parts as [|[|u p] q]; [congruence|cbn in Hh; congruence|].
  destruct (Nat.eqb_spec (length (concat ((u :: p) :: q))) 0) as [K|_]; [cbn in K; lia|].
  rewrite H1. f_equal; [exact H2|]. rewrite (writes_column _ _ _ _ _ HP Hd), H3. reflexivity.
Qed.
