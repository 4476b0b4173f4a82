(** Derivatives, centring and linearity of the aggregates (C65, C66, C69). *)
From Verif Require Import Base ListLib Calc PreprocessModel PreprocessProofs SeModel AggteModel AggteSpec AggteProofs AggteProofs2 AggteProofs3 AggteProofs5 AggDddModel AggDddSpec AggDddProofs AggDddProofs2.

Lemma agg_se2_of n psi : length psi = n -> agg_se2 n psi = se2_of psi.
Proof. intros <-. reflexivity. Qed.
Lemma winf_length us n ks : length (winf us n ks) = n.
Proof. unfold winf. rewrite map_length, seq_length. reflexivity. Qed.

Lemma sumf_indexed_fst {A} (l : list A) (f : nat -> Qc) : sumf (fun p => f (fst p)) (indexed l) = sumf f (seq 0 (length l)).
Proof.
  unfold indexed. generalize 0%nat. induction l as [|a l IH]; intros s; [reflexivity|]. cbn [length seq combine]. rewrite !sumf_cons. cbn [fst]. f_equal. apply IH.
Qed.

Section Deriv.
  Context (us : list grp) (h : list Qc).
  Let n := length us.
  Definition dshare (g : Z) : Qc := havg n h (map (fun c => ind (grp_eqb c (Fin g))) us).
  Lemma indexed_map {A B} (f : A -> B) (l : list A) : map f l = map (fun p => f (snd p)) (indexed l).
  Proof. unfold indexed. rewrite <- (map_map snd f). f_equal. generalize 0%nat. induction l as [|a l IH]; intros s; [reflexivity|]. cbn. f_equal. apply IH. Qed.
  Lemma dshare_eq g : dshare g = sumf (fun p => nth (fst p) h 0 * ind (grp_eqb (snd p) (Fin g))) (indexed us) / qn n.
  Proof. unfold dshare. rewrite indexed_map. unfold n. rewrite (havg_indexed us h (fun p => ind (grp_eqb (snd p) (Fin g)))). reflexivity. Qed.
  Lemma shares_along_eq e g : shares_along us h e g = frac us g + e * dshare g.
  Proof.
    rewrite dshare_eq. unfold shares_along. change (combine (seq 0 (length us)) us) with (indexed us).
    rewrite (sumf_ext _ (fun p => ind (grp_eqb (snd p) (Fin g)) + e * (nth (fst p) h 0 * ind (grp_eqb (snd p) (Fin g))))) by (intros; ring).
    rewrite sumf_add, sumf_mul_l, (sumf_indexed_snd (fun c => ind (grp_eqb c (Fin g)))), sumf_ind. unfold frac, n, Qcdiv. ring.
  Qed.
  Lemma D_share g : derivative_at_0 (fun e => shares_along us h e g) (dshare g).
  Proof.
    apply (D_ext (fun e => frac us g + e * dshare g)); [apply near0_all; intros e; symmetry; apply shares_along_eq|].
    apply (D_eq _ (0 + (1 * dshare g + 0 * 0))); [ring|]. apply D_add; [apply D_const|]. apply (D_mul (fun e => e) (fun _ => dshare g) 1 0 D_id (D_const _)).
  Qed.
  Lemma share0 g : shares_along us h 0 g = frac us g. Proof. rewrite shares_along_eq. ring. Qed.

  Context {A : Type} (G : A -> Z).
  Let total (ks : list A) := sumf (fun k => frac us (G k)) ks.
  Lemma D_avg (ks : list A) (a : A -> Qc -> Qc) (d : A -> Qc) : (forall k, In k ks -> derivative_at_0 (a k) (d k)) -> total ks <> 0 ->
    derivative_at_0 (fun e => sumf (fun k => shares_along us h e (G k) * a k e) ks / sumf (fun k => shares_along us h e (G k)) ks)
      (sumf (fun k => frac us (G k) * d k) ks / total ks
       + sumf (fun k => dshare (G k) * (a k 0 - sumf (fun k => frac us (G k) * a k 0) ks / total ks)) ks / total ks).
  Proof.
    intros Ha N.
    assert (DN : derivative_at_0 (fun e => sumf (fun k => shares_along us h e (G k) * a k e) ks) (sumf (fun k => dshare (G k) * a k 0 + frac us (G k) * d k) ks)).
    { apply (D_sum ks (fun k e => shares_along us h e (G k) * a k e)). intros k Hk. assert (X := D_mul _ _ _ _ (D_share (G k)) (Ha k Hk)). cbn beta in X. rewrite share0 in X. exact X. }
    assert (DD : derivative_at_0 (fun e => sumf (fun k => shares_along us h e (G k)) ks) (sumf (fun k => dshare (G k)) ks)).
    { apply (D_sum ks (fun k e => shares_along us h e (G k))). intros k _. apply D_share. }
    assert (E0 : sumf (fun k => shares_along us h 0 (G k)) ks = total ks) by (apply sumf_ext; intros; apply share0).
    assert (E1 : sumf (fun k => shares_along us h 0 (G k) * a k 0) ks = sumf (fun k => frac us (G k) * a k 0) ks) by (apply sumf_ext; intros; rewrite share0; reflexivity).
    assert (X := D_div _ _ _ _ DN DD). cbn beta in X. rewrite E0, E1 in X. specialize (X N). refine (D_eq _ _ _ _ X).
    set (av := sumf (fun k => frac us (G k) * a k 0) ks / total ks).
    rewrite sumf_add. rewrite (sumf_ext (fun k => dshare (G k) * (a k 0 - av)) (fun k => dshare (G k) * a k 0 - dshare (G k) * av)) by (intros; ring).
    rewrite sumf_sub, sumf_mul_r. unfold Qcdiv. ring.
  Qed.
  Lemma D_avg_fixed (ks : list A) (a : A -> Qc -> Qc) (d : A -> Qc) : (forall k, In k ks -> derivative_at_0 (a k) (d k)) ->
    derivative_at_0 (fun e => sumf (fun k => frac us (G k) * a k e) ks / total ks) (sumf (fun k => frac us (G k) * d k) ks / total ks).
  Proof.
    intros Ha. apply (D_ext (fun e => / total ks * sumf (fun k => frac us (G k) * a k e) ks)); [apply near0_all; intros; unfold Qcdiv; ring|].
    apply (D_eq _ (/ total ks * sumf (fun k => frac us (G k) * d k) ks)); [unfold Qcdiv; ring|]. apply D_scale.
    apply (D_sum ks (fun k e => frac us (G k) * a k e)). intros k Hk. apply D_scale, Ha, Hk.
  Qed.
  (** the same increments as averages of influence values *)
  Lemma havg_avg (ks : list A) (I : A -> list Qc) : sumf (fun k => frac us (G k) * havg n h (I k)) ks / total ks =
    havg n h (map (fun i => sumf (fun k => frac us (G k) * nth i (I k) 0) ks / total ks) (seq 0 n)).
  Proof.
    rewrite havg_seq. rewrite (sumf_ext (fun i => nth i h 0 * (sumf _ ks / total ks)) (fun i => sumf (fun k => frac us (G k) * (nth i h 0 * nth i (I k) 0)) ks / total ks)).
    - rewrite sumf_div, sumf_swap. unfold Qcdiv. rewrite <- !(sumf_mul_r (/ _)). apply sumf_ext. intros k _. unfold havg. rewrite sumf_mul_l. unfold Qcdiv. ring.
    - intros i _. unfold Qcdiv. rewrite !Qcmult_assoc. f_equal. rewrite <- sumf_mul_l. apply sumf_ext. intros; ring.
  Qed.
  Lemma havg_share (ks : list A) (c : A -> Qc) : sumf (fun k => dshare (G k) * c k) ks / total ks =
    havg n h (map (fun x => sumf (fun k => ind (grp_eqb x (Fin (G k))) * c k) ks / total ks) us).
  Proof.
    rewrite (indexed_map _ us). unfold n at 1. rewrite havg_indexed. fold n.
    rewrite (sumf_ext (fun p => nth (fst p) h 0 * (sumf _ ks / total ks)) (fun p => sumf (fun k => nth (fst p) h 0 * ind (grp_eqb (snd p) (Fin (G k))) * c k) ks / total ks)).
    - rewrite sumf_div, sumf_swap. unfold Qcdiv. rewrite <- !(sumf_mul_r (/ _)). apply sumf_ext. intros k _. rewrite dshare_eq, sumf_mul_r. unfold Qcdiv. ring.
    - intros p _. unfold Qcdiv. rewrite !Qcmult_assoc. f_equal. rewrite <- sumf_mul_l. apply sumf_ext. intros; ring.
  Qed.
End Deriv.

Section KDeriv.
  Context (us : list grp) (h : list Qc) (F : kcell -> Qc -> Qc) (cells : list kcell).
  Let n := length us.
  Context (KP : kpaths n h F cells).
  Lemma D_wavg_fixed ks : (forall k, In k ks -> In k cells) -> derivative_at_0 (fun e => wavg (frac us) (fun k => F k e) ks) (havg n h (winf us n ks)).
  Proof.
    intros H. unfold winf, wavg. assert (X := havg_avg us h k_g ks k_inf). fold n in X. cbv beta zeta in X. rewrite <- X. apply (D_avg_fixed us k_g ks F (fun k => havg n h (k_inf k))). intros k Hk. apply (KP k (H k Hk)).
  Qed.
  Lemma D_wavg ks : (forall k, In k ks -> In k cells) -> sumf (fun k => frac us (k_g k)) ks <> 0 ->
    derivative_at_0 (fun e => wavg (shares_along us h e) (fun k => F k e) ks) (havg n h (winf us n ks) + havg n h (map (share_term us ks) us)).
  Proof.
    intros H N. assert (X := D_avg us h k_g ks F (fun k => havg n h (k_inf k)) (fun k Hk => proj2 (KP k (H k Hk))) N).
    assert (X2 := havg_avg us h k_g ks k_inf). fold n in X2. cbv beta zeta in X, X2. rewrite X2 in X. unfold wavg. refine (D_eq _ _ _ _ X). fold n. f_equal.
    rewrite (havg_share us h k_g ks (fun k => F k 0 - sumf (fun k => frac us (k_g k) * F k 0) ks / sumf (fun k => frac us (k_g k)) ks)). fold n. f_equal. apply map_ext. intros c. unfold share_term, wavg.
    f_equal. assert (EF : sumf (fun k => frac us (k_g k) * F k 0) ks = sumf (fun k => frac us (k_g k) * k_att k) ks) by (apply sumf_ext; intros k Hk; rewrite (proj1 (KP k (H k Hk))); reflexivity).
    rewrite EF. apply sumf_ext. intros k Hk. rewrite (proj1 (KP k (H k Hk))). reflexivity.
  Qed.
  Lemma D_avg_opt ks : (forall k, In k ks -> In k cells) -> (forall k, In k ks -> 0 < frac us (k_g k)) -> (forall k k', In k ks -> In k' ks -> k_g k = k_g k') ->
    derivative_at_0 (fun e => or0 (avg_opt (fun k => F k e) ks)) (havg n h (winf us n ks)).
  Proof.
    intros H FP SG. destruct ks as [|k0 ks0] eqn:EK.
    { cbn. assert (EW : winf us n [] = repeat 0 n). { unfold winf. rewrite (map_ext _ (fun _ => 0)) by (intros; unfold wavg; cbn; unfold Qcdiv; ring). apply map_const_seq. }
      rewrite EW, havg_repeat0. apply D_const. }
    rewrite <- EK in *. assert (P0 : 0 < frac us (k_g k0)) by (apply FP; rewrite EK; left; reflexivity).
    apply (D_ext (fun e => wavg (frac us) (fun k => F k e) ks)); [|apply D_wavg_fixed, H]. apply near0_all. intros e.
    assert (EO : avg_opt (fun k => F k e) ks = Some (mean (fun k => F k e) ks)) by (rewrite EK; reflexivity). rewrite EO. cbn [or0].
    assert (K0 : In k0 ks) by (rewrite EK; left; reflexivity).
    unfold wavg, mean. rewrite (sumf_ext (fun k => frac us (k_g k) * F k e) (fun k => frac us (k_g k0) * F k e)) by (intros k Hk; rewrite (SG k k0 Hk K0); reflexivity).
    rewrite (sumf_ext (fun k => frac us (k_g k)) (fun _ => frac us (k_g k0))) by (intros k Hk; rewrite (SG k k0 Hk K0); reflexivity).
    rewrite sumf_mul_l, sumf_const. assert (Hn : qn (length ks) <> 0) by (apply qn_neq0; rewrite EK; cbn; lia).
    field. split; [exact Hn|]. intros Z. rewrite Z in P0. qclra.
  Qed.
End KDeriv.

(** the weight-influence term of 'group' *)
Lemma share_if_sum us gs x (v : Z -> Qc) : let s := sumf (frac us) gs in s <> 0 ->
  sumf (fun g => share_if us gs x g * v g) gs = sumf (fun g => ind (grp_eqb x (Fin g)) * (v g - sumf (fun g => frac us g * v g) gs / s)) gs / s.
Proof.
  intros s N. unfold share_if, share_dev. assert (ES : sumf (pgg us) gs = s) by (apply sumf_ext; intros; apply pgg_frac). rewrite ES.
  assert (ED : sumf (fun g => ind (grp_eqb x (Fin g)) - pgg us g) gs = sumf (fun g => ind (grp_eqb x (Fin g))) gs - s) by (rewrite sumf_sub, ES; reflexivity). rewrite ED.
  set (T := sumf (fun g => ind (grp_eqb x (Fin g))) gs). set (W := sumf (fun g => frac us g * v g) gs).
  rewrite (sumf_ext _ (fun g => ind (grp_eqb x (Fin g)) * v g * / s - (frac us g * v g) * / s - (frac us g * v g) * ((T - s) / (s * s)))) by (intros g _; rewrite pgg_frac; field; exact N).
  rewrite !sumf_sub, !sumf_mul_r. fold W.
  rewrite (sumf_ext (fun g => ind (grp_eqb x (Fin g)) * (v g - W / s)) (fun g => ind (grp_eqb x (Fin g)) * v g - ind (grp_eqb x (Fin g)) * (W / s))) by (intros; ring).
  rewrite sumf_sub, sumf_mul_r. fold T. field. exact N.
Qed.
