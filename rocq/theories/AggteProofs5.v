(** The influence function of every aggregate is the derivative of that aggregate. *)
From Verif Require Import Base ListLib Calc PreprocessModel PreprocessProofs2 AttGtModel AggteModel AggteSpec AggteProofs AggteProofs2 AggteProofs3 AggteProofs4.
Local Open Scope list_scope.
Local Notation length := List.length.

Lemma indexed_fst {A} (l : list A) : map fst (indexed l) = seq 0 (length l).
Proof.
  unfold indexed. generalize 0%nat. induction l as [|a l IH]; intros s; [reflexivity|]. cbn. f_equal. apply IH.
Qed.
Lemma indexed_nth {A} (l : list A) d : indexed l = map (fun i => (i, nth i l d)) (seq 0 (length l)).
Proof.
  unfold indexed. enough (H : forall s, combine (seq s (length l)) l = map (fun i => (i, nth (i - s) l d)) (seq s (length l))).
  { rewrite H. apply map_ext. intros i. rewrite Nat.sub_0_r. reflexivity. }
  induction l as [|a l IH]; intros s; [reflexivity|]. cbn [length seq combine map]. rewrite Nat.sub_diag. cbn [nth]. f_equal. rewrite IH.
  apply map_ext_in. intros i Hi. apply in_seq in Hi. destruct (i - s)%nat eqn:E; [lia|]. replace (i - S s)%nat with n by lia. reflexivity.
Qed.
Lemma havg_indexed {A} (l : list A) h (f : nat * A -> Qc) : havg (length l) h (map f (indexed l)) = sumf (fun p => nth (fst p) h 0 * f p) (indexed l) / qn (length l).
Proof.
  unfold havg. f_equal. destruct l as [|d l']; [reflexivity|]. set (l := d :: l') in *. rewrite (indexed_nth l d), map_map, sumf_map. apply sumf_ext.
  intros i Hi. apply in_seq in Hi. rewrite (nth_map_in _ _ _ 0%nat) by (rewrite seq_length; lia). rewrite seq_nth by lia. reflexivity.
Qed.
Lemma havg_nth {A} (l : list A) h inf : havg (length l) h inf = sumf (fun p => nth (fst p) h 0 * nth (fst p) inf 0) (indexed l) / qn (length l).
Proof. unfold havg. f_equal. rewrite <- indexed_fst, sumf_map. reflexivity. Qed.
Lemma havg_repeat0 n h : havg n h (repeat 0 n) = 0.
Proof.
  unfold havg. rewrite sumf_zero; [unfold Qcdiv; ring|]. intros i _. assert (nth i (repeat 0 n) 0 = 0) as ->; [|ring]. 
  generalize i. clear i. induction n as [|n IH]; intros [|i]; cbn; auto.
Qed.

Section Core.
  Context (u : list Z) (units : list unit_rec) (h : list Qc).
  Let n := length units.
  Lemma group_prob_reweigh e g : group_prob u (reweigh e h units) g =
    group_prob u units g + e * (sumf (fun p => nth (fst p) h 0 * (snd (snd p) * ind (in_group u g (snd p)))) (indexed units) / qn n).
  Proof.
    unfold group_prob, mean, reweigh. rewrite map_length, combine_length, seq_length, Nat.min_id. change (combine (seq 0 (length units)) units) with (indexed units).
    fold n. rewrite sumf_map. rewrite (sumf_ext _ (fun p => snd (snd p) * ind (in_group u g (snd p)) + e * (nth (fst p) h 0 * (snd (snd p) * ind (in_group u g (snd p)))))).
    - rewrite sumf_add, sumf_mul_l. rewrite (sumf_indexed_snd (fun x => snd x * ind (in_group u g x))). unfold n, unit_rec, Qcdiv. ring.
    - intros [i [gx w]] _. unfold in_group. cbn [fst snd]. ring.
  Qed.
  Definition gpd (g : Z) : Qc := sumf (fun p => nth (fst p) h 0 * (snd (snd p) * ind (in_group u g (snd p)))) (indexed units) / qn n.
  Lemma D_group_prob g : derivative_at_0 (fun e => group_prob u (reweigh e h units) g) (gpd g).
  Proof.
    apply (D_ext (fun e => group_prob u units g + e * gpd g)); [apply near0_all; intros e; symmetry; apply group_prob_reweigh|].
    apply (D_eq _ (0 + (1 * gpd g + 0 * 0))); [ring|]. apply D_add; [apply D_const|]. apply (D_mul (fun e => e) (fun _ => gpd g) 1 0 D_id (D_const _)).
  Qed.
  Lemma group_prob_0 g : group_prob u (reweigh 0 h units) g = group_prob u units g.
  Proof. rewrite group_prob_reweigh. ring. Qed.

  Definition dev {A} (G : A -> Z) (x : unit_rec) (k : A) : Qc := snd x * ind (in_group u (G k) x) - group_prob u units (G k).
  Definition core_inf {A} (ks : list A) (G : A -> Z) (a : A -> Qc) (I : A -> list Qc) : list Qc :=
    let s := sumf (fun k => group_prob u units (G k)) ks in
    map (fun p => sumf (fun k => nth (fst p) (I k) 0 * (group_prob u units (G k) / s)) ks +
      sumf (fun k => (dev G (snd p) k / s - (sumf (dev G (snd p)) ks / (s * s)) * group_prob u units (G k)) * a k) ks) (indexed units).
  Lemma dev_sum {A} (G : A -> Z) (k : A) :
    sumf (fun p => nth (fst p) h 0 * dev G (snd p) k) (indexed units) / qn n = gpd (G k) - havg n h (repeat 1 n) * group_prob u units (G k).
  Proof.
    unfold gpd. unfold n at 3. rewrite (havg_nth units). fold n. unfold dev.
    rewrite (sumf_ext _ (fun p => nth (fst p) h 0 * (snd (snd p) * ind (in_group u (G k) (snd p))) - nth (fst p) h 0 * nth (fst p) (repeat 1 n) 0 * group_prob u units (G k))).
    - rewrite sumf_sub, sumf_mul_r. unfold n, unit_rec, Qcdiv. ring.
    - intros p Hp. assert (Hi : In (fst p) (map fst (indexed units))) by (apply in_map, Hp). rewrite indexed_fst in Hi. apply in_seq in Hi.
      rewrite (nth_indep (repeat 1 n) 0 1) by (rewrite repeat_length; unfold n; lia). rewrite nth_repeat. unfold unit_rec in *. ring.
  Qed.
  Lemma core {A} (ks : list A) (G : A -> Z) (a : A -> Qc -> Qc) (I : A -> list Qc) :
    (forall k, In k ks -> derivative_at_0 (a k) (havg n h (I k))) -> (ks <> [] -> sumf (fun k => group_prob u units (G k)) ks <> 0) ->
    derivative_at_0 (fun e => sumf (fun k => a k e * (group_prob u (reweigh e h units) (G k) / sumf (fun k => group_prob u (reweigh e h units) (G k)) ks)) ks)
      (havg n h (core_inf ks G (fun k => a k 0) I)).
  Proof.
    intros Ha Hs. destruct ks as [|k0 ks0].
    { apply (D_ext (fun _ => 0)); [apply near0_all; reflexivity|]. apply (D_eq _ 0); [|apply D_const]. unfold core_inf. cbn zeta.
      unfold n. rewrite havg_indexed. rewrite sumf_zero; [unfold Qcdiv; ring|]. intros p _. cbn. ring. }
    set (ks := k0 :: ks0) in *. assert (S0 : sumf (fun k => group_prob u units (G k)) ks <> 0) by (apply Hs; discriminate). clear Hs. clearbody ks.
    set (s := sumf (fun k => group_prob u units (G k)) ks) in *.
    assert (DS : derivative_at_0 (fun e => sumf (fun k => group_prob u (reweigh e h units) (G k)) ks) (sumf (fun k => gpd (G k)) ks)).
    { apply (D_sum ks (fun k e => group_prob u (reweigh e h units) (G k)) (fun k => gpd (G k))). intros k _. apply D_group_prob. }
    set (ds := sumf (fun k => gpd (G k)) ks) in *.
    assert (V0 : sumf (fun k => group_prob u (reweigh 0 h units) (G k)) ks = s) by (apply sumf_ext; intros; apply group_prob_0).
    apply (D_eq _ (sumf (fun k => havg n h (I k) * (group_prob u units (G k) / s) + a k 0 * ((gpd (G k) - group_prob u units (G k) / s * ds) / s)) ks)).
    2: { apply (D_sum ks (fun k e => a k e * (group_prob u (reweigh e h units) (G k) / sumf (fun k => group_prob u (reweigh e h units) (G k)) ks))
           (fun k => havg n h (I k) * (group_prob u units (G k) / s) + a k 0 * ((gpd (G k) - group_prob u units (G k) / s * ds) / s))).
         intros k Hk.
         assert (DQ := D_div _ _ _ _ (D_group_prob (G k)) DS). cbn beta in DQ. rewrite V0 in DQ. specialize (DQ S0).
         assert (DM := D_mul _ _ _ _ (Ha k Hk) DQ). cbn beta in DM. rewrite V0, group_prob_0 in DM. exact DM. }
    unfold core_inf. cbn zeta. unfold n at 2. rewrite havg_indexed. fold s.
    assert (E : forall k, In k ks -> a k 0 * ((gpd (G k) - group_prob u units (G k) / s * ds) / s) =
       sumf (fun p => nth (fst p) h 0 * ((dev G (snd p) k / s - (sumf (dev G (snd p)) ks / (s * s)) * group_prob u units (G k)) * a k 0)) (indexed units) / qn n).
    { intros k Hk. set (H1 := havg n h (repeat 1 n)).
      assert (E1 := dev_sum G k). fold H1 in E1.
      assert (E2 : sumf (fun p => nth (fst p) h 0 * sumf (dev G (snd p)) ks) (indexed units) / qn n = ds - H1 * s).
      { rewrite (sumf_ext _ (fun p => sumf (fun k => nth (fst p) h 0 * dev G (snd p) k) ks)) by (intros; rewrite sumf_mul_l; reflexivity).
        rewrite sumf_swap, <- sumf_div. rewrite (sumf_ext _ (fun k => gpd (G k) - H1 * group_prob u units (G k))) by (intros; apply dev_sum).
        rewrite sumf_sub, sumf_mul_l. reflexivity. }
      rewrite (sumf_ext _ (fun p => (nth (fst p) h 0 * dev G (snd p) k) * (a k 0 / s) - (nth (fst p) h 0 * sumf (dev G (snd p)) ks) * (group_prob u units (G k) * a k 0 / (s * s)))) by (intros; field; exact S0).
      rewrite sumf_sub, !sumf_mul_r. 
      transitivity (sumf (fun p => nth (fst p) h 0 * dev G (snd p) k) (indexed units) / qn n * (a k 0 / s) - sumf (fun p => nth (fst p) h 0 * sumf (dev G (snd p)) ks) (indexed units) / qn n * (group_prob u units (G k) * a k 0 / (s * s))).
      - rewrite E1, E2. field. exact S0.
      - unfold Qcdiv. ring. }
    rewrite sumf_add, (sumf_ext _ _ _ E).
    rewrite (sumf_ext (fun p => nth (fst p) h 0 * (sumf _ ks + sumf _ ks)) (fun p => sumf (fun k => nth (fst p) h 0 * (nth (fst p) (I k) 0 * (group_prob u units (G k) / s))) ks
       + sumf (fun k => nth (fst p) h 0 * ((dev G (snd p) k / s - (sumf (dev G (snd p)) ks / (s * s)) * group_prob u units (G k)) * a k 0)) ks)) by (intros; rewrite !sumf_mul_l; ring).
    rewrite sumf_add, !(sumf_swap _ (indexed units)), sumf_div.
    fold n. assert (DP : forall x y z : Qc, (x + y) / z = x / z + y / z) by (intros; unfold Qcdiv; ring). rewrite DP. f_equal. rewrite <- sumf_div.
    apply sumf_ext. intros k _. unfold n at 1. rewrite (havg_nth units). fold n.
    rewrite (sumf_ext (fun p => nth (fst p) h 0 * (nth (fst p) (I k) 0 * _)) (fun p => nth (fst p) h 0 * nth (fst p) (I k) 0 * (group_prob u units (G k) / s))) by (intros; ring).
    rewrite sumf_mul_r. unfold Qcdiv. ring.
  Qed.
End Core.

Definition back (k : kcell) : mp_cell := {| m_g := k_g k; m_t := k_t k; m_att := Some (k_att k); m_inf := k_inf k |}.
Definition mv (F : mp_cell -> Qc -> Qc) (e : Qc) (k : kcell) : kcell := {| k_g := k_g k; k_t := k_t k; k_att := F (back k) e; k_inf := k_inf k |}.
Lemma keep_finite_move F e mp : keep_finite (map (move F e) mp) = map (mv F e) (keep_finite mp).
Proof.
  unfold keep_finite. induction mp as [|m mp IH]; [reflexivity|]. cbn [map flat_map]. rewrite map_app, IH. f_equal.
  destruct m as [g t [a|] inf]; reflexivity.
Qed.
Lemma filter_mv F e (p : kcell -> bool) ks : (forall k, p (mv F e k) = p k) -> filter p (map (mv F e) ks) = map (mv F e) (filter p ks).
Proof. intros H. induction ks as [|k ks IH]; [reflexivity|]. cbn. rewrite H, IH. destruct (p k); reflexivity. Qed.
Lemma existsb_mv F e (p : kcell -> bool) ks : (forall k, p (mv F e k) = p k) -> existsb p (map (mv F e) ks) = existsb p ks.
Proof. intros H. induction ks as [|k ks IH]; [reflexivity|]. cbn. rewrite H, IH. reflexivity. Qed.
Lemma clean_move F e dropna isg mp : clean_cells dropna isg (map (move F e) mp) = option_map (map (mv F e)) (clean_cells dropna isg mp).
Proof.
  unfold clean_cells. destruct dropna.
  - unfold drop_na. rewrite keep_finite_move. destruct isg; [|reflexivity]. cbn [option_map]. f_equal. rewrite <- (filter_mv F e).
    + apply filter_ext_in'. intros a _. rewrite existsb_mv; [reflexivity|]. intros k. reflexivity.
    + intros k. reflexivity.
  - assert (E : existsb (fun m => match m_att m with None => true | _ => false end) (map (move F e) mp) = existsb (fun m => match m_att m with None => true | _ => false end) mp).
    { induction mp as [|m mp IH]; [reflexivity|]. cbn. rewrite IH. destruct (m_att m); reflexivity. }
    rewrite E. destruct (existsb _ mp); [reflexivity|]. rewrite keep_finite_move. reflexivity.
Qed.
Lemma all_vals_mv F e cells : all_vals (map (mv F e) cells) = all_vals cells.
Proof. unfold all_vals. rewrite !map_map. reflexivity. Qed.

Lemma havg_seq n h (f : nat -> Qc) : havg n h (map f (seq 0 n)) = sumf (fun i => nth i h 0 * f i) (seq 0 n) / qn n.
Proof.
  unfold havg. f_equal. apply sumf_ext. intros i Hi. apply in_seq in Hi. rewrite (nth_map_in _ _ _ 0%nat) by (rewrite seq_length; lia). rewrite seq_nth by lia. reflexivity.
Qed.
Lemma havg_sum {A} n h (ks : list A) (I : A -> list Qc) (c : Qc) :
  havg n h (map (fun i => sumf (fun k => nth i (I k) 0 * c) ks) (seq 0 n)) = sumf (fun k => havg n h (I k)) ks * c.
Proof.
  rewrite havg_seq. rewrite (sumf_ext _ (fun i => sumf (fun k => nth i h 0 * nth i (I k) 0) ks * c)).
  - rewrite sumf_mul_r, sumf_swap. unfold havg. rewrite sumf_div. unfold Qcdiv. ring.
  - intros i _. rewrite sumf_mul_r, sumf_mul_l. ring.
Qed.
Lemma havg_mean_cols n h cols : havg n h (mean_cols n cols) = sumf (havg n h) cols / qn (length cols).
Proof. unfold mean_cols. rewrite (havg_sum n h cols (fun c => c)). change (sumf (fun k => havg n h k) cols) with (sumf (havg n h) cols). unfold Qcdiv. ring. Qed.
Lemma nan0_nanmean l : nan0 (nanmean l) = mean (fun x => x) (somes l).
Proof. unfold nanmean. destruct (somes l); reflexivity. Qed.
Lemma D_mean {A} (l : list A) (f : A -> Qc -> Qc) d : (forall a, In a l -> derivative_at_0 (f a) (d a)) ->
  derivative_at_0 (fun e => mean (fun a => f a e) l) (sumf d l / qn (length l)).
Proof.
  intros H. apply (D_eq _ (/ qn (length l) * sumf d l)); [unfold Qcdiv; ring|].
  apply (D_ext (fun e => / qn (length l) * sumf (fun a => f a e) l)); [apply near0_all; intros e; unfold mean, Qcdiv; ring|]. apply D_scale, D_sum, H.
Qed.
Lemma core_inf_ext {A} u units (ks : list A) G a a' I : (forall k, In k ks -> a k = a' k) -> core_inf u units ks G a I = core_inf u units ks G a' I.
Proof.
  intros H. unfold core_inf. cbn zeta. apply map_ext. intros p. f_equal. apply sumf_ext. intros k Hk. rewrite (H k Hk). reflexivity.
Qed.
Lemma core_inf_map {A B} u units (f : A -> B) ks G a I : core_inf u units (map f ks) G a I = core_inf u units ks (fun k => G (f k)) (fun k => a (f k)) (fun k => I (f k)).
Proof.
  unfold core_inf. cbn zeta. apply map_ext. intros p. rewrite !sumf_map. reflexivity.
Qed.
Lemma weighted_inf_core u units ks : weighted_inf u units ks = core_inf u units ks (rg u) k_att k_inf.
Proof. reflexivity. Qed.

Section Agg.
  Context (cells : list kcell) (units : list unit_rec) (h : list Qc) (F : mp_cell -> Qc -> Qc).
  Let u := all_vals cells.
  Let n := length units.
  Context (PK : forall k, In k cells -> F (back k) 0 = k_att k /\ derivative_at_0 (F (back k)) (havg n h (k_inf k))).
  Context (PS : forall k, In k cells -> 0 < share units (k_g k)).

  Lemma D_wsum ks : (forall k, In k ks -> In k cells) ->
    derivative_at_0 (fun e => wsum (cell_prob u (reweigh e h units)) (map (mv F e) ks)) (havg n h (weighted_inf u units ks)).
  Proof.
    intros Hk. rewrite weighted_inf_core, (core_inf_ext u units ks (rg u) k_att (fun k => F (back k) 0)) by (intros k Ik; symmetry; apply PK, Hk, Ik).
    eapply D_ext; [|apply (core u units h ks (rg u) (fun k => F (back k)) k_inf)].
    - apply near0_all. intros e. unfold wsum, norm_weight. rewrite !sumf_map. reflexivity.
    - intros k Ik. apply PK, Hk, Ik.
    - intros N. apply Qc_pos_neq0, sumf_pos.
      + intros k Ik. change (group_prob u units (rg u k)) with (cell_prob u units k). unfold u. rewrite cell_prob_share by (apply Hk, Ik). apply Qclt_le_weak, PS, Hk, Ik.
      + destruct ks as [|k ks]; [congruence|]. exists k. split; [left; reflexivity|]. change (group_prob u units (rg u k)) with (cell_prob u units k). unfold u.
        rewrite cell_prob_share by (apply Hk; left; reflexivity). apply PS, Hk. left; reflexivity.
  Qed.
  Lemma cov_att_mv e U ks : nan0 (cov_att (cell_prob u U) (map (mv F e) ks)) = wsum (cell_prob u U) (map (mv F e) ks).
  Proof. destruct ks; reflexivity. Qed.
  Lemma D_cov ks : (forall k, In k ks -> In k cells) ->
    derivative_at_0 (fun e => nan0 (cov_att (cell_prob u (reweigh e h units)) (map (mv F e) ks))) (havg n h (cov_inf u units ks)).
  Proof.
    intros Hk. eapply D_ext; [apply near0_all; intros e; symmetry; apply cov_att_mv|]. refine (D_eq _ _ _ _ (D_wsum ks Hk)).
    destruct ks; [|reflexivity]. cbn [cov_inf]. fold n. rewrite havg_repeat0. rewrite weighted_inf_core. unfold core_inf. cbn zeta. unfold n. rewrite havg_indexed.
    rewrite sumf_zero; [unfold Qcdiv; ring|]. intros p _. cbn. ring.
  Qed.
  Lemma D_mean_att ks : (forall k, In k ks -> In k cells) ->
    derivative_at_0 (fun e => nan0 (mean_att (map (mv F e) ks))) (havg n h (mean_inf n ks)).
  Proof.
    intros Hk. destruct ks as [|k0 ks0].
    - apply (D_ext (fun _ => 0)); [apply near0_all; reflexivity|]. apply (D_eq _ 0); [symmetry; apply havg_repeat0|apply D_const].
    - set (ks := k0 :: ks0) in *.
      apply (D_ext (fun e => mean (fun k => F (back k) e) ks)).
      { apply near0_all. intros e. unfold mean_att, ks. cbn [map nan0]. change (mv F e k0 :: map (mv F e) ks0) with (map (mv F e) ks). unfold mean. rewrite sumf_map, map_length. reflexivity. }
      refine (D_eq _ _ _ _ (D_mean ks (fun k => F (back k)) (fun k => havg n h (k_inf k)) (fun k Ik => proj2 (PK k (Hk k Ik))))).
      unfold mean_inf, ks. fold ks. transitivity (havg n h (map (fun i => sumf (fun k => nth i (k_inf k) 0 * (1 / qn (length ks))) ks) (seq 0 n))).
      + rewrite (havg_sum n h ks k_inf). unfold Qcdiv. ring.
      + f_equal. apply map_ext. intros i. unfold agg_inf_at. rewrite (sumf_zero (fun k => 0 * k_att k)); [ring|]. intros; ring.
  Qed.

  Lemma simple_deriv ma : derivative_at_0 (fun e => nan0 (a_overall (simple_att (reweigh e h units) ma (map (mv F e) cells)))) (havg n h (a_inf (simple_att units ma cells))).
  Proof.
    unfold simple_att. cbn [a_overall a_inf nan0]. fold u. eapply D_ext; [|apply (D_wsum (post_cells ma u cells))].
    - apply near0_all. intros e. rewrite all_vals_mv. fold u. unfold post_cells. rewrite filter_mv by reflexivity. reflexivity.
    - intros k Hk. apply filter_In in Hk. apply Hk.
  Qed.

  (** by-effects as functions of the key *)
  Definition gB (ma : option Z) (e : Qc) (g : Z) : option Qc := mean_att (map (mv F e) (group_cells ma u cells (recode u g))).
  Lemma combine_maps {A B C} (f : A -> B) (g : A -> C) l : combine (map f l) (map g l) = map (fun a => (f a, g a)) l.
  Proof. induction l as [|a l IH]; [reflexivity|]. cbn. rewrite IH. reflexivity. Qed.
  Lemma as_cells_map (gs : list Z) (B : Z -> option Qc) (I : Z -> list Qc) :
    as_cells gs (map B gs) (map I gs) = map (fun g => {| k_g := g; k_t := g; k_att := nan0 (B g); k_inf := I g |}) gs.
  Proof. unfold as_cells. rewrite combine_maps. rewrite <- (map_id gs) at 1. rewrite combine_maps, map_map. reflexivity. Qed.
  Lemma group_att_mv e ma : group_att (reweigh e h units) ma (map (mv F e) cells) =
    let gs := zuniq (map k_g cells) in let U := reweigh e h units in
    guard gs {| a_overall := Some (sumf (fun g => nan0 (gB ma e g) * group_prob u U (recode u g)) gs / sumf (fun g => group_prob u U (recode u g)) gs);
       a_keys := gs; a_by := map (gB ma e) gs;
       a_inf_by := map (fun g => mean_inf n (group_cells ma u (map (mv F e) cells) (recode u g))) gs;
       a_inf := weighted_inf u U (as_cells gs (map (gB ma e) gs) (map (fun g => mean_inf n (group_cells ma u (map (mv F e) cells) (recode u g))) gs)) |}.
  Proof.
    unfold group_att. rewrite all_vals_mv. fold u. rewrite !map_map. cbn zeta. change (map (fun x => k_g (mv F e x)) cells) with (map k_g cells).
    set (gs := zuniq (map k_g cells)).
    assert (E : map (fun g => mean_att (group_cells ma u (map (mv F e) cells) (recode u g))) gs = map (gB ma e) gs).
    { apply map_ext. intros g. unfold gB, group_cells. rewrite filter_mv by reflexivity. reflexivity. }
    assert (LN : length (reweigh e h units) = n) by (unfold reweigh, n; rewrite map_length, combine_length, seq_length; apply Nat.min_id).
    rewrite E, LN, combine_maps, !sumf_map. reflexivity.
  Qed.
  Lemma mv_0 k : In k cells -> mv F 0 k = k.
  Proof. intros Hk. unfold mv. rewrite (proj1 (PK k Hk)). destruct k; reflexivity. Qed.
  Lemma map_mv_0 ks : (forall k, In k ks -> In k cells) -> map (mv F 0) ks = ks.
  Proof. intros H. rewrite <- (map_id ks) at 2. apply map_ext_in. intros k Hk. apply mv_0, H, Hk. Qed.
  Lemma group_cells_sub ma g k : In k (group_cells ma u cells g) -> In k cells.
  Proof. intros H. apply filter_In in H. apply H. Qed.
  Lemma D_gB ma g : derivative_at_0 (fun e => nan0 (gB ma e g)) (havg n h (mean_inf n (group_cells ma u cells (recode u g)))).
  Proof. apply D_mean_att. apply group_cells_sub. Qed.
  Lemma sumf_div_in {A} (f g : A -> Qc) l s : sumf (fun a => f a * g a) l / s = sumf (fun a => f a * (g a / s)) l.
  Proof. rewrite <- sumf_div. apply sumf_ext. intros a _. unfold Qcdiv. ring. Qed.
  Lemma group_deriv ma r : group_att units ma cells = Some r ->
    derivative_at_0 (fun e => overall_value (group_att (reweigh e h units) ma (map (mv F e) cells))) (havg n h (a_inf r)) /\
    forall i, derivative_at_0 (fun e => by_value i (group_att (reweigh e h units) ma (map (mv F e) cells))) (havg n h (nth i (a_inf_by r) [])).
  Proof.
    intros E. unfold group_att in E. fold u in E. rewrite !map_map in E. apply guard_some in E. destruct E as [-> NE].
    set (gs := zuniq (map k_g cells)) in *. cbn [a_inf a_inf_by].
    assert (GN : forall x, guard gs x = Some x) by (intros x; destruct gs; [congruence|reflexivity]).
    split.
    - fold n. rewrite as_cells_map, weighted_inf_core, core_inf_map. cbn [k_att k_inf].
      change (fun k => rg u _) with (recode u).
      rewrite (core_inf_ext u units gs (recode u) _ (fun g => nan0 (gB ma 0 g))).
      2: { intros g _. unfold gB. rewrite map_mv_0 by apply group_cells_sub. reflexivity. }
      eapply D_ext; [|apply (core u units h gs (recode u) (fun g e => nan0 (gB ma e g)) (fun g => mean_inf n (group_cells ma u cells (recode u g))))].
      + apply near0_all. intros e. rewrite group_att_mv. cbn zeta. fold gs. rewrite GN. cbn [overall_value a_overall]. symmetry. apply sumf_div_in.
      + intros g _. apply D_gB.
      + intros _. assert (SP : forall g, In g gs -> 0 < group_prob u units (recode u g)).
        { intros g Hg. apply zuniq_in, in_map_iff in Hg. destruct Hg as [k [<- Hk]]. unfold u. rewrite group_prob_share by (apply u_g, Hk). apply PS, Hk. }
        apply Qc_pos_neq0, sumf_pos; [intros g Hg; apply Qclt_le_weak, SP, Hg|]. destruct gs as [|g gs']; [congruence|]. exists g. split; [left; reflexivity|apply SP; left; reflexivity].
    - intros i. destruct (Nat.lt_ge_cases i (length gs)) as [Hi|Hi].
      + rewrite (nth_map_in _ _ _ 0%Z) by exact Hi. refine (D_ext _ _ _ _ (D_gB ma (nth i gs 0%Z))).
        apply near0_all. intros e. rewrite group_att_mv. cbn zeta. fold gs. rewrite GN. unfold by_value. cbn [a_by]. rewrite (nth_map_in _ _ _ 0%Z) by exact Hi. reflexivity.
      + rewrite (nth_overflow (map _ gs)) by (rewrite map_length; exact Hi). apply (D_ext (fun _ => 0)).
        * apply near0_all. intros e. rewrite group_att_mv. cbn zeta. fold gs. rewrite GN. unfold by_value. cbn [a_by]. rewrite nth_overflow by (rewrite map_length; exact Hi). reflexivity.
        * apply (D_eq _ 0); [|apply D_const]. unfold havg. rewrite sumf_zero; [unfold Qcdiv; ring|]. intros j _. destruct j; cbn; ring.
  Qed.
  (** event times and calendar periods: keyed averages *)
  Definition cB (C : Z -> list kcell) (e : Qc) (key : Z) : option Qc := cov_att (cell_prob u (reweigh e h units)) (map (mv F e) (C key)).
  Definition nonempty {A} (l : list A) : bool := match l with [] => false | _ => true end.
  Lemma somes_cB C e K : somes (map (cB C e) K) = map (fun key => wsum (cell_prob u (reweigh e h units)) (map (mv F e) (C key))) (filter (fun key => nonempty (C key)) K).
  Proof. induction K as [|k K IH]; [reflexivity|]. cbn [map somes flat_map filter]. unfold cB at 1. destruct (C k) eqn:E; cbn [nonempty map cov_att app]; [exact IH|]. rewrite E. cbn [map]. f_equal. exact IH. Qed.
  Lemma keyed_overall C K : (forall key k, In k (C key) -> In k cells) ->
    derivative_at_0 (fun e => nan0 (nanmean (map (cB C e) K))) (havg n h (mean_cols n (map (fun key => cov_inf u units (C key)) (filter (fun key => nonempty (C key)) K)))).
  Proof.
    intros HC. set (K' := filter (fun key => nonempty (C key)) K).
    rewrite havg_mean_cols, sumf_map, map_length.
    eapply D_ext; [|apply (D_mean K' (fun key e => wsum (cell_prob u (reweigh e h units)) (map (mv F e) (C key))) (fun key => havg n h (cov_inf u units (C key))))].
    - apply near0_all. intros e. rewrite nan0_nanmean, somes_cB. fold K'. unfold mean. rewrite sumf_map, map_length. reflexivity.
    - intros key Hkey. apply filter_In in Hkey. destruct Hkey as [_ Hn]. refine (D_eq _ _ _ _ (D_wsum (C key) (HC key))). unfold cov_inf. destruct (C key); [discriminate|reflexivity].
  Qed.
  Lemma keyed_by C K i : (forall key k, In k (C key) -> In k cells) ->
    derivative_at_0 (fun e => nan0 (nth i (map (cB C e) K) None)) (havg n h (nth i (map (fun key => cov_inf u units (C key)) K) [])).
  Proof.
    intros HC. destruct (Nat.lt_ge_cases i (length K)) as [Hi|Hi].
    - rewrite (nth_map_in _ _ _ 0%Z) by exact Hi. refine (D_ext _ _ _ _ (D_cov (C (nth i K 0%Z)) (HC _))).
      apply near0_all. intros e. rewrite (nth_map_in _ _ _ 0%Z) by exact Hi. reflexivity.
    - rewrite (nth_overflow (map _ K)) by (rewrite map_length; exact Hi). apply (D_ext (fun _ => 0)).
      + apply near0_all. intros e. rewrite nth_overflow by (rewrite map_length; exact Hi). reflexivity.
      + apply (D_eq _ 0); [|apply D_const]. unfold havg. rewrite sumf_zero; [unfold Qcdiv; ring|]. intros j _. destruct j; cbn; ring.
  Qed.
  Lemma by_value_some i r : by_value i (Some r) = nan0 (nth i (a_by r) None). Proof. reflexivity. Qed.
  Lemma overall_value_some r : overall_value (Some r) = nan0 (a_overall r). Proof. reflexivity. Qed.

  Section Dyn.
    Context (be mi ma : option Z).
    Lemma max_orig_mv e : max_orig u (map (mv F e) cells) = max_orig u cells. Proof. unfold max_orig. rewrite map_map. reflexivity. Qed.
    Lemma min_orig_mv e : min_orig u (map (mv F e) cells) = min_orig u cells. Proof. unfold min_orig. rewrite map_map. reflexivity. Qed.
    Lemma include_mv e k : include u (map (mv F e) cells) be k = include u cells be k.
    Proof. unfold include. rewrite max_orig_mv. reflexivity. Qed.
    Lemma event_list_mv e : event_list u (map (mv F e) cells) be mi ma = event_list u cells be mi ma.
    Proof.
      unfold event_list. rewrite max_orig_mv, min_orig_mv.
      assert (E : map event (filter (include u (map (mv F e) cells) be) (map (mv F e) cells)) = map event (filter (include u cells be) cells)).
      { rewrite (filter_ext_in' _ (include u cells be)) by (intros; apply include_mv). rewrite filter_mv by reflexivity. rewrite map_map. reflexivity. }
      rewrite E. reflexivity.
    Qed.
    Lemma event_cells_mv e ev : event_cells u (map (mv F e) cells) be ev = map (mv F e) (event_cells u cells be ev).
    Proof. unfold event_cells. rewrite <- filter_mv by reflexivity. apply filter_ext_in'. intros k _. rewrite include_mv. reflexivity. Qed.
    Lemma event_cells_sub ev k : In k (event_cells u cells be ev) -> In k cells.
    Proof. intros H. apply filter_In in H. apply H. Qed.
    Lemma event_cells_nonempty ev : In ev (event_list u cells be mi ma) -> nonempty (event_cells u cells be ev) = true.
    Proof.
      intros H. assert (W := proj1 (event_list_in cells be mi ma ev) H). destruct W as [[k [Hk [E1 E2]]] _]. unfold u. rewrite event_cells_eq.
      assert (E : covers TDynamic cells be None ev k = true) by (cbn [covers]; rewrite E2, E1, Z.eqb_refl; reflexivity).
      destruct (filter _ cells) eqn:EF; [|reflexivity]. exfalso. assert (Hin : In k (filter (covers TDynamic cells be None ev) cells)) by (apply filter_In; auto). rewrite EF in Hin. destruct Hin.
    Qed.
    Lemma dynamic_mv e : dynamic_att (reweigh e h units) be mi ma (map (mv F e) cells) =
      let evs := event_list u cells be mi ma in let B := cB (event_cells u cells be) e in
      let I := fun ev => cov_inf u (reweigh e h units) (map (mv F e) (event_cells u cells be ev)) in
      let ps := filter (fun ev => (0 <=? ev)%Z) evs in
      guard evs {| a_overall := nanmean (map B ps); a_keys := evs; a_by := map B evs; a_inf_by := map I evs;
        a_inf := match ps with [] => repeat 0 (length (reweigh e h units)) | _ => mean_cols (length (reweigh e h units)) (map I ps) end |}.
    Proof.
      unfold dynamic_att. rewrite all_vals_mv. fold u. rewrite event_list_mv. cbn zeta. set (evs := event_list u cells be mi ma).
      rewrite (map_ext_in (fun ev => cov_att _ (event_cells u (map (mv F e) cells) be ev)) (cB (event_cells u cells be) e) evs) by (intros ev _; unfold cB; rewrite event_cells_mv; reflexivity).
      rewrite (map_ext_in (fun ev => cov_inf _ _ (event_cells u (map (mv F e) cells) be ev)) (fun ev => cov_inf u (reweigh e h units) (map (mv F e) (event_cells u cells be ev))) evs) by (intros ev _; rewrite event_cells_mv; reflexivity).
      rewrite combine_maps, (filter_combine_map (fun ev => (0 <=? ev)%Z)). set (ps := filter _ evs). rewrite !map_map. cbn [fst snd].
      f_equal. destruct ps; reflexivity.
    Qed.
    Lemma filter_all {A} (p : A -> bool) l : (forall a, In a l -> p a = true) -> filter p l = l.
    Proof. induction l as [|a l IH]; intros H; [reflexivity|]. cbn. rewrite H by (left; reflexivity). f_equal. apply IH. intros; apply H; right; assumption. Qed.
    Lemma dynamic_deriv r : dynamic_att units be mi ma cells = Some r ->
      derivative_at_0 (fun e => overall_value (dynamic_att (reweigh e h units) be mi ma (map (mv F e) cells))) (havg n h (a_inf r)) /\
      forall i, derivative_at_0 (fun e => by_value i (dynamic_att (reweigh e h units) be mi ma (map (mv F e) cells))) (havg n h (nth i (a_inf_by r) [])).
    Proof.
      intros E. unfold dynamic_att in E. fold u in E. apply guard_some in E. destruct E as [-> NE].
      cbn [a_inf a_inf_by]. set (evs := event_list u cells be mi ma) in *. rewrite combine_maps, (filter_combine_map (fun ev => (0 <=? ev)%Z)). set (ps := filter (fun ev => (0 <=? ev)%Z) evs).
      assert (GN : forall x, guard evs x = Some x) by (intros x; destruct evs; [congruence|reflexivity]).
      split.
      - eapply D_ext; [apply near0_all; intros e; rewrite dynamic_mv; cbn zeta; fold evs; rewrite GN, overall_value_some; cbn [a_overall]; reflexivity|]. fold ps.
        refine (D_eq _ _ _ _ (keyed_overall (event_cells u cells be) ps event_cells_sub)).
        rewrite filter_all by (intros ev Hev; apply event_cells_nonempty; apply filter_In in Hev; apply Hev).
        rewrite map_map. cbn [snd]. destruct ps as [|p0 ps0]; [|reflexivity]. cbn [map]. fold n. rewrite havg_repeat0, havg_mean_cols. cbn. unfold Qcdiv. ring.
      - intros i. eapply D_ext; [apply near0_all; intros e; rewrite dynamic_mv; cbn zeta; fold evs; rewrite GN, by_value_some; cbn [a_by]; reflexivity|].
        apply keyed_by, event_cells_sub.
    Qed.
  End Dyn.
  Lemma calendar_cells_sub t k : In k (calendar_cells u cells t) -> In k cells.
  Proof. intros H. apply filter_In in H. apply H. Qed.
  Definition cal_ts : list Z := filter (fun t => (zmin (map (rg u) cells) <=? t)%Z) (zuniq (map (rt u) cells)).
  Lemma calendar_mv e : exists infs inf, calendar_att (reweigh e h units) (map (mv F e) cells) =
    guard cal_ts {| a_overall := nanmean (map (cB (calendar_cells u cells) e) cal_ts); a_keys := map (t2orig u) cal_ts;
      a_by := map (cB (calendar_cells u cells) e) cal_ts; a_inf_by := infs; a_inf := inf |}.
  Proof.
    eexists. eexists. unfold calendar_att. rewrite all_vals_mv. fold u. cbn zeta. rewrite !map_map.
    change (filter (fun t => (zmin (map (fun x => rg u (mv F e x)) cells) <=? t)%Z) (zuniq (map (fun x => rt u (mv F e x)) cells))) with cal_ts.
    rewrite (map_ext (fun t => cov_att (cell_prob u (reweigh e h units)) (calendar_cells u (map (mv F e) cells) t)) (cB (calendar_cells u cells) e)).
    - reflexivity.
    - intros t. unfold cB, calendar_cells. rewrite filter_mv by reflexivity. reflexivity.
  Qed.
  Lemma valid_map (B : Z -> option Qc) (I : Z -> list Qc) C K : (forall key, match B key with Some _ => true | None => false end = nonempty (C key)) ->
    filter (fun q : option Qc * list Qc => match fst q with Some _ => true | None => false end) (combine (map B K) (map I K)) =
    map (fun key => (B key, I key)) (filter (fun key => @nonempty kcell (C key)) K).
  Proof. intros H. induction K as [|k K IH]; [reflexivity|]. specialize (H k). cbn [map combine filter fst]. rewrite IH. destruct (B k) eqn:EB; rewrite <- H; cbn [map]; rewrite ?EB; reflexivity. Qed.
  Lemma calendar_deriv r : calendar_att units cells = Some r ->
    derivative_at_0 (fun e => overall_value (calendar_att (reweigh e h units) (map (mv F e) cells))) (havg n h (a_inf r)) /\
    forall i, derivative_at_0 (fun e => by_value i (calendar_att (reweigh e h units) (map (mv F e) cells))) (havg n h (nth i (a_inf_by r) [])).
  Proof.
    intros E. unfold calendar_att in E. fold u in E. change (filter (fun t => (zmin (map (rg u) cells) <=? t)%Z) (zuniq (map (rt u) cells))) with cal_ts in E. apply guard_some in E. destruct E as [-> NE].
    cbn [a_inf a_inf_by]. 
    assert (GN : forall x, guard cal_ts x = Some x) by (intros x; destruct cal_ts; [congruence|reflexivity]).
    rewrite (valid_map _ _ (calendar_cells u cells)) by (intros key; unfold cov_att; destruct (calendar_cells u cells key); reflexivity).
    split.
    - apply (D_ext (fun e => nan0 (nanmean (map (cB (calendar_cells u cells) e) cal_ts)))).
      + apply near0_all. intros e. destruct (calendar_mv e) as [i1 [i2 ->]]. rewrite GN, overall_value_some. cbn [a_overall]. reflexivity.
      + refine (D_eq _ _ _ _ (keyed_overall (calendar_cells u cells) cal_ts calendar_cells_sub)).
        rewrite map_map. cbn [snd]. set (ks := filter _ cal_ts). destruct ks as [|p0 ps0]; [|reflexivity]. cbn [map]. fold n. rewrite havg_repeat0, havg_mean_cols. cbn. unfold Qcdiv. ring.
    - intros i. apply (D_ext (fun e => nan0 (nth i (map (cB (calendar_cells u cells) e) cal_ts) None))).
      + apply near0_all. intros e. destruct (calendar_mv e) as [i1 [i2 ->]]. rewrite GN, by_value_some. cbn [a_by]. reflexivity.
      + apply keyed_by, calendar_cells_sub.
  Qed.
End Agg.

Lemma keep_finite_in mp k : In k (keep_finite mp) -> In (back k) mp.
Proof.
  unfold keep_finite. rewrite in_flat_map. intros [m [Hm H]]. destruct m as [g t [a|] inf]; cbn in H; [|destruct H]. destruct H as [<-|[]]. exact Hm.
Qed.
Lemma clean_in dropna isg mp cells k : clean_cells dropna isg mp = Some cells -> In k cells -> In (back k) mp.
Proof.
  unfold clean_cells. intros H Hk. apply keep_finite_in. destruct dropna.
  - injection H as <-. unfold drop_na in Hk. destruct isg; [apply filter_In in Hk; apply Hk|exact Hk].
  - destruct (existsb _ mp); [discriminate|]. injection H as <-. exact Hk.
Qed.
Lemma aggte_derivative ty dropna be mi ma units mp h F r :
  (forall m, In m mp -> m_att m <> None -> 0 < share units (m_g m)) -> paths_of (length units) h F mp ->
  aggte ty dropna be mi ma units mp = Some r ->
  let path e := aggte ty dropna be mi ma (reweigh e h units) (map (move F e) mp) in
  derivative_at_0 (fun e => overall_value (path e)) (havg (length units) h (a_inf r)) /\
  forall i, derivative_at_0 (fun e => by_value i (path e)) (havg (length units) h (nth i (a_inf_by r) [])).
Proof.
  intros PS0 PK0 E. cbn zeta. unfold aggte in *. destruct (clean_cells dropna (is_tgroup ty) mp) as [cells|] eqn:EC; [|discriminate].
  assert (PS : forall k, In k cells -> 0 < share units (k_g k)).
  { intros k Hk. apply (PS0 (back k)); [eapply clean_in; eassumption|discriminate]. }
  assert (PK : forall k, In k cells -> F (back k) 0 = k_att k /\ derivative_at_0 (F (back k)) (havg (length units) h (k_inf k))).
  { intros k Hk. apply (PK0 (back k)); [eapply clean_in; eassumption|reflexivity]. }
  assert (EM : forall e, clean_cells dropna (is_tgroup ty) (map (move F e) mp) = Some (map (mv F e) cells)) by (intros e; rewrite clean_move, EC; reflexivity).
  destruct ty; cbn [is_tgroup] in *.
  - injection E as <-. split.
    + eapply D_ext; [|apply (simple_deriv cells units h F PK PS ma)]. apply near0_all. intros e. rewrite EM. reflexivity.
    + intros i. apply (D_ext (fun _ => 0)); [apply near0_all; intros e; rewrite EM; unfold by_value, simple_att; cbn [a_by]; destruct i; reflexivity|].
      apply (D_eq _ 0); [|apply D_const]. unfold havg. rewrite sumf_zero; [unfold Qcdiv; ring|]. intros j _. unfold simple_att. cbn [a_inf_by]. destruct i, j; cbn; ring.
  - destruct (group_deriv cells units h F PK PS ma r E) as [A B]. split; [|intros i; specialize (B i)]; (eapply D_ext; [|eassumption]); apply near0_all; intros e; rewrite EM; reflexivity.
  - destruct (dynamic_deriv cells units h F PK PS be mi ma r E) as [A B]. split; [|intros i; specialize (B i)]; (eapply D_ext; [|eassumption]); apply near0_all; intros e; rewrite EM; reflexivity.
  - destruct (calendar_deriv cells units h F PK PS r E) as [A B]. split; [|intros i; specialize (B i)]; (eapply D_ext; [|eassumption]); apply near0_all; intros e; rewrite EM; reflexivity.
Qed.
