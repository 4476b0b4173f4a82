(** C18, C21-C24 and the empty aggregate (C34), centring (C35). *)
From Verif Require Import Base ListLib PreprocessModel PreprocessProofs AttGtModel AggteModel AggteSpec AggteProofs AggteProofs2.

(** * C22 *)
Section Wif.
  Context (cells : list kcell) (units : list unit_rec) (ks : list kcell).
  Context (Hsub : forall k, In k ks -> In k cells).
  Let u := all_vals cells.
  Let S := sumf (fun k => share units (k_g k)) ks.
  (** deviation of unit [x] from the share of the cohort of [k] *)
  Definition dev (x : unit_rec) (k : kcell) : Qc := snd x * ind (grp_eqb (fst x) (Fin (k_g k))) - share units (k_g k).

  Lemma wif_dev_eq x k : In k ks -> wif_dev u units x k = dev x k.
  Proof.
    intros Hk. unfold wif_dev, dev, u. rewrite cell_prob_share by (apply Hsub, Hk). unfold rg.
    rewrite in_group_eq by (apply u_g, Hsub, Hk). reflexivity.
  Qed.
  Lemma wif_eq x k : In k ks ->
    weight_if u units ks x k = dev x k / S - (sumf (dev x) ks / (S * S)) * share units (k_g k).
  Proof.
    intros Hk. unfold weight_if. rewrite wif_dev_eq by exact Hk.
    rewrite (sumf_ext (cell_prob u units) (fun k => share units (k_g k)) ks) by (intros; apply cell_prob_share, Hsub; assumption).
    fold S. rewrite (sumf_ext (wif_dev u units x) (dev x) ks) by (intros; apply wif_dev_eq; assumption).
    unfold u. rewrite cell_prob_share by (apply Hsub, Hk). reflexivity.
  Qed.
  Lemma wif_row_zero x : S <> 0 -> sumf (weight_if u units ks x) ks = 0.
  Proof.
    intros HS. rewrite (sumf_ext _ (fun k => dev x k / S - (sumf (dev x) ks / (S * S)) * share units (k_g k)) ks) by apply wif_eq.
    rewrite sumf_sub, sumf_div, sumf_mul_l. fold S. field. exact HS.
  Qed.
  Lemma dev_mean k : units <> [] -> mean (fun x => dev x k) units = 0.
  Proof.
    intros N. unfold dev. rewrite mean_sub. rewrite (mean_const _ _ N). change (mean _ units) with (share units (k_g k)). ring.
  Qed.
  Lemma wif_col_zero k : units <> [] -> In k ks -> mean (fun x => weight_if u units ks x k) units = 0.
  Proof.
    intros N Hk. rewrite (mean_ext _ (fun x => dev x k * (1 / S) - sumf (dev x) ks * (1 / (S * S) * share units (k_g k)))).
    - rewrite mean_sub, !mean_mul_r, dev_mean by exact N.
      assert (E : mean (fun x => sumf (dev x) ks) units = 0).
      { unfold mean. rewrite sumf_swap. rewrite (sumf_zero _ ks); [apply Qcdiv_0_l|]. intros k' Hk'.
        assert (D := dev_mean k' N). unfold mean in D. apply Qcdiv_eq_iff in D; [|apply qn_neq0; destruct units; [congruence|cbn; lia]].
        rewrite D. ring. }
      rewrite E. ring.
    - intros x _. rewrite wif_eq by exact Hk. unfold Qcdiv. ring.
  Qed.
  (** exact difference quotient of the normalised weights when unit x gets a little more mass *)
  Definition tilted (x : unit_rec) (eps : Qc) (g : Z) : Qc :=
    (1 - eps) * share units g + eps * (snd x * ind (grp_eqb (fst x) (Fin g))).
  Definition tilted_weight (x : unit_rec) (eps : Qc) (k : kcell) : Qc :=
    tilted x eps (k_g k) / sumf (fun k => tilted x eps (k_g k)) ks.
  Lemma tilted_dev x eps k : tilted x eps (k_g k) = share units (k_g k) + eps * dev x k.
  Proof. unfold tilted, dev. ring. Qed.
  Lemma tilted_sum x eps : sumf (fun k => tilted x eps (k_g k)) ks = S + eps * sumf (dev x) ks.
  Proof.
    rewrite (sumf_ext _ (fun k => share units (k_g k) + eps * dev x k) ks) by (intros; apply tilted_dev).
    rewrite sumf_add, sumf_mul_l. reflexivity.
  Qed.
  Lemma tilted_quotient x eps k : In k ks -> S <> 0 -> S + eps * sumf (dev x) ks <> 0 ->
    tilted_weight x eps k - tilted_weight x 0 k = eps * weight_if u units ks x k * (S / (S + eps * sumf (dev x) ks)).
  Proof.
    intros Hk HS HE. unfold tilted_weight. rewrite !tilted_sum, !tilted_dev, wif_eq by exact Hk.
    set (H := sumf (dev x) ks) in *. field. repeat split; try assumption.
  Qed.
End Wif.

Definition is_limit0 (f : Qc -> Qc) (l : Qc) : Prop :=
  forall d, 0 < d -> exists eta, 0 < eta /\ forall eps, - eta < eps -> eps < eta -> eps <> 0 -> - d < f eps - l /\ f eps - l < d.

Lemma Qc_abs_bound (a : Qc) : exists b, 0 < b /\ - b < a /\ a < b.
Proof.
  destruct (Qc_le_or_lt 0 a) as [h|h]; [exists (a + 1)|exists (1 - a)]; repeat split; qclra.
Qed.
Lemma Qcmin_pos (a b : Qc) : 0 < a -> 0 < b -> exists c, 0 < c /\ c <= a /\ c <= b.
Proof. intros. destruct (Qc_le_or_lt a b); [exists a|exists b]; repeat split; try assumption; qclra. Qed.

Lemma limit_ratio (W S H : Qc) : 0 < S -> is_limit0 (fun eps => W * (S / (S + eps * H))) W.
Proof.
  intros HS d Hd. destruct (Qc_abs_bound H) as [h [Ph [H1 H2]]]. destruct (Qc_abs_bound W) as [w [Pw [W1 W2]]].
  (* S + eps H > S/2 if |eps| < S/(2h); |W eps H| < d S / 2 if |eps| < d S / (2 w h) *)
  assert (P1 : 0 < S / ((1+1) * h)) by (apply Qcdiv_pos; qcnra).
  assert (P2 : 0 < d * S / ((1+1) * (w * h))) by (apply Qcdiv_pos; [qcnra|assert (0 < w * h) by qcnra; qclra]).
  destruct (Qcmin_pos _ _ P1 P2) as [eta [Pe [E1 E2]]]. exists eta. split; [exact Pe|]. intros eps L U _.
  assert (B1 : eta * ((1+1) * h) <= S).
  { replace S with (S / ((1+1) * h) * ((1+1) * h)) by (field; repeat split; try discriminate; apply Qc_pos_neq0; assumption).
    assert (0 < (1+1) * h) by qclra. qcnra. }
  assert (B2 : eta * ((1+1) * (w * h)) <= d * S).
  { assert (0 < (1+1) * (w * h)) by (assert (0 < w * h) by qcnra; qclra).
    replace (d * S) with (d * S / ((1+1) * (w * h)) * ((1+1) * (w * h))) by (field; repeat split; try discriminate; apply Qc_pos_neq0; assumption).
    qcnra. }
  set (T := S + eps * H).
  assert (EH : - (eta * h) < eps * H /\ eps * H < eta * h).
  { clear -L U H1 H2 Pe Ph. split; qcnra. }
  assert (PT : S < (1+1) * T) by (unfold T; qclra).
  assert (PT0 : 0 < T) by qclra.
  assert (E : W * (S / T) - W = - (W * (eps * H)) / T) by (unfold T; field; apply Qc_pos_neq0, PT0).
  rewrite E.
  assert (WE : - (w * (eta * h)) < W * (eps * H) /\ W * (eps * H) < w * (eta * h)).
  { destruct EH as [EH1 EH2]. set (q := eps * H) in *. assert (0 < eta * h) by qcnra. set (m := eta * h) in *.
    clear -EH1 EH2 W1 W2 Pw H0. split; qcnra. }
  assert (BB : w * (eta * h) < d * T).
  { replace (w * (eta * h)) with (eta * (w * h)) by ring. assert ((1+1) * (eta * (w*h)) <= d * S) by (replace ((1+1) * (eta * (w*h))) with (eta * ((1+1) * (w*h))) by ring; exact B2).
    assert (d * S < (1+1) * (d * T)) by qcnra. qclra. }
  set (X := W * (eps * H)) in *. assert (PI := Qcinv_pos T PT0).
  assert (EX : - X / T * T = - X) by (field; apply Qc_pos_neq0, PT0).
  set (Y := - X / T) in *. clearbody Y X. clear -EX WE BB PT0 Hd. destruct WE as [A1 A2]. split.
  - destruct (Qc_le_or_lt Y (- d)) as [h1|h1]; [|exact h1]. exfalso. assert (Y * T <= - d * T) by qcnra. qclra.
  - destruct (Qc_le_or_lt d Y) as [h1|h1]; [|exact h1]. exfalso. assert (d * T <= Y * T) by qcnra. qclra.
Qed.

Lemma near0_pos (S H : Qc) : 0 < S -> exists eta, 0 < eta /\ forall eps, - eta < eps -> eps < eta -> 0 < S + eps * H.
Proof.
  intros HS. destruct (Qc_abs_bound H) as [h [Ph [H1 H2]]]. exists (S / h). assert (P := Qcdiv_pos S h HS Ph).
  split; [exact P|]. intros eps L U. assert (E : S / h * h = S) by (field; apply Qc_pos_neq0, Ph).
  set (q := S / h) in *. clearbody q. clear -E L U H1 H2 P Ph. assert (- (q * h) < eps * H) by qcnra. qclra.
Qed.
Lemma wif_derivative cells units ks x k : (forall k, In k ks -> In k cells) -> In k ks ->
  0 < sumf (fun k => share units (k_g k)) ks ->
  is_limit0 (fun eps => (tilted_weight units ks x eps k - tilted_weight units ks x 0 k) / eps)
            (weight_if (all_vals cells) units ks x k).
Proof.
  intros Hsub Hk HS d Hd. set (S := sumf _ ks) in *. set (H := sumf (dev units x) ks).
  destruct (limit_ratio (weight_if (all_vals cells) units ks x k) S H HS d Hd) as [e1 [P1 L1]].
  destruct (near0_pos S H HS) as [e2 [P2 L2]]. destruct (Qcmin_pos _ _ P1 P2) as [eta [Pe [E1 E2]]].
  exists eta. split; [exact Pe|]. intros eps L U N.
  assert (PT : 0 < S + eps * H) by (apply L2; qclra).
  rewrite (tilted_quotient cells units ks Hsub x eps k Hk); [|apply Qc_pos_neq0, HS|apply Qc_pos_neq0, PT].
  fold S. fold H. set (W := weight_if (all_vals cells) units ks x k) in *.
  replace (eps * W * (S / (S + eps * H)) / eps) with (W * (S / (S + eps * H))) by (field; repeat split; first [exact N|apply Qc_pos_neq0, PT]).
  apply L1; [qclra|qclra|exact N].
Qed.

(** * C35: centring *)
Lemma sumf_nth (l : list Qc) {A} (m : list A) s : length l = length m ->
  sumf (fun p => nth (fst p - s) l 0) (combine (seq s (length m)) m) = qsum l.
Proof.
  revert m s. induction l as [|a l IH]; intros [|b m] s H; try discriminate; [reflexivity|]. cbn [length seq combine].
  rewrite sumf_cons. cbn [fst]. rewrite Nat.sub_diag. cbn [nth].
  change (qsum (a :: l)) with (a + qsum l). f_equal. rewrite <- (IH m (S s)) by (cbn in H; lia).
  apply sumf_ext. intros [i x] Hp. apply in_combine_l in Hp. apply in_seq in Hp. cbn [fst].
  replace (i - s)%nat with (S (i - S s)) by lia. reflexivity.
Qed.
Lemma sumf_indexed_nth (l : list Qc) {A} (m : list A) : length l = length m -> sumf (fun p => nth (fst p) l 0) (indexed m) = qsum l.
Proof.
  intros H. rewrite <- (sumf_nth l m 0 H). apply sumf_ext. intros [i x] _. cbn [fst]. rewrite Nat.sub_0_r. reflexivity.
Qed.
Lemma sumf_indexed_snd {A} (f : A -> Qc) (m : list A) : sumf (fun p => f (snd p)) (indexed m) = sumf f m.
Proof.
  unfold indexed. generalize 0%nat. induction m as [|a m IH]; intros s; [reflexivity|]. cbn [length seq combine]. rewrite !sumf_cons.
  cbn [snd]. f_equal. apply IH.
Qed.
Definition centred (n : nat) (psi : list Qc) : Prop := length psi = n /\ qsum psi = 0.

Lemma indexed_length {A} (l : list A) : length (indexed l) = length l.
Proof. unfold indexed. rewrite combine_length, seq_length. lia. Qed.

Lemma weighted_inf_centred cells units ks : (forall k, In k ks -> In (k_g k) (all_vals cells)) -> units <> [] ->
  (forall k, In k ks -> centred (length units) (k_inf k)) ->
  centred (length units) (weighted_inf (all_vals cells) units ks).
Proof.
  intros Hsub N HC. split; [unfold weighted_inf; rewrite map_length; apply indexed_length|].
  unfold weighted_inf. set (u := all_vals cells). change (qsum (map ?f ?l)) with (sumf f l). unfold agg_inf_at. rewrite sumf_add.
  assert (E1 : sumf (fun a => sumf (fun k => nth (fst a) (k_inf k) 0 * norm_weight (cell_prob u units) ks k) ks) (indexed units) = 0).
  { rewrite sumf_swap. apply sumf_zero. intros k Hk. rewrite sumf_mul_r.
    destruct (HC k Hk) as [L Z0]. rewrite (sumf_indexed_nth (k_inf k) units L), Z0. ring. }
  assert (E2 : sumf (fun a => sumf (fun k => weight_if u units ks (snd a) k * k_att k) ks) (indexed units) = 0).
  { rewrite (sumf_indexed_snd (fun x => sumf (fun k => weight_if u units ks x k * k_att k) ks) units).
    rewrite sumf_swap. apply sumf_zero. intros k Hk. rewrite sumf_mul_r.
    assert (W : mean (fun x => weight_if u units ks x k) units = 0).
    { assert (DM : forall k', In k' ks -> mean (fun x => wif_dev u units x k') units = 0).
      { intros k' Hk'. unfold wif_dev. rewrite mean_sub, (mean_const _ _ N). change (cell_prob u units k') with (mean (fun x => snd x * ind (in_group u (rg u k') x)) units).
        set (q := mean _ units). assert (Hq : q - q = 0) by ring. exact Hq. }
      rewrite (mean_ext _ (fun x => wif_dev u units x k * (1 / sumf (cell_prob u units) ks)
               - sumf (wif_dev u units x) ks * (1 / (sumf (cell_prob u units) ks * sumf (cell_prob u units) ks) * cell_prob u units k)))
        by (intros; unfold weight_if, Qcdiv; ring).
      rewrite mean_sub, !mean_mul_r, (DM k Hk).
      assert (EE : mean (fun x => sumf (wif_dev u units x) ks) units = 0).
      { unfold mean. rewrite sumf_swap. rewrite (sumf_zero _ ks); [apply Qcdiv_0_l|]. intros k' Hk'.
        assert (D := DM k' Hk'). unfold mean in D. apply Qcdiv_eq_iff in D; [|apply qn_neq0; destruct units; [congruence|cbn; lia]].
        rewrite D. ring. }
      rewrite EE. ring. }
    unfold mean in W. apply Qcdiv_eq_iff in W; [|apply qn_neq0; destruct units; [congruence|cbn; lia]]. rewrite W. ring. }
  rewrite E1, E2. ring.
Qed.
Lemma qsum_repeat0 n : qsum (repeat 0 n) = 0.
Proof. induction n as [|n IH]; [reflexivity|]. cbn [repeat]. change (qsum (0 :: repeat 0 n)) with (0 + qsum (repeat 0 n)). rewrite IH. ring. Qed.
Lemma centred_zero n : centred n (repeat 0 n).
Proof. split; [apply repeat_length|apply qsum_repeat0]. Qed.
Lemma map_nth_seq (l : list Qc) n : length l = n -> map (fun i => nth i l 0) (seq 0 n) = l.
Proof.
  intros <-. induction l as [|a l IH]; [reflexivity|]. cbn [length seq map nth]. f_equal.
  rewrite <- seq_shift, map_map. exact IH.
Qed.
Lemma sumf_nth_seq (l : list Qc) n : length l = n -> sumf (fun i => nth i l 0) (seq 0 n) = qsum l.
Proof. intros H. unfold sumf. rewrite map_nth_seq by exact H. reflexivity. Qed.
Lemma mean_inf_centred n ks : (forall k, In k ks -> centred n (k_inf k)) -> centred n (mean_inf n ks).
Proof.
  intros HC. unfold mean_inf. destruct ks as [|k0 ks0]; [apply centred_zero|]. set (ks := k0 :: ks0) in *.
  split; [rewrite map_length, seq_length; reflexivity|]. change (qsum (map ?f ?l)) with (sumf f l). unfold agg_inf_at.
  rewrite sumf_add, sumf_swap, (sumf_zero _ ks).
  - rewrite (sumf_zero (fun i => sumf (fun k => 0 * k_att k) ks)); [ring|]. intros i _. apply sumf_zero. intros; ring.
  - intros k Hk. rewrite sumf_mul_r. destruct (HC k Hk) as [L Z0]. rewrite (sumf_nth_seq _ n L), Z0. ring.
Qed.
Lemma mean_cols_centred n cols : (forall c, In c cols -> centred n c) -> centred n (mean_cols n cols).
Proof.
  intros HC. unfold mean_cols. split; [rewrite map_length, seq_length; reflexivity|]. change (qsum (map ?f ?l)) with (sumf f l).
  rewrite sumf_swap. apply sumf_zero. intros c Hc. rewrite sumf_mul_r. destruct (HC c Hc) as [L Z0]. rewrite (sumf_nth_seq _ n L), Z0. ring.
Qed.
Lemma cov_inf_centred cells units ks : (forall k, In k ks -> In k cells) -> units <> [] ->
  (forall k, In k ks -> centred (length units) (k_inf k)) -> centred (length units) (cov_inf (all_vals cells) units ks).
Proof.
  intros Hs N HC. unfold cov_inf. destruct ks as [|k0 ks0]; [apply centred_zero|]. apply weighted_inf_centred; [|exact N|exact HC].
  intros k Hk. apply u_g, Hs, Hk.
Qed.

Lemma used_cells_incl ty dropna mp k : In k (used_cells ty dropna mp) ->
  exists m, In m mp /\ m_g m = k_g k /\ m_t m = k_t k /\ m_att m = Some (k_att k) /\ m_inf m = k_inf k.
Proof.
  intros H. assert (H' : In k (with_effect mp)).
  { unfold used_cells in H. destruct ty; try exact H. destruct dropna; [|exact H]. apply filter_In in H. apply H. }
  unfold with_effect in H'. apply in_flat_map in H' as [m [Hm Hk]]. exists m. split; [exact Hm|].
  destruct (m_att m) as [a|]; [|destruct Hk]. destruct Hk as [<-|[]]. auto.
Qed.
Lemma in_combine_map {A B C} (f : A -> B) (g : A -> C) l b c : In (b, c) (combine (map f l) (map g l)) -> exists a, In a l /\ b = f a /\ c = g a.
Proof. rewrite combine_map2. intros H. apply in_map_iff in H as [a [[= <- <-] Ha]]. eauto. Qed.

Lemma aggte_centred ty dropna be mi ma units mp r : units <> [] ->
  (forall m, In m mp -> centred (length units) (m_inf m)) ->
  aggte ty dropna be mi ma units mp = Some r ->
  centred (length units) (a_inf r) /\ (forall c, In c (a_inf_by r) -> centred (length units) c).
Proof.
  intros N HM H. unfold aggte in H. destruct (clean_cells _ _ mp) as [cells|] eqn:EC; [|discriminate].
  assert (EU := clean_used _ _ _ _ EC).
  assert (HC : forall k, In k cells -> centred (length units) (k_inf k)).
  { intros k Hk. rewrite EU in Hk. destruct (used_cells_incl _ _ _ _ Hk) as [m [Hm [_ [_ [_ E]]]]]. rewrite <- E. apply HM, Hm. }
  clear EC EU HM mp. destruct ty.
  - injection H as <-. split; [|intros c []]. cbn [a_inf simple_att].
    assert (SUB : forall k, In k (post_cells ma (all_vals cells) cells) -> In k cells) by (intros k Hk; apply filter_In in Hk; apply Hk).
    apply weighted_inf_centred; [|exact N|]; intros k Hk; [apply u_g, SUB, Hk|apply HC, SUB, Hk].
  - unfold group_att in H. apply guard_some in H as [-> _]. cbn [a_inf a_inf_by].
    set (u := all_vals cells). set (gs := zuniq (map k_g cells)).
    assert (GI : forall g, centred (length units) (mean_inf (length units) (group_cells ma u cells g))).
    { intros g. apply mean_inf_centred. intros k Hk. apply filter_In in Hk. apply HC, Hk. }
    split.
    + apply weighted_inf_centred; [|exact N|]; intros k Hk; unfold as_cells in Hk; apply in_map_iff in Hk as [[g [a f]] [<- Hp]]; cbn [k_g k_inf].
      * apply in_combine_l in Hp. unfold gs in Hp. rewrite zuniq_in in Hp. apply in_map_iff in Hp as [k [<- Hk]]. apply u_g, Hk.
      * apply in_combine_r in Hp. rewrite !map_map in Hp. apply in_combine_map in Hp as [g' [_ [_ ->]]]. apply GI.
    + intros c Hc. rewrite map_map in Hc. apply in_map_iff in Hc as [g [<- _]]. apply GI.
  - unfold dynamic_att in H. apply guard_some in H as [-> _]. cbn [a_inf a_inf_by].
    assert (EI : forall e, centred (length units) (cov_inf (all_vals cells) units (event_cells (all_vals cells) cells be e))).
    { intros e. apply cov_inf_centred; [|exact N|]; intros k Hk; apply filter_In in Hk; [|apply HC]; apply Hk. }
    split.
    + match goal with |- context [match ?l with [] => _ | _ => _ end] => destruct l as [|q0 qs] eqn:E end; [apply centred_zero|].
      apply mean_cols_centred. intros c Hc. rewrite <- E in Hc. apply in_map_iff in Hc as [[e [b f]] [<- Hp]].
      apply filter_In in Hp as [Hp _]. apply in_combine_r in Hp. apply in_combine_map in Hp as [e' [_ [_ ->]]]. apply EI.
    + intros c Hc. apply in_map_iff in Hc as [e [<- _]]. apply EI.
  - unfold calendar_att in H. apply guard_some in H as [-> _]. cbn [a_inf a_inf_by].
    assert (EI : forall e, centred (length units) (cov_inf (all_vals cells) units (calendar_cells (all_vals cells) cells e))).
    { intros e. apply cov_inf_centred; [|exact N|]; intros k Hk; apply filter_In in Hk; [|apply HC]; apply Hk. }
    split.
    + match goal with |- context [match ?l with [] => _ | _ => _ end] => destruct l as [|q0 qs] eqn:E end; [apply centred_zero|].
      apply mean_cols_centred. intros c Hc. rewrite <- E in Hc. apply in_map_iff in Hc as [[b f] [<- Hp]].
      apply filter_In in Hp as [Hp _]. apply in_combine_map in Hp as [e' [_ [_ ->]]]. apply EI.
    + intros c Hc. apply in_map_iff in Hc as [e [<- _]]. apply EI.
Qed.
