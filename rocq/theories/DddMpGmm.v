(** The GMM combination of several control cohorts: minimum-variance weights. *)
From Verif Require Import Base ReduceModel DrdidModel DddModel DddMpModel DddMpSpec.

Lemma sumf_combine_nth (f : Qc -> Qc -> Qc) a : forall b, length a = length b ->
  sumf (fun p => f (fst p) (snd p)) (combine a b) = sumf (fun i => f (nth i a 0) (nth i b 0)) (seq 0 (length a)).
Proof.
  induction a as [|x a IH]; intros [|y b] L; try discriminate; [reflexivity|]. cbn [combine length seq]. rewrite !sumf_cons. cbn [nth fst snd].
  rewrite IH by (cbn in L; lia). rewrite <- seq_shift, sumf_map. reflexivity.
Qed.
Lemma sumf_nth_list (f : Qc -> Qc) a : sumf f a = sumf (fun i => f (nth i a 0)) (seq 0 (length a)).
Proof. induction a as [|x a IH]; [reflexivity|]. cbn [length seq]. rewrite !sumf_cons, IH, <- seq_shift, sumf_map. reflexivity. Qed.
Lemma qsum_nth a : qsum a = sumf (fun i => nth i a 0) (seq 0 (length a)).
Proof. rewrite <- (sumf_nth_list (fun x => x)). unfold sumf. rewrite map_id. reflexivity. Qed.
Lemma sumf_unit (f : nat -> Qc) i : forall n s, (s <= i < s + n)%nat -> sumf (fun j => ind (i =? j)%nat * f j) (seq s n) = f i.
Proof.
  induction n as [|n IH]; intros s H; [lia|]. cbn [seq]. rewrite sumf_cons. destruct (Nat.eqb_spec i s) as [->|D].
  - cbn [ind]. rewrite sumf_zero; [ring|]. intros j Hj. apply in_seq in Hj. destruct (Nat.eqb_spec s j); [lia|]. cbn [ind]; ring.
  - cbn [ind]. rewrite IH by lia. ring.
Qed.
Lemma sumsq_zero {A} (f : A -> Qc) l : sumf (fun a => f a * f a) l = 0 -> forall a, In a l -> f a = 0.
Proof.
  intros H a Ha. destruct (Qc_eq_dec (f a) 0) as [E|N]; [exact E|]. exfalso.
  assert (P : 0 < sumf (fun a => f a * f a) l).
  { apply sumf_pos; [intros b _; qcnra|]. exists a. split; [exact Ha|]. destruct (Qc_le_or_lt (f a) 0) as [L|L]; [|qcnra].
    destruct (Qc_le_or_lt 0 (f a)) as [L'|L']; [exfalso; apply N; qclra|qcnra]. }
  rewrite H in P. qclra.
Qed.

Section Gmm.
  Context (n : nat) (cols : list (list Qc)) (LN : forall col, In col cols -> length col = n).
  Let c := length cols.
  Let col i := nth i cols [].
  Let mu i := mean (fun x => x) (col i).
  Let dev i r := nth r (col i) 0 - mu i.
  Let N1 := qn n - 1.
  Lemma col_len i : (i < c)%nat -> length (col i) = n.
  Proof. intros H. apply LN, nth_In, H. Qed.
  Definition Dv (u : nat -> Qc) (r : nat) : Qc := sumf (fun i => u i * dev i r) (seq 0 c).
  Definition Bl (u v : nat -> Qc) : Qc := sumf (fun r => Dv u r * Dv v r) (seq 0 n) / N1.
  Lemma cov_dev i j : (i < c)%nat -> (j < c)%nat -> cov (col i) (col j) = sumf (fun r => dev i r * dev j r) (seq 0 n) / N1.
  Proof.
    intros Hi Hj. unfold cov. cbn zeta. rewrite (sumf_combine_nth (fun a b => (a - mean (fun x => x) (col i)) * (b - mean (fun x => x) (col j)))) by (rewrite !col_len; auto).
    rewrite col_len by auto. reflexivity.
  Qed.
  Lemma omega_get i j : (i < c)%nat -> (j < c)%nat -> mget (gmm_omega cols) i j = cov (col i) (col j).
  Proof.
    intros Hi Hj. unfold mget, gmm_omega, mat_of. fold c. rewrite (nth_indep _ [] (map (fun j => cov (nth 0 cols []) (nth j cols [])) (seq 0 c))) by (rewrite map_length, seq_length; exact Hi).
    rewrite (map_nth (fun i => map (fun j => cov (nth i cols []) (nth j cols [])) (seq 0 c))), seq_nth by exact Hi. cbn.
    rewrite (nth_indep _ 0 (cov (nth i cols []) (nth 0 cols []))) by (rewrite map_length, seq_length; exact Hj).
    rewrite (map_nth (fun j => cov (nth i cols []) (nth j cols []))), seq_nth by exact Hj. reflexivity.
  Qed.
  Lemma cov_sym i j : (i < c)%nat -> (j < c)%nat -> cov (col i) (col j) = cov (col j) (col i).
  Proof. intros Hi Hj. rewrite !cov_dev by auto. f_equal. apply sumf_ext. intros; ring. Qed.
  Lemma Bl_cov u v : Bl u v = sumf (fun i => u i * sumf (fun j => cov (col i) (col j) * v j) (seq 0 c)) (seq 0 c).
  Proof.
    unfold Bl, Dv.
    transitivity (sumf (fun r => sumf (fun i => sumf (fun j => u i * dev i r * (v j * dev j r) / N1) (seq 0 c)) (seq 0 c)) (seq 0 n)).
    - rewrite <- sumf_div. apply sumf_ext. intros r _. rewrite <- sumf_mul_r, <- sumf_div. apply sumf_ext. intros i _. rewrite <- sumf_mul_l, <- sumf_div. reflexivity.
    - rewrite sumf_swap. apply sumf_ext. intros i Hi. rewrite sumf_swap, <- sumf_mul_l. apply sumf_ext. intros j Hj.
      apply in_seq in Hi, Hj. rewrite cov_dev by lia. unfold Qcdiv. rewrite <- !sumf_mul_r, <- sumf_mul_l. apply sumf_ext. intros; ring.
  Qed.
  Lemma Bl_sym u v : Bl u v = Bl v u.
  Proof. unfold Bl. f_equal. apply sumf_ext. intros; ring. Qed.
  Lemma Dv_sub u v r : Dv (fun i => u i - v i) r = Dv u r - Dv v r.
  Proof. unfold Dv. rewrite <- sumf_sub. apply sumf_ext. intros; ring. Qed.
  Lemma Dv_scale a u r : Dv (fun i => a * u i) r = a * Dv u r.
  Proof. unfold Dv. rewrite <- sumf_mul_l. apply sumf_ext. intros; ring. Qed.
  Lemma Bl_sub u v : Bl (fun i => u i - v i) (fun i => u i - v i) = Bl u u - (1+1) * Bl u v + Bl v v.
  Proof.
    unfold Bl, Qcdiv. rewrite !(Qcmult_comm _ (/ N1)), <- !sumf_mul_l, <- sumf_sub, <- sumf_add. apply sumf_ext. intros r _. rewrite Dv_sub. ring.
  Qed.
  Lemma Bl_scale_r u a v : Bl u (fun i => a * v i) = a * Bl u v.
  Proof. unfold Bl, Qcdiv. rewrite Qcmult_assoc, <- sumf_mul_l. f_equal. apply sumf_ext. intros r _. rewrite Dv_scale. ring. Qed.
  (** svar of a combination *)
  Lemma comb_nth w a : length w = length a -> comb_vals w a = sumf (fun i => nth i w 0 * nth i a 0) (seq 0 (length w)).
  Proof. intros L. exact (sumf_combine_nth Qcmult w a L). Qed.
  Lemma comb_at w r : length w = c -> comb_vals w (map (fun cl => nth r cl 0) cols) = sumf (fun i => nth i w 0 * nth r (col i) 0) (seq 0 c).
  Proof.
    intros L. rewrite comb_nth by (rewrite map_length; exact L). rewrite L. apply sumf_ext. intros i Hi. f_equal.
    apply in_seq in Hi. rewrite (nth_indep _ 0 (nth r [] 0)) by (rewrite map_length; fold c; lia). rewrite (map_nth (fun cl => nth r cl 0)). reflexivity.
  Qed.
  Lemma comb_col_len w : length (comb_cols n w cols) = n.
  Proof. unfold comb_cols. rewrite map_length, seq_length. reflexivity. Qed.
  Lemma comb_col_mean w : length w = c -> mean (fun x => x) (comb_cols n w cols) = sumf (fun i => nth i w 0 * mu i) (seq 0 c).
  Proof.
    intros L. unfold mean. rewrite comb_col_len. unfold comb_cols. rewrite sumf_map.
    rewrite (sumf_ext _ (fun r => sumf (fun i => nth i w 0 * nth r (col i) 0) (seq 0 c))) by (intros; apply comb_at, L).
    rewrite sumf_swap, <- sumf_div. apply sumf_ext. intros i Hi. apply in_seq in Hi. rewrite sumf_mul_l. unfold mu, mean, Qcdiv. rewrite <- Qcmult_assoc. f_equal. rewrite col_len by lia. f_equal.
    rewrite (sumf_nth_list (fun x => x)), col_len by lia. reflexivity.
  Qed.
  Lemma svar_comb w : length w = c -> svar (comb_cols n w cols) = Bl (fun i => nth i w 0) (fun i => nth i w 0).
  Proof.
    intros L. unfold svar. cbn zeta. rewrite comb_col_len, comb_col_mean by exact L. unfold Bl. f_equal. unfold comb_cols. rewrite sumf_map.
    apply sumf_ext. intros r _. rewrite comb_at by exact L.
    replace (sumf (fun i => nth i w 0 * nth r (col i) 0) (seq 0 c) - sumf (fun i => nth i w 0 * mu i) (seq 0 c)) with (Dv (fun i => nth i w 0) r); [reflexivity|].
    unfold Dv. rewrite <- sumf_sub. apply sumf_ext. intros i _. unfold dev. ring.
  Qed.

  Context (V : matrix).
  Context (INV : forall i j, (i < c)%nat -> (j < c)%nat -> sumf (fun l => mget (gmm_omega cols) i l * mget V l j) (seq 0 c) = ind (i =? j)%nat).
  Context (C0 : (0 < c)%nat).
  Let x i := sumf (fun j => mget V i j) (seq 0 c).
  Lemma inv_cov i j : (i < c)%nat -> (j < c)%nat -> sumf (fun l => cov (col i) (col l) * mget V l j) (seq 0 c) = ind (i =? j)%nat.
  Proof. intros Hi Hj. rewrite <- (INV i j Hi Hj). apply sumf_ext. intros l Hl. apply in_seq in Hl. rewrite omega_get by lia. reflexivity. Qed.
  Lemma n_big : (2 <= n)%nat.
  Proof.
    destruct (le_lt_dec 2 n) as [L|L]; [exact L|]. exfalso.
    assert (Z : forall i j, (i < c)%nat -> (j < c)%nat -> cov (col i) (col j) = 0).
    { intros i j Hi Hj. rewrite cov_dev by auto. destruct n as [|[|n']]; [cbn; apply Qcdiv_0_l| |lia].
      unfold N1. rewrite qn_S, qn_0. replace (1 + 0 - 1) with 0 by ring. unfold Qcdiv. replace (/ 0) with 0 by (apply Qc_is_canon; reflexivity). ring. }
    pose proof (inv_cov 0 0 C0 C0) as H. rewrite sumf_zero in H; [cbn in H; discriminate H|]. intros l Hl. apply in_seq in Hl. rewrite Z by lia. ring.
  Qed.
  Lemma N1_pos : 0 < N1.
  Proof. pose proof n_big as H. unfold N1. destruct n as [|[|n']]; [lia|lia|]. rewrite !qn_S. pose proof (qn_nonneg n'). qclra. Qed.
  Lemma Bl_nonneg u : 0 <= Bl u u.
  Proof. unfold Bl. apply Qcdiv_nonneg; [|exact N1_pos]. apply sumf_nonneg. intros r _. generalize (Dv u r). intros. qcnra. Qed.
  Lemma Bl_zero u : Bl u u = 0 -> forall r, (r < n)%nat -> Dv u r = 0.
  Proof.
    intros H r Hr. unfold Bl in H. apply (Qcdiv_eq_iff _ _ _ (Qc_pos_neq0 _ N1_pos)) in H. rewrite Qcmult_0_l in H.
    apply (sumsq_zero (Dv u) (seq 0 n) H). apply in_seq. lia.
  Qed.
  Lemma omega_x i : (i < c)%nat -> sumf (fun j => cov (col i) (col j) * x j) (seq 0 c) = 1.
  Proof.
    intros Hi. unfold x. rewrite (sumf_ext _ (fun l => sumf (fun j => cov (col i) (col l) * mget V l j) (seq 0 c))) by (intros; rewrite sumf_mul_l; reflexivity).
    rewrite sumf_swap. rewrite (sumf_ext _ (fun j => ind (i =? j)%nat * 1)). { rewrite (sumf_unit (fun _ => 1)); [reflexivity|lia]. }
    intros j Hj. apply in_seq in Hj. rewrite inv_cov by lia. ring.
  Qed.
  Lemma Bl_x u : Bl u x = sumf u (seq 0 c).
  Proof. rewrite Bl_cov. apply sumf_ext. intros i Hi. apply in_seq in Hi. rewrite omega_x by lia. ring. Qed.
  Lemma total_x : gmm_total c V = sumf x (seq 0 c). Proof. reflexivity. Qed.
  Lemma total_pos : 0 < gmm_total c V.
  Proof.
    assert (E : Bl x x = gmm_total c V) by apply Bl_x.
    destruct (Qc_eq_dec (gmm_total c V) 0) as [Z|NZ].
    - exfalso. rewrite Z in E. pose proof (Bl_x (fun i => ind (0 =? i)%nat)) as H.
      rewrite (sumf_ext _ (fun i => ind (0 =? i)%nat * 1)) in H by (intros; ring). rewrite (sumf_unit (fun _ => 1)) in H by lia.
      unfold Bl in H. rewrite sumf_zero in H. { rewrite Qcdiv_0_l in H. discriminate H. }
      intros r Hr. apply in_seq in Hr. rewrite (Bl_zero x E r) by lia. ring.
    - pose proof (Bl_nonneg x) as P. rewrite E in P. destruct (Qc_le_or_lt (gmm_total c V) 0) as [L|L]; [|exact L]. exfalso. apply NZ. qclra.
  Qed.
  Definition gmm_w : list Qc := map (gmm_weight c V) (seq 0 c).
  Lemma gmm_w_len : length gmm_w = c. Proof. unfold gmm_w. rewrite map_length, seq_length. reflexivity. Qed.
  Lemma gmm_w_nth i : (i < c)%nat -> nth i gmm_w 0 = / gmm_total c V * x i.
  Proof.
    intros H. unfold gmm_w. rewrite (nth_indep _ 0 (gmm_weight c V 0)) by (rewrite map_length, seq_length; exact H).
    rewrite map_nth, seq_nth by exact H. cbn. unfold gmm_weight, x. unfold Qcdiv. ring.
  Qed.
  Lemma Bl_ext u u' v v' : (forall i, (i < c)%nat -> u i = u' i) -> (forall i, (i < c)%nat -> v i = v' i) -> Bl u v = Bl u' v'.
  Proof.
    intros Hu Hv. unfold Bl. f_equal. apply sumf_ext. intros r _. unfold Dv. f_equal; apply sumf_ext; intros i Hi; apply in_seq in Hi; rewrite ?Hu, ?Hv by lia; reflexivity.
  Qed.
  Lemma gmm_w_sum : qsum gmm_w = 1.
  Proof.
    rewrite qsum_nth, gmm_w_len. rewrite (sumf_ext _ (fun i => / gmm_total c V * x i)) by (intros i Hi; apply in_seq in Hi; apply gmm_w_nth; lia).
    rewrite sumf_mul_l, <- total_x. field. apply Qc_pos_neq0, total_pos.
  Qed.
  Lemma gmm_w_var : svar (comb_cols n gmm_w cols) = / gmm_total c V.
  Proof.
    rewrite svar_comb by apply gmm_w_len.
    rewrite (Bl_ext _ (fun i => / gmm_total c V * x i) _ (fun i => / gmm_total c V * x i)) by (intros; apply gmm_w_nth; assumption).
    rewrite Bl_scale_r, Bl_x. change (sumf (fun i => / gmm_total c V * x i) (seq 0 c)) with (sumf (fun i => / gmm_total c V * x i) (seq 0 c)). rewrite sumf_mul_l, <- total_x.
    field. apply Qc_pos_neq0, total_pos.
  Qed.
  Lemma omega_inj d : (forall i, (i < c)%nat -> sumf (fun l => cov (col i) (col l) * d l) (seq 0 c) = 0) -> forall j, (j < c)%nat -> d j = 0.
  Proof.
    intros H j Hj.
    assert (E : sumf (fun i => mget V i j * sumf (fun l => cov (col i) (col l) * d l) (seq 0 c)) (seq 0 c) = d j).
    { rewrite (sumf_ext _ (fun i => sumf (fun l => mget V i j * (cov (col i) (col l) * d l)) (seq 0 c))) by (intros; rewrite sumf_mul_l; reflexivity).
      rewrite sumf_swap. rewrite (sumf_ext _ (fun l => ind (j =? l)%nat * d l)). { apply sumf_unit. lia. }
      intros l Hl. apply in_seq in Hl. rewrite Nat.eqb_sym, <- (inv_cov l j) by lia. rewrite <- sumf_mul_r. apply sumf_ext. intros i Hi. apply in_seq in Hi.
      rewrite (cov_sym l i) by lia. ring. }
    rewrite <- E. apply sumf_zero. intros i Hi. apply in_seq in Hi. rewrite H by lia. ring.
  Qed.
  Lemma gmm_w_min : min_variance n cols gmm_w.
  Proof.
    split; [apply gmm_w_len|]. split; [apply gmm_w_sum|]. intros w' L' S'. rewrite (svar_comb w' L'), gmm_w_var.
    set (u := fun i => nth i w' 0). set (wf := fun i => / gmm_total c V * x i).
    assert (SU : sumf u (seq 0 c) = 1). { rewrite <- S', qsum_nth, L'. reflexivity. }
    assert (E : Bl u u - / gmm_total c V = Bl (fun i => u i - wf i) (fun i => u i - wf i)).
    { rewrite Bl_sub. unfold wf. rewrite Bl_scale_r, Bl_x, SU, Bl_scale_r, Bl_x, sumf_mul_l, <- total_x. field. apply Qc_pos_neq0, total_pos. }
    pose proof (Bl_nonneg (fun i => u i - wf i)) as P. rewrite <- E in P. split; [qclra|]. intros EQ.
    rewrite EQ in E. replace (/ gmm_total c V - / gmm_total c V) with 0 in E by ring.
    assert (Z : forall j, (j < c)%nat -> u j - wf j = 0).
    { apply omega_inj. intros i Hi. pose proof (Bl_cov (fun a => ind (i =? a)%nat) (fun j => u j - wf j)) as B. cbn beta in B.
      rewrite (sumf_unit (fun i => sumf (fun j => cov (col i) (col j) * (u j - wf j)) (seq 0 c))) in B by lia. rewrite <- B. unfold Bl.
      rewrite sumf_zero; [apply Qcdiv_0_l|]. intros r Hr. apply in_seq in Hr. rewrite (Bl_zero _ (eq_sym E) r) by lia. ring. }
    apply (nth_ext _ _ 0 0). { rewrite L', gmm_w_len. reflexivity. }
    intros i Hi. rewrite L' in Hi. rewrite gmm_w_nth by exact Hi. specialize (Z i Hi). unfold u, wf in Z. qclra.
  Qed.
End Gmm.

(** gmm_aggregate with an exact inverse *)
Lemma gmm_aggregate_spec q N n atts cols att inf se V : (forall col, In col cols -> length col = n) -> length atts = length cols -> cols <> [] ->
  gmm_inv_ok q -> gm_inv q (gmm_omega cols) = Some V -> gmm_aggregate q N atts cols = (att, inf, se) ->
  exists w, min_variance n cols w /\ att = comb_vals w atts /\ inf = comb_cols n w cols /\ 0 < svar inf /\ se = svar inf / qn N.
Proof.
  intros LN LA NE IO HV E. set (c := length cols) in *. assert (C0 : (0 < c)%nat) by (unfold c; destruct cols; [congruence|cbn; lia]).
  assert (LO : length (gmm_omega cols) = c) by (unfold gmm_omega, mat_of; rewrite map_length, seq_length; reflexivity).
  destruct (IO c _ _ LO HV) as [_ INV].
  pose proof (total_pos n cols LN V INV C0) as TP. pose proof (gmm_w_var n cols LN V INV C0) as WV. pose proof (gmm_w_min n cols LN V INV C0) as WM.
  exists (gmm_w cols V). unfold gmm_aggregate in E. fold c in E. unfold gmm_inverse in E. rewrite HV in E. cbn zeta in E. injection E as E1 E2 E3.
  assert (A2 : inf = comb_cols n (gmm_w cols V) cols).
  { rewrite <- E2. unfold comb_cols. rewrite (LN (nth 0 cols [])) by (apply nth_In; exact C0). apply map_ext. intros r.
    rewrite (comb_at cols _ r (gmm_w_len cols V)). apply sumf_ext. intros i Hi. apply in_seq in Hi. f_equal.
    rewrite gmm_w_nth by lia. unfold gmm_weight, Qcdiv. fold c. cbn beta. ring. }
  split; [exact WM|]. split; [|split; [exact A2|split]].
  - rewrite <- E1. rewrite comb_nth by (rewrite gmm_w_len; symmetry; exact LA). rewrite gmm_w_len. apply sumf_ext. intros i Hi. apply in_seq in Hi.
    rewrite gmm_w_nth by lia. unfold gmm_weight, Qcdiv. fold c. cbn beta. ring.
  - rewrite A2, WV. apply Qcinv_pos, TP.
  - rewrite <- E3, A2, WV. fold c. unfold Qcdiv. rewrite Qcinv_mult_distr. fold c. ring.
Qed.
