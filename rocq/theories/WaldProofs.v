(** Proofs for C123. *)
From Verif Require Import Base ListLib AttGtModel AggteModel SeModel WaldModel WaldSpec.

Definition wpre (n : nat) (cells : list wcell) : list wcell := filter (fun c => negb (w_nan n c)) (filter (fun c => (w_t c <? w_g c)%Z) cells).
Lemma comb_sum (a b : list Qc) n : length a = n -> length b = n -> sumf (fun p => fst p * snd p) (combine a b) = sumf (fun u => nth u a 0 * nth u b 0) (seq 0 n).
Proof.
  revert a b. induction n as [|n IH]; intros [|x a] [|y b] La Lb; try discriminate; [reflexivity|].
  cbn [combine seq]. rewrite !sumf_cons. cbn [fst snd nth]. rewrite IH by (cbn in *; lia). rewrite <- seq_shift, sumf_map. reflexivity.
Qed.
Lemma vcov_wcov n a b : length (w_inf a) = n -> length (w_inf b) = n -> vcov n (w_inf a) (w_inf b) = wcov n a b.
Proof. intros A B. unfold vcov, wcov. rewrite (comb_sum _ _ n A B). reflexivity. Qed.
Lemma se2_wsqerr n c : length (w_inf c) = n -> se2 n (w_inf c) = wsqerr n c.
Proof. intros L. unfold se2, wsqerr. unfold vcov. rewrite (comb_sum _ _ n L L). unfold Qcdiv. rewrite Qcinv_mult_distr. ring. Qed.
Lemma w_nan_iff n c : length (w_inf c) = n -> negb (w_nan n c) = true <-> Q2Qc (100 # 4503599627370496) < wsqerr n c.
Proof.
  intros L. unfold w_nan, reported_se2. rewrite (se2_wsqerr n c L). unfold se_floor2.
  destruct (Qcleb_spec (wsqerr n c) (Q2Qc (100 # 4503599627370496))) as [H|H]; cbn [negb].
  - split; [discriminate|]. intros X. exfalso. exact (Qclt_not_le _ _ X H).
  - split; [intros _; apply Qcnot_le_lt; exact H|reflexivity].
Qed.
Lemma wpre_iff n cells c : wtable n cells -> In c (wpre n cells) <-> wtested n cells c.
Proof.
  intros [L _]. unfold wpre, wtested. rewrite !filter_In. rewrite Z.ltb_lt. split.
  - intros [[A B] C]. split; [exact A|]. split; [exact B|]. apply (w_nan_iff n c (L c A)), C.
  - intros [A [B C]]. split; [split; [exact A|exact B]|]. apply (w_nan_iff n c (L c A)), C.
Qed.
Lemma nodup_filter_key (p : wcell -> bool) l : NoDup (map (fun c => (w_g c, w_t c)) l) -> NoDup (map (fun c => (w_g c, w_t c)) (filter p l)).
Proof.
  induction l as [|c l IH]; [intros; constructor|]. cbn [map filter]. intros H. inversion H as [|k ks N D]; subst. destruct (p c); [|apply IH, D].
  cbn [map]. constructor; [|apply IH, D]. intros X. apply N. apply in_map_iff in X. destruct X as [y [E Y]]. apply in_map_iff. exists y. split; [exact E|]. apply filter_In in Y. apply Y.
Qed.
Lemma wpre_table n cells : wtable n cells -> wtable n (wpre n cells).
Proof.
  intros [L D]. split; [|apply nodup_filter_key, nodup_filter_key, D]. intros c Hc. apply filter_In in Hc. destruct Hc as [Hc _]. apply filter_In in Hc. apply L, Hc.
Qed.
Lemma fun_of_list (T : list wcell) : NoDup (map (fun c => (w_g c, w_t c)) T) -> forall xs : list Qc, length xs = length T -> exists f, map f T = xs.
Proof.
  induction T as [|c T IH]; intros D [|x xs] L; try discriminate L; [exists (fun _ => 0); reflexivity|].
  cbn [map] in D. inversion D as [|k ks N D']; subst. destruct (IH D' xs ltac:(cbn in L; lia)) as [f E].
  exists (fun u => if ((w_g u =? w_g c) && (w_t u =? w_t c))%Z then x else f u). cbn [map]. rewrite !Z.eqb_refl. cbn [andb]. f_equal. rewrite <- E. apply map_ext_in. intros u Hu.
  destruct (Z.eqb_spec (w_g u) (w_g c)) as [G|]; [|reflexivity]. destruct (Z.eqb_spec (w_t u) (w_t c)) as [T'|]; [|reflexivity].
  exfalso. apply N. apply in_map_iff. exists u. rewrite G, T'. split; [reflexivity|exact Hu].
Qed.
Lemma comb_map {A} (f g : A -> Qc) (l : list A) : sumf (fun p => fst p * snd p) (combine (map f l) (map g l)) = sumf (fun a => f a * g a) l.
Proof. induction l as [|a l IH]; [reflexivity|]. cbn [map combine]. rewrite !sumf_cons, IH. reflexivity. Qed.
Lemma map_eq_in {A} (f g : A -> Qc) l : map f l = map g l -> forall a, In a l -> f a = g a.
Proof. induction l as [|b l IH]; [intros _ a []|]. cbn [map]. intros E. injection E as E1 E2. intros a [<-|H]; [exact E1|apply IH; assumption]. Qed.
Lemma wcov_sym n a b : wcov n a b = wcov n b a.
Proof. unfold wcov. f_equal. apply sumf_ext. intros; ring. Qed.
(** the quadratic form is a sum of squares *)
Lemma cov_comb n T x a : sumf (fun b => wcov n a b * x b) T = sumf (fun u => nth u (w_inf a) 0 * sumf (fun c => x c * nth u (w_inf c) 0) T) (seq 0 n) / qn n.
Proof.
  unfold wcov. rewrite (sumf_ext _ (fun b => sumf (fun u => nth u (w_inf a) 0 * (x b * nth u (w_inf b) 0)) (seq 0 n) * / qn n)).
  - rewrite sumf_mul_r. unfold Qcdiv. f_equal. rewrite sumf_swap. apply sumf_ext. intros u _. apply sumf_mul_l.
  - intros b _. unfold Qcdiv. rewrite (sumf_ext (fun u => nth u (w_inf a) 0 * (x b * nth u (w_inf b) 0)) (fun u => (nth u (w_inf a) 0 * nth u (w_inf b) 0) * x b)) by (intros; ring). rewrite sumf_mul_r. ring.
Qed.
Lemma quad_squares n T x : sumf (fun a => x a * sumf (fun b => wcov n a b * x b) T) T = sumf (fun u => let s := sumf (fun c => x c * nth u (w_inf c) 0) T in s * s) (seq 0 n) / qn n.
Proof.
  rewrite (sumf_ext _ (fun a => sumf (fun u => (x a * nth u (w_inf a) 0) * sumf (fun c => x c * nth u (w_inf c) 0) T) (seq 0 n) * / qn n)).
  - rewrite sumf_mul_r. unfold Qcdiv. f_equal. rewrite sumf_swap. apply sumf_ext. intros u _. cbn zeta. apply sumf_mul_r.
  - intros a _. rewrite cov_comb. unfold Qcdiv. rewrite Qcmult_assoc. f_equal. rewrite <- sumf_mul_l. apply sumf_ext. intros; ring.
Qed.
Lemma sq_nonneg (x : Qc) : 0 <= x * x.
Proof. destruct (Qclt_le_dec x 0) as [H|H]; [|apply Qcmult_nonneg; exact H]. assert (E : x * x = (- x) * (- x)) by ring. rewrite E. apply Qcmult_nonneg; apply Qclt_le_weak in H; apply Qcopp_le_compat in H; exact H. Qed.
Lemma sum_sq_zero {A} (f : A -> Qc) l : sumf (fun a => f a * f a) l = 0 -> forall a, In a l -> f a = 0.
Proof.
  intros E a Ha. destruct (Qceqb_spec (f a) 0) as [|N]; [assumption|]. exfalso. assert (P : 0 < sumf (fun a => f a * f a) l).
  { apply sumf_pos; [intros; apply sq_nonneg|]. exists a. split; [exact Ha|]. destruct (Qc_dec 0 (f a * f a)) as [[H|H]|H]; [exact H| |].
    - exfalso. exact (Qclt_not_le _ _ H (sq_nonneg (f a))).
    - symmetry in H. apply Qcmult_integral in H. destruct H; contradiction. }
  rewrite E in P. discriminate P.
Qed.
Lemma wald_unfold o n cells : wald o n cells = wald_of o n (wpre n cells).
Proof. reflexivity. Qed.
Lemma mat_row n T a x : wtable n T -> In a T -> mrow (map (fun b => vcov n (w_inf a) (w_inf b)) T) (map x T) = sumf (fun b => wcov n a b * x b) T.
Proof. intros [L _] Ha. unfold mrow. rewrite comb_map. apply sumf_ext. intros b Hb. rewrite (vcov_wcov n a b (L a Ha) (L b Hb)). reflexivity. Qed.
Lemma wald_of_inv o n T s q p : wsolve_ok o -> wtable n T -> wald_of o n T = WStat s q p ->
  q = length T /\ p = wo_pval o s q /\ wo_full o (wmat n T) = true /\ T <> [] /\ exists x, wsolves n T x /\ s = qn n * sumf (fun a => w_att a * x a) T.
Proof.
  intros SO WT. unfold wald_of. cbn zeta. destruct (wnorm0 (wmat n T)) eqn:N0; [discriminate|]. destruct (wo_full o (wmat n T)) eqn:F; [|discriminate]. cbn [orb negb].
  destruct (wo_solve o (wmat n T) (map w_att T)) as [xs|] eqn:S; [|discriminate]. intros E. injection E as E1 E2 E3. subst.
  assert (LM : length (wmat n T) = length (map w_att T)) by (unfold wmat; rewrite !map_length; reflexivity).
  destruct (SO _ _ _ LM S) as [LX R]. rewrite map_length in LX. destruct (fun_of_list T (proj2 WT) xs LX) as [x EX].
  split; [reflexivity|]. split; [reflexivity|]. split; [reflexivity|]. split; [intros ->; discriminate N0|]. exists x. split.
  - intros a Ha. subst xs. unfold wmat in R. rewrite map_map in R. assert (Q := map_eq_in _ _ T R a Ha). cbn beta in Q. rewrite (mat_row n T a x WT Ha) in Q. exact Q.
  - rewrite <- EX, comb_map. reflexivity.
Qed.
Lemma solves_unique_stat n T x y : wsolves n T x -> wsolves n T y -> sumf (fun a => w_att a * x a) T = sumf (fun a => w_att a * y a) T.
Proof.
  intros X Y. rewrite (sumf_ext _ (fun a => sumf (fun b => wcov n a b * y b * x a) T)) by (intros a Ha; rewrite <- (Y a Ha), sumf_mul_r; reflexivity).
  rewrite sumf_swap. apply sumf_ext. intros b Hb. rewrite <- (X b Hb), <- sumf_mul_r. apply sumf_ext. intros a _. rewrite (wcov_sym n a b). ring.
Qed.
Lemma stat_form n T x : wsolves n T x -> (0 < n)%nat -> qn n * sumf (fun a => w_att a * x a) T = sumf (fun u => let s := sumf (fun c => x c * nth u (w_inf c) 0) T in s * s) (seq 0 n).
Proof.
  intros X Hn. rewrite (sumf_ext _ (fun a => x a * sumf (fun b => wcov n a b * x b) T)) by (intros a Ha; rewrite (X a Ha); ring).
  rewrite quad_squares. unfold Qcdiv. assert (N := qn_neq0 n Hn). field. exact N.
Qed.
Lemma wald_value o n cells s q p : wsolve_ok o -> wtable n cells -> wald o n cells = WStat s q p ->
  q = length (wpre n cells) /\ p = wo_pval o s q /\ (0 < q)%nat /\ (exists x, wsolves n (wpre n cells) x) /\ forall x, wsolves n (wpre n cells) x -> s = qn n * sumf (fun a => w_att a * x a) (wpre n cells).
Proof.
  intros SO WT E. rewrite wald_unfold in E. destruct (wald_of_inv o n _ s q p SO (wpre_table n cells WT) E) as [A [B [_ [C [x [D F]]]]]].
  split; [exact A|]. split; [exact B|]. split; [rewrite A; destruct (wpre n cells); [contradiction|cbn; lia]|]. split; [exists x; exact D|].
  intros y Y. rewrite F, (solves_unique_stat n _ x y D Y). reflexivity.
Qed.
Lemma wald_sign o n cells s q p : wsolve_ok o -> wtable n cells -> (0 < n)%nat -> wald o n cells = WStat s q p -> 0 <= s /\ (s = 0 <-> forall c, wtested n cells c -> w_att c = 0).
Proof.
  intros SO WT Hn E. destruct (wald_value o n cells s q p SO WT E) as [_ [_ [_ [[x X] V]]]]. assert (S := V x X).
  assert (F := stat_form n _ x X Hn). rewrite <- S in F. split.
  - rewrite F. apply sumf_nonneg. intros u _. apply sq_nonneg.
  - split.
    + intros Z c Hc. apply (wpre_iff n cells c WT) in Hc. rewrite <- (X c Hc), cov_comb. rewrite Z in F. symmetry in F. assert (Q := sum_sq_zero _ _ F). cbn beta in Q.
      rewrite (sumf_zero _ (seq 0 n)); [unfold Qcdiv; ring|]. intros u Hu. rewrite (Q u Hu). ring.
    + intros Z. rewrite S. rewrite (sumf_zero _ (wpre n cells)); [ring|]. intros a Ha. rewrite (Z a); [ring|]. apply (wpre_iff n cells a WT), Ha.
Qed.
Lemma filter_perm {A} (p : A -> bool) l l' : Permutation l l' -> Permutation (filter p l) (filter p l').
Proof.
  induction 1; cbn [filter]; [constructor| | |].
  - destruct (p x); [constructor|]; assumption.
  - destruct (p x), (p y); try apply Permutation_refl. apply perm_swap.
  - eapply perm_trans; eassumption.
Qed.
Lemma wald_order o n cells cells' s q p s' q' p' : wsolve_ok o -> wtable n cells -> Permutation cells cells' ->
  wald o n cells = WStat s q p -> wald o n cells' = WStat s' q' p' -> s' = s /\ q' = q /\ p' = p.
Proof.
  intros SO WT P E E'. assert (WT' : wtable n cells').
  { destruct WT as [L D]. split; [intros c Hc; apply L, (Permutation_in c (Permutation_sym P)), Hc|]. exact (Permutation_NoDup (Permutation_map _ P) D). }
  assert (PP : Permutation (wpre n cells) (wpre n cells')) by (apply filter_perm, filter_perm, P).
  destruct (wald_value o n cells s q p SO WT E) as [A [B [_ [[x X] V]]]]. destruct (wald_value o n cells' s' q' p' SO WT' E') as [A' [B' [_ [_ V']]]].
  assert (X' : wsolves n (wpre n cells') x).
  { intros a Ha. rewrite <- (sumf_perm _ _ _ PP). apply X, (Permutation_in a (Permutation_sym PP)), Ha. }
  assert (S : s' = s) by (rewrite (V' x X'), (V x X), (sumf_perm _ _ _ PP); reflexivity).
  assert (Q : q' = q) by (rewrite A, A'; symmetry; apply Permutation_length, PP). subst. split; [reflexivity|]. split; [exact Q|]. rewrite Q. reflexivity.
Qed.
Lemma wald_scale o n cells c s q p s' q' p' : wsolve_ok o -> wtable n cells -> c <> 0 ->
  (forall u, In u cells -> (w_t u < w_g u)%Z -> wtested n cells u <-> Q2Qc (100 # 4503599627370496) < c * c * wsqerr n u) ->
  wald o n cells = WStat s q p -> wald o n (map (wscale c) cells) = WStat s' q' p' -> s' = s /\ q' = q /\ p' = p.
Proof.
  intros SO WT Hc K E E'.
  assert (NI : forall u i, nth i (w_inf (wscale c u)) 0 = c * nth i (w_inf u) 0).
  { intros u i. cbn [wscale w_inf]. assert (Z : c * 0 = 0) by ring. rewrite <- Z at 1. rewrite (map_nth (fun v => c * v)). reflexivity. }
  assert (SQ : forall u, wsqerr n (wscale c u) = c * c * wsqerr n u).
  { intros u. unfold wsqerr. rewrite (sumf_ext _ (fun i => (c * c) * (nth i (w_inf u) 0 * nth i (w_inf u) 0))) by (intros i _; rewrite NI; ring). rewrite sumf_mul_l. unfold Qcdiv. ring. }
  assert (WC : forall a b, wcov n (wscale c a) (wscale c b) = c * c * wcov n a b).
  { intros a b. unfold wcov. rewrite (sumf_ext _ (fun i => (c * c) * (nth i (w_inf a) 0 * nth i (w_inf b) 0))) by (intros i _; rewrite !NI; ring). rewrite sumf_mul_l. unfold Qcdiv. ring. }
  assert (WT' : wtable n (map (wscale c) cells)).
  { destruct WT as [L D]. split; [intros u Hu; apply in_map_iff in Hu; destruct Hu as [v [<- Hv]]; cbn; rewrite map_length; apply L, Hv|]. rewrite map_map. exact D. }
  assert (PM : wpre n (map (wscale c) cells) = map (wscale c) (wpre n cells)).
  { destruct WT as [L _]. assert (KK : forall u, In u cells -> (w_t u < w_g u)%Z -> negb (w_nan n (wscale c u)) = negb (w_nan n u)).
    { intros u Hu Ht. assert (LU := L u Hu). assert (LS : length (w_inf (wscale c u)) = n) by (cbn; rewrite map_length; exact LU).
      assert (I1 := w_nan_iff n u LU). assert (I2 := w_nan_iff n _ LS). rewrite SQ in I2. assert (I3 := K u Hu Ht). unfold wtested in I3.
      destruct (negb (w_nan n (wscale c u))); destruct (negb (w_nan n u)); try reflexivity; exfalso.
      - assert (X : false = true) by (apply I1; apply I3; apply I2; reflexivity). discriminate X.
      - assert (X : false = true) by (apply I2; apply I3; split; [exact Hu|split; [exact Ht|apply I1; reflexivity]]). discriminate X. }
    clear - KK. unfold wpre. induction cells as [|u l IH]; [reflexivity|]. cbn [map filter]. change (w_t (wscale c u)) with (w_t u). change (w_g (wscale c u)) with (w_g u).
    destruct (Z.ltb_spec (w_t u) (w_g u)) as [H|H].
    - cbn [filter]. rewrite (KK u (or_introl eq_refl) H), IH by (intros v Hv; apply KK; right; exact Hv). destruct (negb (w_nan n u)); reflexivity.
    - apply IH. intros v Hv. apply KK. right. exact Hv. }
  destruct (wald_value o n cells s q p SO WT E) as [A [B [_ [_ V]]]]. destruct (wald_value o n _ s' q' p' SO WT' E') as [A' [B' [_ [[x X] V']]]]. rewrite PM in *.
  assert (X' : wsolves n (wpre n cells) (fun u => c * x (wscale c u))).
  { intros a Ha. assert (Y := X (wscale c a) (in_map _ _ _ Ha)). rewrite sumf_map in Y. rewrite (sumf_ext _ (fun b => c * (c * (wcov n a b * x (wscale c b))))) in Y by (intros b _; rewrite WC; ring).
    rewrite !sumf_mul_l in Y. cbn [wscale w_att] in Y. rewrite (sumf_ext _ (fun b => c * (wcov n a b * x (wscale c b)))) by (intros; ring). rewrite sumf_mul_l.
    match goal with |- ?L = _ => transitivity (c * L * / c); [field; exact Hc|] end. rewrite Y. field. exact Hc. }
  assert (S : s' = s).
  { rewrite (V' x X), (V _ X'). f_equal. rewrite sumf_map. apply sumf_ext. intros a _. cbn [wscale w_att]. ring. }
  assert (Q : q' = q) by (rewrite A, A', map_length; reflexivity). subst. split; [reflexivity|]. split; [exact Q|]. rewrite Q. reflexivity.
Qed.
Lemma wald_post o n cells cells' : filter (fun c => (w_t c <? w_g c)%Z) cells = filter (fun c => (w_t c <? w_g c)%Z) cells' -> wald o n cells = wald o n cells'.
Proof. intros E. unfold wald. rewrite E. reflexivity. Qed.
Lemma wald_answered o n cells : wsolve_ok o -> wrank_ok o (length (wpre n cells)) -> wsolve_total o (length (wpre n cells)) -> wtable n cells -> (0 < n)%nat ->
  (exists s q p, wald o n cells = WStat s q p) <-> wpre n cells <> [] /\ windep n (wpre n cells).
Proof.
  intros SO RO ST WT Hn. rewrite wald_unfold. assert (WT' := wpre_table n cells WT). set (T := wpre n cells) in *. assert (LM : length (wmat n T) = length T) by (unfold wmat; apply map_length).
  assert (SQ : forall r, In r (wmat n T) -> length r = length T) by (intros r Hr; apply in_map_iff in Hr; destruct Hr as [a [<- _]]; rewrite map_length; reflexivity).
  assert (RK := RO (wmat n T) LM SQ). rewrite LM in RK.
  assert (IND : wo_full o (wmat n T) = true <-> windep n T).
  { rewrite RK. split.
    - intros H x Hx c Hc. assert (F := H (map x T) (map_length _ _)). rewrite Forall_forall in F. apply F; [|apply in_map, Hc].
      intros r Hr. apply in_map_iff in Hr. destruct Hr as [a [<- Ha]]. rewrite (mat_row n T a x WT' Ha), cov_comb. rewrite (sumf_zero _ (seq 0 n)); [unfold Qcdiv; ring|].
      intros u Hu. apply in_seq in Hu. rewrite Hx by lia. ring.
    - intros H xs LX Hx. destruct (fun_of_list T (proj2 WT') xs LX) as [x <-]. apply Forall_forall. intros v Hv. apply in_map_iff in Hv. destruct Hv as [c [<- Hc]]. apply (H x); [|exact Hc].
      assert (Z : forall a, In a T -> sumf (fun b => wcov n a b * x b) T = 0) by (intros a Ha; rewrite <- (mat_row n T a x WT' Ha); apply Hx; unfold wmat; apply (in_map (fun a => map (fun b => vcov n (w_inf a) (w_inf b)) T)), Ha).
      assert (Q := quad_squares n T x). rewrite (sumf_zero _ T) in Q by (intros a Ha; rewrite (Z a Ha); ring).
      assert (NN := qn_neq0 n Hn). assert (Q' : sumf (fun u => let s := sumf (fun c => x c * nth u (w_inf c) 0) T in s * s) (seq 0 n) = 0).
      { match goal with |- ?L = 0 => transitivity (L / qn n * qn n); [field; exact NN|] end. rewrite <- Q. ring. }
      intros u Hu. exact (sum_sq_zero _ _ Q' u ltac:(apply in_seq; lia)). }
  split.
  - intros [s [q [p E]]]. destruct (wald_of_inv o n T s q p SO WT' E) as [_ [_ [F [NE _]]]]. split; [exact NE|]. apply IND, F.
  - intros [NE I]. apply IND in I. unfold wald_of. cbn zeta.
    assert (N0 : wnorm0 (wmat n T) = false).
    { destruct (wnorm0 (wmat n T)) eqn:N; [|reflexivity]. exfalso. destruct T as [|c T'] eqn:ET; [contradiction|]. unfold wnorm0 in N. rewrite forallb_forall in N.
      assert (Hc : In c (wpre n cells)) by (fold T; rewrite ET; left; reflexivity).
      assert (R := N (map (fun b => vcov n (w_inf c) (w_inf b)) (c :: T')) ltac:(left; reflexivity)). rewrite forallb_forall in R. assert (R' := R (vcov n (w_inf c) (w_inf c)) ltac:(left; reflexivity)).
      destruct (Qceqb_spec (vcov n (w_inf c) (w_inf c)) 0) as [Z|]; [|discriminate R']. apply filter_In in Hc. destruct Hc as [_ Hc].
      unfold w_nan, reported_se2, se2 in Hc. rewrite Z in Hc. assert (Z0 : 0 / qn n = 0) by (unfold Qcdiv; ring). rewrite Z0 in Hc. discriminate Hc. }
    rewrite N0, I. cbn [orb negb]. destruct (ST (wmat n T) (map w_att T) LM SQ ltac:(rewrite map_length; reflexivity) I) as [x ->]. eauto.
Qed.
Lemma wald_dist_same o n cells : wald_dist o n (fun c => reported_se2 (se2 n (w_inf c))) cells = wald o n cells.
Proof.
  unfold wald_dist, wald. cbn zeta. rewrite (filter_ext (fun c => match reported_se2 (se2 n (w_inf c)) with Some _ => true | None => false end) (fun c => negb (w_nan n c))) by (intros c; unfold w_nan; destruct (reported_se2 _); reflexivity).
  destruct (filter (fun c => negb (w_nan n c)) _); [reflexivity|reflexivity].
Qed.

Lemma wpre_tests n cells : wtable n cells -> wpre n cells = wtests n cells.
Proof.
  intros [L _]. unfold wpre, wtests. induction cells as [|c l IH]; [reflexivity|]. cbn [filter]. assert (I := w_nan_iff n c (L c (or_introl eq_refl))). specialize (IH (fun u Hu => L u (or_intror Hu))).
  destruct (w_t c <? w_g c)%Z; cbn [andb filter]; [|exact IH]. destruct (Qcltb_spec (Q2Qc (100 # 4503599627370496)) (wsqerr n c)) as [H|H].
  - rewrite (proj2 I H), IH. reflexivity.
  - destruct (negb (w_nan n c)); [exfalso; apply H, I; reflexivity|exact IH].
Qed.
(** the two by two case *)
Definition det2 (v : list (list Qc)) : Qc := let e i j := nth j (nth i v []) 0 in e 0%nat 0%nat * e 1%nat 1%nat - e 0%nat 1%nat * e 1%nat 0%nat.
Definition wo2 : woracle :=
  {| wo_full := fun v => negb (Qceqb (det2 v) 0);
     wo_solve := fun v a => match v, a with
       | [[e00; e01]; [e10; e11]], [a0; a1] => if Qceqb (det2 v) 0 then None else Some [(e11 * a0 - e01 * a1) / det2 v; (e00 * a1 - e10 * a0) / det2 v]
       | _, _ => None end;
     wo_pval := fun s q => 1 / (1 + s); wo_pval_raw := fun s q => 1 / (1 + s) |}.
Lemma mrow2 a b x y : mrow [a; b] [x; y] = a * x + b * y.
Proof. unfold mrow. cbn [combine]. rewrite !sumf_cons, sumf_nil. cbn [fst snd]. ring. Qed.
Lemma wo2_solve : wsolve_ok wo2.
Proof.
  intros V a x _ E. cbn [wo2 wo_solve] in E. destruct V as [|[|e00 [|e01 [|]]] [|[|e10 [|e11 [|]]] [|]]]; try discriminate E. destruct a as [|a0 [|a1 [|]]]; try discriminate E.
  destruct (Qceqb_spec (det2 [[e00; e01]; [e10; e11]]) 0) as [|N]; [discriminate E|]. injection E as <-. split; [reflexivity|]. cbn [map]. rewrite !mrow2. unfold det2 in *. cbn [nth] in *.
  f_equal; [field; exact N|]. f_equal. field. exact N.
Qed.
Lemma two_rows (V : list (list Qc)) : length V = 2%nat -> (forall r, In r V -> length r = 2%nat) -> exists a b c d, V = [[a; b]; [c; d]].
Proof.
  intros L R. destruct V as [|r1 [|r2 [|]]]; try discriminate L. assert (L1 := R r1 (or_introl eq_refl)). assert (L2 := R r2 (or_intror (or_introl eq_refl))).
  destruct r1 as [|a [|b [|]]]; try discriminate L1. destruct r2 as [|c [|d [|]]]; try discriminate L2. exists a, b, c, d. reflexivity.
Qed.
Lemma wo2_rank : wrank_ok wo2 2.
Proof.
  intros V LV R. destruct (two_rows V LV R) as [a [b [c [d ->]]]]. cbn [wo2 wo_full]. unfold det2. cbn [nth].
  destruct (Qceqb_spec (a * d - b * c) 0) as [Z|N]; cbn [negb]; split; intros H; try reflexivity; try discriminate H.
  - exfalso. destruct (Qceqb_spec a 0) as [A|A].
    + destruct (Qceqb_spec c 0) as [C|C].
      * assert (F := H [1; 0] eq_refl). assert (Y : Forall (fun v => v = 0) [1; 0]) by (apply F; intros r [<-|[<-|[]]]; rewrite mrow2; subst; ring). inversion Y as [|? ? Q _]. discriminate Q.
      * assert (F := H [- d; c] eq_refl). assert (Y : Forall (fun v => v = 0) [- d; c]).
        { apply F. intros r [<-|[<-|[]]]; rewrite mrow2; [|ring]. transitivity (- (a * d - b * c)); [ring|rewrite Z; ring]. }
        inversion Y as [|? ? _ Y']. inversion Y' as [|? ? Q _]. contradiction.
    + assert (F := H [- b; a] eq_refl). assert (Y : Forall (fun v => v = 0) [- b; a]).
      { apply F. intros r [<-|[<-|[]]]; rewrite mrow2; [ring|]. transitivity (a * d - b * c); [ring|exact Z]. }
      inversion Y as [|? ? _ Y']. inversion Y' as [|? ? Q _]. contradiction.
  - intros x LX K. destruct x as [|x [|y [|]]]; try discriminate LX. assert (K1 := K _ (or_introl eq_refl)). assert (K2 := K _ (or_intror (or_introl eq_refl))). rewrite mrow2 in K1, K2.
    assert (X : x * (a * d - b * c) = 0) by (transitivity (d * (a * x + b * y) - b * (c * x + d * y)); [ring|rewrite K1, K2; ring]).
    assert (Y : y * (a * d - b * c) = 0) by (transitivity (a * (c * x + d * y) - c * (a * x + b * y)); [ring|rewrite K1, K2; ring]).
    apply Qcmult_integral in X, Y. destruct X; [|contradiction]. destruct Y; [|contradiction]. repeat constructor; assumption.
Qed.
Lemma wo2_total : wsolve_total wo2 2.
Proof.
  intros V a LV R LA F. destruct (two_rows V LV R) as [e00 [e01 [e10 [e11 ->]]]]. destruct a as [|a0 [|a1 [|]]]; try discriminate LA. cbn [wo2 wo_full wo_solve] in *.
  destruct (Qceqb (det2 [[e00; e01]; [e10; e11]]) 0); [discriminate F|eauto].
Qed.

Definition wpre_all (cells : list wcell) : list wcell := filter (fun c => (w_t c <? w_g c)%Z) cells.
Lemma filter_true {A} (p : A -> bool) l : (forall a, In a l -> p a = true) -> filter p l = l.
Proof. induction l as [|a l IH]; intros H; [reflexivity|]. cbn [filter]. rewrite (H a (or_introl eq_refl)), IH; [reflexivity|]. intros b Hb. apply H. right. exact Hb. Qed.
Lemma cont_same o n cells : wtable n cells -> (forall c, In c cells -> (w_t c < w_g c)%Z -> Q2Qc (100 # 4503599627370496) < wsqerr n c) ->
  match wald o n cells with
  | WNone => wald_cont o n cells = WNone
  | WStat s q p => wald_cont o n cells = WStat s q (wo_pval_raw o s q)
  end.
Proof.
  intros [L D] H. unfold wald, wald_cont. cbn zeta.
  assert (E : filter (fun c => negb (w_nan n c)) (filter (fun c => (w_t c <? w_g c)%Z) cells) = filter (fun c => (w_t c <? w_g c)%Z) cells).
  { apply filter_true. intros c Hc. apply filter_In in Hc. destruct Hc as [Hc Ht]. apply (w_nan_iff n c (L c Hc)), H; [exact Hc|apply Z.ltb_lt, Ht]. }
  assert (K : forall c, In c (filter (fun c => (w_t c <? w_g c)%Z) cells) -> vcov n (w_inf c) (w_inf c) <> 0).
  { intros c Hc. rewrite <- E in Hc. apply filter_In in Hc. destruct Hc as [_ Hn]. intros Z. unfold w_nan, reported_se2, se2 in Hn. rewrite Z in Hn.
    assert (Z0 : 0 / qn n = 0) by (unfold Qcdiv; ring). rewrite Z0 in Hn. discriminate Hn. }
  rewrite E. destruct (filter (fun c => (w_t c <? w_g c)%Z) cells) as [|c T]; [reflexivity|]. unfold wald_of. cbn zeta.
  assert (N0 : wnorm0 (wmat n (c :: T)) = false).
  { destruct (wnorm0 (wmat n (c :: T))) eqn:N; [|reflexivity]. exfalso. unfold wnorm0 in N. rewrite forallb_forall in N. assert (R := N _ (or_introl eq_refl)). rewrite forallb_forall in R.
    assert (R' := R _ (or_introl eq_refl)). destruct (Qceqb_spec (vcov n (w_inf c) (w_inf c)) 0) as [Z|]; [exact (K c (or_introl eq_refl) Z)|discriminate R']. }
  rewrite N0. cbn [orb]. destruct (wo_full o (wmat n (c :: T))); [|reflexivity]. cbn [negb]. destruct (wo_solve o (wmat n (c :: T)) (map w_att (c :: T))); reflexivity.
Qed.
Lemma cont_zero o n cells c : wtable n cells -> wrank_ok o (length (wpre_all cells)) -> In c cells -> (w_t c < w_g c)%Z -> (forall u, (u < n)%nat -> nth u (w_inf c) 0 = 0) ->
  wald_cont o n cells = WNone.
Proof.
  intros [L D] RO Hc Ht Z. unfold wald_cont. cbn zeta. fold (wpre_all cells). set (T := wpre_all cells) in *.
  assert (HT : In c T) by (apply filter_In; split; [exact Hc|apply Z.ltb_lt, Ht]).
  assert (WT : wtable n T) by (split; [intros a Ha; apply filter_In in Ha; apply L, Ha|apply nodup_filter_key, D]).
  assert (LM : length (wmat n T) = length T) by (unfold wmat; apply map_length).
  assert (SQ : forall r, In r (wmat n T) -> length r = length T) by (intros r Hr; apply in_map_iff in Hr; destruct Hr as [a [<- _]]; rewrite map_length; reflexivity).
  assert (F : wo_full o (wmat n T) = false).
  { destruct (wo_full o (wmat n T)) eqn:F; [|reflexivity]. exfalso. assert (R := proj1 (RO _ LM SQ) F). rewrite LM in R.
    set (x := fun a : wcell => ind ((w_g a =? w_g c) && (w_t a =? w_t c))%Z). assert (X := R (map x T) (map_length _ _)). rewrite Forall_forall in X.
    assert (X1 : x c = 0).
    { apply X; [|apply in_map, HT]. intros r Hr. apply in_map_iff in Hr. destruct Hr as [a [<- Ha]]. rewrite (mat_row n T a x WT Ha). apply sumf_zero. intros b Hb. unfold x.
      destruct ((w_g b =? w_g c) && (w_t b =? w_t c))%Z eqn:E; [|cbn [ind]; ring]. apply andb_prop in E. destruct E as [E1 E2]. apply Z.eqb_eq in E1. apply Z.eqb_eq in E2.
      assert (BC : b = c).
      { destruct WT as [_ ND]. clear - ND Hb HT E1 E2. induction T as [|d T IH]; [destruct Hb|]. cbn [map] in ND. inversion ND as [|k ks N D']; subst.
        destruct Hb as [->|Hb], HT as [->|HT]; [reflexivity| | |apply IH; assumption]; exfalso; apply N; apply in_map_iff; [exists c|exists b]; (split; [rewrite ?E1, ?E2; reflexivity|assumption]). }
      subst b. unfold wcov. rewrite (sumf_zero _ (seq 0 n)); [unfold Qcdiv; ring|]. intros u Hu. apply in_seq in Hu. rewrite (Z u) by lia. ring. }
    unfold x in X1. rewrite !Z.eqb_refl in X1. cbn in X1. discriminate X1. }
  rewrite F. destruct T; reflexivity.
Qed.
