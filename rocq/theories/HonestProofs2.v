(** The relative-magnitude, sign and monotonicity systems. *)
From Coq Require Import Qcabs.
From Verif Require Import Base ListLib HonestModel HonestSpec HonestProofs.
Local Open Scope nat_scope.
Local Open Scope list_scope.

Lemma repeat_map_seq {A} (x y : A) p q :
  repeat x p ++ repeat y q = map (fun r => if r <? p then x else y) (seq 0 (p + q)).
Proof.
  rewrite seq_app, map_app. f_equal.
  - rewrite (map_ext_in _ (fun _ => x)).
    + clear. generalize 0. induction p as [|p IH]; intros a; [reflexivity|]. cbn. f_equal. apply IH.
    + intros r H. apply in_seq in H. destruct (Nat.ltb_spec r p); [reflexivity|lia].
  - rewrite (map_ext_in _ (fun _ => y)).
    + generalize (0 + p). induction q as [|q IH]; intros a; [reflexivity|]. cbn. f_equal. apply IH.
    + intros r H. apply in_seq in H. destruct (Nat.ltb_spec r p); [lia|reflexivity].
Qed.
Lemma combine_map_map {A B X} (f : X -> A) (g : X -> B) l : combine (map f l) (map g l) = map (fun x => (f x, g x)) l.
Proof. induction l as [|x l IH]; [reflexivity|]. cbn. rewrite IH. reflexivity. Qed.
Lemma combine_map_map2 {A B} (f : nat -> A) (x y : B) p q :
  combine (map f (seq 0 (p + q))) (repeat x p ++ repeat y q) =
  map (fun r => (f r, if r <? p then x else y)) (seq 0 (p + q)).
Proof. rewrite repeat_map_seq. apply combine_map_map. Qed.

Lemma nth_le_tol row j : tiny_row row = true -> (Qcabs (nth j row 0) <= tol)%Qc.
Proof.
  intros H. unfold tiny_row in H. rewrite forallb_forall in H.
  destruct (Nat.lt_ge_cases j (length row)) as [h|h].
  - specialize (H _ (nth_In row 0%Qc h)). destruct (Qcleb_spec (Qcabs (nth j row 0%Qc)) tol); [assumption|discriminate].
  - rewrite nth_overflow by lia. rewrite Qcabs_pos by apply Qcle_refl. unfold tol, Qcle. cbn. intros X; discriminate.
Qed.
Lemma sumsq_nonneg row : (0 <= qsum (map (fun x => x * x) row))%Qc.
Proof. induction row as [|x row IH]; cbn [map qsum fold_right]; [apply Qcle_refl|]. unfold qsum in IH. qcnra. Qed.
Lemma sumsq_nth row j : (nth j row 0 * nth j row 0 <= qsum (map (fun x => x * x) row))%Qc.
Proof.
  revert j; induction row as [|x row IH]; intros [|j]; cbn [map qsum fold_right nth].
  - qclra.
  - qclra.
  - pose proof (sumsq_nonneg row) as H. unfold qsum in H. qclra.
  - specialize (IH j). unfold qsum in IH. qcnra.
Qed.
Definition half : Qc := Q2Qc (1 # 2).
Lemma sumsq_small row j : Qcltb tol (qsum (map (fun x => (x * x)%Qc) row)) = false -> (Qcabs (nth j row 0) <= half)%Qc.
Proof.
  intros H. destruct (Qcltb_spec tol (qsum (map (fun x => (x * x)%Qc) row))) as [|h]; [discriminate|].
  apply Qcnot_lt_le in h. pose proof (sumsq_nth row j) as K. set (x := nth j row 0%Qc) in *.
  assert (T : (tol < half * half)%Qc) by (unfold tol, half, Qclt; cbn; reflexivity).
  assert (Hh : (0 < half)%Qc) by (unfold half, Qclt; cbn; reflexivity).
  apply Qcabs_Qcle_condition. split.
  - destruct (Qc_le_or_lt (- half) x) as [g|g]; [exact g|exfalso]. assert ((half * half < x * x)%Qc) by qcnra. qclra.
  - destruct (Qc_le_or_lt x half) as [g|g]; [exact g|exfalso]. assert ((half * half < x * x)%Qc) by qcnra. qclra.
Qed.

Definition sgn (pos : bool) : Qc := if pos then 1%Qc else (- (1))%Qc.

Lemma template_ok2 : exists x0 mid xl, [(- (1))%Qc; 1%Qc] = x0 :: mid ++ [xl] /\ Qcabs x0 = 1%Qc /\ Qcabs xl = 1%Qc.
Proof. exists (- (1))%Qc, [], 1%Qc. repeat split; apply Qc_is_canon; reflexivity. Qed.
Lemma template_ok3 : exists x0 mid xl, [1%Qc; (- (1 + 1))%Qc; 1%Qc] = x0 :: mid ++ [xl] /\ Qcabs x0 = 1%Qc /\ Qcabs xl = 1%Qc.
Proof. exists 1%Qc, [(- (1 + 1))%Qc], 1%Qc. repeat split; apply Qc_is_canon; reflexivity. Qed.

Lemma sgn_cases_tol pos : (Qcabs (1 - sgn pos) <= half -> sgn pos = 1)%Qc /\ (Qcabs (- (1) - sgn pos) <= half -> sgn pos = - (1))%Qc.
Proof.
  destruct pos; cbn [sgn]; split; intros H; try reflexivity; exfalso; revert H; unfold Qcle; cbn; intros H; apply H; reflexivity.
Qed.
Lemma tol_half : (tol <= half)%Qc. Proof. unfold Qcle; cbn. intros X; discriminate. Qed.
Lemma tol_lt1 : (tol < 1)%Qc. Proof. reflexivity. Qed.
Lemma half_lt1 : (half < 1)%Qc. Proof. reflexivity. Qed.

(** the coefficient of the reference step in row r *)
Definition coef (bound : nat) (mbar : Qc) (pos : bool) (r : nat) : Qc := if r <? bound then sgn pos else (mbar * sgn pos)%Qc.
Definition crow (n k : nat) (xs : vec) (bound : nat) (mbar : Qc) (pos : bool) (r : nat) : vec :=
  let v0 := put (zeros n) k xs in
  let v := if pos then v0 else vopp v0 in
  if r <? bound then v else vscale mbar v.
Lemma crow_ok n k xs bound mbar pos r : k + length xs <= n ->
  length (crow n k xs bound mbar pos r) = n /\
  forall j, nth j (crow n k xs bound mbar pos r) 0%Qc = (coef bound mbar pos r * nth j (put (zeros n) k xs) 0)%Qc.
Proof.
  intros H. assert (Lp : length (put (zeros n) k xs) = n) by (rewrite put_length; rewrite zeros_length; lia).
  unfold crow, coef. split.
  - destruct pos, (r <? bound); rewrite ?vscale_length, ?vopp_length; exact Lp.
  - intros j. destruct pos, (r <? bound); rewrite ?nth_vscale, ?nth_vopp; cbn [sgn]; ring.
Qed.

Lemma zrange_in lo hi s : In s (zrange lo hi) <-> (lo <= s < hi)%Z.
Proof.
  unfold zrange. rewrite in_map_iff. split.
  - intros (i & <- & H). apply in_seq in H. lia.
  - intros H. exists (Z.to_nat (s - lo)). split; [lia|]. apply in_seq. lia.
Qed.

(** * the RM polyhedron for a reference period s and a sign *)
Definition rm_poly (pre post : nat) (mbar : Qc) (s : Z) (pos : bool) (v : vec) : Prop :=
  (forall t, (- Z.of_nat pre <= t < 0)%Z -> (Qcabs (step (trend pre v) t) <= sgn pos * step (trend pre v) s)%Qc) /\
  (forall t, (0 <= t < Z.of_nat post)%Z -> (Qcabs (step (trend pre v) t) <= mbar * (sgn pos * step (trend pre v) s))%Qc).

Lemma rm_matrix_some pre post mbar s pos : (- (Z.of_nat pre - 1) <= s <= 0)%Z ->
  exists a, rm_matrix pre post mbar s pos = Some a.
Proof.
  intros H. unfold rm_matrix. replace (_ && _) with true; [eexists; reflexivity|].
  symmetry. apply andb_true_iff. split; apply Z.leb_le; lia.
Qed.

Lemma rm_matrix_poly pre post mbar s pos a v : path pre post v ->
  (- (Z.of_nat pre - 1) <= s <= 0)%Z -> (s = 0 -> 0 < Z.of_nat post)%Z ->
  (s = 0%Z -> (Qcabs (1 - mbar * sgn pos) <= tol -> mbar * sgn pos = 1)%Qc /\ (Qcabs (- (1) - mbar * sgn pos) <= tol -> mbar * sgn pos = - (1))%Qc) ->
  rm_matrix pre post mbar s pos = Some a ->
  (forall row, In row a -> (dot row v <= 0)%Qc) <-> rm_poly pre post mbar s pos v.
Proof.
  intros Hv Hs Hpost Hm Ha. unfold rm_matrix in Ha.
  destruct ((_ <=? s)%Z && (s <=? 0)%Z); [|discriminate]. injection Ha as <-.
  set (n := pre + post + 1) in *. set (k := Z.to_nat (Z.of_nat pre + s)).
  assert (Hk : k < pre + post) by lia.
  unfold first_differences. fold n. rewrite combine_map_map2, !map_map. cbn [fst snd].
  pose proof (template_poly pre post [(- (1))%Qc; 1%Qc] k (pre + post) (coef pre mbar pos)
               (crow n k [(- (1))%Qc; 1%Qc] pre mbar pos) tol (fun row => negb (tiny_row row))
               template_ok2 ltac:(cbn; lia) Hk
               (fun r => crow_ok n k [(- (1))%Qc; 1%Qc] pre mbar pos r ltac:(cbn [length]; unfold n; lia)) tol_lt1) as T.
  specialize (T (fun row E j => nth_le_tol row j (proj1 (negb_false_iff _) E))).
  assert (Hck : (Qcabs (1 - coef pre mbar pos k) <= tol -> coef pre mbar pos k = 1)%Qc /\
                (Qcabs (- (1) - coef pre mbar pos k) <= tol -> coef pre mbar pos k = - (1))%Qc).
  { unfold coef. destruct (Nat.ltb_spec k pre) as [h|h].
    - destruct (sgn_cases_tol pos) as [A B]. split; intros X; [apply A|apply B]; (eapply Qcle_trans; [exact X|exact tol_half]).
    - apply Hm. lia. }
  specialize (T Hck v Hv). cbv zeta in T. unfold crow in T. fold n in T. unfold rm_vmax. fold n k.
  rewrite T. clear T. unfold D. fold n.
  assert (DS : forall r, r < pre + post -> dot (put (zeros n) r [(- (1))%Qc; 1%Qc]) (ins pre v) = step (trend pre v) (Z.of_nat r - Z.of_nat pre))
    by (intros; apply row_step; assumption).
  assert (Es : (Z.of_nat k - Z.of_nat pre = s)%Z) by lia.
  unfold rm_poly, coef. split.
  - intros K. split; intros t Ht.
    + specialize (K (Z.to_nat (t + Z.of_nat pre)) ltac:(lia)). rewrite !DS, Es in K by lia.
      replace (Z.of_nat (Z.to_nat (t + Z.of_nat pre)) - Z.of_nat pre)%Z with t in K by lia.
      destruct (Nat.ltb_spec (Z.to_nat (t + Z.of_nat pre)) pre); [exact K|lia].
    + specialize (K (Z.to_nat (t + Z.of_nat pre)) ltac:(lia)). rewrite !DS, Es in K by lia.
      replace (Z.of_nat (Z.to_nat (t + Z.of_nat pre)) - Z.of_nat pre)%Z with t in K by lia.
      destruct (Nat.ltb_spec (Z.to_nat (t + Z.of_nat pre)) pre); [lia|]. rewrite Qcmult_assoc. exact K.
  - intros [K1 K2] r Hr. rewrite !DS, Es by lia. destruct (Nat.ltb_spec r pre) as [h|h].
    + apply K1. lia.
    + rewrite <- Qcmult_assoc. apply K2. lia.
Qed.

(** * the SDRM polyhedron *)
Definition sdrm_poly (pre post : nat) (mbar : Qc) (s : Z) (pos : bool) (v : vec) : Prop :=
  (forall t, (- Z.of_nat pre < t < 0)%Z -> (Qcabs (curve (trend pre v) t) <= sgn pos * curve (trend pre v) (s - 1))%Qc) /\
  (forall t, (0 <= t < Z.of_nat post)%Z -> (Qcabs (curve (trend pre v) t) <= mbar * (sgn pos * curve (trend pre v) (s - 1)))%Qc).

Lemma sdrm_matrix_poly pre post mbar s pos v : path pre post v -> 2 <= pre ->
  (- (Z.of_nat pre - 2) <= s <= 0)%Z ->
  (forall row, In row (sdrm_matrix pre post mbar s pos) -> (dot row v <= 0)%Qc) <-> sdrm_poly pre post mbar s pos v.
Proof.
  intros Hv Hp Hs. unfold sdrm_matrix.
  set (n := pre + post + 1) in *. set (k := Z.to_nat (Z.of_nat pre + s - 2)).
  assert (Hk : k < pre - 1 + post) by lia.
  replace (pre + post - 1) with (pre - 1 + post) by lia.
  rewrite combine_map_map2, !map_map. cbn [fst snd].
  pose proof (template_poly pre post [1%Qc; (- (1 + 1))%Qc; 1%Qc] k (pre - 1 + post) (coef (pre - 1) mbar pos)
               (crow n k [1%Qc; (- (1 + 1))%Qc; 1%Qc] (pre - 1) mbar pos) half
               (fun row => Qcltb tol (qsum (map (fun x => (x * x)%Qc) row)))
               template_ok3 ltac:(cbn; lia) Hk
               (fun r => crow_ok n k [1%Qc; (- (1 + 1))%Qc; 1%Qc] (pre - 1) mbar pos r ltac:(cbn [length]; unfold n; lia)) half_lt1) as T.
  specialize (T (fun row E j => sumsq_small row j E)).
  assert (Ek : coef (pre - 1) mbar pos k = sgn pos) by (unfold coef; destruct (Nat.ltb_spec k (pre - 1)); [reflexivity|lia]).
  rewrite Ek in T. specialize (T (sgn_cases_tol pos) v Hv). cbv zeta in T. unfold crow in T. fold n in T.
  rewrite T. clear T. unfold D. fold n.
  assert (DS : forall r, r < pre - 1 + post -> dot (put (zeros n) r [1%Qc; (- (1 + 1))%Qc; 1%Qc]) (ins pre v) = curve (trend pre v) (Z.of_nat r - Z.of_nat pre + 1))
    by (intros; apply row_curve; [assumption|lia]).
  assert (Es : (Z.of_nat k - Z.of_nat pre + 1 = s - 1)%Z) by lia.
  unfold sdrm_poly, coef. split.
  - intros K. split; intros t Ht.
    + specialize (K (Z.to_nat (t + Z.of_nat pre - 1)) ltac:(lia)). rewrite !DS, Es in K by lia.
      replace (Z.of_nat (Z.to_nat (t + Z.of_nat pre - 1)) - Z.of_nat pre + 1)%Z with t in K by lia.
      destruct (Nat.ltb_spec (Z.to_nat (t + Z.of_nat pre - 1)) (pre - 1)); [exact K|lia].
    + specialize (K (Z.to_nat (t + Z.of_nat pre - 1)) ltac:(lia)). rewrite !DS, Es in K by lia.
      replace (Z.of_nat (Z.to_nat (t + Z.of_nat pre - 1)) - Z.of_nat pre + 1)%Z with t in K by lia.
      destruct (Nat.ltb_spec (Z.to_nat (t + Z.of_nat pre - 1)) (pre - 1)); [lia|]. rewrite Qcmult_assoc. exact K.
  - intros [K1 K2] r Hr. rewrite !DS, Es by lia. destruct (Nat.ltb_spec r (pre - 1)) as [h|h].
    + apply K1. lia.
    + rewrite <- Qcmult_assoc. apply K2. lia.
Qed.

(** * sign and monotonicity rows *)
Lemma trend_nth_pre pre v t : (- Z.of_nat pre <= t < 0)%Z -> trend pre v t = nth (Z.to_nat (t + Z.of_nat pre)) v 0%Qc.
Proof. intros H. unfold trend. destruct (Z.ltb_spec t 0); [reflexivity|lia]. Qed.
Lemma trend_nth_post pre v t : (0 < t)%Z -> trend pre v t = nth (Z.to_nat (t + Z.of_nat pre - 1)) v 0%Qc.
Proof. intros H. unfold trend. destruct (Z.ltb_spec t 0); [lia|]. destruct (Z.eqb_spec t 0); [lia|reflexivity]. Qed.
Lemma trend_0 pre v : trend pre v 0 = 0%Qc. Proof. reflexivity. Qed.

Lemma firstn_skipn_seq pre post : firstn post (skipn pre (seq 0 (pre + post))) = seq pre post.
Proof.
  rewrite seq_app. rewrite skipn_app, skipn_all2, seq_length by (rewrite seq_length; lia).
  rewrite Nat.sub_diag. cbn [skipn app]. rewrite firstn_all2; [reflexivity|]. rewrite seq_length. lia.
Qed.
Lemma skipn_map' {A B} (f : A -> B) k l : skipn k (map f l) = map f (skipn k l).
Proof. revert k; induction l as [|x l IH]; intros [|k]; try reflexivity. cbn. apply IH. Qed.
Lemma firstn_map' {A B} (f : A -> B) k l : firstn k (map f l) = map f (firstn k l).
Proof. revert k; induction l as [|x l IH]; intros [|k]; try reflexivity. cbn. f_equal. apply IH. Qed.

Lemma sign_rows pre post positive : sign_matrix pre post positive =
  map (fun i => let r := vopp (put (zeros (pre + post)) i [1%Qc]) in if positive then r else vopp r) (seq pre post).
Proof.
  unfold sign_matrix. rewrite map_map, skipn_map', firstn_map', firstn_skipn_seq.
  destruct positive; [reflexivity|]. rewrite map_map. reflexivity.
Qed.
Lemma sat_sign pre post positive v : path pre post v ->
  (forall row, In row (sign_matrix pre post positive) -> (dot row v <= 0)%Qc) <-> in_shape pre post (Bias positive) v.
Proof.
  intros P. unfold path in P. rewrite sign_rows. cbn [in_shape].
  assert (E : forall i, pre <= i < pre + post -> dot (put (zeros (pre + post)) i [1%Qc]) v = trend pre v (Z.of_nat i - Z.of_nat pre + 1)).
  { intros i Hi. rewrite dot_put1 by lia. rewrite trend_nth_post by lia.
    replace (Z.to_nat _) with i by lia. ring. }
  assert (F : forall t, (0 < t <= Z.of_nat post)%Z -> exists i, In i (seq pre post) /\ (Z.of_nat i - Z.of_nat pre + 1 = t)%Z).
  { intros t Ht. exists (Z.to_nat (t - 1 + Z.of_nat pre)). split; [apply in_seq; lia|lia]. }
  destruct positive; split.
  - intros K t Ht. destruct (F t Ht) as (i & Hi & <-). specialize (K _ (in_map _ _ _ Hi)). cbv beta zeta iota in K. apply in_seq in Hi.
    rewrite dot_vopp, E in K by lia. qclra.
  - intros K row H. apply in_map_iff in H as (i & <- & H). apply in_seq in H. cbv beta zeta iota. rewrite dot_vopp, E by lia.
    specialize (K (Z.of_nat i - Z.of_nat pre + 1)%Z ltac:(lia)). qclra.
  - intros K t Ht. destruct (F t Ht) as (i & Hi & <-). specialize (K _ (in_map _ _ _ Hi)). cbv beta zeta iota in K. apply in_seq in Hi.
    rewrite !dot_vopp, E in K by lia. qclra.
  - intros K row H. apply in_map_iff in H as (i & <- & H). apply in_seq in H. cbv beta zeta iota. rewrite !dot_vopp, E by lia.
    specialize (K (Z.of_nat i - Z.of_nat pre + 1)%Z ltac:(lia)). qclra.
Qed.

Lemma mono_row_dot pre post v r : path pre post v -> 1 <= pre -> r < pre + post ->
  dot (mono_row pre post r) v =
    (trend pre v (Z.of_nat r - Z.of_nat pre) - trend pre v (Z.of_nat r - Z.of_nat pre + 1))%Qc.
Proof.
  intros P Hp Hr. unfold path in P. unfold mono_row.
  destruct (Nat.ltb_spec r (pre - 1)) as [h1|h1].
  - rewrite dot_put2 by lia. rewrite !trend_nth_pre by lia.
    replace (Z.to_nat _) with r by lia. replace (Z.to_nat _) with (r + 1) by lia. ring.
  - destruct (Nat.eqb_spec r (pre - 1)) as [h2|h2].
    + rewrite dot_put1 by lia. replace (Z.of_nat r - Z.of_nat pre + 1)%Z with 0%Z by lia. rewrite trend_0, trend_nth_pre by lia.
      replace (Z.to_nat _) with r by lia. ring.
    + destruct (Nat.eqb_spec r pre) as [h3|h3].
      * rewrite dot_put1 by lia. replace (Z.of_nat r - Z.of_nat pre)%Z with 0%Z by lia. rewrite trend_0, trend_nth_post by lia.
        replace (Z.to_nat _) with r by lia. ring.
      * rewrite dot_put2 by lia. rewrite !trend_nth_post by lia.
        replace (Z.to_nat _) with (r - 1) by lia. replace (Z.to_nat _) with (r - 1 + 1) by lia. ring.
Qed.
Lemma all_zero_dot row v : forallb (fun x => Qceqb x 0) row = true -> dot row v = 0%Qc.
Proof.
  revert v; induction row as [|x row IH]; intros v H; [reflexivity|]. cbn in H. apply andb_true_iff in H as [H1 H2].
  destruct (Qceqb_spec x 0); [|discriminate]. subst. destruct v as [|y v]; [reflexivity|]. rewrite dot_cons, IH by assumption. ring.
Qed.
Lemma sat_mono pre post increasing v : path pre post v -> 1 <= pre ->
  (forall row, In row (mono_matrix pre post increasing false) -> (dot row v <= 0)%Qc) <-> in_shape pre post (Mono increasing) v.
Proof.
  intros P Hp. unfold mono_matrix. cbn [in_shape].
  set (a := filter _ _).
  assert (Q1 : forall r, r < pre + post -> In (mono_row pre post r) a \/ dot (mono_row pre post r) v = 0%Qc).
  { intros r Hr. destruct (forallb (fun x => Qceqb x 0) (mono_row pre post r)) eqn:E; [right; apply all_zero_dot, E|left].
    apply filter_In. rewrite E. split; [|reflexivity]. apply in_map, in_seq. lia. }
  assert (Q2 : forall row, In row a -> exists r, r < pre + post /\ row = mono_row pre post r).
  { intros row H. apply filter_In in H as [H _]. apply in_map_iff in H as (r & <- & H). apply in_seq in H. exists r. split; [lia|reflexivity]. }
  assert (F : forall t, (- Z.of_nat pre <= t < Z.of_nat post)%Z -> exists i, i < pre + post /\ (Z.of_nat i - Z.of_nat pre = t)%Z).
  { intros t Ht. exists (Z.to_nat (t + Z.of_nat pre)). split; lia. }
  destruct increasing; split.
  - intros K t Ht. destruct (F t Ht) as (r & Hr & <-). pose proof (mono_row_dot pre post v r P Hp Hr) as E.
    destruct (Q1 r Hr) as [H|H]; [specialize (K _ H)|]; qclra.
  - intros K row H. apply Q2 in H as (r & Hr & ->). rewrite mono_row_dot by assumption.
    specialize (K (Z.of_nat r - Z.of_nat pre)%Z ltac:(lia)). qclra.
  - intros K t Ht. destruct (F t Ht) as (r & Hr & <-). pose proof (mono_row_dot pre post v r P Hp Hr) as E.
    destruct (Q1 r Hr) as [H|H]; [specialize (K _ (in_map vopp _ _ H)); rewrite dot_vopp in K|]; qclra.
  - intros K row H. apply in_map_iff in H as (row0 & <- & H). apply Q2 in H as (r & Hr & ->). rewrite dot_vopp, mono_row_dot by assumption.
    specialize (K (Z.of_nat r - Z.of_nat pre)%Z ltac:(lia)). qclra.
Qed.
Lemma sat_shape pre post sh v : path pre post v -> 1 <= pre ->
  (forall row, In row (shape_rows pre post sh) -> (dot row v <= 0)%Qc) <-> in_shape pre post sh v.
Proof.
  intros P Hp. destruct sh as [|p|i]; cbn [shape_rows].
  - split; [intros; exact I|intros _ row []].
  - apply sat_sign; assumption.
  - apply sat_mono; assumption.
Qed.

(** * the full systems *)
Lemma sat_sd_system pre post m sh v : path pre post v -> 1 <= pre ->
  satisfies (sd_system pre post m sh) v <-> in_sd pre post m v /\ in_shape pre post sh v.
Proof.
  intros P Hp. unfold sd_system. rewrite sat_app by (unfold sd_vector; rewrite repeat_length; reflexivity).
  rewrite sat_sd by assumption. unfold zeros. rewrite sat_const, sat_shape by assumption. reflexivity.
Qed.
Lemma sat_rm_system pre post mbar s pos sh sys v : path pre post v -> 1 <= pre ->
  (- (Z.of_nat pre - 1) <= s <= 0)%Z -> (s = 0 -> 0 < Z.of_nat post)%Z ->
  (s = 0%Z -> (Qcabs (1 - mbar * sgn pos) <= tol -> mbar * sgn pos = 1)%Qc /\ (Qcabs (- (1) - mbar * sgn pos) <= tol -> mbar * sgn pos = - (1))%Qc) ->
  rm_system pre post mbar s pos sh = Some sys ->
  satisfies sys v <-> rm_poly pre post mbar s pos v /\ in_shape pre post sh v.
Proof.
  intros P Hp Hs Hpost Hm E. unfold rm_system in E. destruct (rm_matrix pre post mbar s pos) as [a|] eqn:Ea; [|discriminate].
  cbn in E. injection E as <-. unfold zeros. rewrite sat_const.
  rewrite <- (rm_matrix_poly pre post mbar s pos a v P Hs Hpost Hm Ea), <- (sat_shape pre post sh v P Hp).
  split; [intros K; split; intros; apply K, in_or_app; auto|intros [K1 K2] row H; apply in_app_or in H as [H|H]; auto].
Qed.
Lemma sat_sdrm_system pre post mbar s pos sh v : path pre post v -> 2 <= pre ->
  (- (Z.of_nat pre - 2) <= s <= 0)%Z ->
  satisfies (sdrm_system pre post mbar s pos sh) v <-> sdrm_poly pre post mbar s pos v /\ in_shape pre post sh v.
Proof.
  intros P Hp Hs. unfold sdrm_system, zeros. rewrite sat_const.
  rewrite <- (sdrm_matrix_poly pre post mbar s pos v P Hp Hs), <- (sat_shape pre post sh v P ltac:(lia)).
  split; [intros K; split; intros; apply K, in_or_app; auto|intros [K1 K2] row H; apply in_app_or in H as [H|H]; auto].
Qed.
