(** A concrete oracle (ordinary algebra for two regressors, linear link) meeting the hypotheses of C25-C27, and a
    small sample. No property content. *)
From Verif Require Import Base ListLib ReduceModel DrdidModel DrdidSpec DrdidProofs Witness.

Definition g2 (f : punit -> Qc) (l : list punit) (i j : nat) : Qc := sumf (fun u => f u * x_at u i * x_at u j) l.
Definition v2 (f : punit -> Qc) (l : list punit) (j : nat) : Qc := sumf (fun u => f u * x_at u j) l.
Definition solve2 (a b d p q : Qc) : option (list Qc) :=
  let det := a * d - b * b in
  if Qceqb det 0 then None else Some [(d * p - b * q) / det; (a * q - b * p) / det].
Definition wit_oracle : oracle :=
  {| o_logit := fun l => solve2 (g2 p_w l 0 0) (g2 p_w l 0 1) (g2 p_w l 1 1) (v2 (fun u => p_w u * p_D u) l 0) (v2 (fun u => p_w u * p_D u) l 1);
     o_mu := fun z => z;
     o_wls := fun l => let f := fun u => p_w u * (1 - p_D u) in
       solve2 (g2 f l 0 0) (g2 f l 0 1) (g2 f l 1 1) (v2 (fun u => f u * p_dy u) l 0) (v2 (fun u => f u * p_dy u) l 1);
     o_inv := fun M => let det := mget M 0 0 * mget M 1 1 - mget M 0 1 * mget M 1 0 in
       if Qceqb det 0 then None else Some [[mget M 1 1 / det; - mget M 0 1 / det]; [- mget M 1 0 / det; mget M 0 0 / det]] |}.
Definition wit_oracle1 : oracle :=
  {| o_logit := fun l => if Qceqb (g2 p_w l 0 0) 0 then None else Some [v2 (fun u => p_w u * p_D u) l 0 / g2 p_w l 0 0];
     o_mu := fun z => z;
     o_wls := fun l => let f := fun u => p_w u * (1 - p_D u) in
       if Qceqb (g2 f l 0 0) 0 then None else Some [v2 (fun u => f u * p_dy u) l 0 / g2 f l 0 0];
     o_inv := fun M => if Qceqb (mget M 0 0) 0 then None else Some [[1 / mget M 0 0]] |}.

Lemma solve2_ok (f r : punit -> Qc) l b : solve2 (g2 f l 0 0) (g2 f l 0 1) (g2 f l 1 1) (v2 (fun u => f u * r u) l 0) (v2 (fun u => f u * r u) l 1) = Some b ->
  forall j, (j < 2)%nat -> sumf (fun u => f u * (r u - dotk 2 (p_x u) b) * x_at u j) l = 0.
Proof.
  unfold solve2. cbn zeta. destruct (Qceqb_spec (g2 f l 0 0 * g2 f l 1 1 - g2 f l 0 1 * g2 f l 0 1) 0) as [|N]; [discriminate|].
  intros E. injection E as <-. set (det := g2 f l 0 0 * g2 f l 1 1 - g2 f l 0 1 * g2 f l 0 1) in *.
  set (b0 := _ / det). set (b1 := _ / det). intros j Hj.
  rewrite (sumf_ext _ (fun u => f u * r u * x_at u j - (b0 * (f u * x_at u 0 * x_at u j) + b1 * (f u * x_at u 1 * x_at u j)))).
  2:{ intros u _. unfold dotk. cbn [seq]. rewrite !sumf_cons, sumf_nil. cbn [nth]. unfold x_at. ring. }
  rewrite sumf_sub, sumf_add, !sumf_mul_l. fold (v2 (fun u => f u * r u) l j) (g2 f l 0 j) (g2 f l 1 j).
  assert (S : g2 f l 1 0 = g2 f l 0 1) by (unfold g2; apply sumf_ext; intros; ring).
  unfold b0, b1, det in *. clearbody b0 b1 det || clear b0 b1 det. revert N S.
  destruct j as [|[|j]]; [| |lia]; generalize (g2 f l 0 0) (g2 f l 0 1) (g2 f l 1 0) (g2 f l 1 1) (v2 (fun u => f u * r u) l 0) (v2 (fun u => f u * r u) l 1);
    intros a b c d p q N ->; field; exact N.
Qed.
Lemma wit_wls_ok : wls_ok wit_oracle 2.
Proof. intros l b E j Hj. apply (solve2_ok (fun u => p_w u * (1 - p_D u)) p_dy l b E j Hj). Qed.
Lemma wit_score l g : o_logit wit_oracle l = Some g -> forall j, (j < 2)%nat -> sumf (fun u => p_w u * (p_D u - dotk 2 (p_x u) g) * x_at u j) l = 0.
Proof. intros E j Hj. apply (solve2_ok p_w p_D l g E j Hj). Qed.
Lemma wit_inv_ok : inv_ok wit_oracle 2.
Proof.
  intros M N E. cbn in E. destruct (Qceqb_spec (mget M 0 0 * mget M 1 1 - mget M 0 1 * mget M 1 0) 0) as [|D]; [discriminate|]. injection E as <-.
  intros i j Hi Hj. unfold mat_mul. cbn [seq]. rewrite !sumf_cons, !sumf_nil.
  destruct i as [|[|i]]; try lia; (destruct j as [|[|j]]; try lia); revert D;
    generalize (mget M 0 0) (mget M 0 1) (mget M 1 0) (mget M 1 1); intros a b c d D; unfold mget; cbn [nth ind Nat.eqb]; split; field; exact D.
Qed.
Lemma wit1_wls_ok : wls_ok wit_oracle1 1.
Proof.
  intros l b E j Hj. cbn in E. destruct (Qceqb_spec (g2 (fun u => p_w u * (1 - p_D u)) l 0 0) 0) as [|D]; [discriminate|]. injection E as <-.
  destruct j; [|lia]. set (b0 := _ / _).
  rewrite (sumf_ext _ (fun u => p_w u * (1 - p_D u) * p_dy u * x_at u 0 - b0 * (p_w u * (1 - p_D u) * x_at u 0 * x_at u 0))).
  - rewrite sumf_sub, sumf_mul_l. fold (v2 (fun u => p_w u * (1 - p_D u) * p_dy u) l 0) (g2 (fun u => p_w u * (1 - p_D u)) l 0 0). unfold b0. field. exact D.
  - intros u _. unfold dotk. cbn [seq]. rewrite !sumf_cons, sumf_nil. cbn [nth]. unfold x_at. ring.
Qed.
Lemma wit1_inv_ok : inv_ok wit_oracle1 1.
Proof.
  intros M N E. cbn in E. destruct (Qceqb_spec (mget M 0 0) 0) as [|D]; [discriminate|]. injection E as <-.
  intros i j Hi Hj. destruct i; [|lia]. destruct j; [|lia]. unfold mat_mul. cbn [seq]. rewrite !sumf_cons, !sumf_nil. revert D. generalize (mget M 0 0). intros a D. unfold mget. cbn [nth ind Nat.eqb].
  split; field; exact D.
Qed.
Lemma view_sum (h : bool * Qc * list Qc -> Qc) l l' : map logit_view l = map logit_view l' -> sumf (fun u => h (logit_view u)) l = sumf (fun u => h (logit_view u)) l'.
Proof. intros E. rewrite <- (sumf_map logit_view h l), <- (sumf_map logit_view h l'), E. reflexivity. Qed.
Lemma g2_view l l' i j : map logit_view l = map logit_view l' -> g2 p_w l i j = g2 p_w l' i j.
Proof. exact (view_sum (fun t => snd (fst t) * nth i (snd t) 0 * nth j (snd t) 0) l l'). Qed.
Lemma v2_view l l' j : map logit_view l = map logit_view l' -> v2 (fun u => p_w u * p_D u) l j = v2 (fun u => p_w u * p_D u) l' j.
Proof. exact (view_sum (fun t => snd (fst t) * ind (fst (fst t)) * nth j (snd t) 0) l l'). Qed.
Lemma wit_blind : logit_blind wit_oracle.
Proof.
  intros l l' E. cbn [wit_oracle o_logit]. rewrite !(g2_view l l' _ _ E), !(v2_view l l' _ E). reflexivity.
Qed.
Lemma wit_symmetric : fits_symmetric wit_oracle.
Proof.
  intros l l' P. cbn. unfold g2, v2. split; rewrite !(sumf_perm _ l l' P); reflexivity.
Qed.

Definition mku (i : Z) (d : bool) (y1 y0 w x : Z) : punit :=
  {| p_id := i; p_d := d; p_y1 := qz y1; p_y0 := qz y0; p_w := qz w; p_x := [1; qz x] |}.
(** four comparison and three treated units, two regressors, unequal weights *)
Definition wit_units : list punit :=
  [mku 1 false 3 1 1 0; mku 2 false 5 1 2 1; mku 3 true 9 2 1 0; mku 4 true 8 1 1 1; mku 5 false 2 2 1 1; mku 6 true 7 3 2 2; mku 7 false 6 1 1 2].
Definition wit_units1 : list punit := map (fun u => {| p_id := p_id u; p_d := p_d u; p_y1 := p_y1 u; p_y0 := p_y0 u; p_w := p_w u; p_x := [1] |}) wit_units.
Definition is_est (r : pan_result) : bool := match r with PEst _ _ => true | _ => false end.
Lemma wit_nc : no_collinearity 2 wit_units.
Proof.
  intros v H j Hj.
  assert (H1 := H (mku 1 false 3 1 1 0) ltac:(cbn; tauto) eq_refl eq_refl). assert (H2 := H (mku 2 false 5 1 2 1) ltac:(cbn; tauto) eq_refl eq_refl).
  unfold dotk in H1, H2. cbn [seq] in H1, H2. rewrite !sumf_cons, sumf_nil in H1, H2. cbn [mku p_x nth] in H1, H2.
  assert (A : nth 0 v 0 = 0). { refine (eq_trans _ H1). rewrite qz_0. ring. }
  destruct j as [|[|j]]; [exact A| |lia]. rewrite A, qz_1 in H2. refine (eq_trans _ H2). ring.
Qed.
Lemma wit_intercept : has_intercept wit_units.
Proof. intros u H. cbn in H. repeat (destruct H as [<-|H]; [reflexivity|]). destruct H. Qed.
