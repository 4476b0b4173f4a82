(** Concrete oracles and samples meeting the hypotheses of C89-C93. No property content. *)
From Coq Require Import Qcabs.
From Verif Require Import Base ListLib ReduceModel Calc DrdidModel DrdidSpec DrdidProofs DrdidProofs2 DrdidProofs3 DrdidProofs4 DrdidProofs5 DrdidProofs7 DrdidProofs8 DrdidWitness DrdidWitness2 Witness RcModel RcSpec RcCalc RcProofs RcProofs2 RcProofs3 RcProofs5.

Definition h2 (f : runit -> Qc) (l : list runit) (i j : nat) : Qc := sumf (fun u => f u * rx_at u i * rx_at u j) l.
Definition u2 (f : runit -> Qc) (l : list runit) (j : nat) : Qc := sumf (fun u => f u * rx_at u j) l.
(** the fit is kept only when it solves the score equations after clipping *)
Definition checked (k : nat) (mu : Qc -> Qc) (l : list runit) (g : option (list Qc)) : option (list Qc) :=
  match g with
  | Some v => if forallb (fun j => Qceqb (sumf (fun u => r_w u * (r_D u - rps_fit mu k v u) * rx_at u j) l) 0) (seq 0 k) then Some v else None
  | None => None
  end.
(** two regressors, linear link *)
Definition rwit2 : roracle :=
  {| ro_logit := fun l => checked 2 (fun z => z) l (solve2 (h2 r_w l 0 0) (h2 r_w l 0 1) (h2 r_w l 1 1) (u2 (fun u => r_w u * r_D u) l 0) (u2 (fun u => r_w u * r_D u) l 1));
     ro_mu := fun z => z;
     ro_wls := fun l => solve2 (h2 r_w l 0 0) (h2 r_w l 0 1) (h2 r_w l 1 1) (u2 (fun u => r_w u * r_y u) l 0) (u2 (fun u => r_w u * r_y u) l 1);
     ro_inv := o_inv wit_oracle |}.
(** one regressor *)
Definition rwit1 : roracle :=
  {| ro_logit := fun l => checked 1 (fun z => z) l (if Qceqb (h2 r_w l 0 0) 0 then None else Some (u2 (fun u => r_w u * r_D u) l 0 / h2 r_w l 0 0 :: nil));
     ro_mu := fun z => z;
     ro_wls := fun l => if Qceqb (h2 r_w l 0 0) 0 then None else Some (u2 (fun u => r_w u * r_y u) l 0 / h2 r_w l 0 0 :: nil);
     ro_inv := o_inv wit_oracle1 |}.
(** one regressor; link 1/2 + z/4, whose derivative at index 0 is the logistic one *)
Definition rwit3 : roracle :=
  {| ro_logit := fun l => if Qceqb (h2 r_w l 0 0) 0 then None else Some (u2 (fun u => r_w u * (r_D u - half)) l 0 / (quarter * h2 r_w l 0 0) :: nil);
     ro_mu := fun z => half + quarter * z; ro_wls := ro_wls rwit1; ro_inv := o_inv wit_oracle1 |}.

Lemma rsolve2_ok (f r : runit -> Qc) l b : solve2 (h2 f l 0 0) (h2 f l 0 1) (h2 f l 1 1) (u2 (fun u => f u * r u) l 0) (u2 (fun u => f u * r u) l 1) = Some b ->
  forall j, (j < 2)%nat -> sumf (fun u => f u * (r u - dotk 2 (r_x u) b) * rx_at u j) l = 0.
Proof.
  unfold solve2. cbn zeta. destruct (Qceqb_spec (h2 f l 0 0 * h2 f l 1 1 - h2 f l 0 1 * h2 f l 0 1) 0) as [|N]; [discriminate|].
  intros E. injection E as <-. set (det := h2 f l 0 0 * h2 f l 1 1 - h2 f l 0 1 * h2 f l 0 1) in *.
  set (b0 := _ / det). set (b1 := _ / det). intros j Hj.
  rewrite (sumf_ext _ (fun u => f u * r u * rx_at u j - (b0 * (f u * rx_at u 0 * rx_at u j) + b1 * (f u * rx_at u 1 * rx_at u j)))).
  2:{ intros u _. unfold dotk. cbn [seq]. rewrite !sumf_cons, sumf_nil. cbn [nth]. unfold rx_at. ring. }
  rewrite sumf_sub, sumf_add, !sumf_mul_l. fold (u2 (fun u => f u * r u) l j) (h2 f l 0 j) (h2 f l 1 j).
  assert (S : h2 f l 1 0 = h2 f l 0 1) by (unfold h2; apply sumf_ext; intros; ring).
  unfold b0, b1, det in *. clearbody b0 b1 det || clear b0 b1 det. revert N S.
  destruct j as [|[|j]]; [| |lia]; generalize (h2 f l 0 0) (h2 f l 0 1) (h2 f l 1 0) (h2 f l 1 1) (u2 (fun u => f u * r u) l 0) (u2 (fun u => f u * r u) l 1);
    intros a b c d p q N ->; field; exact N.
Qed.
Lemma rwit2_wls_ok : rwls_ok rwit2 2.
Proof. intros l b E j Hj. apply (rsolve2_ok r_w r_y l b E j Hj). Qed.
Lemma rwit2_inv_ok : rinv_ok rwit2 2. Proof. exact wit_inv_ok. Qed.
Lemma checked_ok k mu l g v : checked k mu l g = Some v -> rscore_equations k (rps_fit mu k v) l.
Proof.
  unfold checked. destruct g as [v'|]; [|discriminate]. destruct (forallb _ _) eqn:E; [|discriminate]. intros H. injection H as ->.
  rewrite forallb_forall in E. intros j Hj. specialize (E j ltac:(apply in_seq; lia)). destruct (Qceqb_spec (sumf (fun u => r_w u * (r_D u - rps_fit mu k v u) * rx_at u j) l) 0) as [H|]; [exact H|discriminate].
Qed.
Lemma rwit2_score_ok : rscore_ok rwit2 2. Proof. intros l g E. exact (checked_ok _ _ _ _ _ E). Qed.
Lemma rwit1_score_ok : rscore_ok rwit1 1. Proof. intros l g E. exact (checked_ok _ _ _ _ _ E). Qed.
Lemma rwit1_wls_ok : rwls_ok rwit1 1.
Proof.
  intros l b E j Hj. cbn in E. destruct (Qceqb_spec (h2 r_w l 0 0) 0) as [|D]; [discriminate|]. injection E as <-.
  destruct j; [|lia]. set (b0 := _ / _).
  rewrite (sumf_ext _ (fun u => r_w u * r_y u * rx_at u 0 - b0 * (r_w u * rx_at u 0 * rx_at u 0))).
  - rewrite sumf_sub, sumf_mul_l. fold (u2 (fun u => r_w u * r_y u) l 0) (h2 r_w l 0 0). unfold b0. field. exact D.
  - intros u _. unfold dotk. cbn [seq]. rewrite !sumf_cons, sumf_nil. cbn [nth]. unfold rx_at. ring.
Qed.
Lemma rwit1_inv_ok : rinv_ok rwit1 1. Proof. exact wit1_inv_ok. Qed.
Lemma rwit3_wls_ok : rwls_ok rwit3 1. Proof. exact rwit1_wls_ok. Qed.
Lemma rwit3_inv_ok : rinv_ok rwit3 1. Proof. exact wit1_inv_ok. Qed.
Lemma rview_sum (h : bool * Qc * list Qc -> Qc) l l' : map rlogit_view l = map rlogit_view l' -> sumf (fun u => h (rlogit_view u)) l = sumf (fun u => h (rlogit_view u)) l'.
Proof. intros E. rewrite <- (sumf_map rlogit_view h l), <- (sumf_map rlogit_view h l'), E. reflexivity. Qed.
Lemma h2_view l l' i j : map rlogit_view l = map rlogit_view l' -> h2 r_w l i j = h2 r_w l' i j.
Proof. exact (rview_sum (fun t => snd (fst t) * nth i (snd t) 0 * nth j (snd t) 0) l l'). Qed.
Lemma u2_view l l' j : map rlogit_view l = map rlogit_view l' -> u2 (fun u => r_w u * r_D u) l j = u2 (fun u => r_w u * r_D u) l' j.
Proof. exact (rview_sum (fun t => snd (fst t) * ind (fst (fst t)) * nth j (snd t) 0) l l'). Qed.
Lemma checked_view k mu l l' g : map rlogit_view l = map rlogit_view l' -> checked k mu l g = checked k mu l' g.
Proof.
  intros E. unfold checked. destruct g as [v|]; [|reflexivity].
  assert (X : forall j, Qceqb (sumf (fun u => r_w u * (r_D u - rps_fit mu k v u) * rx_at u j) l) 0 = Qceqb (sumf (fun u => r_w u * (r_D u - rps_fit mu k v u) * rx_at u j) l') 0).
  { intros j. rewrite (rview_sum (fun t => snd (fst t) * (ind (fst (fst t)) - clip eps6 (1 - eps6) (mu (dotk k (snd t) v))) * nth j (snd t) 0) l l' E : sumf (fun u => r_w u * (r_D u - rps_fit mu k v u) * rx_at u j) l = _). reflexivity. }
  assert (Y : forall js, forallb (fun j => Qceqb (sumf (fun u => r_w u * (r_D u - rps_fit mu k v u) * rx_at u j) l) 0) js = forallb (fun j => Qceqb (sumf (fun u => r_w u * (r_D u - rps_fit mu k v u) * rx_at u j) l') 0) js).
  { induction js as [|j js IH]; [reflexivity|]. cbn [forallb]. rewrite X, IH. reflexivity. }
  rewrite Y. reflexivity.
Qed.
Lemma rwit2_blind : rlogit_blind rwit2.
Proof. intros l l' E. cbn [rwit2 ro_logit]. rewrite !(h2_view l l' _ _ E), !(u2_view l l' _ E). apply checked_view. exact E. Qed.
Lemma rwit2_symmetric : rfits_symmetric rwit2.
Proof.
  intros l l' P. cbn. unfold h2, u2. split; rewrite !(sumf_perm _ l l' P); [|reflexivity]. unfold checked. destruct (solve2 _ _ _ _ _) as [v|]; [|reflexivity].
  cbn [seq forallb]. rewrite !(sumf_perm _ l l' P). reflexivity.
Qed.

Definition mkr (i : Z) (d t : bool) (y w x : Z) : runit := {| r_id := i; r_d := d; r_post := t; r_y := qz y; r_w := qz w; r_x := 1 :: qz x :: nil |}.
(** three rows in each of the four cells, two regressors, unequal weights *)
Definition rwit_rows : list runit :=
  [mkr 1 false false 3 1 0; mkr 2 false false 5 2 1; mkr 3 false false 4 1 2; mkr 4 false true 6 1 0; mkr 5 false true 7 1 1; mkr 6 false true 9 1 2;
   mkr 7 true false 4 1 0; mkr 8 true false 8 1 1; mkr 9 true false 7 2 2; mkr 10 true true 12 1 0; mkr 11 true true 10 2 1; mkr 12 true true 15 1 2].
Definition set_x (x : list Qc) (u : runit) : runit := {| r_id := r_id u; r_d := r_d u; r_post := r_post u; r_y := r_y u; r_w := r_w u; r_x := x |}.
Definition rwit_rows1 : list runit := map (set_x (1 :: nil)) rwit_rows.
Lemma rwit_nc d t : rno_collinearity 2 (cell d t rwit_rows).
Proof.
  intros v H j Hj.
  assert (P : exists u w, In u (cell d t rwit_rows) /\ In w (cell d t rwit_rows) /\ 0 < r_w u /\ 0 < r_w w /\ r_x u = 1 :: qz 0 :: nil /\ r_x w = 1 :: qz 1 :: nil).
  { destruct d, t; [exists (mkr 10 true true 12 1 0), (mkr 11 true true 10 2 1)|exists (mkr 7 true false 4 1 0), (mkr 8 true false 8 1 1)|exists (mkr 4 false true 6 1 0), (mkr 5 false true 7 1 1)|exists (mkr 1 false false 3 1 0), (mkr 2 false false 5 2 1)];
      (split; [cbn; tauto|]; split; [cbn; tauto|]; repeat split; reflexivity). }
  destruct P as [u [w [Hu [Hw [Pu [Pw [Xu Xw]]]]]]].
  assert (H1 := H u Hu Pu). assert (H2 := H w Hw Pw). rewrite Xu in H1. rewrite Xw in H2.
  unfold dotk in H1, H2. cbn [seq] in H1, H2. rewrite !sumf_cons, sumf_nil in H1, H2. cbn [nth] in H1, H2.
  assert (A : nth 0 v 0 = 0). { refine (eq_trans _ H1). rewrite qz_0. ring. }
  destruct j as [|[|j]]; [exact A| |lia]. rewrite A, qz_1 in H2. refine (eq_trans _ H2). ring.
Qed.
Lemma rwit_intercept : rhas_intercept rwit_rows.
Proof. intros u H. cbn in H. repeat (destruct H as [<-|H]; [reflexivity|]). destruct H. Qed.

(** ** a smooth case *)
Definition rgood (l : list runit) : Prop := forall u, In u l -> 0 < r_w u /\ exists x, r_x u = (x :: nil) /\ 0 < x.
Definition has_cells (l : list runit) : Prop := forall b t, exists u, In u l /\ r_d u = b /\ r_post u = t.
Lemma rmean_pos_one (f : runit -> Qc) l u : (forall a, In a l -> 0 <= f a) -> In u l -> 0 < f u -> mean f l <> 0.
Proof.
  intros H Hu Hp. apply Qc_pos_neq0. unfold mean. apply Qcdiv_pos; [apply sumf_pos; [exact H|exists u; auto]|apply qn_pos; destruct l; [destruct Hu|cbn; lia]].
Qed.
Section Good.
  Context (l : list runit) (G : rgood l) (C : has_cells l).
  Lemma rgood_ne : l <> []. Proof. intros ->. destruct (C true true) as [u [[] _]]. Qed.
  Lemma rgood_neg : rany_neg l = false.
  Proof. apply rany_neg_false. intros u Hu. apply Qclt_le_weak, G, Hu. Qed.
  Lemma rgood_both : rboth l = true.
  Proof.
    destruct (C true true) as [a [Ha [A1 A2]]]. destruct (C false false) as [b [Hb [B1 B2]]].
    unfold rboth. repeat (apply andb_true_iff; split); apply existsb_exists; [exists a|exists b|exists a|exists b]; split; rewrite ?A1, ?A2, ?B1, ?B2; auto.
  Qed.
  Lemma rgood_x u : In u l -> 0 < rx_at u 0.
  Proof. intros Hu. destruct (G u Hu) as [_ [x [E P]]]. unfold rx_at. rewrite E. exact P. Qed.
  Lemma cell_h2 b t : 0 < h2 r_w (cell b t l) 0 0.
  Proof.
    destruct (C b t) as [u [Hu [D1 D2]]]. apply sumf_pos.
    - intros a Ha. apply filter_In in Ha. destruct Ha as [Ha _]. apply Qclt_le_weak. repeat apply Qcmult_pos; try apply rgood_x; try apply G; assumption.
    - exists u. split; [apply filter_In; split; [exact Hu|unfold in_cell; rewrite D1, D2; destruct b, t; reflexivity]|]. repeat apply Qcmult_pos; try apply rgood_x; try apply G; assumption.
  Qed.
  Lemma all_h2 : h2 r_w l 0 0 <> 0.
  Proof.
    destruct (C true true) as [u [Hu _]]. apply Qc_pos_neq0, sumf_pos; [intros a Ha; apply Qclt_le_weak|exists u; split; [exact Hu|]]; repeat apply Qcmult_pos; try apply rgood_x; try apply G; assumption.
  Qed.
  Lemma fit_some b t : exists v, ols_rc rwit3 1 b t l = FCoef v.
  Proof.
    unfold ols_rc. assert (P := cell_h2 b t). destruct (cell b t l) as [|u c]; [discriminate P|]. cbn [length Nat.ltb Nat.leb]. cbn [ro_wls rwit3 rwit1].
    destruct (Qceqb_spec (h2 r_w (u :: c) 0 0) 0) as [E|]; [exfalso; apply (Qc_pos_neq0 _ P E)|eauto].
  Qed.
  Lemma rinv_some M : mget M 0 0 <> 0 -> exists N, ro_inv rwit3 M = Some N.
  Proof. intros H. cbn. destruct (Qceqb_spec (mget M 0 0) 0); [contradiction|eauto]. Qed.
  Lemma gram_some b t : exists N, ro_inv rwit3 (rgram 1 b t l) = Some N.
  Proof.
    apply rinv_some. unfold rgram. rewrite mget_mat_of by lia. unfold mean. apply Qc_pos_neq0, Qcdiv_pos; [|apply qn_pos; assert (N := rgood_ne); destruct l; [congruence|cbn; lia]].
    assert (P := cell_h2 b t). unfold h2, cell in P. rewrite sumf_filter in P. rewrite (sumf_ext _ (fun u => ind (in_cell b t u) * (r_w u * rx_at u 0 * rx_at u 0))); [exact P|].
    intros u _. rewrite wols_cell. ring.
  Qed.
  Lemma rps_pos gm u : 0 < rps_fit (ro_mu rwit3) 1 gm u /\ 0 < 1 - rps_fit (ro_mu rwit3) 1 gm u /\ Qcltb (rps_fit (ro_mu rwit3) 1 gm u) 1 = true.
  Proof.
    destruct (rps_bounds (ro_mu rwit3) 1 gm u) as [A B]. set (q := rps_fit _ _ _ _) in *. assert (0 < eps6) by reflexivity.
    split; [qclra|]. split; [qclra|]. destruct (Qcltb_spec q 1) as [|N]; [reflexivity|]. exfalso. apply N. qclra.
  Qed.
  Lemma psgram_some gm : exists N, ro_inv rwit3 (rps_gram 1 (rps_fit (ro_mu rwit3) 1 gm) l) = Some N.
  Proof.
    apply rinv_some. unfold rps_gram. rewrite mget_mat_of by lia.
    assert (P : forall u, In u l -> 0 < rx_at u 0 * (rps_fit (ro_mu rwit3) 1 gm u * (1 - rps_fit (ro_mu rwit3) 1 gm u) * r_w u * rx_at u 0)).
    { intros u Hu. destruct (rps_pos gm u) as [P1 [P2 _]]. repeat apply Qcmult_pos; try apply rgood_x; try apply G; assumption. }
    destruct (C true true) as [u [Hu _]]. apply Qc_pos_neq0, sumf_pos; [intros a Ha; apply Qclt_le_weak, P, Ha|]. exists u. split; [exact Hu|apply P, Hu].
  Qed.
  Lemma c_pos (w c : runit -> Qc) b t : (forall u, w u = r_w u * c u) -> (forall u, 0 <= c u) -> (forall u, r_d u = b -> r_post u = t -> 0 < c u) -> mean w l <> 0.
  Proof.
    intros Hw H0 H1. destruct (C b t) as [u [Hu [D1 D2]]]. apply (rmean_pos_one _ l u); [|exact Hu|].
    - intros a Ha. rewrite Hw. apply Qcmult_nonneg; [apply Qclt_le_weak, G, Ha|apply H0].
    - rewrite Hw. apply Qcmult_pos; [apply G, Hu|apply H1; assumption].
  Qed.
  Lemma cT0_ge u : 0 <= cT0 u. Proof. unfold cT0, r_D, r_P. destruct (r_d u), (r_post u); discriminate. Qed.
  Lemma cT1_ge u : 0 <= cT1 u. Proof. unfold cT1, r_D, r_P. destruct (r_d u), (r_post u); discriminate. Qed.
  Lemma ind_ge b : 0 <= ind b. Proof. destruct b; discriminate. Qed.
  Lemma rgood_nonzero gm : some_zero 1 (rps_fit (ro_mu rwit3) 1 gm) l = false /\ mean wr_treat_pre l <> 0 /\ mean wr_treat_post l <> 0.
  Proof.
    assert (T0 : forall u, r_d u = true -> r_post u = false -> 0 < cT0 u) by (intros u D P; unfold cT0, r_D, r_P; rewrite D, P; reflexivity).
    assert (T1 : forall u, r_d u = true -> r_post u = true -> 0 < cT1 u) by (intros u D P; unfold cT1, r_D, r_P; rewrite D, P; reflexivity).
    split; [|split; [exact (c_pos _ cT0 true false wr0_c cT0_ge T0)|exact (c_pos _ cT1 true true wr1_c cT1_ge T1)]].
    unfold some_zero.
    assert (Q : forall (w c : runit -> Qc) b t, (forall u, w u = r_w u * c u) -> (forall u, 0 <= c u) -> (forall u, r_d u = b -> r_post u = t -> 0 < c u) -> Qceqb (mean w l) 0 = false).
    { intros w c b t A1 A2 A3. assert (X := c_pos w c b t A1 A2 A3). destruct (Qceqb_spec (mean w l) 0); [contradiction|reflexivity]. }
    rewrite (Q _ cT0 true false (wt0_c _ _) cT0_ge T0), (Q _ cT1 true true (wt1_c _ _) cT1_ge T1).
    assert (O : forall u, 0 < rps_fit (ro_mu rwit3) 1 gm u / (1 - rps_fit (ro_mu rwit3) 1 gm u)) by (intros u; destruct (rps_pos gm u) as [A [B _]]; apply Qcdiv_pos; assumption).
    rewrite (Q _ _ false false (wc0_c 1 (rps_fit (ro_mu rwit3) 1 gm))), (Q _ _ false true (wc1_c 1 (rps_fit (ro_mu rwit3) 1 gm))); [reflexivity| | | |];
      try (intros u; unfold cC0, cC1; apply Qcmult_nonneg; [apply ind_ge|apply Qclt_le_weak, O]);
      intros u D P; unfold cC0, cC1, in_cell; rewrite D, P, (proj2 (proj2 (rps_pos gm u))); cbn [Bool.eqb andb ind]; rewrite Qcmult_1_l; apply O.
  Qed.
End Good.
Lemma rgood_normalise l : l <> [] -> rgood l -> rgood (rnormalise l).
Proof.
  intros Hl G u Hu. unfold rnormalise in Hu. apply in_map_iff in Hu. destruct Hu as [v [<- Hv]]. cbn [rset_w r_w r_x]. destruct (G v Hv) as [A B]. split; [|exact B].
  apply Qcdiv_pos; [exact A|]. apply mean_pos; [exact Hl|]. intros a Ha. apply G, Ha.
Qed.
Lemma has_cells_map (f : runit -> runit) l : (forall u, r_d (f u) = r_d u /\ r_post (f u) = r_post u) -> has_cells l -> has_cells (map f l).
Proof. intros F C b t. destruct (C b t) as [u [Hu [D P]]]. exists (f u). split; [apply in_map, Hu|]. destruct (F u) as [-> ->]. auto. Qed.
Lemma mean_one_pos l : rgood l -> has_cells l -> mean r_w (rnormalise l) = 1.
Proof.
  intros G C. assert (Hl := rgood_ne l G C). assert (P : 0 < mean r_w l) by (apply mean_pos; [exact Hl|intros; apply G; assumption]). apply Qc_pos_neq0 in P.
  assert (Hn := rn_neq0 l Hl).
  unfold rnormalise, mean at 1. rewrite map_length, sumf_map. cbn [rset_w r_w]. rewrite sumf_div. unfold mean in *.
  assert (Hs : sumf r_w l <> 0) by (intros E0; apply P; rewrite E0; apply Qcdiv_0_l). field. auto.
Qed.
Lemma rgood_est l : rgood l -> has_cells l ->
  has_est (reg_did_rc rwit3 1 l) /\ has_est (std_ipw_did_rc rwit3 1 1 l) /\ has_est (ipw_did_rc rwit3 1 1 l) /\ has_est (drdid_trad_rc rwit3 1 1 l) /\ has_est (drdid_rc rwit3 1 1 l).
Proof.
  intros G C. assert (Hl := rgood_ne l G C). assert (GN := rgood_normalise l Hl G).
  assert (CN : has_cells (rnormalise l)) by (apply (has_cells_map (fun u => rset_w (r_w u / mean r_w l) u)); [intros; split; reflexivity|exact C]).
  assert (N := rgood_neg l G). assert (M1 := mean_one_pos l G C). set (ln := rnormalise l) in *. assert (B := rgood_both ln CN).
  assert (LS : exists g, ro_logit rwit3 ln = Some g).
  { cbn. destruct (Qceqb_spec (h2 r_w ln 0 0) 0) as [E|]; [exfalso; exact (all_h2 ln GN CN E)|eauto]. }
  destruct LS as [gm LS].
  destruct (fit_some ln GN CN false false) as [c0 F0]. destruct (fit_some ln GN CN false true) as [c1 F1]. destruct (fit_some ln GN CN true false) as [t0 F2]. destruct (fit_some ln GN CN true true) as [t1 F3].
  destruct (gram_some ln GN CN false false) as [K0 I0]. destruct (gram_some ln GN CN false true) as [K1 I1]. destruct (gram_some ln GN CN true false) as [K2 I2]. destruct (gram_some ln GN CN true true) as [K3 I3].
  destruct (psgram_some ln GN CN gm) as [H IH]. destruct (rgood_nonzero ln GN CN gm) as [SZ [Z0 Z1]].
  assert (PD : pi_hat ln <> 0).
  { apply (c_pos ln GN CN _ r_D true true); [reflexivity|intros u; unfold r_D; destruct (r_d u); discriminate|intros u D _; unfold r_D; rewrite D; reflexivity]. }
  assert (PL : lambda_hat ln <> 0).
  { apply (c_pos ln GN CN _ r_P true true); [reflexivity|intros u; unfold r_P; destruct (r_post u); discriminate|intros u _ D; unfold r_P; rewrite D; reflexivity]. }
  assert (PO : oml_hat ln <> 0).
  { apply (c_pos ln GN CN _ (fun u => 1 - r_P u) true false); [reflexivity|intros u; unfold r_P; destruct (r_post u); discriminate|intros u _ D; unfold r_P; rewrite D; reflexivity]. }
  assert (PL1 : lambda_hat ln <> 1).
  { intros E. apply PO. unfold oml_hat. rewrite (mean_ext _ (fun u => r_w u - r_w u * r_P u)) by (intros; ring). rewrite mean_sub. fold (lambda_hat ln). rewrite E, M1. ring. }
  unfold has_est, reg_did_rc, std_ipw_did_rc, ipw_did_rc, drdid_trad_rc, drdid_rc. rewrite N. fold ln. cbn zeta. rewrite B, LS, F0, F1, F2, F3, I0, I1, I2, I3. cbn [negb]. rewrite IH, SZ.
  destruct (Qceqb_spec (mean wr_treat_pre ln) 0); [contradiction|]. destruct (Qceqb_spec (mean wr_treat_post ln) 0); [contradiction|].
  destruct (Qceqb_spec (pi_hat ln) 0); [contradiction|]. destruct (Qceqb_spec (lambda_hat ln) 0); [contradiction|]. destruct (Qceqb_spec (lambda_hat ln) 1); [contradiction|].
  cbn [orb]. repeat split; eauto.
Qed.
