(** Concrete cases meeting the hypotheses of C107-C109. No property content. *)
From Coq Require Import Qcabs.
From Verif Require Import Base ListLib ReduceModel Calc DrdidModel DrdidSpec DrdidProofs DrdidProofs2 DrdidProofs3 DrdidProofs4 DrdidProofs5 DrdidProofs7 DrdidProofs8 DrdidWitness DrdidWitness2 Witness RcModel RcSpec RcCalc RcProofs RcProofs2 RcProofs3 RcProofs5 RcWitness RcWitness2 DddModel DddProofs3 DddRcModel DddRcSpec DddRcProofs DddRcProofs2 DddRcProofs3 DddRcProofs4.

Definition mkq (sg : Z) (y : Qc) (u : runit) : qrow := {| q_id := r_id u; q_sg := sg; q_post := r_post u; q_y := y; q_w := r_w u; q_x := r_x u |}.
(** treated rows become subgroup 4; each comparison row appears in subgroups 3, 2 and 1, with outcomes moved by [d] *)
Definition q_copies (d : Z -> runit -> Qc) (l : list runit) : list qrow :=
  flat_map (fun u => if r_d u then mkq 4 (r_y u) u :: nil else [mkq 3 (r_y u + d 3%Z u) u; mkq 2 (r_y u + d 2%Z u) u; mkq 1 (r_y u + d 1%Z u) u]) l.
Definition q_rows : list qrow := q_copies (fun s u => qz s * qz (r_id u)) rwit_rows.
Definition q_rows1 : list qrow := q_copies (fun s u => qz s * qz (r_id u)) rwit_rows1.
Definition is_qest (r : dddrc_result) : bool := match r with QEst _ _ _ _ _ => true | _ => false end.

(** ** scale freeness *)
Lemma h2_scale c l i j : h2 r_w (map (rscale_w c) l) i j = c * h2 r_w l i j.
Proof. unfold h2. rewrite sumf_map, <- sumf_mul_l. apply sumf_ext. intros u _. unfold rx_at, rscale_w. cbn. ring. Qed.
Lemma u2_scale (g : runit -> Qc) c l j : (forall u, g (rscale_w c u) = g u) -> u2 (fun u => r_w u * g u) (map (rscale_w c) l) j = c * u2 (fun u => r_w u * g u) l j.
Proof. intros H. unfold u2. rewrite sumf_map, <- sumf_mul_l. apply sumf_ext. intros u _. rewrite H. unfold rx_at, rscale_w. cbn. ring. Qed.
Lemma eqb_scale c x : c <> 0 -> Qceqb (c * x) 0 = Qceqb x 0.
Proof.
  intros C0. destruct (Qceqb_spec x 0) as [->|N]; [destruct (Qceqb_spec (c * 0) 0) as [_|N]; [reflexivity|exfalso; apply N; ring]|].
  destruct (Qceqb_spec (c * x) 0) as [E|_]; [|reflexivity]. exfalso. apply N. setoid_replace x with (c * x / c) by (field; exact C0). rewrite E. unfold Qcdiv. ring.
Qed.
Lemma solve2_scale c a b d p q : c <> 0 -> solve2 (c * a) (c * b) (c * d) (c * p) (c * q) = solve2 a b d p q.
Proof.
  intros C0. unfold solve2. cbn zeta. assert (D : c * a * (c * d) - c * b * (c * b) = (c * c) * (a * d - b * b)) by ring. rewrite D.
  assert (CC : c * c <> 0) by (intros E; apply Qcmult_integral in E; tauto). rewrite (eqb_scale (c * c) _ CC).
  destruct (Qceqb_spec (a * d - b * b) 0) as [|N]; [reflexivity|]. f_equal. f_equal; [|f_equal]; field; split; assumption.
Qed.
Lemma checked_scale c k mu l g : c <> 0 -> checked k mu (map (rscale_w c) l) g = checked k mu l g.
Proof.
  intros C0. unfold checked. destruct g as [v|]; [|reflexivity].
  assert (Y : forall js, forallb (fun j => Qceqb (sumf (fun u => r_w u * (r_D u - rps_fit mu k v u) * rx_at u j) (map (rscale_w c) l)) 0) js = forallb (fun j => Qceqb (sumf (fun u => r_w u * (r_D u - rps_fit mu k v u) * rx_at u j) l) 0) js).
  { induction js as [|j js IH]; [reflexivity|]. cbn [forallb]. rewrite IH. f_equal. rewrite <- (eqb_scale c (sumf (fun u => r_w u * (r_D u - rps_fit mu k v u) * rx_at u j) l) C0), sumf_map, <- sumf_mul_l. f_equal. apply sumf_ext. intros u _. unfold rx_at, r_D, rps_fit. cbn [rscale_w rset_w r_w r_d r_x]. ring. }
  rewrite Y. reflexivity.
Qed.
Lemma rwit2_scale_free : rfits_scale_free rwit2.
Proof.
  intros c Hc. assert (C0 := Qc_pos_neq0 _ Hc). split.
  - intros l. cbn [rwit2 ro_logit ro_wls]. rewrite !h2_scale, !u2_scale by reflexivity. rewrite !solve2_scale, checked_scale by exact C0. split; reflexivity.
  - intros M. cbn [rwit2 ro_inv wit_oracle o_inv]. cbn zeta. rewrite !mget_mscale.
    assert (D : c * mget M 0 0 * (c * mget M 1 1) - c * mget M 0 1 * (c * mget M 1 0) = (c * c) * (mget M 0 0 * mget M 1 1 - mget M 0 1 * mget M 1 0)) by ring. rewrite D.
    rewrite eqb_scale by (intros E; apply Qcmult_integral in E; tauto). destruct (Qceqb _ 0); [reflexivity|discriminate].
Qed.
Lemma rwit3_scale_free : rfits_scale_free rwit3.
Proof.
  intros c Hc. assert (C0 := Qc_pos_neq0 _ Hc). split.
  - intros l. cbn [rwit3 rwit1 ro_logit ro_wls]. rewrite !h2_scale, !u2_scale by reflexivity. rewrite eqb_scale by exact C0. split; (destruct (Qceqb_spec (h2 r_w l 0 0) 0) as [|N]; [reflexivity|]); f_equal; f_equal.
    + rewrite quarter_eq. unfold two. field. repeat split; try assumption; discriminate.
    + field. split; assumption.
  - intros M. cbn [rwit3 ro_inv wit_oracle1 o_inv]. rewrite !mget_mscale, eqb_scale by exact C0. destruct (Qceqb _ 0); [reflexivity|discriminate].
Qed.

(** ** two regressors *)
Lemma q_wit_intercept : q_intercept 2 q_rows.
Proof. split; [lia|]. intros u H. cbn in H. repeat (destruct H as [<-|H]; [reflexivity|]). destruct H. Qed.
Lemma q_wit_nc : q_no_collinearity 2 q_rows.
Proof.
  intros c d t Hc v H. apply (rwit_nc d t v). intros u Hu Hw.
  assert (X : exists u', In u' (cell d t (q_pair c q_rows)) /\ r_w u' = r_w u /\ r_x u' = r_x u).
  { apply filter_In in Hu. destruct Hu as [Hu Cu].
    exists (q_as_pair (mkq (if r_d u then 4 else c) (if r_d u then r_y u else r_y u + qz c * qz (r_id u)) u)%Z). split; [|split; reflexivity].
    apply filter_In. split.
    - apply in_q_pair. eexists. split; [|split; [|reflexivity]].
      + unfold q_rows, q_copies. apply in_flat_map. exists u. split; [exact Hu|]. destruct (r_d u); [left; reflexivity|]. destruct Hc as [<-|[<-|[<-|[]]]]; cbn; auto.
      + unfold q_in_pair, mkq. cbn [q_sg]. destruct (r_d u); [reflexivity|]. rewrite Z.eqb_refl. apply orb_true_r.
    - unfold in_cell in *. cbn [q_as_pair mkq q_sg q_post r_d r_post]. destruct (r_d u); [exact Cu|]. destruct Hc as [<-|[<-|[<-|[]]]]; exact Cu. }
  destruct X as [u' [H1 [H2 H3]]]. rewrite <- H3. apply (H u' H1). rewrite H2. exact Hw.
Qed.
Definition rinterior_b (o : roracle) (k : nat) (l : list runit) : bool :=
  match ro_logit o (rnormalise l) with
  | Some g => forallb (fun u => Qcleb eps6 (ro_mu o (dotk k (r_x u) g)) && Qcleb (ro_mu o (dotk k (r_x u) g)) (1 - eps6)) l
  | None => true end.
Lemma rinterior_b_ok o k m l : rinterior_b o k l = true -> rscores_interior o k m l.
Proof.
  intros H. assert (X : forall gamma u, ro_logit o (rnormalise l) = Some gamma -> In u l -> eps6 <= ro_mu o (dotk k (r_x u) gamma) /\ ro_mu o (dotk k (r_x u) gamma) <= 1 - eps6).
  { intros g u E Hu. unfold rinterior_b in H. rewrite E in H. rewrite forallb_forall in H. specialize (H u Hu). apply andb_true_iff in H. destruct H as [A B].
    destruct (Qcleb_spec eps6 (ro_mu o (dotk k (r_x u) g))); [|discriminate]. destruct (Qcleb_spec (ro_mu o (dotk k (r_x u) g)) (1 - eps6)); [|discriminate]. auto. }
  destruct m; [exact X|exact I|exact X].
Qed.
Lemma q_wit_interior m : forall c, In c [3; 2; 1]%Z -> rscores_interior rwit2 2 m (q_pair c q_rows).
Proof. intros c [<-|[<-|[<-|[]]]]; apply rinterior_b_ok; vm_compute; reflexivity. Qed.
Definition rscores_b (o : roracle) (k : nat) (l : list runit) : bool :=
  match ro_logit o l with
  | Some g => forallb (fun j => Qceqb (sumf (fun u => r_w u * (r_D u - (let p := ro_mu o (dotk k (r_x u) g) in if Qcltb (1 - eps6) p then 1 - eps6 else p)) * rx_at u j) l) 0) (seq 0 k)
  | None => true end.
Lemma rscores_b_ok o k l gamma : rscores_b o k l = true -> ro_logit o l = Some gamma ->
  rscore_equations k (fun u => let p := ro_mu o (dotk k (r_x u) gamma) in if Qcltb (1 - eps6) p then 1 - eps6 else p) l.
Proof.
  unfold rscores_b. intros H E. rewrite E in H. rewrite forallb_forall in H. intros j Hj. specialize (H j ltac:(apply in_seq; lia)). cbn beta in H.
  match type of H with Qceqb ?x 0 = true => destruct (Qceqb_spec x 0) as [X|]; [exact X|discriminate] end.
Qed.
Lemma q_wit_scores : q_scores rwit2 2 q_rows.
Proof. intros c g [<-|[<-|[<-|[]]]] E; (apply rscores_b_ok; [vm_compute; reflexivity|exact E]). Qed.
Lemma q_wit_est m : is_qest (ddd_rc rwit2 2 m 1 q_rows) = true. Proof. destruct m; lazy; reflexivity. Qed.
Definition q_lvl (s : Z) : Qc := qz (s * s).
Lemma q_wit_shock m : is_qest (ddd_rc rwit2 2 m 1 (map (q_shocked (qz 3) (qz 5) (qz 2) (qz 7) (qz 4) q_lvl) q_rows)) = true.
Proof. destruct m; lazy; reflexivity. Qed.
