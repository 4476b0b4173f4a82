(** Proofs for C05: equality with the three local estimators. *)
From Verif Require Import Base ListLib ReduceModel ReduceProofs ReduceProofs2 DrdidModel DrdidSpec DrdidProofs DrdidProofs2 DrdidProofs3 DrdidProofs4 DrdidProofs5 DrdidProofs7 DrdidProofs8 DistDidModel DistDidSpec DistDidProofs DistDidProofs2.
Local Open Scope Qc_scope.

Lemma stats_some m mu k tl g b l : l <> [] -> partition_stats m mu k tl g b l =
  let ps := dist_ps m mu k g in let wt := dist_wt m tl ps in let wc := dist_wc m tl ps in
  let r := fun u => p_dy u - dist_out m k b u in
  Some {| s_wt := sumf wt l; s_wc := sumf wc l; s_rt := sumf (fun u => wt u * r u) l; s_rc := sumf (fun u => wc u * r u) l;
                 s_n := length l; s_wtX := sum_col k wt l; s_wcX := sum_col k wc l; s_wcrX := sum_col k (fun u => wc u * r u) l;
                 s_xpx := wgram k (fun u => (1 - p_D u) * p_w u) l;
                 s_info := match m with MReg => mat_of k (fun _ _ => 0) | _ => wgram k (fun u => p_w u * ps u * (1 - ps u)) l end |}.
Proof. intros H. destruct l; [congruence|reflexivity]. Qed.
Lemma fin_stats o m mu k tl g b l : l <> [] ->
  let ps := dist_ps m mu k g in let wt := dist_wt m tl ps in let wc := dist_wc m tl ps in
  let r := fun u => p_dy u - dist_out m k b u in
  0 < mean wt l ->
  forall hm2 x1 x3,
  let ac := if Qcltb 0 (mean wc l) then wmean wc r l else 0 in
  match m with MReg => hm2 = vec_of k (fun _ => 0)
  | _ => exists H, d_inv o (wgram k (fun u => p_w u * ps u * (1 - ps u)) l) = Some H /\
         hm2 = mv k (mscale (qn (length l)) H) (vec_of k (fun j => (nth j (sum_col k (fun u => wc u * r u) l) 0 - ac * nth j (sum_col k wc l) 0) / qn (length l))) end ->
  match m with MIpw => x1 = vec_of k (fun _ => 0) /\ x3 = vec_of k (fun _ => 0)
  | _ => exists X, d_inv o (mscale (1 / qn (length l)) (wgram k (fun u => (1 - p_D u) * p_w u) l)) = Some X /\
         x1 = mv k X (vec_of k (fun j => nth j (sum_col k wt l) 0 / qn (length l))) /\ x3 = mv k X (vec_of k (fun j => nth j (sum_col k wc l) 0 / qn (length l))) end ->
  finalize o m k (partition_stats m mu k tl g b l) =
  Some (Some {| g_wt := mean wt l; g_wc := mean wc l; g_at := wmean wt r l; g_ac := ac; g_att := wmean wt r l - ac;
                g_hm2 := hm2; g_xim1 := x1; g_xim3 := x3 |}).
Proof.
  intros Hl ps wt wc r Hwt hm2 x1 x3 ac HH HX.
  rewrite (stats_some m mu k tl g b l Hl). cbv zeta. fold ps. fold wt wc. change (fun u => p_dy u - dist_out m k b u) with r. unfold finalize. cbn [s_wt s_wc s_rt s_rc s_n s_wtX s_wcX s_wcrX s_xpx s_info].
  destruct (Nat.eqb_spec (length l) 0) as [E|_]; [destruct l; [congruence|discriminate E]|].
  change (sumf wt l / qn (length l)) with (mean wt l). change (sumf wc l / qn (length l)) with (mean wc l).
  change (sumf (fun u => wt u * r u) l / qn (length l) / mean wt l) with (wmean wt r l). change (sumf (fun u => wc u * r u) l / qn (length l) / mean wc l) with (wmean wc r l).
  assert (E : Qcltb 0 (mean wt l) = true) by (destruct (Qcltb_spec 0 (mean wt l)); [reflexivity|contradiction]). rewrite E. fold ac.
  destruct m.
  - destruct HH as (H & EH & ->). destruct HX as (X & EX & -> & ->). rewrite EH, EX. reflexivity.
  - subst hm2. destruct HX as (X & EX & -> & ->). rewrite EX. reflexivity.
  - destruct HH as (H & EH & ->). destruct HX as (-> & ->). rewrite EH. reflexivity.
Qed.

Lemma solve_normal k l a b0 n bd : or_gram k l = Some (a, b0, n) -> solves k a bd b0 ->
  forall i, (i < k)%nat -> sumf (fun j => sumf (fun u => x_at u i * p_w u * x_at u j) (ctrl l) * nth j bd 0) (seq 0 k) = sumf (fun u => x_at u i * p_w u * p_dy u) (ctrl l).
Proof.
  unfold or_gram. destruct (ctrl l) as [|u0 c0] eqn:Ec; [discriminate|]. rewrite <- Ec. clear Ec u0 c0. unfold partition_gram. intros E HS i Hi. injection E as <- <- _.
  specialize (HS i Hi). unfold gram_rhs in HS. rewrite nth_map_seq in HS by exact Hi. rewrite sumf_map in HS. cbn [or_row] in HS.
  etransitivity; [|exact HS]. apply sumf_ext. intros j Hj. apply in_seq in Hj. f_equal. unfold mget, gram_mat. rewrite nth_map_seq by exact Hi. rewrite nth_map_seq by lia.
  rewrite sumf_map. reflexivity.
Qed.
Lemma or_gram_inverse k l a b0 n Minv c : l <> [] -> c = mean p_w l -> c <> 0 -> or_gram k l = Some (a, b0, n) -> is_inverse k (ols_gram k (normalise l)) Minv -> exists N, is_inverse k a N.
Proof.
  intros Hl Hc Hc0 E HI. unfold or_gram in E. destruct (ctrl l) as [|u0 c0] eqn:Ec; [discriminate|]. rewrite <- Ec in E. injection E as <- _ _.
  assert (Hn : qn (length l) <> 0) by (apply qn_neq0; destruct l; [congruence|cbn; lia]).
  exists (mscale (/ (c * qn (length l))) Minv). apply (inverse_exists_scaled k (ols_gram k (normalise l))); [|exact HI|].
  - intros K. apply Qcmult_integral_ in K. tauto.
  - intros i j Hi Hj. rewrite (gram_or l c Hc Hc0 k i j Hi Hj), mget_mscale. unfold wgram. rewrite mget_mat_of by assumption.
    unfold gram_mat, mget. rewrite nth_map_seq by exact Hi. rewrite nth_map_seq by exact Hj. rewrite sumf_map.
    transitivity (sumf (fun u => x_at u i * ((1 - p_D u) * p_w u) * x_at u j) l).
    + clear. induction l as [|u l IH]; [reflexivity|]. rewrite sumf_cons, <- IH. cbn [filter]. unfold p_D. destruct (p_d u); cbn [negb ind]; [ring|]. rewrite sumf_cons. unfold xat, x_at, or_row. cbn [dx dw]. ring.
    + field. split; assumption.
Qed.
Lemma ctrl_or_gram k l : existsb (fun u => negb (p_d u)) l = true -> exists a b n, or_gram k l = Some (a, b, n).
Proof.
  intros H. unfold or_gram. destruct (ctrl l) as [|u c] eqn:E.
  - exfalso. apply existsb_exists in H. destruct H as (u & Hu & K). assert (In u (ctrl l)) by (apply filter_In; split; assumption). rewrite E in H. exact H.
  - unfold partition_gram. eauto.
Qed.
Lemma normalise_exists (p : punit -> bool) l : (forall w u, p (set_w w u) = p u) -> existsb p (normalise l) = existsb p l.
Proof. intros H. unfold normalise. generalize (mean p_w l) as c. intros c. induction l as [|u l IH]; cbn; [reflexivity|]. rewrite H, IH. reflexivity. Qed.

Section Cell.
Context (o : oracle) (od : dist_oracle) (k fan : nat) (tl : Qc) (ids : list Z) (parts completed : list (list punit)).
Context (Hfan : (2 <= fan)%nat) (Hh : hd [] parts <> []) (HP : Permutation parts completed) (Hd : NoDup (map p_id (concat parts))) (HLA : linear_algebra_ok od k).
Let l := concat parts.
Lemma l_nil : l <> []. Proof. unfold l. destruct parts as [|[|u p] q]; cbn in *; congruence. Qed.
Lemma parts_nil : parts <> []. Proof. intros E. rewrite E in Hh. cbn in Hh. congruence. Qed.

Lemma cell_dr att inf : wls_ok o k -> inv_ok o k -> same_scores o od parts -> scores_above_floor o k l ->
  drdid_panel o k tl l = PEst att inf -> dist_cell od MDr k fan tl ids parts completed = CDone att (column_of ids l inf).
Proof.
  intros HW HI [Hmu Hir] Hfl E. destruct HLA as (LA1 & LA2 & LA3 & LA4).
  destruct (dr_inv _ _ _ _ _ _ E) as (Hneg & H2 & g & b & M & H & Eg & Eb & Hwt & Hwc & EM & EH & -> & ->). cbn zeta in *.
  set (L := normalise l) in *. set (c := mean p_w l). assert (Hc0 : c <> 0) by (apply (mean_wt_pos_weights tl (ps_fit (o_mu o) k g)); exact Hwt).
  assert (Hcpos : 0 < c) by (apply mean_pos; [apply any_neg_false; exact Hneg|exact Hc0]).
  pose proof (HI _ _ EM) as IM. pose proof (HI _ _ EH) as IH. set (psl := ps_fit (o_mu o) k g) in *.
  assert (PS : forall w u, psl (set_w w u) = psl u) by reflexivity.
  assert (Hps : forall u, In u l -> dist_ps MDr (d_mu od) k g u = psl u).
  { intros u Hu. rewrite Hmu. apply dist_ps_fit; [discriminate|]. apply (Hfl g u Eg Hu). }
  (* outcome regression *)
  assert (Hctl : existsb (fun u => negb (p_d u)) l = true).
  { unfold two_groups in H2. apply andb_true_iff in H2. destruct H2 as [_ K]. unfold L in K. rewrite normalise_exists in K by reflexivity. exact K. }
  destruct (ctrl_or_gram k l Hctl) as (ga & gb & gn & Eor).
  destruct (or_gram_inverse k l ga gb gn M c l_nil eq_refl Hc0 Eor IM) as (N & HN).
  destruct (d_solve od ga gb) as [bd|] eqn:Es; [|exfalso; exact (LA4 _ _ _ HN Es)].
  assert (Hb : dist_wls od k fan parts = Some bd) by (rewrite (wls_pooled _ _ _ _ Hfan parts_nil); fold l; rewrite Eor; exact Es).
  assert (Ebeta : forall j, (j < k)%nat -> nth j bd 0 = nth j b 0).
  { apply (same_beta l c eq_refl Hc0 k b bd M IM); [apply normal_of_controls, HW; exact Eb|]. apply (solve_normal k l ga gb gn bd Eor). apply LA3. exact Es. }
  assert (Hout : forall u, dist_out MDr k bd u = dotk k (p_x u) b) by (intros u; cbn; apply dotk_ext; intros j Hj; rewrite Ebeta by exact Hj; reflexivity).
  set (r := fun u => p_dy u - dist_out MDr k bd u). set (rl := fun u => p_dy u - dotk k (p_x u) b).
  set (ps := dist_ps MDr (d_mu od) k g) in *.
  set (wt := dist_wt MDr tl ps). set (wc := dist_wc MDr tl ps).
  assert (Ewt : forall u, In u l -> wt u = c * w_treat tl psl (set_w (p_w u / c) u)).
  { intros u Hu. unfold wt. rewrite (wt_eq MDr tl ps psl u) by (try discriminate; apply Hps; exact Hu). unfold w_treat, trim_ps, p_D. rewrite PS. cbn [set_w p_d p_w]. field. exact Hc0. }
  assert (Ewc : forall u, In u l -> wc u = c * w_cont tl psl (set_w (p_w u / c) u)).
  { intros u Hu. unfold wc. rewrite (wc_eq MDr tl ps psl u) by (try discriminate; apply Hps; exact Hu). unfold w_cont, trim_ps, p_D. rewrite PS. cbn [set_w p_d p_w].
    unfold Qcdiv. set (z := / (1 - psl u)). clearbody z. field. exact Hc0. }
  assert (Er : forall u, In u l -> r u = rl (set_w (p_w u / c) u)) by (intros u _; unfold r, rl; rewrite Hout; reflexivity).
  pose proof (mean_L l c eq_refl wt _ Ewt) as Mwt. pose proof (mean_L l c eq_refl wc _ Ewc) as Mwc. fold L in Mwt, Mwc.
  pose proof (wmean_L l c eq_refl Hc0 wt r _ rl Ewt Er) as At. pose proof (wmean_L l c eq_refl Hc0 wc r _ rl Ewc Er) as Ac. fold L in At, Ac.
  assert (Lnn : forall u, In u L -> 0 <= p_w u) by (apply normalise_nonneg; [apply any_neg_false; exact Hneg|exact Hc0]).
  assert (P1 : 0 < mean wt l).
  { rewrite Mwt. assert (0 < mean (w_treat tl psl) L) by (apply mean_pos; [intros u Hu; apply w_treat_nonneg, Lnn, Hu|exact Hwt]). assert (K := Qcmult_lt_compat_r _ _ _ H0 Hcpos). rewrite Qcmult_0_l, ?(Qcmult_comm _ c) in K. exact K. }
  assert (P2 : 0 < mean wc l).
  { rewrite Mwc. assert (0 < mean (w_cont tl psl) L) by (apply mean_pos; [intros u Hu; apply w_cont_nonneg; [apply Lnn, Hu|apply ps_fit_bounds|apply ps_fit_bounds]|exact Hwc]). assert (K := Qcmult_lt_compat_r _ _ _ H0 Hcpos). rewrite Qcmult_0_l, ?(Qcmult_comm _ c) in K. exact K. }
  (* matrices *)
  assert (Hinfo : wgram k (fun u => p_w u * ps u * (1 - ps u)) l = wgram k (fun u => p_w u * psl u * (1 - psl u)) l).
  { unfold wgram. apply mat_of_ext. intros i j. apply sumf_ext. intros u Hu. rewrite (Hps u Hu). reflexivity. }
  destruct (d_inv od (wgram k (fun u => p_w u * ps u * (1 - ps u)) l)) as [Hd'|] eqn:EHd.
  2:{ exfalso. revert EHd. rewrite Hinfo. apply (LA2 _ (mscale (/ c) H)). apply (inverse_exists_scaled k (ps_gram k psl L)); [exact Hc0|exact IH|].
      intros i j Hi Hj. pose proof (gram_ps l c eq_refl Hc0 k psl i j PS Hi Hj) as G. fold L in G. rewrite G. field. exact Hc0. }
  destruct (d_inv od (mscale (1 / qn (length l)) (wgram k (fun u => (1 - p_D u) * p_w u) l))) as [X|] eqn:EX.
  2:{ exfalso. revert EX. apply (LA2 _ (mscale (/ c) M)). apply (inverse_exists_scaled k (ols_gram k L)); [exact Hc0|exact IM|].
      intros i j Hi Hj. pose proof (gram_or l c eq_refl Hc0 k i j Hi Hj) as G. fold L in G. rewrite G. field. exact Hc0. }
  assert (IHd := LA1 _ _ EHd). rewrite Hinfo in IHd. assert (IX := LA1 _ _ EX).
  assert (Hac : (if Qcltb 0 (mean wc l) then wmean wc r l else 0) = wmean wc r l) by (destruct (Qcltb_spec 0 (mean wc l)); [reflexivity|contradiction]).
  erewrite (core od MDr k fan tl ids parts completed g bd _ Hfan Hh HP Hd).
  2:{ rewrite Hir. exact Eg. }
  2:{ exact Hb. }
  2:{ apply (fin_stats od MDr (d_mu od) k tl g bd l l_nil P1).
      - eexists. split; [exact EHd|reflexivity].
      - eexists. split; [exact EX|]. split; reflexivity. }
  cbn [g_att]. fold l. fold ps. fold wt wc. fold r. rewrite Hac. unfold dr_att. rewrite At, Ac. f_equal. f_equal.
  pose proof (map_L l c eq_refl (dr_inf k tl psl (outf k b) M (mscale (qn (length L)) H) L)) as ML. fold L in ML. rewrite ML. apply map_ext_in. intros u Hu.
  unfold dist_if. cbn [g_at g_ac g_wt g_wc g_hm2 g_xim1 g_xim3]. fold ps. fold wt wc. change (p_dy u - dist_out MDr k bd u) with (r u).
  fold ps; fold wt; fold wc; fold r; fold l. rewrite ?Hac.
  rewrite (corr_or l c eq_refl Hc0 k wt (w_treat tl psl) _ X M Ewt IX IM). rewrite (corr_or l c eq_refl Hc0 k wc (w_cont tl psl) _ X M Ewc IX IM).
  rewrite (corr_ps l c eq_refl Hc0 k psl (fun v => w_cont tl psl v * rl v - w_cont tl psl v * wmean (w_cont tl psl) rl L) _ _ Hd' H PS).
  2:{ intros j Hj. rewrite nth_vec_of by exact Hj.
      transitivity (nth j (sum_col k (fun u => wc u * r u) l) 0 / qn (length l) - wmean (w_cont tl psl) rl L * (nth j (sum_col k wc l) 0 / qn (length l))); [change (fun u0 => wc u0 * (p_dy u0 - dist_out MDr k bd u0)) with (fun u => wc u * r u); unfold Qcdiv; ring|].
      rewrite (col_L l c eq_refl k wc _ j Ewc Hj). rewrite (col_L l c eq_refl k (fun u => wc u * r u) (fun u => w_cont tl psl u * rl u) j); [|intros v Hv; rewrite (Ewc v Hv), (Er v Hv); ring|exact Hj].
      fold L. unfold mean_col. rewrite !nth_vec_of by exact Hj. rewrite (mean_ext (fun u => (w_cont tl psl u * rl u - w_cont tl psl u * wmean (w_cont tl psl) rl L) * x_at u j)
        (fun u => w_cont tl psl u * rl u * x_at u j - wmean (w_cont tl psl) rl L * (w_cont tl psl u * x_at u j))) by (intros; ring).
      rewrite mean_sub, mean_mul_l. ring. }
  2:{ exact IHd. }
  2:{ exact IH. }
  fold L. unfold dr_inf. cbn zeta. change (fun u1 => p_dy u1 - dotk k (p_x u1) b) with rl. unfold alr_wols, alr_ps. rewrite !dotk_vm.
  rewrite Mwt, Mwc, (Ewt u Hu), (Ewc u Hu), (Er u Hu). set (u' := set_w (p_w u / c) u).
  assert (V1 : forall v, dotk k (vscale ((1 - p_D u) * p_w u * rl u') (p_x u)) v = c * dotk k (vscale (p_w u' * (1 - p_D u') * (p_dy u' - dotk k (p_x u') b)) (p_x u')) v).
  { intros v. rewrite !dotk_scale_l. change (p_dy u' - dotk k (p_x u') b) with (rl u'). change (p_x u') with (p_x u). change (p_D u') with (p_D u). unfold u' at 2. cbn [set_w p_w]. field. exact Hc0. }
  assert (V2 : forall v, dotk k (vscale (p_w u * (p_D u - ps u)) (p_x u)) v = c * dotk k (vscale (p_w u' * (p_D u' - psl u')) (p_x u')) v).
  { intros v. rewrite !dotk_scale_l, (Hps u Hu). change (p_x u') with (p_x u). change (p_D u') with (p_D u). change (psl u') with (psl u). unfold u'. cbn [set_w p_w]. field. exact Hc0. }
  change (fun v => w_cont tl psl v * (p_dy v - dotk k (p_x v) b) - w_cont tl psl v * wmean (w_cont tl psl) rl L) with (fun v => w_cont tl psl v * rl v - w_cont tl psl v * wmean (w_cont tl psl) rl L).
  rewrite !V1, !V2. change (rl u') with (p_dy u' - dotk k (p_x u') b). field. repeat split; assumption.
Qed.

Lemma vec0_dot x : dotk k x (vec_of k (fun _ => 0)) = 0.
Proof. unfold dotk. apply sumf_zero. intros j Hj. apply in_seq in Hj. rewrite nth_vec_of by lia. ring. Qed.
Lemma cell_ipw att inf : inv_ok o k -> same_scores o od parts -> scores_above_floor o k l ->
  std_ipw_did_panel o k tl l = PEst att inf -> dist_cell od MIpw k fan tl ids parts completed = CDone att (column_of ids l inf).
Proof.
  intros HI [Hmu Hir] Hfl E. destruct HLA as (LA1 & LA2 & LA3 & LA4).
  destruct (ipw_inv _ _ _ _ _ _ E) as (Hneg & H2 & g & H & Eg & Hwt & Hwc & EH & -> & ->). cbn zeta in *.
  set (L := normalise l) in *. set (c := mean p_w l). assert (Hc0 : c <> 0) by (apply (mean_wt_pos_weights tl (ps_fit (o_mu o) k g)); exact Hwt).
  assert (Hcpos : 0 < c) by (apply mean_pos; [apply any_neg_false; exact Hneg|exact Hc0]).
  pose proof (HI _ _ EH) as IH. set (psl := ps_fit (o_mu o) k g) in *.
  assert (PS : forall w u, psl (set_w w u) = psl u) by reflexivity.
  assert (Hps : forall u, In u l -> dist_ps MIpw (d_mu od) k g u = psl u).
  { intros u Hu. rewrite Hmu. apply dist_ps_fit; [discriminate|]. apply (Hfl g u Eg Hu). }
  set (bd := vec_of k (fun _ : nat => 0)).
  set (r := fun u => p_dy u - dist_out MIpw k bd u).
  set (ps := dist_ps MIpw (d_mu od) k g) in *.
  set (wt := dist_wt MIpw tl ps). set (wc := dist_wc MIpw tl ps).
  assert (Ewt : forall u, In u l -> wt u = c * w_treat tl psl (set_w (p_w u / c) u)).
  { intros u Hu. unfold wt. rewrite (wt_eq MIpw tl ps psl u) by (try discriminate; apply Hps; exact Hu). unfold w_treat, trim_ps, p_D. rewrite PS. cbn [set_w p_d p_w]. field. exact Hc0. }
  assert (Ewc : forall u, In u l -> wc u = c * w_cont tl psl (set_w (p_w u / c) u)).
  { intros u Hu. unfold wc. rewrite (wc_eq MIpw tl ps psl u) by (try discriminate; apply Hps; exact Hu). unfold w_cont, trim_ps, p_D. rewrite PS. cbn [set_w p_d p_w].
    unfold Qcdiv. set (z := / (1 - psl u)). clearbody z. field. exact Hc0. }
  assert (Er0 : forall u, r u = p_dy u) by (intros u; unfold r; cbn [dist_out]; ring).
  assert (Er : forall u, In u l -> r u = p_dy (set_w (p_w u / c) u)) by (intros u _; rewrite Er0; reflexivity).
  pose proof (mean_L l c eq_refl wt _ Ewt) as Mwt. pose proof (mean_L l c eq_refl wc _ Ewc) as Mwc. fold L in Mwt, Mwc.
  pose proof (wmean_L l c eq_refl Hc0 wt r _ p_dy Ewt Er) as At. pose proof (wmean_L l c eq_refl Hc0 wc r _ p_dy Ewc Er) as Ac. fold L in At, Ac.
  assert (Lnn : forall u, In u L -> 0 <= p_w u) by (apply normalise_nonneg; [apply any_neg_false; exact Hneg|exact Hc0]).
  assert (P1 : 0 < mean wt l).
  { rewrite Mwt. assert (0 < mean (w_treat tl psl) L) by (apply mean_pos; [intros u Hu; apply w_treat_nonneg, Lnn, Hu|exact Hwt]). assert (K := Qcmult_lt_compat_r _ _ _ H0 Hcpos). rewrite Qcmult_0_l, ?(Qcmult_comm _ c) in K. exact K. }
  assert (P2 : 0 < mean wc l).
  { rewrite Mwc. assert (0 < mean (w_cont tl psl) L) by (apply mean_pos; [intros u Hu; apply w_cont_nonneg; [apply Lnn, Hu|apply ps_fit_bounds|apply ps_fit_bounds]|exact Hwc]). assert (K := Qcmult_lt_compat_r _ _ _ H0 Hcpos). rewrite Qcmult_0_l, ?(Qcmult_comm _ c) in K. exact K. }
  assert (Hinfo : wgram k (fun u => p_w u * ps u * (1 - ps u)) l = wgram k (fun u => p_w u * psl u * (1 - psl u)) l).
  { unfold wgram. apply mat_of_ext. intros i j. apply sumf_ext. intros u Hu. rewrite (Hps u Hu). reflexivity. }
  destruct (d_inv od (wgram k (fun u => p_w u * ps u * (1 - ps u)) l)) as [Hd'|] eqn:EHd.
  2:{ exfalso. revert EHd. rewrite Hinfo. apply (LA2 _ (mscale (/ c) H)). apply (inverse_exists_scaled k (ps_gram k psl L)); [exact Hc0|exact IH|].
      intros i j Hi Hj. pose proof (gram_ps l c eq_refl Hc0 k psl i j PS Hi Hj) as G. fold L in G. rewrite G. field. exact Hc0. }
  assert (IHd := LA1 _ _ EHd). rewrite Hinfo in IHd.
  assert (Hac : (if Qcltb 0 (mean wc l) then wmean wc r l else 0) = wmean wc r l) by (destruct (Qcltb_spec 0 (mean wc l)); [reflexivity|contradiction]).
  erewrite (core od MIpw k fan tl ids parts completed g bd _ Hfan Hh HP Hd).
  2:{ rewrite Hir. exact Eg. }
  2:{ reflexivity. }
  2:{ apply (fin_stats od MIpw (d_mu od) k tl g bd l l_nil P1).
      - eexists. split; [exact EHd|reflexivity].
      - split; reflexivity. }
  cbn [g_att]. fold l. fold ps. fold wt wc. fold r. rewrite Hac. rewrite At, Ac.
  assert (AT : forall w, mean (fun u => w u * p_dy u / mean w L) L = wmean w p_dy L) by (intros w; unfold wmean; rewrite mean_div_r; reflexivity).
  unfold ipw_att. rewrite !AT. f_equal. f_equal.
  pose proof (map_L l c eq_refl (ipw_inf k tl psl (mscale (qn (length L)) H) L)) as ML. fold L in ML. rewrite ML. apply map_ext_in. intros u Hu.
  unfold dist_if. cbn [g_at g_ac g_wt g_wc g_hm2 g_xim1 g_xim3]. fold ps. fold wt wc. change (p_dy u - dist_out MIpw k bd u) with (r u).
  rewrite (corr_ps l c eq_refl Hc0 k psl (fun v => w_cont tl psl v * (p_dy v - wmean (w_cont tl psl) p_dy L)) _ _ Hd' H PS).
  2:{ intros j Hj. rewrite nth_vec_of by exact Hj.
      transitivity (nth j (sum_col k (fun u => wc u * r u) l) 0 / qn (length l) - wmean (w_cont tl psl) p_dy L * (nth j (sum_col k wc l) 0 / qn (length l))); [change (fun u0 => wc u0 * (p_dy u0 - dist_out MIpw k bd u0)) with (fun u => wc u * r u); unfold Qcdiv; ring|].
      rewrite (col_L l c eq_refl k wc _ j Ewc Hj). rewrite (col_L l c eq_refl k (fun u => wc u * r u) (fun u => w_cont tl psl u * p_dy u) j); [|intros v Hv; rewrite (Ewc v Hv), (Er v Hv); ring|exact Hj].
      fold L. unfold mean_col. rewrite !nth_vec_of by exact Hj. rewrite (mean_ext (fun u => w_cont tl psl u * (p_dy u - wmean (w_cont tl psl) p_dy L) * x_at u j)
        (fun u => w_cont tl psl u * p_dy u * x_at u j - wmean (w_cont tl psl) p_dy L * (w_cont tl psl u * x_at u j))) by (intros; ring).
      rewrite mean_sub, mean_mul_l. ring. }
  2:{ exact IHd. }
  2:{ exact IH. }
  fold L. unfold ipw_inf. cbn zeta. rewrite !AT. unfold alr_ps. rewrite !dotk_vm.
  rewrite Mwt, Mwc, (Ewt u Hu), (Ewc u Hu), (Er u Hu). set (u' := set_w (p_w u / c) u).
  set (MC := mean_col k (fun v => w_cont tl psl v * (p_dy v - wmean (w_cont tl psl) p_dy L)) L).
  assert (V2 : forall v, dotk k (vscale (p_w u * (p_D u - ps u)) (p_x u)) v = c * dotk k (vscale (p_w u' * (p_D u' - psl u')) (p_x u')) v).
  { intros v. rewrite !dotk_scale_l, (Hps u Hu). change (p_x u') with (p_x u). change (p_D u') with (p_D u). change (psl u') with (psl u). unfold u'. cbn [set_w p_w]. field. exact Hc0. }
  assert (V3 : forall y MM, dotk k y (mv k MM (map (fun v => v / mean (w_cont tl psl) L) MC)) = dotk k y (mv k MM MC) / mean (w_cont tl psl) L).
  { intros y MM. rewrite (dot_mv_scaled k MM MM MC _ 1 (1 / mean (w_cont tl psl) L)).
    - field. exact Hwc.
    - intros; ring.
    - intros j Hj. transitivity (nth j (map (fun v => v / mean (w_cont tl psl) L) MC) (0 / mean (w_cont tl psl) L)); [f_equal; symmetry; apply Qcdiv_0_l|]. rewrite (map_nth (fun v => v / mean (w_cont tl psl) L)). unfold Qcdiv. ring. }
  rewrite !V2, V3. field. repeat split; assumption.
Qed.

Lemma cell_reg att inf : (1 <= k)%nat -> has_intercept l -> wls_ok o k -> inv_ok o k ->
  reg_did_panel o k l = PEst att inf -> dist_cell od MReg k fan tl ids parts completed = CDone att (column_of ids l inf).
Proof.
  intros Hk Hint HW HI E. destruct HLA as (LA1 & LA2 & LA3 & LA4).
  destruct (reg_inv _ _ _ _ _ E) as (Hneg & Hcl & b & M & Eb & Hwt & EM & -> & ->).
  set (L := normalise l) in *. set (c := mean p_w l). assert (Hc0 : c <> 0) by (apply mean_wreg_pos_weights; exact Hwt).
  assert (Hcpos : 0 < c) by (apply mean_pos; [apply any_neg_false; exact Hneg|exact Hc0]).
  pose proof (HI _ _ EM) as IM.
  assert (Hctl : existsb (fun u => negb (p_d u)) l = true).
  { destruct (ctrl L) as [|v q] eqn:EL; [congruence|]. assert (HV : In v (ctrl L)) by (rewrite EL; left; reflexivity). apply filter_In in HV. destruct HV as [V1 V2].
    apply in_normalise in V1. destruct V1 as (u & Hu & ->). apply existsb_exists. exists u. split; [exact Hu|exact V2]. }
  destruct (ctrl_or_gram k l Hctl) as (ga & gb & gn & Eor).
  destruct (or_gram_inverse k l ga gb gn M c l_nil eq_refl Hc0 Eor IM) as (N & HN).
  destruct (d_solve od ga gb) as [bd|] eqn:Es; [|exfalso; exact (LA4 _ _ _ HN Es)].
  assert (Hb : dist_wls od k fan parts = Some bd) by (rewrite (wls_pooled _ _ _ _ Hfan parts_nil); fold l; rewrite Eor; exact Es).
  assert (NE : normal_equations k L b) by (apply normal_of_controls, HW; exact Eb).
  assert (Ebeta : forall j, (j < k)%nat -> nth j bd 0 = nth j b 0).
  { apply (same_beta l c eq_refl Hc0 k b bd M IM NE). apply (solve_normal k l ga gb gn bd Eor). apply LA3. exact Es. }
  assert (Hout : forall u, dist_out MReg k bd u = dotk k (p_x u) b) by (intros u; cbn; apply dotk_ext; intros j Hj; rewrite Ebeta by exact Hj; reflexivity).
  set (g := vec_of k (fun _ : nat => 0)).
  set (r := fun u => p_dy u - dist_out MReg k bd u). set (rl := fun u => p_dy u - dotk k (p_x u) b).
  set (ps := dist_ps MReg (d_mu od) k g).
  set (wt := dist_wt MReg tl ps). set (wc := dist_wc MReg tl ps). set (wcl := fun u => p_w u * (1 - p_D u)).
  assert (Ewt : forall u, In u l -> wt u = c * w_reg (set_w (p_w u / c) u)) by (intros u Hu; unfold wt, dist_wt, dist_keep, w_reg, p_D; cbn [set_w p_d p_w]; field; exact Hc0).
  assert (Ewc : forall u, In u l -> wc u = c * wcl (set_w (p_w u / c) u)) by (intros u Hu; unfold wc, dist_wc, dist_keep, wcl, p_D; cbn [set_w p_d p_w]; field; exact Hc0).
  assert (Er : forall u, In u l -> r u = rl (set_w (p_w u / c) u)) by (intros u _; unfold r, rl; rewrite Hout; reflexivity).
  pose proof (mean_L l c eq_refl wt _ Ewt) as Mwt. fold L in Mwt.
  pose proof (wmean_L l c eq_refl Hc0 wt r _ rl Ewt Er) as At. pose proof (wmean_L l c eq_refl Hc0 wc r _ rl Ewc Er) as Ac. fold L in At, Ac.
  assert (Lnn : forall u, In u L -> 0 <= p_w u) by (apply normalise_nonneg; [apply any_neg_false; exact Hneg|exact Hc0]).
  assert (P1 : 0 < mean wt l).
  { rewrite Mwt. assert (0 < mean w_reg L). { apply mean_pos; [|exact Hwt]. intros u Hu. unfold w_reg, p_D. apply Qcmult_nonneg; [apply Lnn, Hu|destruct (p_d u); cbn; discriminate]. }
    assert (K := Qcmult_lt_compat_r _ _ _ H Hcpos). rewrite Qcmult_0_l, ?(Qcmult_comm _ c) in K. exact K. }
  (* controls average to zero *)
  assert (Z0 : sumf (fun u => wcl u * rl u) L = 0).
  { rewrite <- (NE 0%nat Hk). apply sumf_ext. intros u Hu. apply in_normalise in Hu. destruct Hu as (v & Hv & ->). unfold wcl, rl, x_at. cbn [set_w p_x]. rewrite (Hint v Hv). ring. }
  assert (Hac : (if Qcltb 0 (mean wc l) then wmean wc r l else 0) = 0).
  { destruct (Qcltb 0 (mean wc l)); [|reflexivity]. rewrite Ac. unfold wmean. rewrite mean_0 by exact Z0. apply Qcdiv_0_l. }
  destruct (d_inv od (mscale (1 / qn (length l)) (wgram k (fun u => (1 - p_D u) * p_w u) l))) as [X|] eqn:EX.
  2:{ exfalso. revert EX. apply (LA2 _ (mscale (/ c) M)). apply (inverse_exists_scaled k (ols_gram k L)); [exact Hc0|exact IM|].
      intros i j Hi Hj. pose proof (gram_or l c eq_refl Hc0 k i j Hi Hj) as G. fold L in G. rewrite G. field. exact Hc0. }
  assert (IX := LA1 _ _ EX).
  erewrite (core od MReg k fan tl ids parts completed g bd _ Hfan Hh HP Hd).
  2:{ reflexivity. }
  2:{ exact Hb. }
  2:{ apply (fin_stats od MReg (d_mu od) k tl g bd l l_nil P1).
      - reflexivity.
      - eexists. split; [exact EX|]. split; reflexivity. }
  cbn [g_att]. fold l. fold ps. fold wt wc. fold r. rewrite Hac.
  assert (RA : reg_att (outf k b) L = wmean w_reg rl L).
  { unfold reg_att, wmean, rl. rewrite (mean_ext (fun u => w_reg u * (p_dy u - dotk k (p_x u) b)) (fun u => w_reg u * p_dy u - w_reg u * dotk k (p_x u) b)) by (intros; ring).
    rewrite mean_sub. unfold Qcdiv. ring. }
  rewrite RA, At. f_equal; [ring|]. f_equal.
  pose proof (map_L l c eq_refl (reg_inf k (outf k b) M L)) as ML. fold L in ML. rewrite ML. apply map_ext_in. intros u Hu.
  unfold dist_if. cbn [g_at g_ac g_wt g_wc g_hm2 g_xim1 g_xim3]. fold ps. fold wt wc. change (p_dy u - dist_out MReg k bd u) with (r u).
  rewrite (corr_or l c eq_refl Hc0 k wt w_reg _ X M Ewt IX IM). rewrite (corr_or l c eq_refl Hc0 k wc wcl _ X M Ewc IX IM). fold L.
  (* the control component vanishes: M m3 is the first unit vector *)
  assert (C3 : dotk k (vscale ((1 - p_D u) * p_w u * r u) (p_x u)) (mv k M (mean_col k wcl L)) = wc u * r u).
  { rewrite dotk_scale_l. assert (D3 : dotk k (p_x u) (mv k M (mean_col k wcl L)) = 1).
    { rewrite <- (Hint u Hu). rewrite <- (ind_eqb_sum k 0 (fun j => nth j (p_x u) 0)) by lia. unfold dotk. apply sumf_ext. intros i Hi. apply in_seq in Hi.
      rewrite Qcmult_comm. f_equal. rewrite Nat.eqb_sym. rewrite <- (proj2 (IM i 0%nat ltac:(lia) ltac:(lia))). unfold mv. rewrite nth_map_seq by lia. unfold mat_mul.
      apply sumf_ext. intros j Hj. apply in_seq in Hj. f_equal. unfold mean_col, ols_gram. rewrite nth_vec_of by lia. rewrite mget_mat_of by lia. apply mean_ext. intros v Hv.
      apply in_normalise in Hv. destruct Hv as (v0 & Hv0 & ->). unfold wcl. replace (x_at (set_w (p_w v0 / mean p_w l) v0) 0) with (1 : Qc) by (symmetry; exact (Hint v0 Hv0)). ring. }
    rewrite D3. unfold wc, dist_wc, dist_keep. ring. }
  rewrite C3. unfold reg_inf. cbn zeta. unfold alr_wols. rewrite !dotk_vm. rewrite Mwt, (Ewt u Hu). set (u' := set_w (p_w u / c) u).
  assert (V1 : forall v, dotk k (vscale ((1 - p_D u) * p_w u * r u) (p_x u)) v = c * dotk k (vscale (p_w u' * (1 - p_D u') * (p_dy u' - dotk k (p_x u') b)) (p_x u')) v).
  { intros v. rewrite !dotk_scale_l, (Er u Hu). fold u'. change (p_dy u' - dotk k (p_x u') b) with (rl u'). change (p_x u') with (p_x u). change (p_D u') with (p_D u). unfold u' at 2. cbn [set_w p_w]. field. exact Hc0. }
  rewrite V1, (Er u Hu). fold u'. rewrite <- RA. unfold reg_att. change (rl u') with (p_dy u' - dotk k (p_x u') b).
  set (D := dotk k (vscale _ _) _). clearbody D.
  transitivity ((c * w_reg u' * (p_dy u' - dotk k (p_x u') b) - c * w_reg u' * (wmean w_reg p_dy L - wmean w_reg (outf k b) L) + - (c * D)) / (c * mean w_reg L)).
  { unfold Qcdiv at 2. ring. }
  field. split; assumption.
Qed.
End Cell.
