(** Proofs for C110: one comparison. *)
From Verif Require Import Base ListLib ReduceModel ReduceProofs ReduceProofs2 DrdidModel DrdidSpec DrdidProofs DrdidProofs2 DrdidProofs3 DrdidProofs4 DrdidProofs5 DrdidProofs7 DrdidProofs8 DrdidProofs9 DddModel DddSpec DddProofs DddMpModel DistDidModel DistDidSpec DistDidProofs DistDidProofs2 DistDidProofs3 DistDddModel DistDddProofs.
Local Open Scope Qc_scope.

Lemma dist_ps_cap mu k g m u : m <> Reg -> eps10 <= mu (dotk k (p_x u) g) -> mu (dotk k (p_x u) g) <= 1 - eps6 ->
  dist_ps (meth m) mu k g u = ps_raw mu k g u /\ ps_cap mu k g u = ps_raw mu k g u.
Proof.
  intros Hm H1 H2. assert (E : dist_ps (meth m) mu k g u = qmin (clip eps10 (1 - eps10) (mu (dotk k (p_x u) g))) (1 - eps6)) by (destruct m; [reflexivity|congruence|reflexivity]).
  rewrite E. unfold ps_cap, ps_raw, qmin, clip. set (v := mu (dotk k (p_x u) g)) in *. clearbody v.
  assert (A1 : Qcltb v eps10 = false) by (destruct (Qcltb_spec v eps10) as [K|_]; [exfalso; exact (Qclt_not_le _ _ K H1)|reflexivity]).
  assert (A2 : Qcltb (1 - eps6) v = false) by (destruct (Qcltb_spec (1 - eps6) v) as [K|_]; [exfalso; exact (Qclt_not_le _ _ K H2)|reflexivity]).
  assert (A3 : Qcltb (1 - eps10) v = false).
  { destruct (Qcltb_spec (1 - eps10) v) as [K|_]; [|reflexivity]. exfalso. apply (Qclt_not_le _ _ K). apply (Qcle_trans _ (1 - eps6)); [exact H2|discriminate]. }
  rewrite A1, A3, A2. split; reflexivity.
Qed.
Lemma tw_treat_nonneg m tl ps u : 0 <= p_w u -> 0 <= tw_treat m tl ps u.
Proof. intros H. rewrite twt. unfold p_D. destruct (p_d u); cbn [ind]; [rewrite Qcmult_1_r; exact H|rewrite Qcmult_0_r; apply Qcle_refl]. Qed.
Lemma tw_control_nonneg m tl ps u : 0 <= p_w u -> (m <> Reg -> 0 <= ps u /\ ps u <= 1 - eps6) -> 0 <= tw_control m tl ps u.
Proof.
  intros H HP. assert (B : 0 <= 1 - p_D u) by apply one_minus_D.
  assert (A : 0 <= tw_keep m tl ps u) by (unfold tw_keep; destruct m; try discriminate; destruct (p_d u || Qcltb (ps u) tl); cbn; discriminate).
  unfold tw_control. destruct m.
  2: { apply Qcmult_nonneg; [|exact B]. apply Qcmult_nonneg; assumption. }
  all: destruct (HP ltac:(discriminate)) as [H1 H2]; apply Qcdiv_nonneg; [|apply (Qclt_le_trans _ eps6); [reflexivity|clear - H2; qclra]];
    apply Qcmult_nonneg; [|exact B]; apply Qcmult_nonneg; [|exact H1]; apply Qcmult_nonneg; assumption.
Qed.
Lemma wt_scaled m tl ps ps' c u : c <> 0 -> (forall w v, ps' (set_w w v) = ps' v) -> (m <> Reg -> ps u = ps' u) ->
  dist_wt (meth m) tl ps u = c * tw_treat m tl ps' (set_w (p_w u / c) u).
Proof.
  intros Hc PS E. rewrite twt. unfold dist_wt, dist_keep, p_D. cbn [set_w p_d p_w]. destruct m; cbn [meth]; destruct (p_d u); cbn [ind]; try (field; exact Hc); rewrite ?Qcmult_0_r; ring.
Qed.
Lemma wc_scaled m tl ps ps' c u : c <> 0 -> (forall w v, ps' (set_w w v) = ps' v) -> (m <> Reg -> ps u = ps' u) ->
  dist_wc (meth m) tl ps u = c * tw_control m tl ps' (set_w (p_w u / c) u).
Proof.
  intros Hc PS E. unfold tw_control, tw_keep, dist_wc, dist_keep, p_D. cbn [set_w p_d p_w].
  destruct m; cbn [meth].
  2: { field. exact Hc. }
  all: rewrite !PS, (E ltac:(discriminate)); destruct (p_d u); cbn [orb ind]; unfold Qcdiv; set (z := / (1 - ps' u)); clearbody z; field; exact Hc.
Qed.

Section Pair.
Context (o : oracle) (od : dist_oracle) (k fan : nat) (tl : Qc) (m : emethod) (parts : list (list punit)).
Let l := concat parts.
Context (Hfan : (2 <= fan)%nat) (Hne : parts <> []) (HLA : linear_algebra_ok od k) (HW : wls_ok o k) (HI : inv_ok o k).
Context (c : Qc) (Hcpos : 0 < c) (Hnn : forall u, In u l -> 0 <= p_w u).
Let nw (u : punit) : punit := set_w (p_w u / c) u.
Let L := map nw l.
Context (Hmu : d_mu od = o_mu o) (Hir : m <> Reg -> d_irls od parts = o_logit o L).
Context (Hsc : m <> Reg -> forall gamma u, o_logit o L = Some gamma -> In u l -> eps10 <= o_mu o (dotk k (p_x u) gamma) /\ o_mu o (dotk k (p_x u) gamma) <= 1 - eps6).

Lemma or_gram_inv a b0 n Minv : or_gram k l = Some (a, b0, n) -> l <> [] -> is_inverse k (ols_gram k L) Minv -> exists N, is_inverse k a N.
Proof.
  intros E Hl IM. assert (Hc0 : c <> 0) by (intros K; rewrite K in Hcpos; discriminate).
  unfold or_gram in E. destruct (ctrl l) as [|u0 c0] eqn:Ec; [discriminate|]. rewrite <- Ec in E. injection E as <- _ _.
  assert (Hn : qn (length l) <> 0) by (apply qn_neq0; destruct l; [congruence|cbn; lia]).
  exists (mscale (/ (c * qn (length l))) Minv). apply (inverse_exists_scaled k (ols_gram k L)); [|exact IM|].
  - intros K. apply Qcmult_integral_ in K. tauto.
  - intros i j Hi Hj. unfold L, nw. rewrite (gram_or l c Hc0 k i j Hi Hj), mget_mscale. unfold wgram. rewrite mget_mat_of by assumption.
    unfold gram_mat, mget. rewrite nth_map_seq by exact Hi. rewrite nth_map_seq by exact Hj. rewrite sumf_map.
    transitivity (sumf (fun u => x_at u i * ((1 - p_D u) * p_w u) * x_at u j) l).
    + generalize l. clear. intros q. induction q as [|u q IH]; [reflexivity|]. rewrite sumf_cons, <- IH. cbn [filter]. unfold p_D. destruct (p_d u); cbn [negb ind]; [ring|]. rewrite sumf_cons. unfold xat, x_at, or_row. cbn [dx dw]. ring.
    + field. split; assumption.
Qed.

Lemma pair_equal a inf : compute_did o k m tl L = Some (a, inf) ->
  exists gamma beta g, comp_fit od m k fan parts = Some (gamma, beta) /\
    comp_stats od m k fan tl parts (gamma, beta) = Some (Some (g, length l)) /\
    g_att g = a /\ map (dist_if (meth m) (d_mu od) k tl gamma beta g) l = inf.
Proof.
  intros E. assert (Hc0 : c <> 0) by (intros K; rewrite K in Hcpos; discriminate). destruct HLA as (LA1 & LA2 & LA3 & LA4).
  apply compute_did_inv in E. destruct E as (psl & out & M & V & [Fps Fout Ft Fc -> ->]).
  assert (Hl : l <> []). { intros K. apply Ft. unfold L. rewrite K. reflexivity. }
  assert (Hn : qn (length l) <> 0) by (apply qn_neq0; destruct l; [congruence|cbn; lia]).
  (* scores *)
  assert (G : exists gamma, match m with Reg => Some (vec_of k (fun _ => 0)) | _ => d_irls od parts end = Some gamma /\
     (m <> Reg -> o_logit o L = Some gamma /\ psl = ps_cap (o_mu o) k gamma /\ o_inv o (ps_gram k (ps_raw (o_mu o) k gamma) L) = Some V)).
  { destruct m.
    - destruct Fps as (gamma & Eg & -> & EV). exists gamma. rewrite Hir by discriminate. auto.
    - exists (vec_of k (fun _ => 0)). split; [reflexivity|congruence].
    - destruct Fps as (gamma & Eg & -> & EV). exists gamma. rewrite Hir by discriminate. auto. }
  destruct G as (gamma & Eg & Gg).
  assert (PS : forall w u, psl (set_w w u) = psl u) by (destruct m; [destruct (Gg ltac:(discriminate)) as (_ & -> & _)|rewrite Fps|destruct (Gg ltac:(discriminate)) as (_ & -> & _)]; reflexivity).
  set (ps := dist_ps (meth m) (d_mu od) k gamma).
  assert (Hps : forall u, In u l -> m <> Reg -> ps u = psl u /\ psl u = ps_raw (o_mu o) k gamma u /\ 0 <= psl u /\ psl u <= 1 - eps6).
  { intros u Hu Hm. destruct (Gg Hm) as (E1 & E2 & _). destruct (Hsc Hm gamma u E1 Hu) as [B1 B2]. unfold ps. rewrite Hmu.
    destruct (dist_ps_cap (o_mu o) k gamma m u Hm B1 B2) as [D1 D2]. rewrite E2, D1, D2. repeat split; auto.
    apply (Qcle_trans _ eps10); [discriminate|exact B1]. }
  (* regression *)
  assert (B : exists beta, match m with Ipw => Some (vec_of k (fun _ => 0)) | _ => dist_wls od k fan parts end = Some beta /\
     (forall u, dist_out (meth m) k beta u = out u) /\ (m <> Ipw -> is_inverse k (ols_gram k L) M)).
  { assert (R : m <> Ipw -> (exists b, o_wls o (ctrl L) = Some b /\ out = outf k b /\ o_inv o (ols_gram k L) = Some M) ->
       exists beta, dist_wls od k fan parts = Some beta /\ (forall u, dotk k (p_x u) beta = out u) /\ is_inverse k (ols_gram k L) M).
    { intros Hm (b & Eb & -> & EM). pose proof (HI _ _ EM) as IM.
      assert (Hctl : existsb (fun u => negb (p_d u)) l = true).
      { destruct (existsb (fun u => negb (p_d u)) l) eqn:EX; [reflexivity|]. exfalso. apply Fc. apply mean_0, sumf_zero. intros u Hu. unfold L in Hu. apply in_map_iff in Hu. destruct Hu as (v & <- & Hv).
        rewrite twc. assert (D : p_d v = true) by (destruct (p_d v) eqn:Dv; [reflexivity|]; assert (K : existsb (fun u => negb (p_d u)) l = true) by (apply existsb_exists; exists v; rewrite Dv; auto); congruence).
        unfold cwm, cw, p_D, nw. cbn [set_w p_d]. rewrite D. cbn. destruct m; ring. }
      destruct (ctrl_or_gram k l Hctl) as (ga & gb & gn & Eor).
      destruct (or_gram_inv ga gb gn M Eor Hl IM) as (N & HN).
      destruct (d_solve od ga gb) as [bd|] eqn:Es; [|exfalso; exact (LA4 _ _ _ HN Es)].
      exists bd. split; [rewrite (wls_pooled _ _ _ _ Hfan Hne); fold l; rewrite Eor; exact Es|]. split; [|exact IM].
      intros u. apply dotk_ext. intros j Hj. f_equal. revert j Hj. apply (same_beta l c Hc0 k b bd M IM); [apply normal_of_controls, HW; exact Eb|].
      apply (solve_normal k l ga gb gn bd Eor). apply LA3. exact Es. }
    destruct m.
    - destruct (R ltac:(discriminate) Fout) as (beta & R1 & R2 & R3). exists beta. auto.
    - destruct (R ltac:(discriminate) Fout) as (beta & R1 & R2 & R3). exists beta. auto.
    - exists (vec_of k (fun _ => 0)). split; [reflexivity|]. split; [intros u; rewrite Fout; reflexivity|congruence]. }
  destruct B as (beta & Eb & Hout & IM).
  assert (OUT : forall w u, out (set_w w u) = out u) by (intros w u; rewrite <- !Hout; reflexivity).
  set (r := fun u => p_dy u - dist_out (meth m) k beta u). set (rl := fun u => p_dy u - out u).
  assert (Er : forall u, In u l -> r u = rl (nw u)) by (intros u _; unfold r, rl, nw; rewrite Hout, OUT; reflexivity).
  set (wt := dist_wt (meth m) tl ps). set (wc := dist_wc (meth m) tl ps).
  assert (Ewt : forall u, In u l -> wt u = c * tw_treat m tl psl (nw u)) by (intros u Hu; apply wt_scaled; [exact Hc0|exact PS|intros Hm; apply (Hps u Hu Hm)]).
  assert (Ewc : forall u, In u l -> wc u = c * tw_control m tl psl (nw u)) by (intros u Hu; apply wc_scaled; [exact Hc0|exact PS|intros Hm; apply (Hps u Hu Hm)]).
  pose proof (mean_L l c wt _ Ewt) as Mwt. pose proof (mean_L l c wc _ Ewc) as Mwc. fold nw in Mwt, Mwc. fold L in Mwt, Mwc.
  pose proof (wmean_L l c Hc0 wt r _ rl Ewt Er) as At. pose proof (wmean_L l c Hc0 wc r _ rl Ewc Er) as Ac. fold nw in At, Ac. fold L in At, Ac.
  assert (Lnn : forall u, In u L -> exists v, u = nw v /\ In v l /\ 0 <= p_w u).
  { intros u Hu. unfold L in Hu. apply in_map_iff in Hu. destruct Hu as (v & <- & Hv). exists v. split; [reflexivity|]. split; [exact Hv|]. unfold nw. cbn [set_w p_w]. apply Qcdiv_nonneg; [apply Hnn, Hv|exact Hcpos]. }
  assert (POS : forall x, 0 < x -> 0 < c * x) by (intros x Hx; assert (K := Qcmult_lt_compat_r _ _ _ Hx Hcpos); rewrite Qcmult_0_l in K; exact K).
  assert (P1 : 0 < mean wt l).
  { rewrite Mwt. apply POS, mean_pos; [|exact Ft]. intros u Hu. destruct (Lnn u Hu) as (v & _ & _ & Hw). apply tw_treat_nonneg, Hw. }
  assert (P2 : 0 < mean wc l).
  { rewrite Mwc. apply POS, mean_pos; [|exact Fc]. intros u Hu. destruct (Lnn u Hu) as (v & -> & Hv & Hw). apply tw_control_nonneg; [exact Hw|].
    intros Hm. unfold nw. rewrite PS. destruct (Hps v Hv Hm) as (_ & _ & Q1 & Q2). auto. }
  assert (Hac : (if Qcltb 0 (mean wc l) then wmean wc r l else 0) = wmean wc r l) by (destruct (Qcltb_spec 0 (mean wc l)); [reflexivity|contradiction]).
  set (m2 := vec_of k (fun j => (nth j (sum_col k (fun u => wc u * r u) l) 0 - wmean wc r l * nth j (sum_col k wc l) 0) / qn (length l))).
  (* inverses of the driver *)
  assert (HH : exists hm2, match meth m with MReg => hm2 = vec_of k (fun _ => 0)
     | _ => exists H, d_inv od (wgram k (fun u => p_w u * ps u * (1 - ps u)) l) = Some H /\ hm2 = mv k (mscale (qn (length l)) H) m2 end /\
     (m <> Reg -> exists H, d_inv od (wgram k (fun u => p_w u * ps u * (1 - ps u)) l) = Some H /\ hm2 = mv k (mscale (qn (length l)) H) m2)).
  { assert (R : m <> Reg -> exists H, d_inv od (wgram k (fun u => p_w u * ps u * (1 - ps u)) l) = Some H).
    { intros Hm. destruct (Gg Hm) as (_ & _ & EV). pose proof (HI _ _ EV) as IV.
      destruct (d_inv od (wgram k (fun u => p_w u * ps u * (1 - ps u)) l)) as [H|] eqn:EH; [eauto|]. exfalso. revert EH.
      assert (Hinfo : wgram k (fun u => p_w u * ps u * (1 - ps u)) l = wgram k (fun u => p_w u * ps_raw (o_mu o) k gamma u * (1 - ps_raw (o_mu o) k gamma u)) l).
      { unfold wgram. apply mat_of_ext. intros i j. apply sumf_ext. intros u Hu. destruct (Hps u Hu Hm) as (Q1 & Q2 & _). rewrite Q1, Q2. reflexivity. }
      rewrite Hinfo. apply (LA2 _ (mscale (/ c) V)). apply (inverse_exists_scaled k (ps_gram k (ps_raw (o_mu o) k gamma) L)); [exact Hc0|exact IV|].
      intros i j Hi Hj. unfold L, nw. rewrite (gram_ps l c Hc0 k (ps_raw (o_mu o) k gamma) i j ltac:(reflexivity) Hi Hj). field. exact Hc0. }
    destruct m; cbn [meth].
    - destruct (R ltac:(discriminate)) as (H & EH). eexists. split; [|intros _]; exists H; split; try exact EH; reflexivity.
    - eexists. split; [reflexivity|congruence].
    - destruct (R ltac:(discriminate)) as (H & EH). eexists. split; [|intros _]; exists H; split; try exact EH; reflexivity. }
  destruct HH as (hm2 & HH1 & HH2).
  set (v1 := vec_of k (fun j => nth j (sum_col k wt l) 0 / qn (length l))). set (v3 := vec_of k (fun j => nth j (sum_col k wc l) 0 / qn (length l))).
  assert (XX : exists x1 x3, match meth m with MIpw => x1 = vec_of k (fun _ => 0) /\ x3 = vec_of k (fun _ => 0)
     | _ => exists X, d_inv od (mscale (1 / qn (length l)) (wgram k (fun u => (1 - p_D u) * p_w u) l)) = Some X /\ x1 = mv k X v1 /\ x3 = mv k X v3 end /\
     (m <> Ipw -> exists X, d_inv od (mscale (1 / qn (length l)) (wgram k (fun u => (1 - p_D u) * p_w u) l)) = Some X /\ x1 = mv k X v1 /\ x3 = mv k X v3)).
  { assert (R : m <> Ipw -> exists X, d_inv od (mscale (1 / qn (length l)) (wgram k (fun u => (1 - p_D u) * p_w u) l)) = Some X).
    { intros Hm. specialize (IM Hm). destruct (d_inv od (mscale (1 / qn (length l)) (wgram k (fun u => (1 - p_D u) * p_w u) l))) as [X|] eqn:EX; [eauto|].
      exfalso. revert EX. apply (LA2 _ (mscale (/ c) M)). apply (inverse_exists_scaled k (ols_gram k L)); [exact Hc0|exact IM|].
      intros i j Hi Hj. unfold L, nw. rewrite (gram_or l c Hc0 k i j Hi Hj). field. exact Hc0. }
    destruct m; cbn [meth].
    - destruct (R ltac:(discriminate)) as (X & EX). do 2 eexists. split; [|intros _]; exists X; split; try exact EX; split; reflexivity.
    - destruct (R ltac:(discriminate)) as (X & EX). do 2 eexists. split; [|intros _]; exists X; split; try exact EX; split; reflexivity.
    - do 2 eexists. split; [split; reflexivity|congruence]. }
  destruct XX as (x1 & x3 & XX1 & XX2).
  pose proof (fin_stats od (meth m) (d_mu od) k tl gamma beta l Hl P1 hm2 x1 x3) as FS. cbv zeta in FS. fold ps in FS. fold wt wc in FS. fold r in FS. rewrite Hac in FS.
  specialize (FS HH1 XX1).
  eexists gamma, beta, _. split; [|split; [|split]].
  - unfold comp_fit. rewrite Eg, Eb. reflexivity.
  - unfold comp_stats. cbn [fst snd]. rewrite stats_pooled by assumption. fold l. rewrite FS. rewrite (stats_some _ _ _ _ _ _ _ Hl). cbn [s_n]. reflexivity.
  - cbn [g_att]. rewrite At, Ac. reflexivity.
  - unfold L. rewrite map_map. apply map_ext_in. intros u Hu.
    unfold dist_if. cbn [g_at g_ac g_wt g_wc g_hm2 g_xim1 g_xim3]. fold ps. fold wt wc. change (p_dy u - dist_out (meth m) k beta u) with (r u).
    fold L. unfold pair_inf. cbn zeta. rewrite At, Ac, Mwt, Mwc, (Ewt u Hu), (Ewc u Hu), (Er u Hu). fold rl.
    change (p_dy (nw u) - out (nw u)) with (rl (nw u)).
    assert (C1 : match meth m with MReg => 0 | _ => dotk k (vscale (p_w u * (p_D u - ps u)) (p_x u)) hm2 end =
      c * match m with Reg => 0 | _ => dotk k (alr_ps k psl (mscale (qn (length L)) V) (nw u)) (mean_col k (fun v => tw_control m tl psl v * (p_dy v - out v - wmean (tw_control m tl psl) rl L)) L) end).
    { assert (R : m <> Reg -> dotk k (vscale (p_w u * (p_D u - ps u)) (p_x u)) hm2 =
        c * dotk k (alr_ps k psl (mscale (qn (length L)) V) (nw u)) (mean_col k (fun v => tw_control m tl psl v * (p_dy v - out v - wmean (tw_control m tl psl) rl L)) L)).
      { intros Hm. destruct (HH2 Hm) as (H & EH & ->). destruct (Gg Hm) as (_ & Epsl & EV).
        assert (Hinfo : wgram k (fun u => p_w u * ps u * (1 - ps u)) l = wgram k (fun u => p_w u * ps_raw (o_mu o) k gamma u * (1 - ps_raw (o_mu o) k gamma u)) l).
        { unfold wgram. apply mat_of_ext. intros i j. apply sumf_ext. intros v Hv. destruct (Hps v Hv Hm) as (Q1 & Q2 & _). rewrite Q1, Q2. reflexivity. }
        pose proof (LA1 _ _ EH) as IH. rewrite Hinfo in IH.
        rewrite (corr_ps l c Hc0 k (ps_raw (o_mu o) k gamma) (fun v => tw_control m tl psl v * (p_dy v - out v - wmean (tw_control m tl psl) rl L)) m2 _ H V ltac:(reflexivity)).
        - fold nw. fold L. unfold alr_ps. rewrite dotk_vm. rewrite !dotk_scale_l. destruct (Hps u Hu Hm) as (Q1 & _). rewrite Q1.
          change (p_x (nw u)) with (p_x u). change (p_D (nw u)) with (p_D u). replace (psl (nw u)) with (psl u) by (unfold nw; rewrite PS; reflexivity). unfold nw. cbn [set_w p_w]. field. exact Hc0.
        - intros j Hj. unfold m2. rewrite nth_vec_of by exact Hj. fold nw. fold L.
          transitivity (nth j (sum_col k (fun u => wc u * r u) l) 0 / qn (length l) - wmean wc r l * (nth j (sum_col k wc l) 0 / qn (length l))); [unfold Qcdiv; ring|].
          rewrite (col_L l c k wc _ j Ewc Hj). rewrite (col_L l c k (fun u => wc u * r u) (fun u => tw_control m tl psl u * rl u) j); [|intros v Hv; rewrite (Ewc v Hv), (Er v Hv); unfold nw; ring|exact Hj].
          fold nw. fold L. rewrite Ac. unfold mean_col. rewrite !nth_vec_of by exact Hj.
          rewrite (mean_ext (fun u => tw_control m tl psl u * (p_dy u - out u - wmean (tw_control m tl psl) rl L) * x_at u j)
            (fun u => tw_control m tl psl u * rl u * x_at u j - wmean (tw_control m tl psl) rl L * (tw_control m tl psl u * x_at u j))) by (intros; unfold rl; ring).
          rewrite mean_sub, mean_mul_l. ring.
        - exact IH.
        - exact (HI _ _ EV). }
      destruct m; cbn [meth]; [apply R; discriminate|ring|apply R; discriminate]. }
    assert (C2 : forall w w' x, (forall v, In v l -> w v = c * w' (nw v)) ->
       (m <> Ipw -> exists X, d_inv od (mscale (1 / qn (length l)) (wgram k (fun u => (1 - p_D u) * p_w u) l)) = Some X /\ x = mv k X (vec_of k (fun j => nth j (sum_col k w l) 0 / qn (length l)))) ->
       match meth m with MIpw => 0 | _ => - dotk k (vscale ((1 - p_D u) * p_w u * rl (nw u)) (p_x u)) x end =
       c * match m with Ipw => 0 | _ => - dotk k (alr_wols k out M (nw u)) (mean_col k w' L) end).
    { intros w w' x Ew HX.
      assert (R : m <> Ipw -> - dotk k (vscale ((1 - p_D u) * p_w u * rl (nw u)) (p_x u)) x = c * - dotk k (alr_wols k out M (nw u)) (mean_col k w' L)).
      { intros Hm. destruct (HX Hm) as (X & EX & ->). rewrite (corr_or l c Hc0 k w w' _ X M Ew (LA1 _ _ EX) (IM Hm)). fold nw. fold L.
        unfold alr_wols. rewrite dotk_vm, !dotk_scale_l. change (p_x (nw u)) with (p_x u). change (p_D (nw u)) with (p_D u).
        change (p_dy (nw u) - out (nw u)) with (rl (nw u)). change (p_w (nw u)) with (p_w u / c). field. exact Hc0. }
      destruct m; cbn [meth]; [apply R; discriminate|apply R; discriminate|ring]. }
    rewrite C1. rewrite (C2 wt _ x1 Ewt), (C2 wc _ x3 Ewc).
    + change (p_dy (nw u) - out (nw u)) with (rl (nw u)). fold rl.
      set (A1 := match m with Reg => 0 | _ => dotk k (alr_ps _ _ _ _) _ end). set (A2 := match m with Ipw => 0 | _ => - dotk k _ (mean_col k (tw_treat m tl psl) L) end).
      set (A3 := match m with Ipw => 0 | _ => - dotk k _ (mean_col k (tw_control m tl psl) L) end). clearbody A1 A2 A3. field. repeat split; assumption.
    + intros Hm. destruct (XX2 Hm) as (X & EX & _ & ->). eauto.
    + intros Hm. destruct (XX2 Hm) as (X & EX & -> & _). eauto.
Qed.
End Pair.
