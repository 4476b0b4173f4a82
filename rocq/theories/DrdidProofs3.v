(** Proofs for C25-C27: the estimators as a whole. *)
From Verif Require Import Base ListLib ReduceModel ReduceProofs2 DrdidModel DrdidSpec DrdidProofs DrdidProofs2.

Notation ctrl l := (filter (fun u => negb (p_d u)) l).
Notation outf k beta := (fun u => dotk k (p_x u) beta).

Lemma dr_inv o k tl l0 att inf (l := normalise l0) : drdid_panel o k tl l0 = PEst att inf ->
  any_neg l0 = false /\ two_groups l = true /\
  exists gamma beta Minv H, o_logit o l = Some gamma /\ o_wls o (ctrl l) = Some beta /\
  let ps := ps_fit (o_mu o) k gamma in
  mean (w_treat tl ps) l <> 0 /\ mean (w_cont tl ps) l <> 0 /\
  o_inv o (ols_gram k l) = Some Minv /\ o_inv o (ps_gram k ps l) = Some H /\
  att = dr_att tl ps (outf k beta) l /\
  inf = map (dr_inf k tl ps (outf k beta) Minv (mscale (qn (length l)) H) l) l.
Proof.
  unfold drdid_panel. fold l. destruct (any_neg l0); [discriminate|]. destruct (two_groups l); [|discriminate]. cbn [negb].
  destruct (o_logit o l) as [g|]; [|discriminate]. destruct (o_wls o (ctrl l)) as [b|]; [|discriminate].
  destruct (Qceqb_spec (mean (w_treat tl (ps_fit (o_mu o) k g)) l) 0); [discriminate|].
  destruct (Qceqb_spec (mean (w_cont tl (ps_fit (o_mu o) k g)) l) 0); [discriminate|].
  destruct (o_inv o (ols_gram k l)) as [M|] eqn:EM; [|discriminate].
  destruct (o_inv o (ps_gram k (ps_fit (o_mu o) k g) l)) as [H|] eqn:EH; [|discriminate].
  intros E. injection E as <- <-. split; [reflexivity|]. split; [reflexivity|]. exists g, b, M, H. cbn zeta. repeat split; auto.
Qed.
Lemma reg_inv o k l0 att inf (l := normalise l0) : reg_did_panel o k l0 = PEst att inf ->
  any_neg l0 = false /\ ctrl l <> [] /\
  exists beta Minv, o_wls o (ctrl l) = Some beta /\ mean w_reg l <> 0 /\
  o_inv o (ols_gram k l) = Some Minv /\
  att = reg_att (outf k beta) l /\ inf = map (reg_inf k (outf k beta) Minv l) l.
Proof.
  unfold reg_did_panel. fold l. destruct (any_neg l0); [discriminate|]. cbn zeta.
  destruct (ctrl l) as [|u0 c0] eqn:EC; [destruct (Qceqb _ _); discriminate|]. rewrite <- EC in *.
  destruct (length (ctrl l) <? k)%nat; [discriminate|].
  destruct (o_wls o (ctrl l)) as [b|]; cbn [option_map]; [|discriminate].
  destruct (Qceqb_spec (mean w_reg l) 0); [discriminate|].
  destruct (o_inv o (ols_gram k l)) as [M|] eqn:EM; [|discriminate].
  intros E. injection E as <- <-. split; [reflexivity|]. split; [congruence|]. exists b, M. repeat split; auto.
Qed.
Lemma ipw_inv o k tl l0 att inf (l := normalise l0) : std_ipw_did_panel o k tl l0 = PEst att inf ->
  any_neg l0 = false /\ two_groups l = true /\
  exists gamma H, o_logit o l = Some gamma /\
  let ps := ps_fit (o_mu o) k gamma in
  mean (w_treat tl ps) l <> 0 /\ mean (w_cont tl ps) l <> 0 /\
  o_inv o (ps_gram k ps l) = Some H /\
  att = ipw_att tl ps l /\ inf = map (ipw_inf k tl ps (mscale (qn (length l)) H) l) l.
Proof.
  unfold std_ipw_did_panel. fold l. destruct (any_neg l0); [discriminate|]. destruct (two_groups l); [|discriminate]. cbn [negb].
  destruct (o_logit o l) as [g|]; [|discriminate].
  destruct (Qceqb_spec (mean (w_treat tl (ps_fit (o_mu o) k g)) l) 0); [discriminate|].
  destruct (Qceqb_spec (mean (w_cont tl (ps_fit (o_mu o) k g)) l) 0); [discriminate|].
  destruct (o_inv o (ps_gram k (ps_fit (o_mu o) k g) l)) as [H|] eqn:EH; [|discriminate].
  intros E. injection E as <- <-. split; [reflexivity|]. split; [reflexivity|]. exists g, H. cbn zeta. repeat split; auto.
Qed.

Lemma qsum_map {A} (f : A -> Qc) l : qsum (map f l) = sumf f l. Proof. reflexivity. Qed.
Lemma mean_zero_sum {A} (f : A -> Qc) l : mean f l = 0 -> sumf f l = 0.
Proof.
  unfold mean. destruct l as [|a l]; [reflexivity|]. intros H. apply Qcdiv_eq_iff in H; [rewrite H; ring|apply qn_neq0; cbn; lia].
Qed.

(** ** C27 *)
Lemma dr_centred o k tl l att inf : wls_ok o k -> drdid_panel o k tl l = PEst att inf ->
  (forall gamma, o_logit o (normalise l) = Some gamma -> score_equations k (ps_fit (o_mu o) k gamma) (normalise l)) ->
  length inf = length l /\ qsum inf = 0.
Proof.
  intros W E S. apply dr_inv in E. destruct E as [_ [_ [g [b [M [H [Eg [Eb [Ht [Hc [_ [_ [_ ->]]]]]]]]]]]]]. cbn zeta in *.
  rewrite map_length, normalise_length. split; [reflexivity|]. rewrite qsum_map. apply mean_zero_sum, dr_inf_centred; auto.
  apply normal_of_controls. apply W. exact Eb.
Qed.
Lemma reg_centred o k l att inf : wls_ok o k -> reg_did_panel o k l = PEst att inf -> length inf = length l /\ qsum inf = 0.
Proof.
  intros W E. apply reg_inv in E. destruct E as [_ [_ [b [M [Eb [Hm [_ [_ ->]]]]]]]].
  rewrite map_length, normalise_length. split; [reflexivity|]. rewrite qsum_map. apply mean_zero_sum, reg_inf_centred; auto.
  apply normal_of_controls. apply W. exact Eb.
Qed.
Lemma ipw_centred o k tl l att inf : std_ipw_did_panel o k tl l = PEst att inf ->
  (forall gamma, o_logit o (normalise l) = Some gamma -> score_equations k (ps_fit (o_mu o) k gamma) (normalise l)) ->
  length inf = length l /\ qsum inf = 0.
Proof.
  intros E S. apply ipw_inv in E. destruct E as [_ [_ [g [H [Eg [Ht [Hc [_ [_ ->]]]]]]]]]. cbn zeta in *.
  rewrite map_length, normalise_length. split; [reflexivity|]. rewrite qsum_map. apply mean_zero_sum, ipw_inf_centred; auto.
Qed.

(** ** C25: affine changes of the outcome *)
Section Affine.
  Context (c a b : Qc).
  Notation f := (affine_y c a b).
  Notation s := (a - b).
  Lemma dy_affine u : p_dy (f u) = c * p_dy u + s. Proof. unfold p_dy, affine_y; cbn. ring. Qed.
  Lemma normalise_affine l : normalise (map f l) = map f (normalise l).
  Proof. unfold normalise. rewrite !map_map. apply map_ext. intros u. rewrite mean_map. reflexivity. Qed.
  Lemma any_neg_affine l : any_neg (map f l) = any_neg l.
  Proof. unfold any_neg. induction l as [|u l IH]; [reflexivity|]. cbn [map existsb]. rewrite IH. reflexivity. Qed.
  Lemma view_affine l : map logit_view (map f l) = map logit_view l.
  Proof. rewrite map_map. reflexivity. Qed.
  Lemma ols_gram_affine k l : ols_gram k (map f l) = ols_gram k l.
  Proof.
    unfold ols_gram, mat_of. apply map_ext. intros i. apply map_ext. intros j. rewrite mean_map. reflexivity.
  Qed.
  Lemma ps_gram_affine k ps l : (forall u, ps (f u) = ps u) -> ps_gram k ps (map f l) = ps_gram k ps l.
  Proof.
    intros H. unfold ps_gram, mat_of. apply map_ext. intros i. apply map_ext. intros j. rewrite sumf_map.
    apply sumf_ext. intros u _. rewrite H. reflexivity.
  Qed.
  Lemma w_treat_affine tl ps u : (forall u, ps (f u) = ps u) -> w_treat tl ps (f u) = w_treat tl ps u.
  Proof. intros H. unfold w_treat, trim_ps. rewrite H. reflexivity. Qed.
  Lemma w_cont_affine tl ps u : (forall u, ps (f u) = ps u) -> w_cont tl ps (f u) = w_cont tl ps u.
  Proof. intros H. unfold w_cont, trim_ps. rewrite H. reflexivity. Qed.
  Lemma wmean_affine (w v w' v' : punit -> Qc) l t :
    (forall u, In u l -> w' (f u) = w u) -> (forall u, In u l -> v' (f u) = c * v u + t) -> (t = 0 \/ mean w l <> 0) ->
    wmean w' v' (map f l) = c * wmean w v l + t.
  Proof.
    intros Hw Hv T. unfold wmean. rewrite !mean_map.
    rewrite (mean_ext (fun a => w' (f a)) w) by exact Hw.
    rewrite (mean_ext (fun a => w' (f a) * v' (f a)) (fun u => c * (w u * v u) + w u * t))
      by (intros u Hu; rewrite Hw, Hv by exact Hu; ring).
    rewrite mean_add, mean_mul_l, mean_mul_r. destruct T as [-> | T]; [unfold Qcdiv; ring|]. field. exact T.
  Qed.
  Lemma mean_col_affine k (g g' : punit -> Qc) l t : (forall u, In u l -> g' (f u) = t * g u) ->
    mean_col k g' (map f l) = vscale t (mean_col k g l).
  Proof.
    intros H. unfold mean_col, vec_of, vscale. rewrite map_map. apply map_ext. intros j. rewrite mean_map, <- mean_mul_l.
    apply mean_ext. intros u Hu. rewrite H by exact Hu. unfold x_at. cbn [affine_y p_x]. ring.
  Qed.

  (* regression fits move with the outcome *)
  Lemma out_affine o k l beta beta' : wls_ok o k -> (forall u, In u l -> 0 <= p_w u) -> no_collinearity k l ->
    (a = b \/ has_intercept l /\ (1 <= k)%nat) ->
    o_wls o (ctrl l) = Some beta -> o_wls o (ctrl (map f l)) = Some beta' ->
    forall u, In u l -> dotk k (p_x u) beta' = c * dotk k (p_x u) beta + s.
  Proof.
    intros WO W NC I E E'. apply WO, normal_of_controls in E. apply WO, normal_of_controls in E'.
    apply (fit_affine k l c s beta beta' (fun u => p_dy (f u)) W NC).
    - destruct I as [-> | I]; [left; ring|right; exact I].
    - exact E.
    - intros u _. apply dy_affine.
    - intros j Hj. specialize (E' j Hj). rewrite sumf_map in E'. exact E'.
  Qed.

  Lemma dr_att_affine tl ps out out' l : (forall u, ps (f u) = ps u) -> (forall u, In u l -> out' (f u) = c * out u + s) ->
    dr_att tl ps out' (map f l) = c * dr_att tl ps out l.
  Proof.
    intros Hp Ho. unfold dr_att.
    assert (R : forall u, In u l -> p_dy (f u) - out' (f u) = c * (p_dy u - out u) + 0).
    { intros u Hu. rewrite Ho, dy_affine by exact Hu. ring. }
    rewrite (wmean_affine (w_treat tl ps) (fun u => p_dy u - out u) _ _ l 0 (fun u _ => w_treat_affine tl ps u Hp) R) by (left; reflexivity).
    rewrite (wmean_affine (w_cont tl ps) (fun u => p_dy u - out u) _ _ l 0 (fun u _ => w_cont_affine tl ps u Hp) R) by (left; reflexivity). ring.
  Qed.
  Lemma alr_wols_affine k out out' M u : out' (f u) = c * out u + s -> alr_wols k out' M (f u) = vm k (vscale c (vscale (p_w u * (1 - p_D u) * (p_dy u - out u)) (p_x u))) M.
  Proof.
    intros Ho. unfold alr_wols. cbn [affine_y p_x]. f_equal. rewrite dy_affine, Ho. unfold vscale. rewrite map_map. apply map_ext. intros x.
    change (p_w (affine_y c a b u)) with (p_w u). change (p_D (affine_y c a b u)) with (p_D u). ring.
  Qed.
  Lemma dr_inf_affine k tl ps out out' M H l u : (forall u, ps (f u) = ps u) -> (forall u, In u l -> out' (f u) = c * out u + s) ->
    In u l -> dr_inf k tl ps out' M H (map f l) (f u) = c * dr_inf k tl ps out M H l u.
  Proof.
    intros Hp Ho Hu. unfold dr_inf. cbn zeta.
    assert (R : forall u, In u l -> p_dy (f u) - out' (f u) = c * (p_dy u - out u) + 0).
    { intros v Hv. rewrite Ho, dy_affine by exact Hv. ring. }
    assert (ET := wmean_affine (w_treat tl ps) (fun u => p_dy u - out u) _ (fun u => p_dy u - out' u) l 0 (fun u _ => w_treat_affine tl ps u Hp) R (or_introl eq_refl)).
    assert (EC := wmean_affine (w_cont tl ps) (fun u => p_dy u - out u) _ (fun u => p_dy u - out' u) l 0 (fun u _ => w_cont_affine tl ps u Hp) R (or_introl eq_refl)).
    rewrite ET, EC. clear ET EC.
    rewrite !mean_map.
    rewrite (mean_ext (fun a => w_treat tl ps (f a)) (w_treat tl ps)) by (intros; apply w_treat_affine; exact Hp).
    rewrite (mean_ext (fun a => w_cont tl ps (f a)) (w_cont tl ps)) by (intros; apply w_cont_affine; exact Hp).
    rewrite (mean_col_affine k (w_treat tl ps) (w_treat tl ps) l 1) by (intros; rewrite w_treat_affine by exact Hp; ring).
    rewrite (mean_col_affine k (w_cont tl ps) (w_cont tl ps) l 1) by (intros; rewrite w_cont_affine by exact Hp; ring).
    set (ec := wmean (w_cont tl ps) (fun u0 => p_dy u0 - out u0) l). set (et := wmean (w_treat tl ps) (fun u0 => p_dy u0 - out u0) l).
    rewrite (mean_col_affine k (fun v => w_cont tl ps v * (p_dy v - out v) - w_cont tl ps v * ec) _ l c)
      by (intros v Hv; rewrite w_cont_affine, R by assumption; ring).
    rewrite (alr_wols_affine k out out' M u) by (apply Ho; exact Hu).
    change (alr_ps k ps H (f u)) with (vm k (vscale (p_w u * (p_D u - ps (f u))) (p_x u)) H). rewrite Hp.
    fold (alr_ps k ps H u). rewrite !dotk_scale_r. rewrite !(dotk_vm k (vscale c _)), !(dotk_scale_l k c), <- !dotk_vm.
    fold (alr_wols k out M u). rewrite R by exact Hu. rewrite w_treat_affine, w_cont_affine by exact Hp. unfold Qcdiv. ring.
  Qed.
  Lemma reg_inf_affine k out out' M l u : (forall u, In u l -> out' (f u) = c * out u + s) -> mean w_reg l <> 0 ->
    In u l -> reg_inf k out' M (map f l) (f u) = c * reg_inf k out M l u.
  Proof.
    intros Ho Hm Hu. unfold reg_inf. cbn zeta.
    rewrite (wmean_affine w_reg p_dy w_reg p_dy l s) by (first [right; exact Hm | intros; first [apply dy_affine|reflexivity]]).
    rewrite (wmean_affine w_reg out w_reg out' l s) by (first [right; exact Hm | exact Ho | intros; reflexivity]).
    rewrite !mean_map. change (fun a => w_reg (f a)) with w_reg.
    rewrite (mean_col_affine k w_reg w_reg l 1) by (intros v _; change (w_reg (f v)) with (w_reg v); ring).
    rewrite (alr_wols_affine k out out' M u) by (apply Ho; exact Hu).
    rewrite !dotk_scale_r. rewrite !(dotk_vm k (vscale c _)), !(dotk_scale_l k c), <- !dotk_vm. fold (alr_wols k out M u).
    rewrite dy_affine, (Ho u Hu). change (w_reg (f u)) with (w_reg u). unfold Qcdiv. ring.
  Qed.
  Lemma ipw_affine_means (w : punit -> Qc) l : (forall u, In u l -> w (f u) = w u) -> mean w l <> 0 ->
    mean (fun u => w u * p_dy u / mean w (map f l)) (map f l) = c * mean (fun u => w u * p_dy u / mean w l) l + s.
  Proof.
    intros Hw Hm. rewrite !mean_map. rewrite (mean_ext (fun a => w (f a)) w) by exact Hw.
    rewrite (mean_ext _ (fun u => (c * (w u * p_dy u) + w u * s) / mean w l)) by (intros u Hu; rewrite Hw, dy_affine by exact Hu; unfold Qcdiv; ring).
    rewrite !mean_div_r, mean_add, mean_mul_l, mean_mul_r. field. exact Hm.
  Qed.
  Lemma ipw_inf_affine k tl ps H l u : (forall u, ps (f u) = ps u) -> mean (w_treat tl ps) l <> 0 -> mean (w_cont tl ps) l <> 0 -> In u l ->
    ipw_inf k tl ps H (map f l) (f u) = c * ipw_inf k tl ps H l u.
  Proof.
    intros Hp Ht Hc Hu. unfold ipw_inf. cbn zeta.
    rewrite (ipw_affine_means (w_treat tl ps) l) by (auto; intros; apply w_treat_affine; exact Hp).
    rewrite (ipw_affine_means (w_cont tl ps) l) by (auto; intros; apply w_cont_affine; exact Hp).
    rewrite !mean_map.
    rewrite (mean_ext (fun a => w_treat tl ps (f a)) (w_treat tl ps)) by (intros; apply w_treat_affine; exact Hp).
    rewrite (mean_ext (fun a => w_cont tl ps (f a)) (w_cont tl ps)) by (intros; apply w_cont_affine; exact Hp).
    set (ac := mean (fun u0 => w_cont tl ps u0 * p_dy u0 / mean (w_cont tl ps) l) l).
    rewrite (mean_col_affine k (fun v => w_cont tl ps v * (p_dy v - ac)) _ l c)
      by (intros v Hv; rewrite w_cont_affine, dy_affine by assumption; ring).
    change (alr_ps k ps H (f u)) with (vm k (vscale (p_w u * (p_D u - ps (f u))) (p_x u)) H). rewrite Hp. fold (alr_ps k ps H u).
    replace (map (fun v => v / mean (w_cont tl ps) l) (vscale c (mean_col k (fun v => w_cont tl ps v * (p_dy v - ac)) l)))
      with (vscale c (map (fun v => v / mean (w_cont tl ps) l) (mean_col k (fun v => w_cont tl ps v * (p_dy v - ac)) l)))
      by (unfold vscale; rewrite !map_map; apply map_ext; intros; unfold Qcdiv; ring).
    rewrite dotk_scale_r, w_treat_affine, w_cont_affine, dy_affine by exact Hp. unfold Qcdiv. ring.
  Qed.
End Affine.

Lemma nc_normalise k l : (forall u, In u l -> 0 <= p_w u) -> mean p_w l <> 0 -> no_collinearity k l -> no_collinearity k (normalise l).
Proof.
  intros W Hm NC v Hv. apply NC. intros u Hu Hd Hw. apply (Hv (set_w (p_w u / mean p_w l) u)).
  - unfold normalise. apply (in_map (fun u => set_w (p_w u / mean p_w l) u)). exact Hu.
  - exact Hd.
  - cbn. apply Qcdiv_pos; [exact Hw|]. apply Qcle_lt_or_eq in W || idtac.
    destruct (Qc_le_or_lt (mean p_w l) 0) as [L|L]; [|exact L]. exfalso. apply Hm. apply Qcle_antisym; [exact L|apply mean_nonneg; exact W].
Qed.
Lemma normalise_nonneg l : (forall u, In u l -> 0 <= p_w u) -> mean p_w l <> 0 -> forall u, In u (normalise l) -> 0 <= p_w u.
Proof.
  intros W Hm u Hu. apply in_normalise in Hu. destruct Hu as [v [Hv ->]]. cbn. apply Qcdiv_nonneg; [apply W; exact Hv|].
  destruct (Qc_le_or_lt (mean p_w l) 0) as [L|L]; [|exact L]. exfalso. apply Hm. apply Qcle_antisym; [exact L|apply mean_nonneg; exact W].
Qed.
Lemma intercept_normalise l : has_intercept l -> has_intercept (normalise l).
Proof. intros H u Hu. apply in_normalise in Hu. destruct Hu as [v [Hv ->]]. apply (H v Hv). Qed.
Lemma ps_fit_affine mu k g c a b u : ps_fit mu k g (affine_y c a b u) = ps_fit mu k g u. Proof. reflexivity. Qed.

Lemma dr_affine o k tl l c a b att inf att' inf' : wls_ok o k -> logit_blind o -> no_collinearity k l ->
  (a = b \/ has_intercept l /\ (1 <= k)%nat) ->
  drdid_panel o k tl l = PEst att inf -> drdid_panel o k tl (map (affine_y c a b) l) = PEst att' inf' ->
  att' = c * att /\ inf' = map (fun v => c * v) inf.
Proof.
  intros WO LB NC I E E'. apply dr_inv in E. apply dr_inv in E'. rewrite normalise_affine in E'. rewrite any_neg_affine in E'.
  destruct E as [N0 [_ [g [be [M [H [Eg [Eb [Ht [Hc [EM [EH [-> ->]]]]]]]]]]]]].
  destruct E' as [_ [_ [g' [be' [M' [H' [Eg' [Eb' [Ht' [Hc' [EM' [EH' [-> ->]]]]]]]]]]]]]. cbn zeta in *.
  rewrite (LB _ (normalise l) (view_affine c a b _)), Eg in Eg'. injection Eg' as <-.
  rewrite ols_gram_affine, EM in EM'. injection EM' as <-.
  rewrite ps_gram_affine, EH in EH' by reflexivity. injection EH' as <-.
  assert (Hm : mean p_w l <> 0) by (eapply mean_wt_pos_weights; exact Ht).
  assert (W := proj1 (any_neg_false l) N0).
  assert (O := out_affine c a b o k (normalise l) be be' WO (normalise_nonneg l W Hm) (nc_normalise k l W Hm NC)
    ltac:(destruct I as [I|[I J]]; [left; exact I|right; split; [apply intercept_normalise; exact I|exact J]]) Eb Eb').
  assert (O' : forall u, In u (normalise l) -> outf k be' (affine_y c a b u) = c * outf k be u + (a - b)) by exact O.
  split; [apply dr_att_affine; [reflexivity|exact O']|].
  rewrite !map_map, map_length. apply map_ext_in. intros u Hu.
  apply (dr_inf_affine c a b k tl (ps_fit (o_mu o) k g) (outf k be) (outf k be')); [reflexivity|exact O'|exact Hu].
Qed.
Lemma reg_affine o k l c a b att inf att' inf' : wls_ok o k -> no_collinearity k l ->
  (a = b \/ has_intercept l /\ (1 <= k)%nat) ->
  reg_did_panel o k l = PEst att inf -> reg_did_panel o k (map (affine_y c a b) l) = PEst att' inf' ->
  att' = c * att /\ inf' = map (fun v => c * v) inf.
Proof.
  intros WO NC I E E'. apply reg_inv in E. apply reg_inv in E'. rewrite normalise_affine in E'.
  destruct E as [N0 [_ [be [M [Eb [Hr [EM [-> ->]]]]]]]].
  destruct E' as [_ [_ [be' [M' [Eb' [Hr' [EM' [-> ->]]]]]]]].
  rewrite ols_gram_affine, EM in EM'. injection EM' as <-.
  assert (Hm : mean p_w l <> 0) by (eapply mean_wreg_pos_weights; exact Hr).
  assert (W := proj1 (any_neg_false l) N0).
  assert (O := out_affine c a b o k (normalise l) be be' WO (normalise_nonneg l W Hm) (nc_normalise k l W Hm NC)
    ltac:(destruct I as [I|[I J]]; [left; exact I|right; split; [apply intercept_normalise; exact I|exact J]]) Eb Eb').
  assert (O' : forall u, In u (normalise l) -> outf k be' (affine_y c a b u) = c * outf k be u + (a - b)) by exact O.
  split.
  - unfold reg_att.
    rewrite (wmean_affine c a b w_reg p_dy w_reg p_dy (normalise l) (a - b)) by (first [right; exact Hr | intros; first [apply dy_affine|reflexivity]]).
    rewrite (wmean_affine c a b w_reg (outf k be) w_reg (outf k be') (normalise l) (a - b)) by (first [right; exact Hr | exact O' | intros; reflexivity]).
    ring.
  - rewrite !map_map. apply map_ext_in. intros u Hu. apply (reg_inf_affine c a b k (outf k be) (outf k be')); assumption.
Qed.
Lemma ipw_affine o k tl l c a b att inf att' inf' : logit_blind o ->
  std_ipw_did_panel o k tl l = PEst att inf -> std_ipw_did_panel o k tl (map (affine_y c a b) l) = PEst att' inf' ->
  att' = c * att /\ inf' = map (fun v => c * v) inf.
Proof.
  intros LB E E'. apply ipw_inv in E. apply ipw_inv in E'. rewrite normalise_affine in E'.
  destruct E as [N0 [_ [g [H [Eg [Ht [Hc [EH [-> ->]]]]]]]]].
  destruct E' as [_ [_ [g' [H' [Eg' [Ht' [Hc' [EH' [-> ->]]]]]]]]]. cbn zeta in *.
  rewrite (LB _ (normalise l) (view_affine c a b _)), Eg in Eg'. injection Eg' as <-.
  rewrite ps_gram_affine, EH in EH' by reflexivity. injection EH' as <-.
  split.
  - unfold ipw_att.
    rewrite (ipw_affine_means c a b (w_treat tl _)) by (auto; intros; apply w_treat_affine; reflexivity).
    rewrite (ipw_affine_means c a b (w_cont tl _)) by (auto; intros; apply w_cont_affine; reflexivity). ring.
  - rewrite !map_map, map_length. apply map_ext_in. intros u Hu. apply ipw_inf_affine; auto.
Qed.
