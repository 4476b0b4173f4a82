(** Cell estimates of a panel: the two-by-two contrast, and polynomial effects. *)
From Verif Require Import Base ListLib ReduceModel DrdidModel DrdidSpec SplineModel SplineSpec ContModel ContSpec ContProofs ContProofs2 ContProofs3 ContProofs4.
From Coq Require Import Sorting.Sorted.

Lemma Qcplus_opp_r_ (a : Qc) : a - a = 0. Proof. ring. Qed.
Lemma nth_vscale0 : forall b l, nth l (vscale 0 b) 0 = 0.
Proof. unfold vscale. induction b as [|x b IH]; intros [|l]; cbn [map nth]; auto. ring. Qed.
Lemma dotk_vm_zero k r B w : dotk k (vm k (vscale 0 r) B) w = 0.
Proof.
  unfold dotk. apply sumf_zero. intros j Hj. apply in_seq in Hj. unfold vm.
  set (f := fun j => sumf (fun i => nth i (vscale 0 r) 0 * mget B i j) (seq 0 k)).
  rewrite (nth_indep _ 0 (f 0%nat)) by (rewrite map_length, seq_length; lia). rewrite (map_nth f). unfold f.
  rewrite sumf_zero; [ring|]. intros l _. rewrite nth_vscale0. ring.
Qed.
Section Cell.
  Context (orc : coracle) (o : copts) (T : nat) (us : list cunit) (Ok : panel_ok (co_ant o) T us) (V : co_univ o = false).
  Context (Lok : lstsq_ok (co_lstsq orc)).
  Context (g tp : Z) (Hg : In g (cohorts us)) (Ht : (2 <= tp <= Z.of_nat T)%Z).
  Lemma treated_ne : treated o us g tp <> [].
  Proof.
    destruct (proj1 (cohorts_in us g) Hg) as [u [I E]]. unfold treated. intros H. apply map_eq_nil in H. unfold cohort in H.
    assert (J : In u (filter (fun u => match k_g u with Some h => (h =? g)%Z | None => false end) us)) by (apply filter_In; rewrite E, Z.eqb_refl; auto).
    now rewrite H in J.
  Qed.
  Lemma cmean_eq : comparison (co_nyt o) us g tp <> [] ->
    cmean_of (compared o us g tp) = Some (mean (change (co_ant o) g tp) (comparison (co_nyt o) us g tp)).
  Proof.
    intros H. unfold cmean_of, compared. destruct (comparison (co_nyt o) us g tp) as [|c q] eqn:E; [easy|]. cbn [map]. f_equal.
    change (as_unit o g tp (fun _ => 0) c :: map (as_unit o g tp (fun _ => 0)) q) with (map (as_unit o g tp (fun _ => 0)) (c :: q)). rewrite mean_map. reflexivity.
  Qed.
  Lemma cell_att knots dvals e : pc_out (process_cell orc o knots dvals (rows T us) tp g) = CEst e ->
    comparison (co_nyt o) us g tp <> [] -> e_att e = Some (did (co_nyt o) (co_ant o) us g tp).
  Proof.
    intros H C. destruct (cell_est orc o T us Ok V g tp Hg Ht knots dvals e H) as [t [coef [bread [_ [K [_ [L [_ ->]]]]]]]].
    unfold est_of. cbn [e_att]. rewrite cmean_eq by exact C. unfold opt_sub, option_map, did. do 2 f_equal.
    rewrite (mean_fit orc Lok (co_deg o) knots _ t K (treated o us g tp) treated_ne dy_of coef L). unfold treated. rewrite mean_map. reflexivity.
  Qed.
  Lemma cell_att_none knots dvals e : pc_out (process_cell orc o knots dvals (rows T us) tp g) = CEst e ->
    comparison (co_nyt o) us g tp = [] -> e_att e = None.
  Proof.
    intros H C. destruct (cell_est orc o T us Ok V g tp Hg Ht knots dvals e H) as [t [coef [bread [_ [K [_ [L [_ ->]]]]]]]].
    unfold est_of. cbn [e_att]. unfold compared. now rewrite C.
  Qed.
  Context (Iok : cinv_ok (co_inv orc)).
  Lemma cell_poly knots dvals e a m : pc_out (process_cell orc o knots dvals (rows T us) tp g) = CEst e ->
    (length a <= co_deg o + 1)%nat -> (forall u, In u (cohort us g) -> change (co_ant o) g tp u = poly a (k_dose u)) ->
    comparison (co_nyt o) us g tp <> [] -> mean (change (co_ant o) g tp) (comparison (co_nyt o) us g tp) = m ->
    e_attd e = Some (map (fun v => poly a v - m) dvals) /\ e_acrtd e = map (poly' a) dvals /\
    e_att e = Some (mean (fun u => poly a (k_dose u)) (cohort us g) - m) /\ e_acrt e = mean (fun u => poly' a (k_dose u)) (cohort us g) /\
    (forall i v, In (i, v) (e_inf e) -> exists u, In u (cohort us g) /\ k_id u = i /\ v = poly' a (k_dose u) - e_acrt e).
  Proof.
    intros H La P C M. destruct (cell_est orc o T us Ok V g tp Hg Ht knots dvals e H) as [t [coef [bread [_ [K [D [L [B ->]]]]]]]].
    assert (Pt : forall u, In u (treated o us g tp) -> dy_of u = poly a (dose_of u)).
    { intros u Hu. unfold treated in Hu. apply in_map_iff in Hu. destruct Hu as [x [<- Hx]]. cbn. now apply P. }
    destruct (poly_coef orc Lok Iok (co_deg o) knots _ t K (treated o us g tp) treated_ne coef bread a D L B La Pt) as [F1 F2].
    assert (A0 : mean (fun u => dotk (length coef - 1) (drow t (co_deg o) (dose_of u)) (tl coef)) (treated o us g tp) = mean (fun u => poly' a (k_dose u)) (cohort us g)).
    { unfold treated. rewrite mean_map. apply mean_ext. intros u _. apply F2. }
    unfold est_of. cbn [e_attd e_acrtd e_att e_acrt e_inf]. rewrite cmean_eq, M by exact C. split; [|split; [|split; [|split]]].
    - f_equal. apply map_ext. intros v. now rewrite F1.
    - apply map_ext. intros v. apply F2.
    - unfold opt_sub, option_map. do 2 f_equal. unfold treated. rewrite mean_map. apply mean_ext. intros u _. apply F1.
    - exact A0.
    - intros i v Hv. apply in_map_iff in Hv. destruct Hv as [x [E Hx]]. assert (E1 := f_equal fst E). assert (E2 := f_equal snd E). cbv beta in E1, E2. cbn [fst snd] in E1, E2. clear E. assert (Hx' := Hx). unfold treated in Hx'. apply in_map_iff in Hx'.
      destruct Hx' as [u [<- Hu]]. exists u. split; [exact Hu|]. split; [exact E1|]. rewrite <- E2. clear E2. rewrite F2.
      rewrite (Pt _ Hx), F1, Qcplus_opp_r_, dotk_vm_zero. cbn [dose_of as_unit fst snd]. ring.
  Qed.
End Cell.
