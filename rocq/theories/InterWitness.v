(** did_multiplegt: concrete panels (no property content) and executable checks of the hypotheses. *)
From Verif Require Import Base ListLib PreprocessModel Witness InterModel InterSpec.

Definition mkr (g t : Z) (y d : option Qc) (w : option Qc) (cl : option Z) : irow :=
  {| i_g := g; i_t := t; i_y := y; i_d := d; i_w := w; i_cl := cl; i_tr := None |}.
Definition mk (g t y d : Z) : irow := mkr g t (Some (qz y)) (Some (qz d)) None None.
Definition cfg0 : icfg :=
  {| ic_weighted := false; ic_dir := AnySw; ic_only_never := false; ic_same := false; ic_same_pl := false; ic_norm := false; ic_keep_bi := false;
     ic_drop_missing := false; ic_trends_lin := false; ic_cluster := false; ic_less := false; ic_effects := 2; ic_placebo := 1 |}.
Definition upd (c : icfg) (w : bool) (dir : sw_dir) (only same samepl norm keep tl cl : bool) : icfg :=
  {| ic_weighted := w; ic_dir := dir; ic_only_never := only; ic_same := same; ic_same_pl := samepl; ic_norm := norm; ic_keep_bi := keep;
     ic_drop_missing := ic_drop_missing c; ic_trends_lin := tl; ic_cluster := cl; ic_less := ic_less c; ic_effects := ic_effects c; ic_placebo := ic_placebo c |}.
Definition one (x : Qc) : Qc := x.

Definition gaplessb (u : list irow) : bool :=
  forallb (fun r => forallb (fun r' => forallb (fun k => existsb (fun r'' => (i_t r'' =? i_t r + Z.of_nat k)%Z) u) (seq 0 (S (Z.to_nat (i_t r' - i_t r))))) u) u.
Lemma gaplessb_ok u : gaplessb u = true -> gapless u.
Proof.
  intros H r r' x Hr Hr' Hx. unfold gaplessb in H. rewrite forallb_forall in H. specialize (H r Hr). rewrite forallb_forall in H. specialize (H r' Hr').
  rewrite forallb_forall in H. specialize (H (Z.to_nat (x - i_t r))). rewrite existsb_exists in H. destruct H as (s & h1 & h2).
  - apply in_seq. lia.
  - exists s. split; [exact h1|]. apply Z.eqb_eq in h2. lia.
Qed.
Definition panel_okb (c : icfg) (rows : list irow) : bool :=
  nodupb (fun p q => (fst p =? fst q)%Z && (snd p =? snd q)%Z) (map (fun r => (i_g r, i_t r)) rows)
  && forallb (fun r => is_some (i_d r)) rows && (Z.of_nat (length rows) <=? 2000000)%Z
  && forallb (fun r => negb (grp_eqb (switch_date rows (i_g r)) (Fin 0%Z))) rows && gaplessb (used rows c).
Lemma panel_okb_ok c rows : panel_okb c rows = true -> panel_ok c rows.
Proof.
  unfold panel_okb. rewrite !andb_true_iff, !forallb_forall. intros ((((h1 & h2) & h3) & h4) & h5).
  split; [apply (nodupb_ok _ _) in h1; [exact h1|intros (a, b); cbn; now rewrite !Z.eqb_refl]|]. split.
  { intros r Hr. specialize (h2 r Hr). destruct (i_d r) as [x|]; [now exists x|discriminate]. }
  split; [now apply Z.leb_le|]. split.
  { intros r Hr e. specialize (h4 r Hr). rewrite e in h4. discriminate. }
  now apply gaplessb_ok.
Qed.
Ltac by_panel := apply panel_okb_ok; vm_compute; reflexivity.
Ltac by_o := apply oqb_eq; vm_compute; reflexivity.
Ltac by_ne := let H := fresh in intros H; apply (f_equal (option_map this)) in H; vm_compute in H; discriminate H.

(** two switchers (periods 3 and 5) and one unit that never switches, with integer weights *)
Definition stag : list irow :=
  [mk 1 1 0 0; mk 1 2 1 0; mk 1 3 7 1; mk 1 4 9 1; mk 1 5 9 1;
   mk 2 1 0 0; mk 2 2 1 0; mk 2 3 2 0; mk 2 4 3 0; mk 2 5 9 1;
   mk 3 1 0 0; mk 3 2 1 0; mk 3 3 3 0; mk 3 4 2 0; mk 3 5 2 0]%Z.
Definition set_w (w : Qc) (r : irow) : irow := mkr (i_g r) (i_t r) (i_y r) (i_d r) (Some w) (i_cl r).
(** one unit switches in, one out *)
Definition inout : list irow :=
  [mk 1 1 0 0; mk 1 2 1 0; mk 1 3 7 1; mk 1 4 9 1;
   mk 2 1 0 0; mk 2 2 1 0; mk 2 3 2 0; mk 2 4 3 0;
   mk 3 1 0 1; mk 3 2 1 1; mk 3 3 (-3) 0; mk 3 4 (-2) 0;
   mk 4 1 0 1; mk 4 2 1 1; mk 4 3 2 1; mk 4 4 3 1]%Z.
Ltac by_oo := intros; apply oqb_eq; vm_compute; reflexivity.

(** the functions of InterSpec.v with the list [used rows c] as an argument: the same by definition, but it is evaluated only once *)
Section Fast.
  Context (c : icfg) (rows : list irow) (placebo : bool) (h : Z) (u : list irow).
  Definition not_yet_u (r : irow) : bool :=
    match switch_date rows (i_g r) with
    | Inf => true
    | Fin f => (i_t r <? f)%Z && negb (ic_only_never c && existsb (fun r' => (f <=? i_t r')%Z) u)
    end.
  Definition comparisons_u (r : irow) : list irow :=
    filter (fun r' => (i_t r' =? i_t r)%Z && same_baseline rows r r' && not_yet_u r' && is_some (h_change u placebo h r')) u.
  Definition unit_did_u (r : irow) : Qc :=
    val (h_change u placebo h r)
    - sumf (fun r' => obs_weight c r' * val (h_change u placebo h r')) (comparisons_u r) / sumf (obs_weight c) (comparisons_u r).
  Definition switcher_u (r : irow) : bool :=
    match switch_date rows (i_g r) with Fin f => (i_t r =? f - 1 + h)%Z | Inf => false end
    && is_some (h_change u placebo h r)
    && match ic_dir c with AnySw => true | InSw => switches_in rows (i_g r) | OutSw => switches_out rows (i_g r) end
    && Qcltb 0 (sumf (obs_weight c) (comparisons_u r)).
  Definition switchers_u : list irow := filter switcher_u u.
  Definition unit_dose_u (r : irow) : Qc :=
    match switch_date rows (i_g r) with
    | Fin f => sumf (fun r' => val (osub (i_d r') (baseline rows (i_g r'))))
                    (filter (fun r' => (i_g r' =? i_g r)%Z && (f <=? i_t r')%Z && (i_t r' <=? f - 1 + h)%Z) u)
    | Inf => 0
    end.
End Fast.
Lemma switchers_fast c rows placebo h : switchers c rows placebo h = switchers_u c rows placebo h (used rows c). Proof. reflexivity. Qed.
Lemma unit_did_fast c rows placebo h r : unit_did c rows placebo h r = unit_did_u c rows placebo h (used rows c) r. Proof. reflexivity. Qed.
Lemma average_did_fast c rows placebo h : average_did c rows placebo h
  = (fun u => let s := switchers_u c rows placebo h u in sumf (fun r => obs_weight c r * unit_did_u c rows placebo h u r) s / sumf (obs_weight c) s) (used rows c).
Proof. reflexivity. Qed.
Lemma documented_did_fast c rows placebo h : documented_did c rows placebo h
  = (fun u => let s := switchers_u c rows placebo h u in sumf (fun r => obs_weight c r * (sign rows r * unit_did_u c rows placebo h u r)) s / sumf (obs_weight c) s) (used rows c).
Proof. reflexivity. Qed.
Lemma mean_abs_dose_fast c rows placebo h : mean_abs_dose c rows placebo h
  = (fun u => let s := switchers_u c rows placebo h u in sumf (fun r => obs_weight c r * Qcabs.Qcabs (unit_dose_u rows h u r)) s / sumf (obs_weight c) s) (used rows c).
Proof. reflexivity. Qed.
Lemma total_effect_fast c rows n : total_effect c rows n
  = (fun u => sumf (fun h => sumf (fun r => obs_weight c r * unit_did_u c rows false (Z.of_nat h) u r) (switchers_u c rows false (Z.of_nat h) u)) (seq 1 n)
              / sumf (fun h => sumf (fun r => obs_weight c r * own_dose rows r) (switchers_u c rows false (Z.of_nat h) u)) (seq 1 n)) (used rows c).
Proof. reflexivity. Qed.
Ltac fast := rewrite ?documented_did_fast, ?average_did_fast, ?mean_abs_dose_fast, ?total_effect_fast, ?unit_did_fast, ?switchers_fast.
Ltac by_le := fast; vm_compute; discriminate.
Ltac by_q := fast; apply Qc_is_canon; vm_compute; reflexivity.
