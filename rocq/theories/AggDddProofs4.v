(** Uniform form of the results (C64, C65, C66, C69). *)
From Verif Require Import Base ListLib Calc PreprocessModel PreprocessProofs SeModel AggteModel AggteSpec AggteProofs AggteProofs2 AggteProofs3 AggteProofs5 AggDddModel AggDddSpec AggDddProofs AggDddProofs2 AggDddProofs3.

(** the keys reported and the influence columns, by type *)
Definition keys_of (ty : agg_type) (dropna : bool) (be mi ma : option Z) (glist vals : list Z) (cells : list kcell) : list Z :=
  match ty with TSimple => [] | TGroup => used_glist dropna glist cells | TCalendar => calendar_keys cells | TDynamic => event_keys vals cells be mi ma end.
Definition infs_of ty dropna be mi ma glist us (cells : list kcell) (vals : list Z) : list (list Qc) :=
  map (fun key => winf us (length us) (filter (dcovers ty vals cells be ma key) cells)) (keys_of ty dropna be mi ma glist vals cells).
Definition inf_of ty dropna be mi ma glist us (cells : list kcell) (vals : list Z) (a : kcell -> Qc) : list Qc :=
  let W key := winf us (length us) (filter (dcovers ty vals cells be ma key) cells) in let ks := keys_of ty dropna be mi ma glist vals cells in
  match ty with
  | TSimple => W 0%Z
  | TGroup => map (fun q => sumf (fun g => nth (fst q) (W g) 0 * (frac us g / sumf (frac us) ks)) ks
                          + sumf (fun g => share_if us ks (snd q) g * or0 (effect_of ty (frac us) vals cells be ma a g)) ks) (indexed us)
  | TCalendar => mean_cols (length us) (map W ks)
  | TDynamic => match filter (fun e => (0 <=? e)%Z) ks with [] => repeat 0 (length us) | pos => mean_cols (length us) (map W pos) end
  end.

Section Uniform.
  Context (tlist glist : list Z) (us : list grp) (mp : list mp_cell) (OK : table_ok tlist glist us mp).
  Context (ty : agg_type) (dropna : bool) (be mi ma : option Z).
  Let cells := used_cells ty dropna mp.
  Let vals := scale dropna tlist glist cells.
  Let n := length us.
  Let cov key := filter (dcovers ty vals cells be ma key) cells.
  Let eff a := effect_of ty (frac us) vals cells be ma a.
  Let keys := keys_of ty dropna be mi ma glist vals cells.
  Let infs := infs_of ty dropna be mi ma glist us.
  Let inf := inf_of ty dropna be mi ma glist us.
  Lemma event_defined e : ty = TDynamic -> In e keys -> cov e <> [].
  Proof. intros ET He. apply (event_keys_cov tlist glist mp ty dropna be mi ma e ET). unfold keys, keys_of in He. rewrite ET in He. exact He. Qed.

  Lemma uniform r : agg_ddd ty dropna be mi ma tlist glist us mp = Some r ->
    agg_args_ok be mi ma = true /\ (dropna = true \/ forall m, In m mp -> m_att m <> None) /\ cells <> [] /\
    (ty = TCalendar -> keys <> []) /\
    r = {| da_overall := overall_of ty (frac us) vals cells be ma k_att keys; da_keys := keys; da_by := map (eff k_att) keys; da_inf_by := infs cells vals;
           da_inf := inf cells vals k_att;
           da_se2 := match ty with TDynamic => match filter (fun e => (0 <=? e)%Z) keys with [] => None | _ => se2_of (inf cells vals k_att) end | _ => se2_of (inf cells vals k_att) end;
           da_se2_by := map se2_of (infs cells vals) |}.
  Proof.
    intros H. destruct (agg_inv tlist glist us mp ty dropna be mi ma r H) as [A [D [N E]]]. fold cells vals in E, N.
    split; [exact A|]. split; [exact D|]. split; [exact N|].
    assert (SE : forall l : list (list Qc), (forall c, In c l -> length c = n) -> map (agg_se2 n) l = map se2_of l).
    { intros l Hl. apply map_ext_in. intros c Hc. apply agg_se2_of, Hl, Hc. }
    assert (SI : map (agg_se2 n) (infs cells vals) = map se2_of (infs cells vals)).
    { apply SE. intros c Hc. apply in_map_iff in Hc. destruct Hc as [key [<- _]]. apply winf_length. }
    assert (LI : length (inf cells vals k_att) = n).
    { unfold inf, inf_of. destruct ty.
      - apply winf_length.
      - rewrite map_length, indexed_length. reflexivity.
      - destruct (filter _ _); [apply repeat_length|]. unfold mean_cols. rewrite map_length, seq_length. reflexivity.
      - unfold mean_cols. rewrite map_length, seq_length. reflexivity. }
    assert (NS := norm_simple tlist glist us mp OK ty dropna be ma). assert (NGR := norm_group tlist glist us mp OK ty dropna be ma).
    assert (NE := norm_event tlist glist us mp OK ty dropna be mi ma). assert (NC := norm_calendar tlist glist us mp OK ty dropna be ma).
    assert (ED := event_defined). unfold keys, keys_of, cov in ED.
    assert (HU := used_in tlist glist us mp OK ty dropna). fold cells in HU.
    unfold covered in NS, NGR, NE, NC. cbn zeta in NS, NGR, NE, NC. fold cells in NS, NGR, NE, NC. fold vals in NS, NGR, NE, NC. fold n in NS, NGR, NE, NC.
    assert (NG : used_glist dropna glist cells <> []).
    { assert (HI : forall k, In k cells -> used_glist dropna glist cells <> []). { intros k Hk Hz. assert (X := used_glist_in dropna glist cells k Hk (proj1 (HU k Hk))). rewrite Hz in X. destruct X. }
      destruct cells as [|k ks]; [congruence|]. apply (HI k). left. reflexivity. }
    assert (SO := agg_se2_of n _ LI). unfold overall_of, eff, keys, infs, inf, infs_of, inf_of, keys_of, effect_of in *.
    destruct ty eqn:ET.
    - split; [discriminate|]. injection E as <-. rewrite (NS eq_refl). rewrite <- SO. reflexivity.
    - split; [discriminate|]. rewrite (NGR eq_refl NG) in E. injection E as <-. rewrite <- SI, <- SO. reflexivity.
    - split; [discriminate|]. injection E as <-. rewrite (NE eq_refl N).
      rewrite <- SO. rewrite <- SI.
      assert (EO : match filter (fun e => (0 <=? e)%Z) (event_keys vals cells be mi ma) with [] => None | z :: l => Some (average (map (fun e => wavg (frac us) k_att (cov e)) (z :: l))) end
        = avg_existing (fun e => wavg_opt (frac us) k_att (cov e)) (filter (fun e => (0 <=? e)%Z) (event_keys vals cells be mi ma))).
      { set (pos := filter (fun e => (0 <=? e)%Z) (event_keys vals cells be mi ma)). assert (HP : forall e, In e pos -> cov e <> []). { intros e He. apply (ED e eq_refl). apply filter_In in He. apply He. }
        clearbody pos. unfold avg_existing. rewrite (map_ext_in _ (fun e => Some (wavg (frac us) k_att (cov e)))). 2: { intros e He. specialize (HP e He). unfold wavg_opt. destruct (cov e); [congruence|reflexivity]. }
        rewrite existing_map_some. destruct pos; reflexivity. }
      unfold cov in EO. fold cells. fold vals. rewrite <- EO. unfold n. destruct (filter (fun e => (0 <=? e)%Z) (event_keys vals cells be mi ma)) as [|e0 es]; reflexivity.
    - rewrite (NC eq_refl N) in E.
      destruct (calendar_keys cells) as [|t0 ts] eqn:EK; [discriminate|]. split; [discriminate|]. injection E as <-. rewrite <- SI, <- SO. reflexivity.
  Qed.
End Uniform.
