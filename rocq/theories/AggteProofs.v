(** Recoding lemmas (C19) and aggregation identities (C17, C20, C23). *)
From Verif Require Import Base ListLib PreprocessModel PreprocessProofs AggteModel AggteSpec.

Definition cnt (u : list Z) (x : Z) : nat := length (filter (fun v => (v <=? x)%Z) u).

Lemma index_of_some x u i : index_of x u = Some i -> nth_error u i = Some x.
Proof.
  revert i. induction u as [|y u IH]; cbn; [discriminate|]. intros i.
  destruct (Z.eqb_spec y x) as [->|D].
  - intros [= <-]. reflexivity.
  - destruct (index_of x u) as [j|] eqn:E; cbn; [|discriminate]. intros [= <-]. cbn. apply IH. reflexivity.
Qed.
Lemma index_of_none x u : index_of x u = None <-> ~ In x u.
Proof.
  induction u as [|y u IH]; cbn; [intuition|]. destruct (Z.eqb_spec y x) as [->|D].
  - split; [discriminate|]. intuition.
  - destruct (index_of x u); cbn; split; try discriminate; intuition congruence.
Qed.
Lemma index_of_in x u : In x u -> exists i, index_of x u = Some i.
Proof.
  intros H. destruct (index_of x u) as [i|] eqn:E; [eauto|]. apply index_of_none in E. contradiction.
Qed.

Lemma filter_le_none (x : Z) l : Forall (fun y => (x < y)%Z) l -> filter (fun v => (v <=? x)%Z) l = [].
Proof. intros H. apply filter_none. intros y Hy. rewrite Forall_forall in H. apply Z.leb_gt, H, Hy. Qed.

Lemma index_of_cnt u x i : StronglySorted Z.lt u -> index_of x u = Some i -> cnt u x = S i.
Proof.
  intros HS. revert i. induction HS as [|y u HS IH Hf]; cbn [index_of]; [discriminate|]. intros i.
  unfold cnt in *. cbn [filter]. destruct (Z.eqb_spec y x) as [->|D].
  - intros [= <-]. rewrite Z.leb_refl, (filter_le_none x u Hf). reflexivity.
  - destruct (index_of x u) as [j|] eqn:E; cbn [option_map]; [|discriminate]. intros [= <-].
    assert (Hx : In x u) by (apply nth_error_In with j, index_of_some, E).
    rewrite Forall_forall in Hf. specialize (Hf x Hx).
    assert ((y <=? x)%Z = true) as -> by (apply Z.leb_le; lia). cbn [length]. f_equal. apply IH. reflexivity.
Qed.

Lemma recode_cnt u x : StronglySorted Z.lt u -> In x u -> recode u x = Z.of_nat (cnt u x).
Proof.
  intros HS Hx. destruct (index_of_in x u Hx) as [i Hi]. unfold recode, orig2t. rewrite Hi. cbn [option_map].
  rewrite (index_of_cnt u x i HS Hi). lia.
Qed.

Lemma filter_le_split u g t : (g <= t)%Z ->
  cnt u t = (cnt u g + length (filter (fun v => (g <? v)%Z && (v <=? t)%Z) u))%nat.
Proof.
  intros H. unfold cnt. induction u as [|y u IH]; [reflexivity|]. cbn [filter].
  destruct (Z.leb_spec y t), (Z.leb_spec y g), (Z.ltb_spec g y); cbn [length andb]; lia.
Qed.
Lemma cnt_lt u x y : In y u -> (x < y)%Z -> (cnt u x < cnt u y)%nat.
Proof.
  intros Hy H. rewrite (filter_le_split u x y) by lia.
  assert (In y (filter (fun v => (x <? v)%Z && (v <=? y)%Z) u)).
  { apply filter_In. split; [exact Hy|]. apply andb_true_intro. split; [apply Z.ltb_lt|apply Z.leb_le]; lia. }
  destruct (filter _ u); [destruct H0|]. cbn. lia.
Qed.
Lemma recode_lt u x y : StronglySorted Z.lt u -> In x u -> In y u -> ((recode u x < recode u y)%Z <-> (x < y)%Z).
Proof.
  intros HS Hx Hy. rewrite !recode_cnt by assumption. split; intros H.
  - destruct (Z.lt_total x y) as [h|[->|h]]; [exact h|lia|]. apply (cnt_lt u) in h; [lia|exact Hx].
  - apply (cnt_lt u) in H; [lia|exact Hy].
Qed.
Lemma recode_le u x y : StronglySorted Z.lt u -> In x u -> In y u -> ((recode u x <= recode u y)%Z <-> (x <= y)%Z).
Proof.
  intros HS Hx Hy. assert (H := recode_lt u y x HS Hy Hx). lia.
Qed.
Lemma recode_inj u x y : StronglySorted Z.lt u -> In x u -> In y u -> (recode u x = recode u y <-> x = y).
Proof.
  intros HS Hx Hy. assert (H := recode_lt u y x HS Hy Hx). assert (H' := recode_lt u x y HS Hx Hy). lia.
Qed.
Lemma recode_range u x : StronglySorted Z.lt u -> In x u -> (1 <= recode u x <= Z.of_nat (length u))%Z.
Proof.
  intros HS Hx. destruct (index_of_in x u Hx) as [i Hi]. unfold recode, orig2t. rewrite Hi. cbn [option_map].
  apply index_of_some in Hi. assert (i < length u)%nat by (apply nth_error_Some; congruence). lia.
Qed.
Lemma t2orig_recode u x : StronglySorted Z.lt u -> In x u -> t2orig u (recode u x) = x.
Proof.
  intros HS Hx. assert (R := recode_range u x HS Hx). unfold t2orig.
  assert (((1 <=? recode u x) && (recode u x <=? Z.of_nat (length u)))%Z = true) as ->
    by (apply andb_true_intro; split; apply Z.leb_le; lia).
  destruct (index_of_in x u Hx) as [i Hi]. unfold recode, orig2t. rewrite Hi. cbn [option_map].
  replace (Z.to_nat (Z.of_nat i + 1 - 1)) with i by lia.
  apply nth_error_nth. apply index_of_some, Hi.
Qed.

(** the vectorised lookup *)
Lemma searchsorted_fin u x : searchsorted u (Fin x) = length (filter (fun v => (v <? x)%Z) u).
Proof.
  unfold searchsorted. f_equal. apply filter_ext_in'. intros v _. cbn. destruct (Z.leb_spec x v), (Z.ltb_spec v x); cbn; lia.
Qed.
Lemma cnt_pred u x : cnt u (x - 1) = length (filter (fun v => (v <? x)%Z) u).
Proof.
  unfold cnt. f_equal. apply filter_ext_in'. intros v _. destruct (Z.leb_spec v (x - 1)), (Z.ltb_spec v x); lia.
Qed.
Lemma searchsorted_index u x i : StronglySorted Z.lt u -> index_of x u = Some i -> searchsorted u (Fin x) = i.
Proof.
  intros HS Hi. rewrite searchsorted_fin, <- cnt_pred.
  assert (H := index_of_cnt u x i HS Hi).
  assert (Hx : In x u) by (apply nth_error_In with i, index_of_some, Hi).
  rewrite (filter_le_split u (x - 1) x) in H by lia.
  assert (filter (fun v => (x - 1 <? v)%Z && (v <=? x)%Z) u = filter (fun v => (v =? x)%Z) u) as E.
  { apply filter_ext_in'. intros v _. destruct (Z.ltb_spec (x-1) v), (Z.leb_spec v x), (Z.eqb_spec v x); cbn; lia. }
  rewrite E in H. clear E.
  assert (length (filter (fun v => (v =? x)%Z) u) = 1%nat).
  { apply ssorted_lt_nodup in HS. clear -HS Hx. induction HS as [|y u Ny N IH]; [destruct Hx|]. cbn [filter].
    destruct (Z.eqb_spec y x) as [->|D].
    - cbn [length]. f_equal. rewrite filter_none; [reflexivity|]. intros z Hz. apply Z.eqb_neq. intros ->. contradiction.
    - apply IH. destruct Hx; [contradiction|assumption]. }
  lia.
Qed.
Lemma orig2t_vec_fin u x : StronglySorted Z.lt u -> orig2t_vec u (Fin x) = orig2t u x.
Proof.
  intros HS. unfold orig2t_vec, orig2t. destruct u as [|a u]; [reflexivity|]. set (v := a :: u) in *.
  destruct (index_of x v) as [i|] eqn:E; cbn [option_map].
  - rewrite (searchsorted_index v x i HS E). apply index_of_some in E.
    assert (L : (i < length v)%nat) by (apply nth_error_Some; congruence).
    rewrite Nat.min_l by lia. rewrite (nth_error_nth _ _ 0%Z E). cbn [grp_eqb]. rewrite Z.eqb_refl. reflexivity.
  - apply index_of_none in E. set (i := Nat.min _ _).
    assert (In (nth i v 0%Z) v) by (apply nth_In; unfold i, v; cbn; lia).
    cbn [grp_eqb]. destruct (Z.eqb_spec (nth i v 0%Z) x) as [e|]; [congruence|reflexivity].
Qed.
Lemma orig2t_vec_inf u : orig2t_vec u Inf = None.
Proof. unfold orig2t_vec. destruct u; reflexivity. Qed.

(** * From recoded to original values *)
Section Cells.
  Context (cells : list kcell) (units : list unit_rec).
  Let u := all_vals cells.
  Lemma u_sorted : StronglySorted Z.lt u. Proof. apply zuniq_sorted. Qed.
  Lemma u_g k : In k cells -> In (k_g k) u.
  Proof. intros H. apply zuniq_in, in_or_app. right. apply in_map, H. Qed.
  Lemma u_t k : In k cells -> In (k_t k) u.
  Proof. intros H. apply zuniq_in, in_or_app. left. apply in_map, H. Qed.
  Lemma in_group_eq g x : In g u -> in_group u (recode u g) x = grp_eqb (fst x) (Fin g).
  Proof.
    intros Hg. unfold in_group. destruct x as [gx w]; cbn [fst]. destruct gx as [z|]; [|rewrite orig2t_vec_inf; reflexivity].
    rewrite orig2t_vec_fin by apply u_sorted. cbn [grp_eqb]. unfold orig2t.
    destruct (index_of z u) as [i|] eqn:E; cbn [option_map].
    - assert (Hz : In z u) by (apply nth_error_In with i, index_of_some, E).
      assert (R := recode_inj u z g u_sorted Hz Hg). unfold recode at 1, orig2t in R. rewrite E in R. cbn [option_map] in R.
      destruct (Z.eqb_spec (Z.of_nat i + 1) (recode u g)), (Z.eqb_spec z g); intuition.
    - apply index_of_none in E. destruct (Z.eqb_spec z g) as [->|]; [contradiction|reflexivity].
  Qed.
  Lemma group_prob_share g : In g u -> group_prob u units (recode u g) = share units g.
  Proof. intros Hg. unfold group_prob, share. apply mean_ext. intros x _. rewrite in_group_eq by exact Hg. reflexivity. Qed.
  Lemma cell_prob_share k : In k cells -> cell_prob u units k = share units (k_g k).
  Proof. intros H. apply group_prob_share, u_g, H. Qed.

  Lemma recode_steps k : In k cells -> (k_g k <= k_t k)%Z -> (rt u k - rg u k)%Z = steps cells (k_g k) (k_t k).
  Proof.
    intros Hk H. unfold rt, rg. rewrite !recode_cnt by (try apply u_sorted; try apply u_g; try apply u_t; exact Hk).
    rewrite (filter_le_split u (k_g k) (k_t k)) by exact H. unfold steps, u, all_vals. lia.
  Qed.
  Lemma post_recode k : In k cells -> (rg u k <=? rt u k)%Z = post k.
  Proof.
    intros Hk. unfold rg, rt, post. assert (R := recode_le u (k_g k) (k_t k) u_sorted (u_g k Hk) (u_t k Hk)).
    destruct (Z.leb_spec (recode u (k_g k)) (recode u (k_t k))), (Z.leb_spec (k_g k) (k_t k)); intuition lia.
  Qed.
  Lemma post_cells_eq max_e :
    post_cells max_e u cells = filter (fun k => post k && in_window_steps cells max_e k) cells.
  Proof.
    unfold post_cells. apply filter_ext_in'. intros k Hk. rewrite post_recode by exact Hk.
    destruct (post k) eqn:E; [|reflexivity]. cbn [andb]. unfold le_max, in_window_steps. destruct max_e as [m|]; [|reflexivity].
    rewrite recode_steps; [reflexivity|exact Hk|apply Z.leb_le, E].
  Qed.
  Lemma group_cells_eq max_e g : In g u ->
    group_cells max_e u cells (recode u g) =
    filter (fun k => (k_g k =? g)%Z && post k && in_window_steps cells max_e k) cells.
  Proof.
    intros Hg. unfold group_cells. apply filter_ext_in'. intros k Hk.
    assert (R := recode_inj u (k_g k) g u_sorted (u_g k Hk) Hg). change (recode u (k_g k)) with (rg u k) in R.
    destruct (Z.eqb_spec (k_g k) g) as [E|D].
    - assert (E' : rg u k = recode u g) by (apply R, E). rewrite <- E', Z.eqb_refl, post_recode by exact Hk. cbn [andb].
      destruct (post k) eqn:P; [|reflexivity]. cbn [andb]. unfold le_max, in_window_steps. destruct max_e as [m|]; [|reflexivity].
      rewrite recode_steps; [reflexivity|exact Hk|apply Z.leb_le, P].
    - destruct (Z.eqb_spec (rg u k) (recode u g)) as [E|]; [|reflexivity]. apply R in E. contradiction.
  Qed.
  Lemma calendar_cells_eq t : In t u ->
    calendar_cells u cells (recode u t) = filter (fun k => (k_t k =? t)%Z && post k) cells.
  Proof.
    intros Ht. unfold calendar_cells. apply filter_ext_in'. intros k Hk.
    assert (R := recode_inj u (k_t k) t u_sorted (u_t k Hk) Ht). change (recode u (k_t k)) with (rt u k) in R.
    destruct (Z.eqb_spec (k_t k) t) as [E|D].
    - assert (E' : rt u k = recode u t) by (apply R, E). rewrite <- E', Z.eqb_refl, post_recode by exact Hk. reflexivity.
    - destruct (Z.eqb_spec (rt u k) (recode u t)) as [E|]; [|reflexivity]. apply R in E. contradiction.
  Qed.

  Lemma wsum_average ks : (forall k, In k ks -> In k cells) -> wsum (cell_prob u units) ks = share_average units ks.
  Proof.
    intros H. unfold wsum, norm_weight, share_average.
    rewrite (sumf_ext (cell_prob u units) (fun k => share units (k_g k)) ks) by (intros; apply cell_prob_share, H; assumption).
    rewrite <- sumf_div. apply sumf_ext. intros k Hk. rewrite cell_prob_share by (apply H, Hk).
    unfold Qcdiv. ring.
  Qed.
End Cells.

Lemma zmax_spec l : l <> [] -> is_max (zmax l) l.
Proof.
  intros H. unfold zmax. assert (S := zuniq_sorted l). assert (I := fun x => zuniq_in x l).
  assert (N : zuniq l <> []). { destruct l as [|a l]; [congruence|]. intros E. specialize (I a). rewrite E in I. apply I. left; reflexivity. }
  assert (G : forall m, StronglySorted Z.lt m -> m <> [] -> is_max (last m 0%Z) m).
  { clear. induction 1 as [|a m HS IH Hf]; [congruence|]. intros _. destruct m as [|b m].
    - cbn. split; [left; reflexivity|]. intros x [->|[]]. lia.
    - change (last (a :: b :: m) 0%Z) with (last (b :: m) 0%Z). destruct (IH ltac:(congruence)) as [I J].
      split; [right; exact I|]. intros x [->|Hx]; [|apply J, Hx]. rewrite Forall_forall in Hf. specialize (Hf _ I). lia. }
  destruct (G _ S N) as [I1 J1]. split; [apply I, I1|]. intros x Hx. apply J1, I, Hx.
Qed.
Lemma zmin_spec l : l <> [] -> is_min (zmin l) l.
Proof.
  intros H. unfold zmin. assert (S := zuniq_sorted l). assert (I := fun x => zuniq_in x l).
  destruct (zuniq l) as [|a m]; [destruct l as [|b l]; [congruence|]; exfalso; apply (I b); left; reflexivity|].
  cbn [hd]. split; [apply I; left; reflexivity|]. intros x Hx. apply I in Hx as [->|Hx]; [lia|].
  inversion S as [|? ? _ Hf]; subst. rewrite Forall_forall in Hf. specialize (Hf x Hx). lia.
Qed.
Lemma is_max_unique a b l : is_max a l -> is_max b l -> a = b.
Proof. intros [I J] [I' J']. specialize (J b I'). specialize (J' a I). lia. Qed.
Lemma is_min_unique a b l : is_min a l -> is_min b l -> a = b.
Proof. intros [I J] [I' J']. specialize (J b I'). specialize (J' a I). lia. Qed.

Section Cells2.
  Context (cells : list kcell).
  Let u := all_vals cells.
  Lemma map_rt_max : cells <> [] -> is_max (max_orig u cells) (map k_t cells).
  Proof.
    intros N. unfold max_orig. assert (N' : map (rt u) cells <> []) by (destruct cells; [congruence|discriminate]).
    destruct (zmax_spec _ N') as [I J]. apply in_map_iff in I as [k [E Hk]]. rewrite <- E. unfold rt.
    rewrite t2orig_recode by (first [apply u_sorted | apply u_t, Hk]). split; [apply in_map, Hk|].
    intros x Hx. apply in_map_iff in Hx as [k' [<- Hk']]. specialize (J (rt u k') (in_map _ _ _ Hk')). rewrite <- E in J.
    apply (proj1 (recode_le u _ _ (u_sorted cells) (u_t cells k' Hk') (u_t cells k Hk))). exact J.
  Qed.
  Lemma map_rt_min : cells <> [] -> is_min (min_orig u cells) (map k_t cells).
  Proof.
    intros N. unfold min_orig. assert (N' : map (rt u) cells <> []) by (destruct cells; [congruence|discriminate]).
    destruct (zmin_spec _ N') as [I J]. apply in_map_iff in I as [k [E Hk]]. rewrite <- E. unfold rt.
    rewrite t2orig_recode by (first [apply u_sorted | apply u_t, Hk]). split; [apply in_map, Hk|].
    intros x Hx. apply in_map_iff in Hx as [k' [<- Hk']]. specialize (J (rt u k') (in_map _ _ _ Hk')). rewrite <- E in J.
    apply (proj1 (recode_le u _ _ (u_sorted cells) (u_t cells k Hk) (u_t cells k' Hk'))). exact J.
  Qed.
End Cells2.
