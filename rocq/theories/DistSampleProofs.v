(** Proofs for C39. *)
From Coq Require Import Permutation.
From Verif Require Import Base ListLib PreprocessModel PreprocessSpec AttGtSpec DrdidModel DistDidModel DistSampleModel DistSampleSpec.
Local Open Scope list_scope.

Lemma grp_eqb_iff a b : grp_eqb a b = true <-> a = b.
Proof. destruct a, b; cbn; rewrite ?Z.eqb_eq; intuition congruence. Qed.
Lemma stream_filter_iff never g t pret r : stream_filter never g t pret r = true <-> dist_role never g t pret (r_g r).
Proof.
  unfold stream_filter, dist_role. destruct never; rewrite !orb_true_iff, !grp_eqb_iff.
  - intuition discriminate.
  - assert (E : grp_gtz (r_g r) (Z.max t pret) = true <-> match r_g r with Inf => True | Fin z => (Z.max t pret < z)%Z end).
    { destruct (r_g r); cbn; [apply Z.ltb_lt|tauto]. }
    rewrite E. tauto.
Qed.
Lemma nodup_map_eq {A B} (f : A -> B) l x y : NoDup (map f l) -> In x l -> In y l -> f x = f y -> x = y.
Proof.
  induction l as [|a l IH]; intros N Hx Hy E; [destruct Hx|]. cbn in N. inversion N as [|? ? N1 N2]; subst. destruct Hx as [<-|Hx], Hy as [<-|Hy]; auto.
  - exfalso. apply N1. rewrite E. apply in_map, Hy.
  - exfalso. apply N1. rewrite <- E. apply in_map, Hx.
Qed.
Lemma panel_key data r r' : panel_rows data -> In r data -> In r' data -> r_id r = r_id r' -> r_t r = r_t r' -> r = r'.
Proof. intros [N _] H H' E1 E2. apply (nodup_map_eq _ _ _ _ N H H'). congruence. Qed.
Lemma nodup_of_keys {A} (f : A -> Z) l : NoDup l -> (forall x y, In x l -> In y l -> f x = f y -> x = y) -> NoDup (map f l).
Proof. intros N H. apply NoDup_map_inj; auto. Qed.
Lemma nodup_flat_map {A B} (f : A -> list B) l : NoDup l -> (forall a, In a l -> NoDup (f a)) ->
  (forall a a' b, In a l -> In a' l -> In b (f a) -> In b (f a') -> a = a') -> NoDup (flat_map f l).
Proof.
  induction 1 as [|a l Na Nl IH]; intros H1 H2; cbn; [constructor|]. apply NoDup_app_intro.
  - apply H1. left; reflexivity.
  - apply IH; [intros; apply H1; right; assumption|]. intros x y b Hx Hy. apply H2; right; assumption.
  - intros b Hb Hb'. apply in_flat_map in Hb' as (a' & Ha' & Hb'). assert (a = a') by (eapply H2; [left; reflexivity|right; exact Ha'|exact Hb|exact Hb']). subst. contradiction.
Qed.
Lemma nodup_data data : panel_rows data -> NoDup data.
Proof. intros [N _]. eapply NoDup_map_inv, N. Qed.

(** ** streamed cells *)
Section Stream.
Context (has_w never : bool) (g t pret : Z) (data : list row) (P : panel_rows data).
Lemma in_merge a b : In (a, b) (stream_merge never g t pret data) <->
  In a data /\ In b data /\ r_t a = t /\ r_t b = pret /\ r_id a = r_id b /\ dist_role never g t pret (r_g a).
Proof.
  unfold stream_merge. rewrite in_flat_map. split.
  - intros (a' & Ha & Hb). apply in_map_iff in Hb as (b' & E & Hb). injection E as -> ->. rewrite !filter_In in *. destruct Ha as ((Ha & Fa) & Ta), Hb as (((Hb & Fb) & Tb) & Ib).
    apply Z.eqb_eq in Ta, Tb, Ib. apply stream_filter_iff in Fa. repeat split; auto.
  - intros (Ha & Hb & Ta & Tb & I & R). exists a. split.
    + rewrite !filter_In. split; [split; [exact Ha|apply stream_filter_iff, R]|apply Z.eqb_eq, Ta].
    + apply in_map_iff. exists b. split; [reflexivity|]. rewrite !filter_In. repeat split; [exact Hb| |apply Z.eqb_eq, Tb|apply Z.eqb_eq; congruence].
      apply stream_filter_iff. rewrite <- (proj2 P a b Ha Hb I). exact R.
Qed.
Lemma merge_nodup : NoDup (map (fun p => r_id (fst p)) (stream_merge never g t pret data)).
Proof.
  apply nodup_of_keys.
  - unfold stream_merge. apply nodup_flat_map.
    + do 2 apply NoDup_filter. apply nodup_data, P.
    + intros a _. apply NoDup_map_inj; [intros; congruence|]. do 3 apply NoDup_filter. apply nodup_data, P.
    + intros a a' b _ _ H H'. apply in_map_iff in H as (x & <- & _). apply in_map_iff in H' as (y & E & _). congruence.
  - intros [a b] [a' b'] H H' E. cbn in E. apply in_merge in H as (Ha & Hb & Ta & Tb & I & _), H' as (Ha' & Hb' & Ta' & Tb' & I' & _).
    f_equal; eapply panel_key; eauto; congruence.
Qed.
Lemma stream_sample :
  NoDup (map p_id (stream_units has_w never g t pret data)) /\
  (forall u, In u (stream_units has_w never g t pret data) -> is_cell_unit has_w g t pret t data u) /\
  (forall i, (exists u, In u (stream_units has_w never g t pret data) /\ p_id u = i) <->
     observed_at data i t /\ observed_at data i pret /\ exists r, In r data /\ r_id r = i /\ dist_role never g t pret (r_g r)).
Proof.
  unfold stream_units. split; [rewrite map_map; apply merge_nodup|]. split.
  - intros u H. apply in_map_iff in H as ([a b] & <- & H). apply in_merge in H as (Ha & Hb & Ta & Tb & I & R).
    exists a, b, a. cbn. repeat split; auto; apply grp_eqb_iff.
  - intros i. split.
    + intros (u & Hu & <-). apply in_map_iff in Hu as ([a b] & <- & H). apply in_merge in H as (Ha & Hb & Ta & Tb & I & R). cbn.
      split; [exists a; auto|]. split; [exists b; auto|]. exists a; auto.
    + intros ((a & Ha & Ia & Ta) & (b & Hb & Ib & Tb) & r & Hr & Ir & R). exists (stream_unit has_w g (a, b)). split; [|exact Ia].
      apply in_map, in_merge. repeat split; auto; [congruence|]. rewrite (proj2 P a r Ha Hr ltac:(congruence)). exact R.
Qed.
End Stream.

(** ** the merge tree *)
Section Tree.
Context (f : list row) (P : panel_rows f).
Definition entry_ok (ts : list Z) (e : Z * list (Z * Qc)) : Prop :=
  map fst (snd e) = ts /\ forall q, In q (snd e) -> exists r, In r f /\ r_id r = fst e /\ r_t r = fst q /\ r_y r = snd q.
Definition table_ok (ts : list Z) (A : ytable) : Prop := NoDup (map fst A) /\ forall e, In e A <-> entry_ok ts e.
Lemma entry_split ts1 ts2 i ys : entry_ok (ts1 ++ ts2) (i, ys) <-> exists y1 y2, ys = y1 ++ y2 /\ entry_ok ts1 (i, y1) /\ entry_ok ts2 (i, y2).
Proof.
  split.
  - intros [E H]. cbn in E. exists (firstn (length ts1) ys), (skipn (length ts1) ys). split; [symmetry; apply firstn_skipn|]. split; split; cbn.
    + rewrite <- firstn_map, E, firstn_app, firstn_all, Nat.sub_diag. cbn. apply app_nil_r.
    + intros q Hq. apply H. cbn. rewrite <- (firstn_skipn (length ts1) ys). apply in_or_app. left; exact Hq.
    + rewrite <- skipn_map, E, skipn_app, skipn_all, Nat.sub_diag. reflexivity.
    + intros q Hq. apply H. cbn. rewrite <- (firstn_skipn (length ts1) ys). apply in_or_app. right; exact Hq.
  - intros (y1 & y2 & -> & [E1 H1] & [E2 H2]). split; cbn in *; [rewrite map_app, E1, E2; reflexivity|]. intros q Hq. apply in_app_or in Hq as [Hq|Hq]; auto.
Qed.
Lemma join_ok ts1 ts2 A B : table_ok ts1 A -> table_ok ts2 B -> table_ok (ts1 ++ ts2) (inner_join A B).
Proof.
  intros [NA HA] [NB HB]. split.
  - unfold inner_join. rewrite (flat_map_concat_map). rewrite concat_map, map_map.
    assert (G : forall l, NoDup (map fst l) -> NoDup (concat (map (fun a => map fst (map (fun b : Z * list (Z * Qc) => (fst a, snd a ++ snd b)) (filter (fun b => (fst b =? fst a)%Z) B))) l)) /\
      forall z, In z (concat (map (fun a : Z * list (Z * Qc) => map fst (map (fun b : Z * list (Z * Qc) => (fst a, snd a ++ snd b)) (filter (fun b => (fst b =? fst a)%Z) B))) l)) -> In z (map fst l)).
    { induction l as [|a l IH]; intros N; cbn; [split; [constructor|tauto]|]. cbn in N. inversion N as [|? ? N1 N2]; subst. destruct (IH N2) as [I1 I2]. split.
      - apply NoDup_app_intro; [|exact I1|].
        + rewrite map_map. cbn. rewrite (map_ext_in _ (fun b => fst b)).
          * apply NoDup_map_inj; [|apply NoDup_filter; eapply NoDup_map_inv, NB]. intros x y Hx Hy E. apply filter_In in Hx as [Hx _], Hy as [Hy _]. exact (nodup_map_eq fst B x y NB Hx Hy E).
          * intros b Hb. apply filter_In in Hb as [_ Hb]. apply Z.eqb_eq in Hb. symmetry; exact Hb.
        + intros z Hz Hz'. rewrite map_map in Hz. apply in_map_iff in Hz as (b & <- & _). cbn in Hz'. apply N1. apply I2, Hz'.
      - intros z Hz. apply in_app_or in Hz as [Hz|Hz]; [|right; apply I2, Hz]. rewrite map_map in Hz. apply in_map_iff in Hz as (b & <- & _). left; reflexivity. }
    apply (G A NA).
  - intros [i ys]. rewrite entry_split. unfold inner_join. rewrite in_flat_map. split.
    + intros ([i1 y1] & H1 & H2). apply in_map_iff in H2 as ([i2 y2] & E & H2). apply filter_In in H2 as [H2 E2]. apply Z.eqb_eq in E2. cbn in *. subst i2. injection E as <- <-.
      exists y1, y2. split; [reflexivity|]. split; [apply HA, H1|apply HB, H2].
    + intros (y1 & y2 & -> & H1 & H2). exists (i, y1). split; [apply HA, H1|]. apply in_map_iff. exists (i, y2). split; [reflexivity|]. apply filter_In. split; [apply HB, H2|]. cbn. apply Z.eqb_refl.
Qed.
Lemma period_ok p : table_ok [p] (period_table f p).
Proof.
  unfold period_table. split.
  - rewrite map_map. cbn. apply nodup_of_keys; [apply NoDup_filter, nodup_data, P|]. intros x y Hx Hy E. apply filter_In in Hx as [Hx Tx], Hy as [Hy Ty]. apply Z.eqb_eq in Tx, Ty.
    eapply panel_key; eauto. congruence.
  - intros [i ys]. rewrite in_map_iff. split.
    + intros (r & E & H). injection E as <- <-. apply filter_In in H as [H T]. apply Z.eqb_eq in T. split; [reflexivity|]. intros q [<-|[]]. exists r. cbn. auto.
    + intros [E H]. cbn in *. destruct ys as [|[p' y] [|? ?]]; try discriminate. cbn in E. injection E as ->. destruct (H (p, y) (or_introl eq_refl)) as (r & H1 & H2 & H3 & H4). cbn in *.
      exists r. split; [congruence|]. apply filter_In. split; [exact H1|apply Z.eqb_eq, H3].
Qed.
Lemma level_ok tss : forall As, Forall2 table_ok tss As -> exists tss', Forall2 table_ok tss' (merge_level As) /\ concat tss' = concat tss.
Proof.
  assert (G : forall n tss As, (length tss <= n)%nat -> Forall2 table_ok tss As -> exists tss', Forall2 table_ok tss' (merge_level As) /\ concat tss' = concat tss).
  { induction n as [|n IH]; intros ts As L H.
    - destruct ts; [|cbn in L; lia]. inversion H; subst. exists []. split; [constructor|reflexivity].
    - inversion H as [|t1 A ts1 As1 H1 H']; subst; [exists []; split; [constructor|reflexivity]|]. inversion H' as [|t2 B ts2 As2 H2 H'']; subst; [exists [t1]; split; [constructor; [exact H1|constructor]|reflexivity]|].
      cbn in L. destruct (IH ts2 As2 ltac:(lia) H'') as (tss' & K1 & K2). exists ((t1 ++ t2) :: tss'). split; [cbn; constructor; [apply join_ok; assumption|exact K1]|]. cbn. rewrite K2, app_assoc. reflexivity. }
  intros As. apply (G (length tss)). lia.
Qed.
Lemma level_len l : (2 <= length l)%nat -> (length (merge_level l) < length l)%nat.
Proof.
  assert (G : forall n (l : list ytable), (length l <= n)%nat -> (length (merge_level l) <= length l)%nat).
  { induction n as [|n IH]; intros m L; [destruct m; [cbn; lia|cbn in L; lia]|]. destruct m as [|A [|B m]]; [cbn; lia|cbn; lia|]. cbn in *. specialize (IH m). lia. }
  destruct l as [|A [|B l]]; cbn; try lia. intros _. specialize (G (length l) l ltac:(lia)). lia.
Qed.
Lemma tree_ok fuel : forall tss As, Forall2 table_ok tss As -> As <> [] -> (length As <= S fuel)%nat -> exists W, merge_tree fuel As = Some W /\ table_ok (concat tss) W.
Proof.
  induction fuel as [|fuel IH]; intros tss As H N L.
  - inversion H as [|t1 A ts1 As1 H1 H']; subst; [congruence|]. cbn in L. inversion H'; subst; [|cbn in *; lia]. exists A. split; [reflexivity|]. cbn. rewrite app_nil_r. exact H1.
  - inversion H as [|t1 A ts1 As1 H1 H']; subst; [congruence|]. inversion H' as [|t2 B ts As2 H2 H'']; subst; [exists A; split; [reflexivity|cbn; rewrite app_nil_r; exact H1]|].
    destruct (level_ok (t1 :: t2 :: ts) (A :: B :: As2)) as (tss' & K1 & K2); [constructor; [exact H1|constructor; [exact H2|exact H'']]|].
    change (merge_tree (S fuel) (A :: B :: As2)) with (merge_tree fuel (merge_level (A :: B :: As2))). rewrite <- K2. apply IH; [exact K1|cbn; discriminate|].
    pose proof (level_len (A :: B :: As2) ltac:(cbn; lia)). lia.
Qed.
Lemma wide_table_ok times : times <> [] -> exists W, merge_tree (length times) (map (period_table f) times) = Some W /\ table_ok times W.
Proof.
  intros N. destruct (tree_ok (length times) (map (fun p => [p]) times) (map (period_table f) times)) as (W & E & OK).
  - clear N. induction times as [|p l IH]; cbn; constructor; [apply period_ok|exact IH].
  - destruct times; [congruence|discriminate].
  - rewrite map_length. lia.
  - exists W. split; [exact E|]. replace times with (concat (map (fun p => [p]) times)); [exact OK|]. clear. induction times as [|p l IH]; cbn; [reflexivity|]. rewrite IH. reflexivity.
Qed.
Lemma ycol_ok ts i ys p : entry_ok ts (i, ys) -> In p ts -> exists r, In r f /\ r_id r = i /\ r_t r = p /\ ycol ys p = r_y r.
Proof.
  intros [E H] Hp. cbn in *. unfold ycol. rewrite <- E in Hp. apply in_map_iff in Hp as (q & <- & Hq).
  destruct (find (fun q0 => (fst q0 =? fst q)%Z) ys) as [q'|] eqn:F.
  - apply find_some in F as [F1 F2]. apply Z.eqb_eq in F2. destruct (H q' F1) as (r & H1 & H2 & H3 & H4). exists r. repeat split; auto. congruence.
  - exfalso. apply (find_none _ _ F) in Hq. rewrite Z.eqb_refl in Hq. discriminate.
Qed.
Lemma entry_exists ts i : (forall p, In p ts -> observed_at f i p) -> exists ys, entry_ok ts (i, ys).
Proof.
  induction ts as [|p ts IH]; intros H; [exists []; split; [reflexivity|intros q []]|]. destruct (H p (or_introl eq_refl)) as (r & H1 & H2 & H3).
  destruct (IH (fun q hq => H q (or_intror hq))) as (ys & E & K). exists ((p, r_y r) :: ys). split; [cbn in *; rewrite E; reflexivity|]. cbn. intros q [<-|Hq]; [exists r; auto|apply K, Hq].
Qed.
End Tree.

(** ** the wide pivot *)
Section Wide.
Context (has_w : bool) (g t pret : Z) (times : list Z) (data : list row) (P : panel_rows data) (Ht : In t times) (Hp : In pret times).
Let f := filter (fun r => grp_eqb (r_g r) (Fin 0) || grp_eqb (r_g r) (Fin g)) data.
Lemma in_f r : In r f <-> In r data /\ dist_role true g t pret (r_g r).
Proof. unfold f. rewrite filter_In. apply and_iff_compat_l. rewrite orb_true_iff, !grp_eqb_iff. unfold dist_role. intuition discriminate. Qed.
Lemma Pf : panel_rows f.
Proof.
  destruct P as [N G]. split.
  - unfold f. clear - N. induction data as [|a l IH]; cbn; [constructor|]. cbn in N. inversion N as [|? ? N1 N2]; subst. destruct (_ || _); [|apply IH, N2]. cbn. constructor; [|apply IH, N2].
    intros H. apply N1. apply in_map_iff in H as (x & E & H). apply filter_In in H as [H _]. rewrite <- E. apply (in_map (fun r => (r_id r, r_t r))), H.
  - intros r r' H H'. apply in_f in H as [H _], H' as [H' _]. apply G; assumption.
Qed.
Lemma wide_sample : exists L, wide_pivot g times data = Some L /\
  NoDup (map p_id (map (wide_unit has_w g t pret) L)) /\
  (forall u, In u (map (wide_unit has_w g t pret) L) -> is_cell_unit has_w g t pret (hd 0%Z times) data u) /\
  (forall i, (exists u, In u (map (wide_unit has_w g t pret) L) /\ p_id u = i) <->
     (forall p, In p times -> observed_at data i p) /\ exists r, In r data /\ r_id r = i /\ dist_role true g t pret (r_g r)).
Proof.
  destruct times as [|t0 ts] eqn:ET; [destruct Ht|]. rewrite <- ET in *. assert (NE : times <> []) by (rewrite ET; discriminate).
  destruct (wide_table_ok f Pf times NE) as (W & EW & NW & HW). unfold wide_pivot. fold f. rewrite ET. rewrite <- ET, EW. eexists. split; [reflexivity|].
  assert (HIn : forall a ys, In (a, ys) (flat_map (fun a => map (fun b : Z * list (Z * Qc) => (a, snd b)) (filter (fun b => (fst b =? r_id a)%Z) W)) (filter (fun r => (r_t r =? t0)%Z) f)) <->
     In a f /\ r_t a = t0 /\ entry_ok f times (r_id a, ys)).
  { intros a ys. rewrite in_flat_map. split.
    - intros (a' & Ha & Hb). apply in_map_iff in Hb as ([i ys'] & E & Hb). injection E as -> ->. apply filter_In in Ha as [Ha Ta], Hb as [Hb Ib]. apply Z.eqb_eq in Ta, Ib. cbn in Ib. subst i.
      split; [exact Ha|]. split; [exact Ta|]. apply HW, Hb.
    - intros (Ha & Ta & OK). exists a. split; [apply filter_In; split; [exact Ha|apply Z.eqb_eq, Ta]|]. apply in_map_iff. exists (r_id a, ys). split; [reflexivity|]. apply filter_In. split; [apply HW, OK|apply Z.eqb_refl]. }
  assert (Hhd : hd 0%Z times = t0) by (rewrite ET; reflexivity). rewrite Hhd. split; [|split].
  - rewrite map_map. cbn. apply nodup_of_keys.
    + apply nodup_flat_map.
      * apply NoDup_filter, nodup_data, Pf.
      * intros a _. apply NoDup_map_inj; [|apply NoDup_filter; eapply NoDup_map_inv, NW]. intros x y Hx Hy E. apply filter_In in Hx as [Hx Ex], Hy as [Hy Ey]. apply Z.eqb_eq in Ex, Ey.
        eapply nodup_map_eq; [exact NW|exact Hx|exact Hy|congruence].
      * intros a a' b _ _ H H'. apply in_map_iff in H as (x & <- & _). apply in_map_iff in H' as (y & E & _). congruence.
    + intros [a ys] [a' ys'] H H' E. cbn in E. apply HIn in H as (Ha & Ta & OK), H' as (Ha' & Ta' & OK'). assert (a = a') by (eapply panel_key; [exact Pf|exact Ha|exact Ha'|exact E|congruence]). subst a'. f_equal.
      apply HW in OK, OK'. assert (K : (r_id a, ys) = (r_id a, ys')) by (eapply nodup_map_eq; [exact NW|exact OK|exact OK'|reflexivity]). congruence.
  - intros u H. apply in_map_iff in H as ([a ys] & <- & H). apply HIn in H as (Ha & Ta & OK).
    destruct (ycol_ok f times (r_id a) ys t OK Ht) as (r1 & A1 & A2 & A3 & A4). destruct (ycol_ok f times (r_id a) ys pret OK Hp) as (r0 & B1 & B2 & B3 & B4).
    apply in_f in Ha as [Ha Ra], A1 as [A1 _], B1 as [B1 _]. exists r1, r0, a. cbn. repeat split; auto.
    + rewrite grp_eqb_iff. rewrite (proj2 P r1 a A1 Ha A2). tauto.
    + rewrite grp_eqb_iff. rewrite (proj2 P r1 a A1 Ha A2). tauto.
  - intros i. split.
    + intros (u & Hu & <-). apply in_map_iff in Hu as ([a ys] & <- & H). apply HIn in H as (Ha & Ta & OK). cbn. split.
      * intros p Hp'. destruct (ycol_ok f times (r_id a) ys p OK Hp') as (r & A1 & A2 & A3 & _). exists r. apply in_f in A1 as [A1 _]. auto.
      * apply in_f in Ha as [Ha Ra]. exists a. auto.
    + intros (HO & r & Hr & Ir & R). assert (HOf : forall p, In p times -> observed_at f i p).
      { intros p Hp'. destruct (HO p Hp') as (x & X1 & X2 & X3). exists x. repeat split; auto. apply in_f. split; [exact X1|]. rewrite (proj2 P x r X1 Hr ltac:(congruence)). exact R. }
      destruct (HOf t0) as (a & Ha & Ia & Ta); [rewrite ET; left; reflexivity|]. destruct (entry_exists f times i HOf) as (ys & OK).
      exists (wide_unit has_w g t pret (a, ys)). split; [|exact Ia]. apply in_map, HIn. rewrite Ia. auto.
Qed.
End Wide.

(** ** the two assemblies agree *)
Lemma cell_unit_unique has_w g t pret tx tx' data u u' : panel_rows data -> time_constant data ->
  is_cell_unit has_w g t pret tx data u -> is_cell_unit has_w g t pret tx' data u' -> p_id u = p_id u' -> u = u'.
Proof.
  intros P TC (a & b & x & Ha & Hb & Hx & Ta & Tb & Tx & Ia & Ib & Ix & D & Y1 & Y0 & W & X) (a' & b' & x' & Ha' & Hb' & Hx' & Ta' & Tb' & Tx' & Ia' & Ib' & Ix' & D' & Y1' & Y0' & W' & X') E.
  assert (a = a') by (eapply panel_key; eauto; congruence). assert (b = b') by (eapply panel_key; eauto; congruence). subst a' b'.
  destruct (TC x x' Hx Hx' ltac:(congruence)) as [EW EX]. destruct u as [ui ud u1 u0 uw ux], u' as [vi vd v1 v0 vw vx]. cbn in *. subst vi. f_equal; try congruence.
  - apply eq_true_iff_eq. rewrite D, D'. tauto.
  - rewrite W, W', EW. reflexivity.
Qed.
Lemma wide_equals_stream has_w g t pret times data : panel_rows data -> time_constant data -> In t times -> In pret times ->
  (forall r p, In r data -> r_g r = Fin 0 \/ r_g r = Fin g -> In p times -> observed_at data (r_id r) p) ->
  exists L, wide_pivot g times data = Some L /\ Permutation (map (wide_unit has_w g t pret) L) (stream_units has_w true g t pret data).
Proof.
  intros P TC Ht Hp HO. destruct (wide_sample has_w g t pret times data P Ht Hp) as (L & EL & NL & UL & IL). exists L. split; [exact EL|].
  destruct (stream_sample has_w true g t pret data P) as (NS & US & IS).
  assert (Hsub : forall l1 l2 tx1 tx2, (forall u, In u l1 -> is_cell_unit has_w g t pret tx1 data u) -> (forall u, In u l2 -> is_cell_unit has_w g t pret tx2 data u) ->
    (forall i, (exists u, In u l1 /\ p_id u = i) -> exists u, In u l2 /\ p_id u = i) -> forall u, In u l1 -> In u l2).
  { intros l1 l2 tx1 tx2 H1 H2 H3 u Hu. destruct (H3 (p_id u)) as (v & Hv & E); [exists u; auto|]. replace u with v; [exact Hv|]. eapply cell_unit_unique; [exact P|exact TC|apply H2, Hv|apply H1, Hu|exact E]. }
  apply NoDup_Permutation; [eapply NoDup_map_inv, NL|eapply NoDup_map_inv, NS|]. intros u. split.
  - apply (Hsub _ _ _ _ UL US). intros i H. apply IL in H as (O & R). apply IS. split; [apply O, Ht|]. split; [apply O, Hp|exact R].
  - apply (Hsub _ _ _ _ US UL). intros i H. apply IS in H as (O1 & O2 & r & Hr & Ir & R). apply IL. split; [|exists r; auto]. intros p Hp'. rewrite <- Ir. apply HO; auto.
    destruct R as [R|[R|[R _]]]; [right; exact R|left; exact R|discriminate].
Qed.

(** ** against the local rule, group code by group code *)
Definition local_code (m : Z) (g : grp) : grp := match g with Fin z => if (z =? 0)%Z || (m <? z)%Z then Inf else Fin z | Inf => Inf end.
Lemma local_code_ok m g : group_code m g (local_code m g).
Proof.
  destruct g as [z|]; cbn; [|constructor]. destruct (Z.eqb_spec z 0) as [->|N]; cbn; [constructor|]. destruct (Z.ltb_spec m z); constructor; auto.
Qed.
Lemma code_unique m g e : group_code m g e -> (0 <= m)%Z -> e = local_code m g.
Proof.
  intros H Hm. inversion H; subst; cbn; auto; destruct (Z.eqb_spec z 0) as [E|E]; cbn; auto; try congruence; destruct (Z.ltb_spec m z); auto; lia.
Qed.
Lemma roles_agree never ant m g t pret g' e : group_code m g' e -> (0 < g <= m)%Z -> (t <= m)%Z -> (pret <= m)%Z -> (0 <= Z.max t pret)%Z ->
  (never = false /\ ant = 0%Z \/ never = true /\ g' <> Inf /\ forall z, g' = Fin z -> (z <= m)%Z) ->
  (dist_role never g t pret g' <-> is_treated g e \/ is_comparison never ant g t pret e) /\ (g' = Fin g <-> is_treated g e).
Proof.
  intros H Hg Ht Hp HM HN. unfold dist_role, is_treated, is_comparison, not_treated_until. destruct HN as [[-> ->]|(-> & HI & HZ)].
  - inversion H; subst; split.
    + split; [intros _; right; split; [discriminate|tauto]|auto].
    + split; [intros E; injection E; lia|discriminate].
    + split; [intros _; right; split; [discriminate|tauto]|auto].
    + split; discriminate.
    + split; [intros _; right; split; [discriminate|tauto]|]. intros _. right; right. split; [reflexivity|lia].
    + split; [intros E; injection E; lia|discriminate].
    + split.
      * intros [K|[K|[_ K]]]; [left; exact K|injection K; congruence|]. destruct (Z.eq_dec z g) as [->|N]; [left; reflexivity|]. right. split; [congruence|]. replace (Z.max t pret + 0)%Z with (Z.max t pret) by lia. exact K.
      * intros [K|[K1 K2]]; [left; exact K|]. right; right. split; [reflexivity|lia].
    + split; intros E; exact E.
  - inversion H; subst; split.
    + split; [intros _; right; split; [discriminate|reflexivity]|auto].
    + split; [intros E; injection E; lia|discriminate].
    + congruence.
    + congruence.
    + exfalso. specialize (HZ z eq_refl). lia.
    + exfalso. specialize (HZ z eq_refl). lia.
    + split; [|intros [K|[_ K]]; [left; exact K|discriminate]]. intros [K|[K|[K _]]]; [left; exact K|injection K; congruence|discriminate].
    + split; intros E; exact E.
Qed.
