From Verif Require Import Base ListLib PanelModel PanelSpec.
Local Open Scope nat_scope.
Local Open Scope list_scope.

Lemma pair_eqb_spec x y : reflect (x = y) (pair_eqb x y).
Proof.
  destruct x as [a b], y as [c d]. unfold pair_eqb. cbn.
  destruct (Z.eqb_spec a c); destruct (Z.eqb_spec b d); cbn; constructor; congruence.
Qed.
Lemma existsb_pair k l : existsb (pair_eqb k) l = true <-> In k l.
Proof. apply (existsb_keq pair_eqb pair_eqb_spec). Qed.

Lemma uniq_in {K} (keqb : K -> K -> bool) (ks : forall x y, reflect (x = y) (keqb x y)) l x :
  In x (uniq keqb l) <-> In x l.
Proof. pose proof (firsts_keys keqb ks (fun k => k) l x) as H. rewrite !map_id in H. exact H. Qed.
Lemma uniq_nodup {K} (keqb : K -> K -> bool) (ks : forall x y, reflect (x = y) (keqb x y)) l :
  NoDup (uniq keqb l).
Proof. pose proof (firsts_nodup keqb ks (fun k => k) l) as H. rewrite map_id in H. exact H. Qed.
Lemma uniq_id {K} (keqb : K -> K -> bool) (ks : forall x y, reflect (x = y) (keqb x y)) l :
  NoDup l -> uniq keqb l = l.
Proof.
  intros N. unfold uniq, firsts. apply (firsts_from_nodup_id keqb ks (fun k => k)).
  - rewrite map_id. exact N.
  - intros ? ? [].
Qed.

Lemma enum_length {K} (l l' : list K) P : enumerates l P -> enumerates l' P -> length l = length l'.
Proof.
  intros [N H] [N' H']. apply Permutation_length, NoDup_Permutation; try assumption.
  intros x. rewrite H, H'. reflexivity.
Qed.
Lemma card_unique {K} (P : K -> Prop) n m : has_card P n -> has_card P m -> n = m.
Proof. intros [l [Hl <-]] [l' [Hl' <-]]. eapply enum_length; eassumption. Qed.

Lemma in_pkey {A} (df : list (prow A)) i t : In (i, t) (map pkey df) <-> observed df i t.
Proof.
  rewrite in_map_iff. split.
  - intros [r [E H]]. exists r. unfold pkey in E. inversion E. auto.
  - intros [r [H [<- <-]]]. exists r. auto.
Qed.
Lemma in_ids {A} (df : list (prow A)) i : In i (map r_id df) <-> is_unit df i.
Proof.
  rewrite in_map_iff. split.
  - intros [r [<- H]]. exists (r_t r), r. auto.
  - intros [t [r [H [<- _]]]]. exists r. auto.
Qed.
Lemma in_times {A} (df : list (prow A)) t : In t (map r_t df) <-> is_period df t.
Proof.
  rewrite in_map_iff. split.
  - intros [r [<- H]]. exists (r_id r), r. auto.
  - intros [i [r [H [_ <-]]]]. exists r. auto.
Qed.
Lemma obs_unit {A} (df : list (prow A)) i t : observed df i t -> is_unit df i.
Proof. intros H. exists t. exact H. Qed.
Lemma obs_period {A} (df : list (prow A)) i t : observed df i t -> is_period df t.
Proof. intros H. exists i. exact H. Qed.
Lemma in_unit_rows {A} (df : list (prow A)) i r : In r (unit_rows df i) <-> In r df /\ r_id r = i.
Proof. unfold unit_rows. rewrite filter_In, Z.eqb_eq. reflexivity. Qed.
Lemma in_rows_at {A} (df : list (prow A)) k r : In r (rows_at df k) <-> In r df /\ pkey r = k.
Proof.
  unfold rows_at. rewrite filter_In. destruct (pair_eqb_spec (pkey r) k); intuition congruence.
Qed.
Lemma in_unit_times {A} (df : list (prow A)) i t : In t (map r_t (unit_rows df i)) <-> observed df i t.
Proof.
  rewrite in_map_iff. split.
  - intros [r [<- H]]. apply in_unit_rows in H as [H <-]. exists r. auto.
  - intros [r [H [<- <-]]]. exists r. split; [reflexivity|]. apply in_unit_rows. auto.
Qed.

(** ** Counts are cardinalities *)
Lemma zuniq_enum l : enumerates (zuniq l) (fun x => In x l).
Proof. split; [apply zuniq_nodup|intros; apply zuniq_in]. Qed.
Lemma n_units_card {A} (df : list (prow A)) : has_card (is_unit df) (n_units df).
Proof.
  exists (zuniq (map r_id df)). split; [|reflexivity]. split; [apply zuniq_nodup|].
  intros x. rewrite zuniq_in. apply in_ids.
Qed.
Lemma n_periods_card {A} (df : list (prow A)) : has_card (is_period df) (n_periods df).
Proof.
  exists (zuniq (map r_t df)). split; [|reflexivity]. split; [apply zuniq_nodup|].
  intros x. rewrite zuniq_in. apply in_times.
Qed.
Lemma obs_periods_card {A} (df : list (prow A)) i : has_card (observed df i) (obs_periods df i).
Proof.
  exists (zuniq (map r_t (unit_rows df i))). split; [|reflexivity]. split; [apply zuniq_nodup|].
  intros x. rewrite zuniq_in. apply in_unit_times.
Qed.
Lemma n_pairs_card {A} (df : list (prow A)) : has_card (fun k => observed df (fst k) (snd k)) (n_pairs df).
Proof.
  exists (uniq pair_eqb (map pkey df)). split; [|reflexivity]. split; [apply uniq_nodup, pair_eqb_spec|].
  intros [i t]. rewrite (uniq_in pair_eqb pair_eqb_spec). apply in_pkey.
Qed.

Lemma obs_periods_le {A} (df : list (prow A)) i : obs_periods df i <= n_periods df.
Proof.
  unfold obs_periods, n_periods, n_unique. apply NoDup_incl_length; [apply zuniq_nodup|].
  intros t H. rewrite zuniq_in in *. apply in_unit_times in H. apply in_times. eapply obs_period, H.
Qed.
(** a unit counts as complete exactly when it is observed in every period *)
Lemma obs_periods_full {A} (df : list (prow A)) i :
  obs_periods df i = n_periods df <-> (forall t, is_period df t -> observed df i t).
Proof.
  unfold obs_periods, n_periods, n_unique. split.
  - intros E t Ht. apply in_unit_times. apply (zuniq_in t).
    apply (NoDup_length_incl (zuniq_nodup _) (l' := zuniq (map r_t df))).
    + lia.
    + intros u Hu. rewrite zuniq_in in *. apply in_unit_times in Hu. apply in_times. eapply obs_period, Hu.
    + apply zuniq_in, in_times, Ht.
  - intros H. apply Permutation_length, NoDup_Permutation; try apply zuniq_nodup.
    intros t. rewrite !zuniq_in, in_unit_times, in_times. split; [apply obs_period|apply H].
Qed.

Lemma is_balanced_spec {A} (df : list (prow A)) : is_balanced df = true <-> balanced_panel df.
Proof.
  unfold is_balanced. rewrite forallb_forall. split.
  - intros H i t Hi Ht. specialize (H i). rewrite zuniq_in, in_ids, Nat.eqb_eq, obs_periods_full in H. auto.
  - intros H i Hi. rewrite zuniq_in, in_ids in Hi. apply Nat.eqb_eq, obs_periods_full. intros t Ht. apply H; assumption.
Qed.

(** ** Gaps *)
Lemma scan_gaps_spec {A} ids times (df : list (prow A)) :
  enumerates ids (is_unit df) -> enumerates times (is_period df) ->
  enumerates (scan_gaps ids times df)
    (fun k => is_unit df (fst k) /\ is_period df (snd k) /\ ~ observed df (fst k) (snd k)).
Proof.
  intros [Ni Hi] [Nt Ht]. split.
  - apply NoDup_filter, NoDup_prod; assumption.
  - intros [i t]. cbn. unfold scan_gaps. rewrite filter_In, in_prod_iff, Hi, Ht, negb_true_iff, <- in_pkey.
    rewrite <- existsb_pair. destruct (existsb (pair_eqb (i, t)) (map pkey df)); intuition congruence.
Qed.
Lemma prod_length {A B} (a : list A) (b : list B) : length (list_prod a b) = length a * length b.
Proof. apply prod_length. Qed.
Lemma filter_split_length {A} (p : A -> bool) l :
  length (filter p l) + length (filter (fun x => negb (p x)) l) = length l.
Proof. induction l as [|a l IH]; [reflexivity|]. cbn. destruct (p a); cbn; lia. Qed.

Lemma n_gaps_spec {A} ids times (df : list (prow A)) :
  enumerates ids (is_unit df) -> enumerates times (is_period df) ->
  n_pairs df + length (scan_gaps ids times df) = n_units df * n_periods df.
Proof.
  intros Hi Ht.
  assert (Ei : length ids = n_units df).
  { eapply card_unique; [|apply n_units_card]. exists ids. auto. }
  assert (Et : length times = n_periods df).
  { eapply card_unique; [|apply n_periods_card]. exists times. auto. }
  rewrite <- Ei, <- Et, <- prod_length.
  rewrite <- (filter_split_length (fun k => existsb (pair_eqb k) (map pkey df)) (list_prod ids times)).
  unfold scan_gaps. f_equal.
  eapply card_unique; [apply n_pairs_card|]. eexists. split; [|reflexivity]. split.
  - apply NoDup_filter, NoDup_prod; [apply Hi|apply Ht].
  - intros [i t]. cbn. rewrite filter_In, in_prod_iff, existsb_pair, in_pkey.
    rewrite (proj2 Hi), (proj2 Ht). split; [intuition|]. intros H. split; [|exact H].
    split; [eapply obs_unit|eapply obs_period]; exact H.
Qed.
Lemma n_pairs_le {A} (df : list (prow A)) : n_pairs df <= n_units df * n_periods df.
Proof.
  pose proof (n_gaps_spec (zuniq (map r_id df)) (zuniq (map r_t df)) df) as H. 
  rewrite <- H; [lia| |]; split; try apply zuniq_nodup; intros x; rewrite zuniq_in; [apply in_ids|apply in_times].
Qed.
Lemma no_gaps_balanced {A} ids times (df : list (prow A)) :
  enumerates ids (is_unit df) -> enumerates times (is_period df) ->
  (scan_gaps ids times df = [] <-> balanced_panel df).
Proof.
  intros Hi Ht. pose proof (scan_gaps_spec ids times df Hi Ht) as [_ S]. split.
  - intros E i t Hu Hp. destruct (existsb (pair_eqb (i, t)) (map pkey df)) eqn:X.
    + apply existsb_pair, in_pkey in X. exact X.
    + exfalso. specialize (S (i, t)). rewrite E in S. cbn in S. apply S. split; [exact Hu|split; [exact Hp|]].
      rewrite <- in_pkey, <- existsb_pair, X. discriminate.
  - intros B. destruct (scan_gaps ids times df) as [|k l] eqn:E; [reflexivity|].
    destruct (proj1 (S k) (or_introl eq_refl)) as [h1 [h2 h3]]. exfalso. apply h3, B; assumption.
Qed.
Lemma has_gaps_spec {A} (df : list (prow A)) : has_gaps df = false <-> balanced_panel df.
Proof.
  set (ids := zuniq (map r_id df)). set (times := zuniq (map r_t df)).
  assert (Hi : enumerates ids (is_unit df)) by (split; [apply zuniq_nodup|intros; unfold ids; rewrite zuniq_in; apply in_ids]).
  assert (Ht : enumerates times (is_period df)) by (split; [apply zuniq_nodup|intros; unfold times; rewrite zuniq_in; apply in_times]).
  rewrite <- (no_gaps_balanced ids times df Hi Ht).
  unfold has_gaps. rewrite Nat.ltb_ge. pose proof (n_gaps_spec ids times df Hi Ht) as E.
  split; intros H.
  - destruct (scan_gaps ids times df); [reflexivity|cbn in E; lia].
  - rewrite H in E. cbn in E. lia.
Qed.

(** ** Filling *)
Lemma fill_in {A} ids times (df : list (prow A)) q : In q (fill_gaps ids times df) <->
  In (r_id q) ids /\ In (r_t q) times /\
  match r_val q with
  | Some v => In (PRow (r_id q) (r_t q) v) df
  | None => ~ observed df (r_id q) (r_t q)
  end.
Proof.
  unfold fill_gaps. rewrite in_flat_map. split.
  - intros [[i t] [Hk H]]. apply in_prod_iff in Hk as [hi ht]. cbn [fst snd] in H.
    assert (C : forall r, In r (rows_at df (i, t)) <-> In r df /\ pkey r = (i, t)) by (intros; apply in_rows_at).
    destruct (rows_at df (i, t)) as [|r0 rs].
    + destruct H as [<-|[]]. cbn. split; [exact hi|split; [exact ht|]]. intros [r [hr [h1 h2]]].
      apply (proj2 (C r)). split; [exact hr|]. unfold pkey. congruence.
    + apply in_map_iff in H as [r [<- Hr]]. cbn. split; [exact hi|split; [exact ht|]].
      apply C in Hr as [Hr E]. unfold pkey in E. inversion E; subst. destruct r; exact Hr.
  - intros [hi [ht H]]. exists (r_id q, r_t q). split; [apply in_prod_iff; auto|]. cbn [fst snd].
    destruct q as [i t v]; cbn in *. 
    assert (C : forall r, In r (rows_at df (i, t)) <-> In r df /\ pkey r = (i, t)) by (intros; apply in_rows_at).
    destruct v as [v|].
    + assert (X := proj2 (C (PRow i t v)) (conj H eq_refl)). destruct (rows_at df (i, t)) as [|r0 rs]; [destruct X|].
      apply (in_map (fun r => PRow i t (Some (r_val r)))) in X. exact X.
    + destruct (rows_at df (i, t)) as [|r0 rs]; [left; reflexivity|].
      exfalso. apply H. destruct (proj1 (C r0) (or_introl eq_refl)) as [h E]. exists r0.
      unfold pkey in E. inversion E. auto.
Qed.
Lemma fill_obs {A} ids times (df : list (prow A)) i t :
  enumerates ids (is_unit df) -> enumerates times (is_period df) ->
  (observed (fill_gaps ids times df) i t <-> is_unit df i /\ is_period df t).
Proof.
  intros [_ Hi] [_ Ht]. split.
  - intros [q [H [<- <-]]]. apply fill_in in H as [h1 [h2 _]]. rewrite Hi in h1. rewrite Ht in h2. auto.
  - intros [hi ht]. destruct (existsb (pair_eqb (i, t)) (map pkey df)) eqn:X.
    + apply existsb_pair, in_pkey in X. destruct X as [r [Hr [E1 E2]]].
      exists (PRow i t (Some (r_val r))). split; [|auto]. apply fill_in. cbn.
      rewrite Hi, Ht. split; [exact hi|split; [exact ht|]]. subst. destruct r; exact Hr.
    + exists (PRow i t None). split; [|auto]. apply fill_in. cbn. rewrite Hi, Ht.
      split; [exact hi|split; [exact ht|]]. rewrite <- in_pkey, <- existsb_pair, X. discriminate.
Qed.
Lemma fill_balanced {A} ids times (df : list (prow A)) :
  enumerates ids (is_unit df) -> enumerates times (is_period df) ->
  balanced_panel (fill_gaps ids times df).
Proof.
  intros Hi Ht i t [s Hs] [j Hj]. apply (fill_obs ids times) in Hs; try assumption.
  apply (fill_obs ids times) in Hj; try assumption. apply fill_obs; try assumption. tauto.
Qed.

Lemma flat_map_filter_pick {A K} (f : K -> list A) (key : A -> K) (keqb : K -> K -> bool)
  (ks : forall x y, reflect (x = y) (keqb x y)) keys k :
  (forall k a, In a (f k) -> key a = k) -> NoDup keys -> In k keys ->
  filter (fun a => keqb (key a) k) (flat_map f keys) = f k.
Proof.
  intros Hf. induction keys as [|k0 keys IH]; [intros _ []|]. intros N H. inversion N as [|? ? N0 N1]; subst.
  cbn [flat_map]. rewrite filter_app.
  destruct (ks k0 k) as [->|D].
  - assert (E1 : filter (fun a => keqb (key a) k) (f k) = f k).
    { assert (X : forall a, In a (f k) -> key a = k) by (intros; eapply Hf; eassumption). revert X.
      generalize (f k). intros l X. induction l as [|a l IHl]; [reflexivity|]. cbn.
      destruct (ks (key a) k) as [_|D]; [|exfalso; apply D, X; left; reflexivity]. f_equal. apply IHl. intros; apply X; right; assumption. }
    assert (E2 : filter (fun a => keqb (key a) k) (flat_map f keys) = []).
    { assert (X : forall a, In a (flat_map f keys) -> key a <> k).
      { intros a Ha E. apply in_flat_map in Ha as [k' [Hk' Ha]]. apply Hf in Ha. congruence. }
      revert X. generalize (flat_map f keys). intros l X. induction l as [|a l IHl]; [reflexivity|]. cbn.
      destruct (ks (key a) k) as [E|_]; [exfalso; eapply X; [left; reflexivity|exact E]|]. apply IHl. intros; apply X; right; assumption. }
    rewrite E1, E2, app_nil_r. reflexivity.
  - assert (E1 : filter (fun a => keqb (key a) k) (f k0) = []).
    { assert (X : forall a, In a (f k0) -> key a = k0) by (intros; eapply Hf; eassumption). revert X.
      generalize (f k0). intros l X. induction l as [|a l IHl]; [reflexivity|]. cbn.
      destruct (ks (key a) k) as [E|_]; [exfalso; rewrite X in E by (left; reflexivity); congruence|]. apply IHl. intros; apply X; right; assumption. }
    rewrite E1. destruct H as [->|H]; [congruence|]. apply IH; assumption.
Qed.

(** the original rows survive, with multiplicity and in order, at each pair *)
Lemma fill_rows_at {A} ids times (df : list (prow A)) k :
  enumerates ids (is_unit df) -> enumerates times (is_period df) -> observed df (fst k) (snd k) ->
  rows_at (fill_gaps ids times df) k = map (fun r => PRow (r_id r) (r_t r) (Some (r_val r))) (rows_at df k).
Proof.
  intros [Ni Hi] [Nt Ht] Hk. unfold rows_at at 1, fill_gaps.
  rewrite (flat_map_filter_pick _ pkey pair_eqb pair_eqb_spec).
  - assert (C : forall r, In r (rows_at df k) -> pkey r = k) by (intros r Hr; apply in_rows_at in Hr; apply Hr).
    destruct (rows_at df k) as [|r0 rs] eqn:E.
    + exfalso. destruct Hk as [r [Hr [E1 E2]]]. assert (X : In r (rows_at df k)).
      { apply in_rows_at. split; [exact Hr|]. unfold pkey. rewrite E1, E2. destruct k; reflexivity. }
      rewrite E in X. destruct X.
    + apply map_ext_in. intros r Hr. specialize (C r Hr). subst k. reflexivity.
  - intros p a Ha. destruct (rows_at df p) as [|r0 rs].
    + destruct Ha as [<-|[]]. destruct p; reflexivity.
    + apply in_map_iff in Ha as [r [<- _]]. destruct p; reflexivity.
  - apply NoDup_prod; assumption.
  - destruct k as [i t]. apply in_prod_iff. rewrite Hi, Ht. cbn in Hk. split; [eapply obs_unit, Hk|eapply obs_period, Hk].
Qed.
Lemma fill_rows_new {A} ids times (df : list (prow A)) i t :
  enumerates ids (is_unit df) -> enumerates times (is_period df) ->
  is_unit df i -> is_period df t -> ~ observed df i t ->
  rows_at (fill_gaps ids times df) (i, t) = [PRow i t None].
Proof.
  intros [Ni Hi] [Nt Ht] hi ht Hk. unfold rows_at at 1, fill_gaps.
  rewrite (flat_map_filter_pick _ pkey pair_eqb pair_eqb_spec).
  - destruct (rows_at df (i, t)) as [|r0 rs] eqn:E; [reflexivity|].
    exfalso. apply Hk. assert (X : In r0 (rows_at df (i, t))) by (rewrite E; left; reflexivity).
    apply in_rows_at in X as [X Y]. exists r0. unfold pkey in Y. inversion Y. auto.
  - intros p a Ha. destruct (rows_at df p) as [|r0 rs].
    + destruct Ha as [<-|[]]. destruct p; reflexivity.
    + apply in_map_iff in Ha as [r [<- _]]. destruct p; reflexivity.
  - apply NoDup_prod; assumption.
  - apply in_prod_iff. rewrite Hi, Ht. auto.
Qed.

(** ** Balancing *)
Lemma zmem_In x l : zmem x l = true <-> In x l.
Proof.
  unfold zmem. rewrite existsb_exists. split.
  - intros [y [H E]]. apply Z.eqb_eq in E. subst; exact H.
  - intros H. exists x. split; [exact H|apply Z.eqb_refl].
Qed.
Lemma complete_data_in {A} m (df : list (prow A)) r :
  In r (complete_data m df) <->
  In r df /\ (match m with Some m => m | None => n_periods df end) <= obs_periods df (r_id r).
Proof.
  unfold complete_data. destruct df as [|r0 l]; [cbn; tauto|].
  cbv zeta. rewrite filter_In, zmem_In, filter_In, zuniq_in, Nat.leb_le. split; [tauto|].
  intros [H1 H2]. split; [exact H1|split; [|exact H2]]. apply in_map, H1.
Qed.
Lemma make_balanced_in {A} (df : list (prow A)) r :
  In r (make_balanced df) <-> In r df /\ length (unit_rows df (r_id r)) = n_periods df.
Proof.
  unfold make_balanced. destruct df as [|r0 l]; [cbn; tauto|].
  cbv zeta. rewrite filter_In, zmem_In, filter_In, zuniq_in, Nat.eqb_eq. split; [tauto|].
  intros [H1 H2]. split; [exact H1|split; [|exact H2]]. apply in_map, H1.
Qed.
Lemma filter_eq_of_in {A} (p q : A -> bool) l : (forall a, In a l -> p a = q a) -> filter p l = filter q l.
Proof.
  induction l as [|a l IH]; intros H; [reflexivity|]. cbn. rewrite (H a) by (left; reflexivity).
  rewrite IH by (intros; apply H; right; assumption). reflexivity.
Qed.
Lemma complete_data_filter {A} m (df : list (prow A)) :
  complete_data m df =
  filter (fun r => (match m with Some m => m | None => n_periods df end) <=? obs_periods df (r_id r)) df.
Proof.
  unfold complete_data. destruct df as [|r0 l]; [reflexivity|]. cbv zeta. apply filter_eq_of_in.
  intros a Ha. apply eq_true_iff_eq. rewrite zmem_In, filter_In, zuniq_in.
  split; [tauto|]. intros H. split; [apply in_map, Ha|exact H].
Qed.
Lemma make_balanced_filter {A} (df : list (prow A)) :
  make_balanced df = filter (fun r => length (unit_rows df (r_id r)) =? n_periods df) df.
Proof.
  unfold make_balanced. destruct df as [|r0 l]; [reflexivity|]. cbv zeta. apply filter_eq_of_in.
  intros a Ha. apply eq_true_iff_eq. rewrite zmem_In, filter_In, zuniq_in.
  split; [tauto|]. intros H. split; [apply in_map, Ha|exact H].
Qed.

Lemma unique_unit_times {A} (df : list (prow A)) i : unique_pairs df -> NoDup (map r_t (unit_rows df i)).
Proof.
  unfold unique_pairs, unit_rows. induction df as [|r df IH]; intros N; [constructor|].
  inversion N as [|? ? N0 N1]; subst. cbn. destruct (Z.eqb_spec (r_id r) i) as [E|E]; [|apply IH, N1].
  cbn. constructor; [|apply IH, N1]. intros H. apply N0. apply in_map_iff in H as [q [Eq Hq]].
  apply filter_In in Hq as [Hq Ei]. apply Z.eqb_eq in Ei. apply in_map_iff. exists q. unfold pkey. split; [congruence|exact Hq].
Qed.
Lemma unique_count {A} (df : list (prow A)) i : unique_pairs df ->
  length (unit_rows df i) = obs_periods df i.
Proof.
  intros U. rewrite <- (map_length r_t). eapply (card_unique (fun t => In t (map r_t (unit_rows df i)))).
  - exists (map r_t (unit_rows df i)). split; [|reflexivity]. split; [apply unique_unit_times, U|reflexivity].
  - exists (zuniq (map r_t (unit_rows df i))). split; [|reflexivity]. apply zuniq_enum.
Qed.
Lemma make_balanced_complete {A} (df : list (prow A)) : unique_pairs df ->
  make_balanced df = complete_data None df.
Proof.
  intros U. rewrite make_balanced_filter, complete_data_filter. apply filter_eq_of_in.
  intros a Ha. apply eq_true_iff_eq. rewrite Nat.eqb_eq, Nat.leb_le, (unique_count _ _ U).
  pose proof (obs_periods_le df (r_id a)). lia.
Qed.
Lemma complete_none_in {A} (df : list (prow A)) r :
  In r (complete_data None df) <-> In r df /\ forall t, is_period df t -> observed df (r_id r) t.
Proof.
  rewrite complete_data_in, <- obs_periods_full. pose proof (obs_periods_le df (r_id r)). intuition lia.
Qed.
Lemma complete_none_obs {A} (df : list (prow A)) i t :
  observed (complete_data None df) i t <-> observed df i t /\ forall u, is_period df u -> observed df i u.
Proof.
  split.
  - intros [r [H [<- <-]]]. apply complete_none_in in H as [H1 H2]. split; [exists r; auto|exact H2].
  - intros [[r [H [<- <-]]] H2]. exists r. split; [apply complete_none_in; auto|auto].
Qed.
Lemma complete_none_balanced {A} (df : list (prow A)) : balanced_panel (complete_data None df).
Proof.
  intros i t [s Hs] [j Hj]. apply complete_none_obs in Hs, Hj. apply complete_none_obs.
  destruct Hs as [_ Hf]. split; [|exact Hf]. apply Hf. destruct Hj as [Hj _]. eapply obs_period, Hj.
Qed.
Lemma filter_filter_keep {A} (p q : A -> bool) l :
  (forall a, In a l -> q a = true -> p a = true) -> filter q (filter p l) = filter q l.
Proof.
  induction l as [|a l IH]; intros H; [reflexivity|]. cbn.
  destruct (p a) eqn:P; cbn.
  - rewrite IH by (intros; apply H; [right|]; assumption). reflexivity.
  - destruct (q a) eqn:Q; [rewrite H in P; [discriminate|left; reflexivity|exact Q]|].
    apply IH. intros; apply H; [right|]; assumption.
Qed.
(** filtering whole units keeps each retained unit's rows *)
Lemma complete_keeps_unit {A} m (df : list (prow A)) i :
  (match m with Some m => m | None => n_periods df end) <= obs_periods df i ->
  unit_rows (complete_data m df) i = unit_rows df i.
Proof.
  intros H. rewrite complete_data_filter. apply filter_filter_keep.
  intros a _ E. apply Z.eqb_eq in E. subst i. apply Nat.leb_le, H.
Qed.
