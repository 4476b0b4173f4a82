From Verif Require Import Base ListLib PanelModel PanelSpec PanelProofs PanelProofs2.
Local Open Scope nat_scope.
Local Open Scope list_scope.

Lemma filter_card {K} (p : K -> bool) (l : list K) (P Q : K -> Prop) :
  enumerates l P -> (forall x, P x -> (p x = true <-> Q x)) ->
  has_card (fun x => P x /\ Q x) (length (filter p l)).
Proof.
  intros [N H] HQ. exists (filter p l). split; [|reflexivity]. split; [apply NoDup_filter, N|].
  intros x. rewrite filter_In, H. split; intros [h1 h2]; (split; [exact h1|]); apply (HQ x h1), h2.
Qed.
Lemma ids_enum {A} (df : list (prow A)) : enumerates (zuniq (map r_id df)) (is_unit df).
Proof. split; [apply zuniq_nodup|]. intros; rewrite zuniq_in; apply in_ids. Qed.
Lemma times_enum {A} (df : list (prow A)) : enumerates (zuniq (map r_t df)) (is_period df).
Proof. split; [apply zuniq_nodup|]. intros; rewrite zuniq_in; apply in_times. Qed.

Lemma n_pairs_le_obs {A} (df : list (prow A)) : n_pairs df <= length df.
Proof.
  unfold n_pairs. rewrite <- (map_length pkey df). apply NoDup_incl_length; [apply uniq_nodup, pair_eqb_spec|].
  intros k H. apply (proj1 (uniq_in pair_eqb pair_eqb_spec _ _)) in H. exact H.
Qed.
Lemma n_pairs_unique {A} (df : list (prow A)) : n_pairs df = length df <-> unique_pairs df.
Proof.
  unfold unique_pairs. split.
  - intros E. apply (NoDup_incl_NoDup (l := uniq pair_eqb (map pkey df))).
    + apply uniq_nodup, pair_eqb_spec.
    + rewrite map_length. unfold n_pairs in E. lia.
    + intros k H. apply (proj1 (uniq_in pair_eqb pair_eqb_spec _ _)) in H. exact H.
  - intros U. unfold n_pairs. rewrite (uniq_id pair_eqb pair_eqb_spec) by exact U. apply map_length.
Qed.

(** number of rows that are not the first of their pair *)
Lemma enum_missing {A} (df : list (prow A)) :
  has_card (fun k => is_unit df (fst k) /\ is_period df (snd k) /\ ~ observed df (fst k) (snd k))
           (n_units df * n_periods df - n_pairs df).
Proof.
  pose proof (scan_gaps_spec _ _ df (ids_enum df) (times_enum df)) as H.
  pose proof (n_gaps_spec _ _ df (ids_enum df) (times_enum df)) as E.
  eexists. split; [exact H|]. lia.
Qed.

Lemma n_unbalanced_spec {A} (df : list (prow A)) :
  has_card (fun i => is_unit df i /\ exists t, is_period df t /\ ~ observed df i t)
           (length (filter (fun i => obs_periods df i <? n_periods df) (zuniq (map r_id df)))).
Proof.
  apply filter_card; [apply ids_enum|]. intros i Hi. rewrite Nat.ltb_lt.
  pose proof (obs_periods_le df i) as L. pose proof (obs_periods_full df i) as F. split.
  - intros h. destruct (existsb (fun t => negb (existsb (pair_eqb (i, t)) (map pkey df))) (zuniq (map r_t df))) eqn:X.
    + apply existsb_exists in X as [t [Ht E]]. rewrite zuniq_in, in_times in Ht. exists t. split; [exact Ht|].
      rewrite <- in_pkey, <- existsb_pair. destruct (existsb (pair_eqb (i, t)) (map pkey df)); cbn in E; congruence.
    + exfalso. assert (E : obs_periods df i = n_periods df); [|lia]. apply F. intros t Ht.
      destruct (existsb (pair_eqb (i, t)) (map pkey df)) eqn:Y; [apply existsb_pair, in_pkey in Y; exact Y|].
      exfalso. assert (Z : existsb (fun t => negb (existsb (pair_eqb (i, t)) (map pkey df))) (zuniq (map r_t df)) = true); [|congruence].
      apply existsb_exists. exists t. rewrite zuniq_in, in_times, Y. auto.
  - intros [t [Ht N]]. destruct (Nat.eq_dec (obs_periods df i) (n_periods df)) as [E|]; [|lia].
    exfalso. apply N. apply F; assumption.
Qed.

Lemma card_one {K} (P : K -> Prop) : has_card P 1 <-> exists x, P x /\ forall y, P y -> y = x.
Proof.
  split.
  - intros [l [[N H] E]]. destruct l as [|x [|? ?]]; try discriminate. exists x. split; [apply H; left; reflexivity|].
    intros y Hy. apply H in Hy as [->|[]]. reflexivity.
  - intros [x [Hx U]]. exists [x]. split; [|reflexivity]. split; [repeat constructor; auto|].
    intros y. split; [intros [<-|[]]; exact Hx|]. intros Hy. left. symmetry. apply U, Hy.
Qed.
Lemma n_single_spec {A} (df : list (prow A)) :
  has_card (fun i => is_unit df i /\ exists t, forall u, observed df i u <-> u = t)
           (length (filter (fun i => obs_periods df i =? 1) (zuniq (map r_id df)))).
Proof.
  apply filter_card; [apply ids_enum|]. intros i Hi. rewrite Nat.eqb_eq.
  pose proof (obs_periods_card df i) as C. split.
  - intros E. rewrite E in C. apply card_one in C as [t [h1 h2]]. exists t. intros u. split; [apply h2|intros ->; exact h1].
  - intros [t H]. eapply card_unique; [exact C|]. apply card_one. exists t. split; [apply H; reflexivity|]. intros y Hy. apply H, Hy.
Qed.

Lemma first_period_min {A} (df : list (prow A)) : df <> [] ->
  is_period df (first_period df) /\ forall t, is_period df t -> (first_period df <= t)%Z.
Proof.
  intros NE. unfold first_period. destruct (zuniq (map r_t df)) as [|t0 l] eqn:E.
  - exfalso. destruct df as [|r df]; [congruence|]. assert (In (r_t r) (zuniq (map r_t (r :: df)))) as H.
    { apply zuniq_in. left; reflexivity. } rewrite E in H. destruct H.
  - cbn. split.
    + apply in_times, zuniq_in. rewrite E. left; reflexivity.
    + intros t Ht. apply in_times, zuniq_in in Ht. rewrite E in Ht. pose proof (zuniq_sorted (map r_t df)) as S.
      rewrite E in S. inversion S as [|? ? _ F]; subst. destruct Ht as [->|Ht]; [lia|].
      rewrite Forall_forall in F. specialize (F t Ht). lia.
Qed.
Lemma n_early_spec {A} (f : A -> option Qc) (df : list (prow A)) :
  has_card (fun i => treated_at f df i (first_period df))
    (n_unique (map r_id (filter (fun r => (r_t r =? first_period df)%Z && treated f r) df))).
Proof.
  eexists. split; [|reflexivity]. split; [apply zuniq_nodup|]. intros i. rewrite zuniq_in, in_map_iff, treated_at_iff. split.
  - intros [r [E H]]. apply filter_In in H as [H X]. apply andb_true_iff in X as [X Y]. apply Z.eqb_eq in X.
    exists r. auto.
  - intros [r [H [E [X Y]]]]. exists r. split; [exact E|]. apply filter_In. split; [exact H|]. rewrite X, Z.eqb_refl, Y. reflexivity.
Qed.

Lemma Qceqb_spec' a b : reflect (a = b) (Qceqb a b).
Proof.
  unfold Qceqb. destruct (Qeq_bool a b) eqn:E; constructor.
  - apply Qc_is_canon, Qeq_bool_iff, E.
  - intros ->. assert (Qeq_bool b b = true) by (apply Qeq_bool_iff; reflexivity). congruence.
Qed.
Lemma oqeqb_spec a b : reflect (a = b) (oqeqb a b).
Proof.
  destruct a as [a|], b as [b|]; cbn; try (constructor; congruence).
  destruct (Qceqb_spec' a b); constructor; congruence.
Qed.
Lemma are_varying_spec {A V} (veqb : V -> V -> bool) (vs : forall x y, reflect (x = y) (veqb x y)) (col : A -> V) (df : list (prow A)) :
  are_varying veqb col df = true <->
  exists r q, In r df /\ In q df /\ r_id r = r_id q /\ col (r_val r) <> col (r_val q).
Proof.
  unfold are_varying. rewrite existsb_exists. split.
  - intros [i [Hi H]]. unfold varies_in in H. apply Nat.ltb_lt in H.
    pose proof (uniq_nodup veqb vs (map (fun r => col (r_val r)) (unit_rows df i))) as N.
    pose proof (uniq_in veqb vs (map (fun r => col (r_val r)) (unit_rows df i))) as I.
    destruct (uniq veqb (map (fun r => col (r_val r)) (unit_rows df i))) as [|v [|w l]]; cbn in H; try lia.
    assert (Hv := proj1 (I v) (or_introl eq_refl)). assert (Hw := proj1 (I w) (or_intror (or_introl eq_refl))).
    apply in_map_iff in Hv as [r [Er Hr]]. apply in_map_iff in Hw as [q [Eq Hq]].
    apply in_unit_rows in Hr as [Hr Ir]. apply in_unit_rows in Hq as [Hq Iq]. exists r, q.
    split; [exact Hr|split; [exact Hq|split; [congruence|]]]. rewrite Er, Eq. inversion N as [|? ? N0 _]; subst.
    intros E. apply N0. left. symmetry; exact E.
  - intros [r [q [Hr [Hq [E D]]]]]. exists (r_id r). split; [apply zuniq_in, in_map, Hr|].
    unfold varies_in. apply Nat.ltb_lt.
    pose proof (uniq_in veqb vs (map (fun r => col (r_val r)) (unit_rows df (r_id r)))) as I.
    assert (H1 : In (col (r_val r)) (uniq veqb (map (fun r => col (r_val r)) (unit_rows df (r_id r))))).
    { apply I, in_map_iff. exists r. split; [reflexivity|apply in_unit_rows; auto]. }
    assert (H2 : In (col (r_val q)) (uniq veqb (map (fun r => col (r_val r)) (unit_rows df (r_id r))))).
    { apply I, in_map_iff. exists q. split; [reflexivity|apply in_unit_rows; auto]. }
    destruct (uniq veqb (map (fun r => col (r_val r)) (unit_rows df (r_id r)))) as [|v [|w l]]; cbn in *; try lia.
    exfalso. destruct H1 as [H1|[]], H2 as [H2|[]]. apply D. congruence.
Qed.

(** Consequences used by the suggestions *)
Lemma diag_dups0 {A} tr hn (df : list (prow A)) : d_n_dups (diagnose tr hn df) = 0 <-> unique_pairs df.
Proof.
  cbn [diagnose d_n_dups]. rewrite <- n_pairs_unique. pose proof (n_pairs_le_obs df). lia.
Qed.
Lemma diag_gaps0 {A} tr hn (df : list (prow A)) : d_n_gaps (diagnose tr hn df) = 0 <-> balanced_panel df.
Proof.
  cbn [diagnose d_n_gaps]. rewrite <- has_gaps_spec. unfold has_gaps. rewrite Nat.ltb_ge. lia.
Qed.
Lemma diag_unb0 {A} tr hn (df : list (prow A)) : d_n_unbalanced (diagnose tr hn df) = 0 <-> balanced_panel df.
Proof.
  cbn [diagnose d_n_unbalanced]. rewrite <- is_balanced_spec. unfold is_balanced. split.
  - intros H. apply forallb_forall. intros i Hi. apply Nat.eqb_eq.
    pose proof (obs_periods_le df i). destruct (Nat.eq_dec (obs_periods df i) (n_periods df)); [assumption|].
    exfalso. apply length_zero_iff_nil in H.
    assert (X : In i (filter (fun i => obs_periods df i <? n_periods df) (zuniq (map r_id df)))).
    { apply filter_In. split; [exact Hi|]. apply Nat.ltb_lt. lia. } rewrite H in X. destruct X.
  - intros H. rewrite filter_none; [reflexivity|]. intros i Hi. rewrite forallb_forall in H. specialize (H i Hi).
    apply Nat.eqb_eq in H. apply Nat.ltb_ge. lia.
Qed.
Lemma in_if_nil {X} (b : bool) (x y : X) : In x (if b then [y] else []) <-> b = true /\ x = y.
Proof. destruct b; cbn; split; try tauto; [intros [->|[]]; auto|intros [_ ->]; auto|intros []; discriminate]. Qed.


Lemma sug_fill {A} tr hn (df : list (prow A)) n :
  In (SFill n) (d_suggestions (diagnose tr hn df)) <-> n = d_n_gaps (diagnose tr hn df) /\ 0 < n.
Proof.
  unfold diagnose; cbn [d_suggestions d_n_gaps].
  set (g := n_units df * n_periods df - n_pairs df).
  rewrite !in_app_iff, !in_if_nil.
  assert (E : forall e : option nat, ~ In (SFill n) (match e with Some e => if 0 <? e then [SEarly e] else [] | None => [] end)).
  { intros [e|] H; [destruct (0 <? e); cbn in H; intuition discriminate|destruct H]. }
  assert (V : forall v : option bool, ~ In (SFill n) (match v with Some true => [SVarying] | _ => [] end)).
  { intros [[|]|] H; cbn in H; intuition discriminate. }
  split.
  - intros [[_ H]|[[B H]|[[_ H]|[[_ H]|[[_ H]|[H|H]]]]]]; try discriminate.
    + inversion H; subst n. apply Nat.ltb_lt in B. auto.
    + exfalso. eapply E, H.
    + exfalso. eapply V, H.
  - intros [-> L]. right. left. split; [apply Nat.ltb_lt, L|reflexivity].
Qed.
Lemma sug_dedup {A} tr hn (df : list (prow A)) n :
  In (SDedup n) (d_suggestions (diagnose tr hn df)) <-> n = d_n_dups (diagnose tr hn df) /\ 0 < n.
Proof.
  unfold diagnose; cbn [d_suggestions d_n_dups].
  set (g := length df - n_pairs df).
  rewrite !in_app_iff, !in_if_nil.
  assert (E : forall e : option nat, ~ In (SDedup n) (match e with Some e => if 0 <? e then [SEarly e] else [] | None => [] end)).
  { intros [e|] H; [destruct (0 <? e); cbn in H; intuition discriminate|destruct H]. }
  assert (V : forall v : option bool, ~ In (SDedup n) (match v with Some true => [SVarying] | _ => [] end)).
  { intros [[|]|] H; cbn in H; intuition discriminate. }
  split.
  - intros [[B H]|[[_ H]|[[_ H]|[[_ H]|[[_ H]|[H|H]]]]]]; try discriminate.
    + inversion H; subst n. apply Nat.ltb_lt in B. auto.
    + exfalso. eapply E, H.
    + exfalso. eapply V, H.
  - intros [-> L]. left. split; [apply Nat.ltb_lt, L|reflexivity].
Qed.
Lemma sug_balance {A} tr hn (df : list (prow A)) n :
  In (SBalance n) (d_suggestions (diagnose tr hn df)) <->
  n = d_n_unbalanced (diagnose tr hn df) /\ 0 < n /\ d_n_dups (diagnose tr hn df) = 0.
Proof.
  unfold diagnose; cbn [d_suggestions d_n_dups d_n_unbalanced].
  set (g := length df - n_pairs df).
  rewrite !in_app_iff, !in_if_nil.
  assert (E : forall e : option nat, ~ In (SBalance n) (match e with Some e => if 0 <? e then [SEarly e] else [] | None => [] end)).
  { intros [e|] H; [destruct (0 <? e); cbn in H; intuition discriminate|destruct H]. }
  assert (V : forall v : option bool, ~ In (SBalance n) (match v with Some true => [SVarying] | _ => [] end)).
  { intros [[|]|] H; cbn in H; intuition discriminate. }
  split.
  - intros [[_ H]|[[_ H]|[[B H]|[[_ H]|[[_ H]|[H|H]]]]]]; try discriminate.
    + inversion H; subst n. apply andb_true_iff in B as [B1 B2]. apply Nat.ltb_lt in B1. apply Nat.eqb_eq in B2. auto.
    + exfalso. eapply E, H.
    + exfalso. eapply V, H.
  - intros [-> [L D]]. right. right. left. split; [|reflexivity].
    apply andb_true_iff. split; [apply Nat.ltb_lt, L|apply Nat.eqb_eq, D].
Qed.

(** ** DDD subgroup codes *)
Lemma ddd_code_iff treat g part c : ddd_code treat g part = c <->
  (c = 4%Z /\ treat = g /\ part = 1%Qc) \/ (c = 3%Z /\ treat = g /\ part <> 1%Qc) \/
  (c = 2%Z /\ treat <> g /\ part = 1%Qc) \/ (c = 1%Z /\ treat <> g /\ part <> 1%Qc).
Proof.
  unfold ddd_code. destruct (Qceqb_spec' treat g) as [E|E]; destruct (Qceqb_spec' part 1) as [F|F]; cbn [andb negb];
    split; try (intros <-; intuition congruence); intuition congruence.
Qed.
