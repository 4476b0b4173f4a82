(** Proofs about the two-period preprocessing: rows, validators, matching of the two periods. *)
From Verif Require Import Base ListLib DrdidModel RcModel TwoModel TwoSpec.

(** * Generic *)
Lemma all_some_ok {A B} (f : A -> option B) l r : all_some f l = Some r <-> map f l = map Some r.
Proof.
  revert r. induction l as [|a l IH]; intros r; cbn.
  - split; intros H; [injection H as <-; reflexivity|destruct r; [reflexivity|discriminate]].
  - destruct (f a) as [b|] eqn:F.
    + destruct (all_some f l) as [s|] eqn:E.
      * split; intros H; [injection H as <-; cbn; f_equal; apply IH; reflexivity|].
        destruct r as [|c r]; [discriminate|]. cbn in H. injection H as <- H. apply IH in H. congruence.
      * split; intros H; [discriminate|]. destruct r as [|c r]; [discriminate|]. cbn in H. injection H as <- H. apply IH in H. congruence.
    + split; intros H; [discriminate|]. destruct r; discriminate.
Qed.
Lemma all_some_none {A B} (f : A -> option B) l : all_some f l = None <-> exists a, In a l /\ f a = None.
Proof.
  induction l as [|a l IH]; cbn; [split; [discriminate|intros [x [[] _]]]|].
  destruct (f a) as [b|] eqn:F.
  - destruct (all_some f l) as [s|] eqn:E.
    + split; [discriminate|]. intros [x [[<-|H] N]]; [congruence|]. assert (X : Some s = None) by (apply IH; exists x; split; assumption). discriminate.
    + split; [intros _|reflexivity]. destruct (proj1 IH eq_refl) as [x [H N]]. exists x. split; [right|]; assumption.
  - split; [intros _; exists a; split; [left; reflexivity|exact F]|reflexivity].
Qed.
Lemma map_some_in {A B} (f : A -> option B) l r b : map f l = map Some r -> (In b r <-> exists a, In a l /\ f a = Some b).
Proof.
  intros H. rewrite <- (in_map_iff f l (Some b)) || idtac. split.
  - intros Hb. apply (in_map Some) in Hb. rewrite <- H in Hb. apply in_map_iff in Hb. destruct Hb as [a [E Ha]]. exists a. split; assumption.
  - intros [a [Ha E]]. assert (X : In (Some b) (map f l)) by (apply in_map_iff; exists a; split; assumption). rewrite H in X. apply in_map_iff in X. destruct X as [b' [E' Hb]]. injection E' as <-. exact Hb.
Qed.
Lemma map_some_filter {A B} (f : A -> option B) p q l r : map f l = map Some r -> (forall a b, In a l -> f a = Some b -> p a = q b) ->
  map f (filter p l) = map Some (filter q r).
Proof.
  revert r. induction l as [|a l IH]; intros [|b r] H E; cbn in H; try discriminate; [reflexivity|].
  injection H as H1 H2. cbn [filter]. rewrite (E a b (or_introl eq_refl) H1). specialize (IH r H2 (fun a' b' Ha => E a' b' (or_intror Ha))).
  destruct (q b); cbn [map]; rewrite IH, ?H1; reflexivity.
Qed.
Lemma map_some_sum {A B} (f : A -> option B) g h l r : map f l = map Some r -> (forall a b, In a l -> f a = Some b -> g a = h b) -> sumf g l = sumf h r.
Proof.
  revert r. induction l as [|a l IH]; intros [|b r] H E; cbn in H; try discriminate; [reflexivity|].
  injection H as H1 H2. rewrite !sumf_cons, (E a b (or_introl eq_refl) H1). f_equal. apply IH; [exact H2|]. intros a' b' Ha. apply E. right; exact Ha.
Qed.
Lemma map_some_length {A B} (f : A -> option B) l r : map f l = map Some r -> length l = length r.
Proof. intros H. apply (f_equal (@length _)) in H. rewrite !map_length in H. exact H. Qed.
Lemma map_some_mean {A B} (f : A -> option B) g h l r : map f l = map Some r -> (forall a b, In a l -> f a = Some b -> g a = h b) -> mean g l = mean h r.
Proof. intros H E. unfold mean. rewrite (map_some_sum f g h l r H E), (map_some_length f l r H). reflexivity. Qed.

Lemma ssorted_ext {A} (R : A -> A -> Prop) l l' : (forall x, ~ R x x) -> (forall x y z, R x y -> R y z -> R x z) ->
  StronglySorted R l -> StronglySorted R l' -> (forall x, In x l <-> In x l') -> l = l'.
Proof.
  intros I T H. revert l'. induction H as [|a l Hs IH Hf]; intros l' H' E.
  - destruct l' as [|b l']; [reflexivity|]. exfalso. apply (E b). left; reflexivity.
  - destruct l' as [|b l']; [exfalso; apply (E a); left; reflexivity|].
    inversion H' as [|? ? Hs' Hf']; subst. rewrite Forall_forall in Hf, Hf'.
    assert (a = b).
    { destruct (proj1 (E a) (or_introl eq_refl)) as [->|h]; [reflexivity|].
      destruct (proj2 (E b) (or_introl eq_refl)) as [->|h']; [reflexivity|].
      specialize (Hf' _ h). specialize (Hf _ h'). exfalso. exact (I _ (T _ _ _ Hf Hf')). }
    subst b. f_equal. apply IH; [assumption|]. intros x. split; intros Hx.
    + destruct (proj1 (E x) (or_intror Hx)) as [->|h]; [|exact h]. exfalso. exact (I _ (Hf _ Hx)).
    + destruct (proj2 (E x) (or_intror Hx)) as [->|h]; [|exact h]. exfalso. exact (I _ (Hf' _ Hx)).
Qed.
Lemma zuniq_two l : length (zuniq l) = 2%nat <-> exists lo hi, (lo < hi)%Z /\ zuniq l = lo :: hi :: nil.
Proof.
  split.
  - pose proof (zuniq_sorted l) as S. destruct (zuniq l) as [|a [|b [|c r]]]; cbn [length]; intros H; try discriminate.
    inversion S as [|? ? _ F]; subst. rewrite Forall_forall in F. exists a, b. split; [apply F; left; reflexivity|reflexivity].
  - intros [lo [hi [_ ->]]]. reflexivity.
Qed.
Lemma zuniq_pair l lo hi : (lo < hi)%Z -> (zuniq l = lo :: hi :: nil <-> (forall x, In x l <-> x = lo \/ x = hi)).
Proof.
  intros L. split.
  - intros E x. rewrite <- zuniq_in, E. cbn. intuition.
  - intros H. apply ssorted_lt_ext; [apply zuniq_sorted|repeat constructor; exact L|]. intros x. rewrite zuniq_in, H. cbn. intuition.
Qed.

(** * Validators *)
Lemma two_periods_times l ts lo hi : map t_t l = map Some ts -> (lo < hi)%Z -> (zuniq ts = lo :: hi :: nil <-> two_periods lo hi l).
Proof.
  intros M L. rewrite zuniq_pair by exact L. assert (I := fun x => map_some_in t_t l ts x M). split.
  - intros H. split; [exact L|]. split; [|split].
    + intros r Hr. assert (X : In (t_t r) (map t_t l)) by (apply in_map; exact Hr). rewrite M in X. apply in_map_iff in X. destruct X as [x [E Hx]]. rewrite <- E. apply H in Hx. destruct Hx as [->| ->]; [left|right]; reflexivity.
    + apply I, H. left; reflexivity.
    + apply I, H. right; reflexivity.
  - intros [_ [A [P Q]]] x. rewrite I. split.
    + intros [r [Hr E]]. destruct (A r Hr) as [F|F]; rewrite E in F; injection F as ->; [left|right]; reflexivity.
    + intros [->| ->]; assumption.
Qed.
Lemma no_null {A B} (f : A -> option B) l : (forall r, In r l -> f r <> None) -> exists s, map f l = map Some s.
Proof.
  intros H. destruct (all_some f l) as [s|] eqn:E; [exists s; apply all_some_ok; exact E|].
  apply all_some_none in E. destruct E as [a [Ha N]]. exfalso. exact (H a Ha N).
Qed.
Lemma valid_data_ok l : valid_data l = true <-> (exists lo hi, two_periods lo hi l) /\ two_treatments l.
Proof.
  unfold valid_data. split.
  - destruct (all_some t_t l) as [ts|] eqn:T; [|discriminate]. destruct (all_some t_d l) as [ds|] eqn:D; [|discriminate].
    apply all_some_ok in T, D. intros C. apply andb_true_iff in C. destruct C as [C C1]. apply andb_true_iff in C. destruct C as [C C0]. apply andb_true_iff in C. destruct C as [C2 CA].
    apply Nat.eqb_eq, zuniq_two in C2. destruct C2 as [lo [hi [L Z]]]. apply (two_periods_times l ts lo hi T L) in Z. split; [exists lo, hi; exact Z|].
    rewrite forallb_forall in CA. apply existsb_exists in C0, C1. split; [|split].
    + intros r Hr. assert (X : In (t_d r) (map t_d l)) by (apply in_map; exact Hr). rewrite D in X. apply in_map_iff in X. destruct X as [x [E Hx]]. rewrite <- E. specialize (CA x Hx). apply orb_true_iff in CA.
      destruct CA as [CA|CA]; [left; destruct (Qceqb_spec x 0)|right; destruct (Qceqb_spec x 1)]; congruence.
    + destruct C0 as [x [Hx E]]. apply (map_some_in t_d l ds x D) in Hx. destruct Hx as [r [Hr F]]. exists r. split; [exact Hr|]. destruct (Qceqb_spec x 0); congruence.
    + destruct C1 as [x [Hx E]]. apply (map_some_in t_d l ds x D) in Hx. destruct Hx as [r [Hr F]]. exists r. split; [exact Hr|]. destruct (Qceqb_spec x 1); congruence.
  - intros [[lo [hi TP]] [TA [T0 T1]]]. assert (TP' := TP). destruct TP as [L [A _]].
    destruct (no_null t_t l) as [ts M]; [intros r Hr; destruct (A r Hr); congruence|]. destruct (no_null t_d l) as [ds N]; [intros r Hr; destruct (TA r Hr); congruence|].
    rewrite (proj2 (all_some_ok _ _ _) M), (proj2 (all_some_ok _ _ _) N).
    assert (Z : length (zuniq ts) = 2%nat) by (rewrite (proj2 (two_periods_times l ts lo hi M L) TP'); reflexivity). rewrite Z. cbn [Nat.eqb andb].
    apply andb_true_iff; split; [apply andb_true_iff; split|].
    + apply forallb_forall. intros x Hx. apply (map_some_in t_d l ds x N) in Hx. destruct Hx as [r [Hr F]]. apply orb_true_iff. destruct (TA r Hr) as [E|E]; rewrite F in E; injection E as ->; [left|right]; reflexivity.
    + apply existsb_exists. exists 0. split; [apply (map_some_in t_d l ds 0 N); exact T0|reflexivity].
    + apply existsb_exists. exists 1. split; [apply (map_some_in t_d l ds 1 N); exact T1|reflexivity].
Qed.
Lemma oz_eqb_ok a b : oz_eqb a b = true <-> a = b.
Proof. destruct a, b; cbn; try (split; congruence). rewrite Z.eqb_eq. split; congruence. Qed.
Lemma oq_eqb_ok a b : oq_eqb a b = true <-> a = b.
Proof. destruct a as [x|], b as [y|]; cbn; try (split; congruence). destruct (Qceqb_spec x y); split; congruence. Qed.
Lemma obs_rows r i l : t_id r = Some i -> obs_of r l = length (rows_of i l).
Proof.
  intros E. unfold obs_of, rows_of. f_equal. apply filter_ext_in'. intros s _. rewrite E. destruct (t_id s) as [j|]; reflexivity.
Qed.
Lemma forallb_false {A} (p : A -> bool) l : forallb p l = false -> exists a, In a l /\ p a = false.
Proof.
  induction l as [|a l IH]; cbn; [discriminate|]. intros P. apply andb_false_iff in P. destruct P as [P|P]; [exists a; split; [left; reflexivity|exact P]|].
  destruct (IH P) as [r [Hr E]]. exists r. split; [right|]; assumption.
Qed.
Lemma valid_panel_ok l : (forall r, In r l -> t_id r <> None) ->
  (valid_panel l = true <-> (exists r i, In r l /\ t_id r = Some i /\ length (rows_of i l) <> 1%nat) /\ (forall a b, In a l -> In b l -> t_id a = t_id b -> t_d a = t_d b)).
Proof.
  intros NI. unfold valid_panel. rewrite andb_true_iff. split; intros [P Q]; split.
  - apply negb_true_iff in P. assert (X : exists r, In r l /\ (obs_of r l =? 1)%nat = false).
    { apply forallb_false. exact P. }
    destruct X as [r [Hr E]]. destruct (t_id r) as [i|] eqn:T; [|exfalso; exact (NI r Hr T)]. exists r, i. split; [exact Hr|]. split; [exact T|]. rewrite <- (obs_rows r i l T). apply Nat.eqb_neq. exact E.
  - intros a b Ha Hb E. rewrite forallb_forall in Q. specialize (Q a Ha). rewrite forallb_forall in Q. specialize (Q b Hb). apply orb_true_iff in Q. destruct Q as [Q|Q]; [|apply oq_eqb_ok; exact Q].
    apply negb_true_iff in Q. apply oz_eqb_ok in E. congruence.
  - destruct P as [r [i [Hr [T N]]]]. apply negb_true_iff. apply not_true_iff_false. rewrite forallb_forall. intros F. specialize (F r Hr). apply Nat.eqb_eq in F. rewrite (obs_rows r i l T) in F. contradiction.
  - apply forallb_forall. intros a Ha. apply forallb_forall. intros b Hb. destruct (oz_eqb (t_id a) (t_id b)) eqn:E; [|reflexivity]. cbn. apply oq_eqb_ok. apply Q; [assumption|assumption|apply oz_eqb_ok; exact E].
Qed.

(** * Clean rows *)
Lemma clean_none panel wn r : clean panel wn r <> None <-> complete panel wn r.
Proof.
  unfold clean, complete. destruct panel, wn, (t_id r), (t_t r), (t_d r), (t_y r), (t_w r), (t_x r); split; intros H; repeat split; intros; try congruence; try (exfalso; apply H; reflexivity);
  destruct H as [H0 [H1 [H2 [H3 [H4 H5]]]]]; try (exfalso; apply H0; reflexivity); try (exfalso; apply H4; reflexivity); congruence.
Qed.
Lemma clean_fields panel wn r q : clean panel wn r = Some q -> (panel = true -> t_id r = Some (q_id q)) /\ t_t r = Some (q_t q) /\ t_d r = Some (q_d q) /\ t_y r = Some (q_y q) /\ t_x r = Some (q_x q) /\ weight_of wn r = q_w q.
Proof.
  unfold clean, weight_of. destruct panel, wn, (t_id r), (t_t r), (t_d r), (t_y r), (t_w r), (t_x r); intros H; try discriminate; injection H as <-; cbn; repeat split; intros; congruence.
Qed.

(** * The two periods of the processed frame *)
Notation idle := (fun a b => (q_id a <=? q_id b)%Z).
Lemma filter_nil_len {A} (p : A -> bool) l : existsb p l = true -> (1 <= length (filter p l))%nat.
Proof. induction l as [|a l IH]; cbn; [discriminate|]. destruct (p a); cbn; [lia|exact IH]. Qed.
Lemma has_id_in i l : has_id i l = true <-> exists r, In r l /\ q_id r = i.
Proof. unfold has_id. rewrite existsb_exists. split; intros [r [H E]]; exists r; (split; [exact H|]); [apply Z.eqb_eq|apply Z.eqb_eq]; exact E. Qed.
Lemma count_at i t l : q_count i (at_time t l) = length (filter (fun r => (q_id r =? i)%Z && (q_t r =? t)%Z) l).
Proof. unfold q_count, at_time. f_equal. induction l as [|a l IH]; [reflexivity|]. cbn. destruct (q_t a =? t)%Z; cbn; destruct (q_id a =? i)%Z; cbn; rewrite IH; reflexivity. Qed.
Lemma count_split i lo hi l : (lo < hi)%Z -> (forall r, In r l -> q_t r = lo \/ q_t r = hi) -> q_count i l = (q_count i (at_time lo l) + q_count i (at_time hi l))%nat.
Proof.
  intros L H. rewrite !count_at. unfold q_count. induction l as [|a l IH]; [reflexivity|]. cbn. rewrite <- plus_n_Sm || idtac.
  specialize (IH (fun r Hr => H r (or_intror Hr))). destruct (H a (or_introl eq_refl)) as [E|E]; rewrite E.
  - rewrite Z.eqb_refl. replace (lo =? hi)%Z with false by (symmetry; apply Z.eqb_neq; lia). destruct (q_id a =? i)%Z; cbn; lia.
  - rewrite Z.eqb_refl. replace (hi =? lo)%Z with false by (symmetry; apply Z.eqb_neq; lia). destruct (q_id a =? i)%Z; cbn; lia.
Qed.
Lemma nodup_counts l : (forall r, In r l -> q_count (q_id r) l = 1%nat) -> NoDup (map q_id l).
Proof.
  induction l as [|a l IH]; intros H; [constructor|]. cbn. constructor.
  - intros X. apply in_map_iff in X. destruct X as [s [E Hs]]. specialize (H a (or_introl eq_refl)). unfold q_count in H. cbn in H. rewrite Z.eqb_refl in H. cbn in H. injection H as H.
    assert (Y : In s (filter (fun r => (q_id r =? q_id a)%Z) l)) by (apply filter_In; split; [exact Hs|apply Z.eqb_eq; exact E]). destruct (filter _ l); [destruct Y|discriminate].
  - apply IH. intros r Hr. specialize (H r (or_intror Hr)). unfold q_count in *. cbn in H. destruct (q_id a =? q_id r)%Z eqn:E; [|exact H]. cbn in H. injection H as H.
    exfalso. assert (Y : In r (filter (fun s => (q_id s =? q_id r)%Z) l)) by (apply filter_In; split; [exact Hr|apply Z.eqb_refl]). destruct (filter _ l); [destruct Y|discriminate].
Qed.
Lemma isort_ids l : NoDup (map q_id l) -> StronglySorted Z.lt (map q_id (isort idle l)).
Proof.
  intros N. assert (S : StronglySorted (fun a b => idle a b = true) (isort idle l)).
  { apply isort_sorted; [intros x y; rewrite !Z.leb_le; lia|intros x y z; rewrite !Z.leb_le; lia]. }
  assert (N' : NoDup (map q_id (isort idle l))). { eapply Permutation_NoDup; [|exact N]. apply Permutation_map. symmetry. apply isort_perm. }
  revert N'. induction S as [|a r Hs IH Hf]; intros N'; cbn; constructor.
  - inversion N'; subst. apply IH. assumption.
  - inversion N' as [|? ? NI ND]; subst. rewrite Forall_forall in *. intros x Hx. apply in_map_iff in Hx. destruct Hx as [b [<- Hb]]. specialize (Hf b Hb). cbn in Hf. apply Z.leb_le in Hf.
    assert (q_id a <> q_id b). { intros E. apply NI. rewrite E. apply in_map. exact Hb. } lia.
Qed.
Lemma combine_in {A B} (f : A -> Z) (g : B -> Z) (l : list A) (m : list B) a b : map f l = map g m -> NoDup (map f l) -> (In (a, b) (combine l m) <-> In a l /\ In b m /\ f a = g b).
Proof.
  revert m. induction l as [|x l IH]; intros [|y m] E N; cbn in E; try discriminate; [cbn; tauto|]. injection E as E1 E2. inversion N as [|? ? NI ND]; subst. cbn. rewrite (IH m E2 ND). split.
  - intros [H|[H1 [H2 H3]]]; [injection H as <- <-; tauto|tauto].
  - intros [[<-|Ha] [[<-|Hb] F]]; [left; reflexivity| | |right; tauto].
    + exfalso. apply NI. rewrite F, E2. apply in_map. exact Hb.
    + exfalso. apply NI. rewrite E1, <- F. apply in_map. exact Ha.
Qed.

Section Matched.
Context (N : list trow) (lo hi : Z) (L : (lo < hi)%Z) (T : forall r, In r N -> q_t r = lo \/ q_t r = hi) (P2 : length (periods N) = 2%nat).
Let D := q_balance N.
Lemma bal_in r : In r D <-> In r N /\ q_count (q_id r) N = 2%nat.
Proof. unfold D, q_balance. rewrite filter_In, Nat.eqb_eq, P2. reflexivity. Qed.
Lemma bal_count r : In r D -> q_count (q_id r) D = 2%nat.
Proof.
  intros H. apply bal_in in H. destruct H as [H C]. etransitivity; [|exact C]. unfold D, q_balance. unfold q_count at 1 3. f_equal.
  assert (X : forall M, (forall s, In s M -> q_id s = q_id r -> (q_count (q_id s) N =? length (periods N))%nat = true) -> filter (fun s => (q_id s =? q_id r)%Z) (filter (fun s => (q_count (q_id s) N =? length (periods N))%nat) M) = filter (fun s => (q_id s =? q_id r)%Z) M).
  { induction M as [|s M IH]; intros Y; [reflexivity|]. cbn. destruct (q_id s =? q_id r)%Z eqn:E.
    - apply Z.eqb_eq in E. rewrite (Y s (or_introl eq_refl) E). cbn. rewrite (proj2 (Z.eqb_eq _ _) E), IH; [reflexivity|]. intros; apply Y; [right|]; assumption.
    - destruct (q_count (q_id s) N =? length (periods N))%nat; cbn; [rewrite E|]; apply IH; intros; (apply Y; [right|]; assumption). }
  apply X. intros s _ E. rewrite E, C, P2. reflexivity.
Qed.
Let DT : forall r, In r D -> q_t r = lo \/ q_t r = hi.
Proof. intros r H. apply bal_in in H. apply T, H. Qed.
Lemma common_in t t' r : In r (common_sorted (at_time t D) (at_time t' D)) <-> In r D /\ q_t r = t /\ exists s, In s D /\ q_t s = t' /\ q_id s = q_id r.
Proof.
  unfold common_sorted. rewrite isort_in, filter_In, has_id_in. unfold at_time. rewrite filter_In, Z.eqb_eq. split.
  - intros [[H1 H2] [s [H3 H4]]]. apply filter_In in H3. destruct H3 as [H3 H5]. apply Z.eqb_eq in H5. split; [exact H1|]. split; [exact H2|]. exists s. tauto.
  - intros [H1 [H2 [s [H3 [H4 H5]]]]]. split; [tauto|]. exists s. split; [|exact H5]. apply filter_In. split; [exact H3|apply Z.eqb_eq; exact H4].
Qed.
Lemma count_both i : has_id i (at_time lo D) = true -> has_id i (at_time hi D) = true -> q_count i (at_time lo D) = 1%nat /\ q_count i (at_time hi D) = 1%nat.
Proof.
  intros A B. pose proof (filter_nil_len _ _ A) as A'. pose proof (filter_nil_len _ _ B) as B'. apply has_id_in in A. destruct A as [r [Hr E]]. apply filter_In in Hr. destruct Hr as [Hr _].
  pose proof (bal_count r Hr) as C. rewrite E, (count_split i lo hi D L DT) in C. unfold q_count in *. lia.
Qed.
Lemma common_nodup t t' : (t = lo /\ t' = hi) \/ (t = hi /\ t' = lo) -> NoDup (map q_id (filter (fun r => has_id (q_id r) (at_time t' D)) (at_time t D))).
Proof.
  intros TT. apply nodup_counts. intros r Hr. apply filter_In in Hr. destruct Hr as [Hr Hi].
  assert (Hi' : has_id (q_id r) (at_time t D) = true) by (apply has_id_in; exists r; split; [exact Hr|reflexivity]).
  assert (C : q_count (q_id r) (at_time t D) = 1%nat) by (destruct TT as [[-> ->]|[-> ->]]; apply count_both; assumption).
  rewrite <- C. unfold q_count. f_equal. generalize (at_time t D) as M. intros M. induction M as [|s M IH]; [reflexivity|]. cbn. destruct (q_id s =? q_id r)%Z eqn:E.
  - pose proof E as E'. apply Z.eqb_eq in E. rewrite E, Hi. cbn. rewrite E', IH. reflexivity.
  - destruct (has_id (q_id s) (at_time t' D)); cbn; [rewrite E|]; exact IH.
Qed.
Let a := common_sorted (at_time lo D) (at_time hi D).
Let b := common_sorted (at_time hi D) (at_time lo D).
Lemma a_sorted : StronglySorted Z.lt (map q_id a).
Proof. apply isort_ids, common_nodup. left. split; reflexivity. Qed.
Lemma b_sorted : StronglySorted Z.lt (map q_id b).
Proof. apply isort_ids, common_nodup. right. split; reflexivity. Qed.
Lemma ab_ids : map q_id b = map q_id a.
Proof.
  apply ssorted_lt_ext; [apply b_sorted|apply a_sorted|]. intros x. rewrite !in_map_iff. split; intros [r [E H]]; apply common_in in H; destruct H as [H1 [H2 [s [H3 [H4 H5]]]]]; exists s; (split; [congruence|]); apply common_in; (split; [exact H3|]); (split; [exact H4|]); exists r; repeat split; try assumption; congruence.
Qed.
Lemma pairs_in ra rb : In (rb, ra) (combine b a) <-> Permutation (filter (fun r => (q_id r =? q_id rb)%Z) N) (ra :: rb :: nil) /\ q_t ra = lo /\ q_t rb = hi.
Proof.
  rewrite (combine_in q_id q_id b a rb ra ab_ids (ssorted_lt_nodup _ b_sorted)). split.
  - intros [Hb [Ha E]]. apply common_in in Ha, Hb. destruct Ha as [Ha [Ta _]]. destruct Hb as [Hb [Tb _]]. split; [|split; assumption].
    apply bal_in in Ha, Hb. destruct Hb as [Hb C]. destruct Ha as [Ha _]. unfold q_count in C.
    assert (Ia : In ra (filter (fun r => (q_id r =? q_id rb)%Z) N)) by (apply filter_In; split; [exact Ha|apply Z.eqb_eq; congruence]).
    assert (Ib : In rb (filter (fun r => (q_id r =? q_id rb)%Z) N)) by (apply filter_In; split; [exact Hb|apply Z.eqb_refl]).
    destruct (filter _ N) as [|x [|y [|z r]]]; try discriminate C. assert (ra <> rb) by (intros ->; lia).
    destruct Ia as [->|[->|[]]], Ib as [->|[->|[]]]; try congruence; [reflexivity|apply perm_swap].
  - intros [P [Ta Tb]]. assert (C : q_count (q_id rb) N = 2%nat) by (unfold q_count; rewrite (Permutation_length P); reflexivity).
    assert (Ia : In ra (filter (fun r => (q_id r =? q_id rb)%Z) N)) by (eapply Permutation_in; [symmetry; exact P|left; reflexivity]).
    assert (Ib : In rb (filter (fun r => (q_id r =? q_id rb)%Z) N)) by (eapply Permutation_in; [symmetry; exact P|right; left; reflexivity]).
    apply filter_In in Ia, Ib. destruct Ia as [Ia Ea]. destruct Ib as [Ib _]. apply Z.eqb_eq in Ea.
    assert (Da : In ra D) by (apply bal_in; split; [exact Ia|rewrite Ea; exact C]). assert (Db : In rb D) by (apply bal_in; split; assumption).
    split; [|split; [|congruence]]; apply common_in; (split; [assumption|]); (split; [assumption|]); [exists ra|exists rb]; repeat split; try assumption; congruence.
Qed.
Lemma pairs_all (R : trow -> trow -> Prop) (f : trow -> Qc) : qlist_eqb (map f a) (map f b) = true <-> (forall ra rb, In (rb, ra) (combine b a) -> f ra = f rb).
Proof.
  pose proof ab_ids as E. revert E. generalize b a. clear. intros l. induction l as [|x l IH]; intros [|y m] E; cbn in E; try discriminate; [cbn; split; [intros _ ? ? []|reflexivity]|].
  injection E as E1 E2. cbn. rewrite andb_true_iff, (IH m E2). split.
  - intros [A B] ra rb [H|H]; [injection H as <- <-; destruct (Qceqb_spec (f y) (f x)); congruence|apply B; exact H].
  - intros H. split; [specialize (H y x (or_introl eq_refl)); destruct (Qceqb_spec (f y) (f x)); congruence|]. intros ra rb X. apply H. right; exact X.
Qed.
End Matched.
