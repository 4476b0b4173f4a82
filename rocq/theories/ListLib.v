(** Generic list machinery: stable insertion sort, first occurrences, block decomposition. *)
From Verif Require Import Base.

(** * Stable insertion sort *)
Section Sort.
  Context {A : Type} (leb : A -> A -> bool).
  Fixpoint insert (x : A) (l : list A) : list A :=
    match l with [] => [x] | y :: l' => if leb x y then x :: l else y :: insert x l' end.
  Definition isort (l : list A) : list A := fold_right insert [] l.

  Lemma insert_perm x l : Permutation (insert x l) (x :: l).
  Proof.
    induction l as [|y l IH]; [reflexivity|]. cbn. destruct (leb x y); [reflexivity|].
    etransitivity; [apply perm_skip, IH|apply perm_swap].
  Qed.
  Lemma isort_perm l : Permutation (isort l) l.
  Proof. induction l as [|x l IH]; [reflexivity|]. cbn. etransitivity; [apply insert_perm|apply perm_skip, IH]. Qed.
  Lemma isort_in x l : In x (isort l) <-> In x l.
  Proof. split; apply Permutation_in; [|symmetry]; apply isort_perm. Qed.
  Lemma isort_length l : length (isort l) = length l.
  Proof. apply Permutation_length, isort_perm. Qed.

  Context (total : forall x y, leb x y = true \/ leb y x = true).
  Context (trans : forall x y z, leb x y = true -> leb y z = true -> leb x z = true).
  Lemma insert_sorted x l : StronglySorted (fun a b => leb a b = true) l ->
    StronglySorted (fun a b => leb a b = true) (insert x l).
  Proof.
    induction 1 as [|y l Hs IH Hf]; cbn; [repeat constructor|].
    destruct (leb x y) eqn:E.
    - constructor; [constructor; assumption|]. constructor; [exact E|].
      eapply Forall_impl; [|exact Hf]. cbn. intros z Hz. eapply trans; eassumption.
    - constructor; [exact IH|].
      assert (Hyx : leb y x = true) by (destruct (total x y); congruence).
      apply Forall_forall. intros z Hz. apply (Permutation_in z (insert_perm x l)) in Hz.
      destruct Hz as [<-|Hz]; [exact Hyx|]. rewrite Forall_forall in Hf. apply Hf, Hz.
  Qed.
  Lemma isort_sorted l : StronglySorted (fun a b => leb a b = true) (isort l).
  Proof. induction l as [|x l IH]; [constructor|]. apply insert_sorted, IH. Qed.
End Sort.

Lemma ssorted_impl {A} (R S : A -> A -> Prop) l :
  (forall a b, In a l -> In b l -> R a b -> S a b) -> StronglySorted R l -> StronglySorted S l.
Proof.
  intros H HR. induction HR as [|a l Hs IH Hf]; constructor.
  - apply IH. intros; apply H; try (right; assumption); assumption.
  - rewrite Forall_forall in *. intros b Hb. apply H; [left; reflexivity|right; exact Hb|apply Hf, Hb].
Qed.
Lemma ssorted_map {A B} (f : A -> B) (R : B -> B -> Prop) l :
  StronglySorted R (map f l) <-> StronglySorted (fun a b => R (f a) (f b)) l.
Proof.
  induction l as [|a l IH]; cbn; [split; constructor|].
  split; intros H; inversion H as [|? ? Hs Hf]; subst; constructor;
    try (apply IH; assumption); rewrite Forall_forall in *; intros b Hb.
  - apply Hf. apply in_map, Hb.
  - apply in_map_iff in Hb as [c [<- Hc]]. apply Hf, Hc.
Qed.
Lemma ssorted_filter {A} (R : A -> A -> Prop) (p : A -> bool) l :
  StronglySorted R l -> StronglySorted R (filter p l).
Proof.
  induction 1 as [|a l Hs IH Hf]; cbn; [constructor|]. destruct (p a); [|exact IH].
  constructor; [exact IH|]. rewrite Forall_forall in *. intros b Hb. apply filter_In in Hb as [Hb _]. apply Hf, Hb.
Qed.

(** Two sorted lists (antisymmetric, irreflexive-free order) with the same elements and no
    duplicates coincide. *)
Lemma ssorted_ext {A} (R : A -> A -> Prop) :
  (forall a b, R a b -> R b a -> a = b) -> forall l l',
  StronglySorted R l -> StronglySorted R l' -> NoDup l -> NoDup l' ->
  (forall x, In x l <-> In x l') -> l = l'.
Proof.
  intros anti l l' H. revert l'. induction H as [|a l Hs IH Hf]; intros l' H' N N' E.
  - destruct l' as [|b l']; [reflexivity|]. exfalso. apply (E b). left; reflexivity.
  - destruct l' as [|b l']; [exfalso; apply (E a); left; reflexivity|].
    inversion H' as [|? ? Hs' Hf']; subst. rewrite Forall_forall in Hf, Hf'.
    inversion N as [|? ? Na Nl]; subst. inversion N' as [|? ? Nb Nl']; subst.
    assert (a = b).
    { destruct (proj1 (E a) (or_introl eq_refl)) as [->|h]; [reflexivity|].
      destruct (proj2 (E b) (or_introl eq_refl)) as [->|h']; [reflexivity|].
      apply anti; [apply Hf, h' | apply Hf', h]. }
    subst b. f_equal. apply IH; try assumption. intros x. split; intros Hx.
    + destruct (proj1 (E x) (or_intror Hx)) as [->|h]; [contradiction|exact h].
    + destruct (proj2 (E x) (or_intror Hx)) as [->|h]; [contradiction|exact h].
Qed.

(** * First occurrences, in order (group_by(..., maintain_order=True) keys) *)
Section FirstOcc.
  Context {A K : Type} (keqb : K -> K -> bool) (kspec : forall x y, reflect (x = y) (keqb x y)) (key : A -> K).

  (** rows whose key did not occur before; [seen] are the keys met so far *)
  Fixpoint firsts_from (seen : list K) (l : list A) : list A :=
    match l with
    | [] => []
    | a :: l' => if existsb (keqb (key a)) seen then firsts_from seen l'
                 else a :: firsts_from (key a :: seen) l'
    end.
  Definition firsts (l : list A) : list A := firsts_from [] l.

  Lemma existsb_keq k seen : existsb (keqb k) seen = true <-> In k seen.
  Proof.
    rewrite existsb_exists. split.
    - intros [x [Hx E]]. destruct (kspec k x); [subst; exact Hx|discriminate].
    - intros H. exists k. split; [exact H|]. destruct (kspec k k); congruence.
  Qed.
  Lemma existsb_keq_false k seen : existsb (keqb k) seen = false <-> ~ In k seen.
  Proof. rewrite <- existsb_keq. destruct (existsb (keqb k) seen); intuition congruence. Qed.

  Lemma firsts_from_incl seen l a : In a (firsts_from seen l) -> In a l /\ ~ In (key a) seen.
  Proof.
    revert seen; induction l as [|b l IH]; intros seen H; [destruct H|]. cbn in H.
    destruct (existsb (keqb (key b)) seen) eqn:E.
    - apply IH in H as [H1 H2]. split; [right; exact H1|exact H2].
    - destruct H as [<-|H].
      + split; [left; reflexivity|]. apply existsb_keq_false, E.
      + apply IH in H as [H1 H2]. split; [right; exact H1|]. intros h. apply H2. right. exact h.
  Qed.
  Lemma firsts_from_keys seen l k : In k (map key (firsts_from seen l)) <-> In k (map key l) /\ ~ In k seen.
  Proof.
    revert seen; induction l as [|b l IH]; intros seen; [cbn; intuition|]. cbn [firsts_from].
    destruct (existsb (keqb (key b)) seen) eqn:E.
    - apply existsb_keq in E. rewrite IH. cbn. split; [intuition|].
      intros [[<-|h] h2]; [contradiction|auto].
    - apply existsb_keq_false in E. cbn [map In]. rewrite IH. cbn. split.
      + intros [<-|[h1 h2]]; [auto|]. split; [auto|]. intros h; apply h2; auto.
      + intros [[<-|h1] h2]; [auto|]. destruct (kspec (key b) k) as [->|D]; [auto|].
        right. split; [exact h1|]. intros [h|h]; contradiction.
  Qed.
  Lemma firsts_from_nodup seen l : NoDup (map key (firsts_from seen l)).
  Proof.
    revert seen; induction l as [|b l IH]; intros seen; [constructor|]. cbn [firsts_from].
    destruct (existsb (keqb (key b)) seen) eqn:E; [apply IH|]. cbn. constructor; [|apply IH].
    rewrite firsts_from_keys. cbn. intuition.
  Qed.
  Lemma firsts_keys l k : In k (map key (firsts l)) <-> In k (map key l).
  Proof. unfold firsts. rewrite firsts_from_keys. cbn. intuition. Qed.
  Lemma firsts_nodup l : NoDup (map key (firsts l)). Proof. apply firsts_from_nodup. Qed.
  Lemma firsts_incl l a : In a (firsts l) -> In a l.
  Proof. intros H. apply firsts_from_incl in H. apply H. Qed.

  Lemma firsts_from_app seen l1 l2 :
    firsts_from seen (l1 ++ l2) = firsts_from seen l1 ++ firsts_from (rev (map key (firsts_from seen l1)) ++ seen) l2.
  Proof.
    revert seen; induction l1 as [|a l1 IH]; intros seen; [reflexivity|]. cbn [app firsts_from].
    destruct (existsb (keqb (key a)) seen); [apply IH|]. cbn [map rev app]. f_equal.
    rewrite IH. f_equal. f_equal. rewrite <- app_assoc. reflexivity.
  Qed.
  Lemma firsts_from_nodup_id seen l : NoDup (map key l) -> (forall a, In a l -> ~ In (key a) seen) ->
    firsts_from seen l = l.
  Proof.
    revert seen; induction l as [|a l IH]; intros seen N H; [reflexivity|]. cbn.
    rewrite (proj2 (existsb_keq_false _ _)) by (apply H; left; reflexivity).
    inversion N as [|? ? Na Nl]; subst. f_equal. apply IH; [exact Nl|].
    intros b Hb [h|h]; [|apply (H b); [right; exact Hb|exact h]].
    apply Na. rewrite h. apply in_map, Hb.
  Qed.
  Lemma firsts_from_all_seen seen l : (forall a, In a l -> In (key a) seen) -> firsts_from seen l = [].
  Proof.
    induction l as [|a l IH]; intros H; [reflexivity|]. cbn.
    rewrite (proj2 (existsb_keq _ _)) by (apply H; left; reflexivity).
    apply IH. intros; apply H; right; assumption.
  Qed.
End FirstOcc.

(** first occurrences of keys themselves *)
Definition uniq {K} (keqb : K -> K -> bool) (l : list K) : list K := firsts keqb (fun k => k) l.

Section Blocks.
  Context {A K : Type} (keqb : K -> K -> bool) (kspec : forall x y, reflect (x = y) (keqb x y)).
  Context (le : K -> K -> Prop) (anti : forall x y, le x y -> le y x -> x = y).
  Context (key : A -> K).

  (** A list sorted by key is the concatenation, over the distinct keys in order of
      appearance, of the rows with that key. *)
  Lemma sorted_blocks l : StronglySorted (fun a b => le (key a) (key b)) l ->
    l = flat_map (fun k => filter (fun a => keqb (key a) k) l) (uniq keqb (map key l)).
  Proof.
    intros HS.
    assert (G : forall pre l, StronglySorted (fun a b => le (key a) (key b)) (pre ++ l) ->
      forall seen, (forall k, In k seen <-> In k (map key pre)) ->
      filter (fun a => negb (existsb (keqb (key a)) seen)) l
      = flat_map (fun k => filter (fun a => keqb (key a) k) l) (firsts_from keqb (fun k => k) seen (map key l))).
    { clear l HS. intros pre l. revert pre. induction l as [|a l IH]; intros pre HS seen Hseen; [reflexivity|].
      assert (HS' : StronglySorted (fun a b => le (key a) (key b)) ((pre ++ [a]) ++ l)) by (rewrite <- app_assoc; exact HS).
      cbn [map firsts_from]. destruct (existsb (keqb (key a)) seen) eqn:E.
      - cbn [filter]. rewrite E. cbn [negb].
        rewrite (IH (pre ++ [a]) HS' seen); [|].
        + rewrite !flat_map_concat_map. f_equal. apply map_ext_in. intros k Hk.
          assert (Nk : ~ In k seen).
          { intros h. assert (HK := proj1 (firsts_from_keys keqb kspec (fun k => k) seen (map key l) k)).
            rewrite map_id in HK. apply HK in Hk as [_ hk]. contradiction. }
          destruct (kspec (key a) k) as [<-|D]; [|reflexivity].
          exfalso. apply Nk. apply (existsb_keq keqb kspec). exact E.
        + intros k. rewrite map_app, in_app_iff, Hseen. cbn. split; [auto|].
          intros [h|[<-|[]]]; [exact h|]. apply Hseen. apply (existsb_keq keqb kspec), E.
      - cbn [flat_map]. cbn [filter]. rewrite E. cbn [negb].
        destruct (kspec (key a) (key a)) as [_|D]; [|congruence]. cbn [app]. f_equal.
        assert (IH' := IH (pre ++ [a]) HS' (key a :: seen)).
        rewrite (filter_ext_in' (fun a0 => negb (existsb (keqb (key a0)) seen))
                   (fun x => keqb (key x) (key a) || negb (existsb (keqb (key x)) (key a :: seen)))) ;
          [|intros x Hx; cbn [existsb]; destruct (kspec (key x) (key a)) as [->|D]; cbn; [rewrite E; reflexivity|reflexivity]].
        (* rows equal to key a come first *)
        assert (SP : forall m, StronglySorted (fun a b => le (key a) (key b)) m ->
                  (forall x, In x m -> le (key a) (key x)) ->
                  filter (fun x => keqb (key x) (key a) || negb (existsb (keqb (key x)) (key a :: seen))) m
                  = filter (fun x => keqb (key x) (key a)) m
                    ++ filter (fun x => negb (existsb (keqb (key x)) (key a :: seen))) m).
        { induction 1 as [|x m Hm IHm Hf]; intros Hle; [reflexivity|]. cbn [filter].
          assert (Hle' : forall x, In x m -> le (key a) (key x)) by (intros; apply Hle; right; assumption).
          destruct (kspec (key x) (key a)) as [ex|D].
          - cbn [orb]. assert (existsb (keqb (key x)) (key a :: seen) = true) as ->
              by (cbn; destruct (kspec (key x) (key a)); [reflexivity|contradiction]).
            cbn [negb app]. f_equal. apply IHm, Hle'.
          - cbn [orb].
            assert (Fm : forall y, In y m -> keqb (key y) (key a) = false).
            { intros y Hy. destruct (kspec (key y) (key a)) as [ey|]; [|reflexivity]. exfalso. apply D.
              apply anti; [|apply Hle; left; reflexivity]. rewrite <- ey. rewrite Forall_forall in Hf. apply Hf, Hy. }
            rewrite (filter_none (fun x => keqb (key x) (key a)) m Fm). cbn [app].
            rewrite (filter_ext_in' (fun x0 => keqb (key x0) (key a) || negb (existsb (keqb (key x0)) (key a :: seen)))
                       (fun x0 => negb (existsb (keqb (key x0)) (key a :: seen)))).
            + reflexivity.
            + intros y Hy. rewrite (Fm y Hy). reflexivity. }
        assert (HSl : StronglySorted (fun a b => le (key a) (key b)) (a :: l)).
        { clear -HS. induction pre as [|p pre IHp]; [exact HS|]. inversion HS; subst. apply IHp. assumption. }
        inversion HSl as [|? ? Hl Hf]; subst. rewrite Forall_forall in Hf.
        rewrite (SP l Hl Hf). f_equal. rewrite IH'; [|].
        + rewrite !flat_map_concat_map. f_equal. apply map_ext_in. intros k Hk.
          assert (Nk : ~ In k (key a :: seen)).
          { intros h. assert (HK := proj1 (firsts_from_keys keqb kspec (fun k => k) (key a :: seen) (map key l) k)).
            rewrite map_id in HK. apply HK in Hk as [_ hk]. contradiction. }
          destruct (kspec (key a) k) as [<-|D]; [|reflexivity]. exfalso. apply Nk. left. reflexivity.
        + intros k. rewrite map_app, in_app_iff. cbn. rewrite Hseen. intuition. }
    specialize (G [] l HS [] ltac:(cbn; intuition)). cbn in G. rewrite filter_all in G by reflexivity. exact G.
  Qed.

  Lemma uniq_in l k : In k (uniq keqb l) <-> In k l.
  Proof.
    unfold uniq. assert (H := firsts_keys keqb kspec (fun k => k) l k). rewrite !map_id in H. exact H.
  Qed.
  Lemma uniq_nodup l : NoDup (uniq keqb l).
  Proof. unfold uniq. assert (H := firsts_nodup keqb kspec (fun k => k) l). rewrite map_id in H. exact H. Qed.
  Lemma uniq_sorted l : StronglySorted le l -> StronglySorted le (uniq keqb l).
  Proof.
    unfold uniq, firsts. generalize (@nil K) as seen. intros seen H. revert seen.
    induction H as [|a l Hs IH Hf]; intros seen; cbn; [constructor|].
    destruct (existsb (keqb a) seen); [apply IH|]. constructor; [apply IH|].
    rewrite Forall_forall in *. intros b Hb. apply Hf. apply (firsts_from_incl keqb kspec) in Hb. apply Hb.
  Qed.
End Blocks.

Lemma NoDup_app_intro {A} (l1 l2 : list A) : NoDup l1 -> NoDup l2 -> (forall x, In x l1 -> ~ In x l2) -> NoDup (l1 ++ l2).
Proof.
  induction 1 as [|a l1 Ha Hl IH]; intros H2 D; [exact H2|]. cbn. constructor.
  - rewrite in_app_iff. intros [h|h]; [contradiction|]. apply (D a); [left; reflexivity|exact h].
  - apply IH; [exact H2|]. intros x Hx. apply D. right. exact Hx.
Qed.
Lemma NoDup_map_inj {A B} (f : A -> B) l : (forall x y, In x l -> In y l -> f x = f y -> x = y) -> NoDup l -> NoDup (map f l).
Proof.
  intros Hf. induction 1 as [|a l Ha Hl IH]; [constructor|]. cbn. constructor.
  - intros H. apply in_map_iff in H as [b [E Hb]]. apply Hf in E; [|right; exact Hb|left; reflexivity]. subst. contradiction.
  - apply IH. intros x y Hx Hy. apply Hf; right; assumption.
Qed.
Lemma NoDup_prod {A B} (a : list A) (b : list B) : NoDup a -> NoDup b -> NoDup (list_prod a b).
Proof.
  intros Ha Hb. induction Ha as [|x a Hx Ha IH]; [constructor|]. cbn. apply NoDup_app_intro.
  - apply NoDup_map_inj; [intros; congruence|exact Hb].
  - exact IH.
  - intros [u v] H1 H2. apply in_map_iff in H1 as [w [E _]]. injection E as <- <-.
    apply in_prod_iff in H2 as [H2 _]. contradiction.
Qed.
