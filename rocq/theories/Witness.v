(** Executable checks used to exhibit concrete cases (no property content). *)
From Verif Require Import Base ListLib PreprocessModel PreprocessSpec.

Definition ozb (a b : option Z) : bool := match a, b with Some x, Some y => (x =? y)%Z | None, None => true | _, _ => false end.
Definition ogb (a b : option grp) : bool := match a, b with Some x, Some y => grp_eqb x y | None, None => true | _, _ => false end.
Lemma ozb_spec a b : reflect (a = b) (ozb a b).
Proof. destruct a as [x|], b as [y|]; cbn; try (constructor; congruence). destruct (Z.eqb_spec x y); constructor; congruence. Qed.
Lemma ogb_eq a b : ogb a b = true -> a = b.
Proof. destruct a as [[x|]|], b as [[y|]|]; cbn; try discriminate; try reflexivity. intros H. apply Z.eqb_eq in H. congruence. Qed.
Fixpoint nodupb {A} (eqb : A -> A -> bool) (l : list A) : bool :=
  match l with [] => true | a :: l' => negb (existsb (eqb a) l') && nodupb eqb l' end.
Lemma nodupb_ok {A} (eqb : A -> A -> bool) (l : list A) : (forall a, eqb a a = true) -> nodupb eqb l = true -> NoDup l.
Proof.
  intros R. induction l as [|a l IH]; [constructor|]. cbn. intros H. apply andb_true_iff in H as [H1 H2]. constructor; [|apply IH, H2].
  intros h. apply negb_true_iff in H1. assert (existsb (eqb a) l = true); [|congruence]. apply existsb_exists. exists a. split; [exact h|apply R].
Qed.
Definition valid_panelb (d : list raw) : bool :=
  nodupb (fun p q => ozb (fst p) (fst q) && ozb (snd p) (snd q)) (map (fun q => (raw_id q, raw_t q)) d) &&
  forallb (fun q => forallb (fun q' => negb (ozb (raw_id q) (raw_id q')) || ogb (raw_g q) (raw_g q')) d) d.
Lemma valid_panelb_ok d : valid_panelb d = true -> valid_panel d.
Proof.
  intros H. apply andb_true_iff in H as [H1 H2]. split.
  - apply (nodupb_ok _ _) in H1; [exact H1|]. intros [[x|] [y|]]; cbn; rewrite ?Z.eqb_refl; reflexivity.
  - intros q q' Hq Hq' E. rewrite forallb_forall in H2. specialize (H2 q Hq). rewrite forallb_forall in H2. specialize (H2 q' Hq').
    apply orb_true_iff in H2 as [h|h]; [|apply ogb_eq, h]. destruct (ozb_spec (raw_id q) (raw_id q')); [discriminate|contradiction].
Qed.
Definition oqb (a b : option Qc) : bool := match a, b with Some x, Some y => Qceqb x y | None, None => true | _, _ => false end.
Lemma oqb_eq a b : oqb a b = true -> a = b.
Proof. destruct a as [x|], b as [y|]; cbn; try discriminate; try reflexivity. destruct (Qceqb_spec x y); [congruence|discriminate]. Qed.
Fixpoint loqb (a b : list (option Qc)) : bool := match a, b with [], [] => true | x :: a', y :: b' => oqb x y && loqb a' b' | _, _ => false end.
Lemma loqb_eq a b : loqb a b = true -> a = b.
Proof.
  revert b. induction a as [|x a IH]; intros [|y b]; cbn; try discriminate; [reflexivity|]. intros H. apply andb_true_iff in H as [H1 H2].
  f_equal; [apply oqb_eq, H1|apply IH, H2].
Qed.
Ltac by_valid := apply valid_panelb_ok; vm_compute; reflexivity.
Ltac by_oq := apply oqb_eq; vm_compute; reflexivity.
Ltac by_loq := apply loqb_eq; vm_compute; reflexivity.
Ltac by_qc := apply Qc_is_canon; vm_compute; reflexivity.
