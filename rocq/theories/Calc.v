(** Derivatives at 0 of rational functions of one rational variable: first-order expansion with a remainder bounded by a multiple
    of e^2. No code of moderndid is modelled here. *)
From Coq Require Import Qcabs.
From Verif Require Import Base.
Notation "'|' x '|'" := (Qcabs x) (at level 35, x at level 30, no associativity, only printing).

(** [f e = f 0 + e * d + e^2 * rho e], [rho] bounded near 0. *)
Definition derivative_at_0 (f : Qc -> Qc) (d : Qc) : Prop :=
  exists r B rho, 0 < r /\ forall e, Qcabs e <= r -> f e = f 0 + e * d + e * e * rho e /\ Qcabs (rho e) <= B.
(** [p e] for all [e] close enough to 0. *)
Definition near0 (p : Qc -> Prop) : Prop := exists r, 0 < r /\ forall e, Qcabs e <= r -> p e.
Definition bounded0 (f : Qc -> Qc) : Prop := exists B, near0 (fun e => Qcabs (f e) <= B).

Lemma Qc_eq_le_ (a b : Qc) : a = b -> a <= b. Proof. intros ->. apply Qcle_refl. Qed.
Lemma Qcmin_ex (a b : Qc) : 0 < a -> 0 < b -> exists m, 0 < m /\ m <= a /\ m <= b.
Proof. intros Ha Hb. destruct (Qc_le_or_lt a b); [exists a|exists b]; repeat split; auto using Qcle_refl, Qclt_le_weak. Qed.
Lemma near0_and p q : near0 p -> near0 q -> near0 (fun e => p e /\ q e).
Proof.
  intros [r [Hr Hp]] [s [Hs Hq]]. destruct (Qcmin_ex r s Hr Hs) as [m [Hm [M1 M2]]]. exists m. split; [exact Hm|].
  intros e He. split; [apply Hp|apply Hq]; eapply Qcle_trans; eassumption.
Qed.
Lemma near0_impl (p q : Qc -> Prop) : (forall e, p e -> q e) -> near0 p -> near0 q.
Proof. intros H [r [Hr Hp]]. exists r. split; [exact Hr|]. intros e He. apply H, Hp, He. Qed.
Lemma near0_all (p : Qc -> Prop) : (forall e, p e) -> near0 p.
Proof. intros H. exists 1. split; [reflexivity|]. intros; apply H. Qed.
Lemma abs0 : Qcabs 0 = 0. Proof. apply Qcabs_pos, Qcle_refl. Qed.
Lemma near0_at0 (p : Qc -> Prop) : near0 p -> p 0.
Proof. intros [r [Hr Hp]]. apply Hp. rewrite abs0. apply Qclt_le_weak, Hr. Qed.
Lemma near0_forall {A} (l : list A) (p : A -> Qc -> Prop) : (forall a, In a l -> near0 (p a)) -> near0 (fun e => forall a, In a l -> p a e).
Proof.
  induction l as [|a l IH]; intros H; [apply near0_all; intros e a []|].
  apply (near0_impl (fun e => p a e /\ forall b, In b l -> p b e)).
  - intros e [H1 H2] b [<-|Hb]; [exact H1|apply H2, Hb].
  - apply near0_and; [apply H; left; reflexivity|apply IH; intros b Hb; apply H; right; exact Hb].
Qed.
Lemma near0_small s : 0 < s -> near0 (fun e => Qcabs e <= s).
Proof. intros H. exists s. split; [exact H|auto]. Qed.

Lemma bnd_const c : bounded0 (fun _ => c).
Proof. exists (Qcabs c). apply near0_all. intros. apply Qcle_refl. Qed.
Lemma bnd_id : bounded0 (fun e => e).
Proof. exists 1. apply near0_small. reflexivity. Qed.
Lemma bnd_add f g : bounded0 f -> bounded0 g -> bounded0 (fun e => f e + g e).
Proof.
  intros [B Hf] [C Hg]. exists (B + C). eapply near0_impl; [|apply (near0_and _ _ Hf Hg)]. cbn. intros e [H1 H2].
  eapply Qcle_trans; [apply Qcabs_triangle|]. apply Qcplus_le_compat; assumption.
Qed.
Lemma bnd_opp f : bounded0 f -> bounded0 (fun e => - f e).
Proof. intros [B Hf]. exists B. eapply near0_impl; [|exact Hf]. cbn. intros e H. rewrite Qcabs_opp. exact H. Qed.
Lemma bnd_sub f g : bounded0 f -> bounded0 g -> bounded0 (fun e => f e - g e).
Proof. intros Hf Hg. apply (bnd_add f (fun e => - g e) Hf (bnd_opp g Hg)). Qed.
Lemma abs_mul_le a b A B : Qcabs a <= A -> Qcabs b <= B -> Qcabs (a * b) <= A * B.
Proof.
  intros H1 H2. rewrite Qcabs_Qcmult. apply (Qcle_trans _ (A * Qcabs b)).
  - apply Qcmult_le_compat_r; [exact H1|apply Qcabs_nonneg].
  - rewrite (Qcmult_comm A), (Qcmult_comm A). apply Qcmult_le_compat_r; [exact H2|]. eapply Qcle_trans; [apply Qcabs_nonneg|exact H1].
Qed.
Lemma bnd_mul f g : bounded0 f -> bounded0 g -> bounded0 (fun e => f e * g e).
Proof.
  intros [B Hf] [C Hg]. exists (B * C). eapply near0_impl; [|apply (near0_and _ _ Hf Hg)]. cbn. intros e [H1 H2]. apply abs_mul_le; assumption.
Qed.
Lemma bnd_ext f g : near0 (fun e => f e = g e) -> bounded0 f -> bounded0 g.
Proof. intros E [B Hf]. exists B. eapply near0_impl; [|apply (near0_and _ _ E Hf)]. cbn. intros e [-> H]. exact H. Qed.
Lemma bnd_sum {A} (l : list A) (f : A -> Qc -> Qc) : (forall a, In a l -> bounded0 (f a)) -> bounded0 (fun e => sumf (fun a => f a e) l).
Proof.
  induction l as [|a l IH]; intros H.
  - apply (bnd_ext (fun _ => 0)); [apply near0_all; reflexivity|apply bnd_const].
  - apply (bnd_ext (fun e => f a e + sumf (fun a => f a e) l)); [apply near0_all; reflexivity|].
    apply bnd_add; [apply H; left; reflexivity|apply IH; intros; apply H; right; assumption].
Qed.
Ltac bnd := cbn beta; lazymatch goal with
  | |- bounded0 (fun _ => ?c) => apply (bnd_const c)
  | |- bounded0 (fun e => e) => exact bnd_id
  | |- bounded0 (fun e => @?f e + @?g e) => apply (bnd_add f g); bnd
  | |- bounded0 (fun e => @?f e - @?g e) => apply (bnd_sub f g); bnd
  | |- bounded0 (fun e => @?f e * @?g e) => apply (bnd_mul f g); bnd
  | |- bounded0 (fun e => - @?f e) => apply (bnd_opp f); bnd
  | |- _ => assumption
  end.

(** equivalent presentation *)
Lemma deriv_intro f d (rho : Qc -> Qc) : bounded0 rho -> near0 (fun e => f e = f 0 + e * d + e * e * rho e) -> derivative_at_0 f d.
Proof.
  intros [B Hb] E. destruct (near0_and _ _ E Hb) as [r [Hr H]]. exists r, B, rho. split; [exact Hr|]. exact H.
Qed.
Lemma deriv_elim f d : derivative_at_0 f d -> exists rho, bounded0 rho /\ near0 (fun e => f e = f 0 + e * d + e * e * rho e).
Proof.
  intros [r [B [rho [Hr H]]]]. exists rho. split.
  - exists B, r. split; [exact Hr|]. intros e He. apply H, He.
  - exists r. split; [exact Hr|]. intros e He. apply H, He.
Qed.
Lemma D_ext f g d : near0 (fun e => f e = g e) -> derivative_at_0 f d -> derivative_at_0 g d.
Proof.
  intros E H. destruct (deriv_elim _ _ H) as [rho [Hb Hf]]. apply (deriv_intro g d rho Hb).
  assert (E0 := near0_at0 _ E). cbn in E0. rewrite <- E0. eapply near0_impl; [|apply (near0_and _ _ E Hf)]. cbn. intros e [<- H2]. exact H2.
Qed.
Lemma D_eq f d d' : d = d' -> derivative_at_0 f d -> derivative_at_0 f d'. Proof. intros ->. auto. Qed.
Lemma D_const c : derivative_at_0 (fun _ => c) 0.
Proof. apply (deriv_intro _ _ (fun _ => 0)); [bnd|]. apply near0_all. intros. ring. Qed.
Lemma D_id : derivative_at_0 (fun e => e) 1.
Proof. apply (deriv_intro _ _ (fun _ => 0)); [bnd|]. apply near0_all. intros. ring. Qed.
Lemma D_add f g a b : derivative_at_0 f a -> derivative_at_0 g b -> derivative_at_0 (fun e => f e + g e) (a + b).
Proof.
  intros Hf Hg. destruct (deriv_elim _ _ Hf) as [p [Bp Ep]]. destruct (deriv_elim _ _ Hg) as [q [Bq Eq_]].
  apply (deriv_intro _ _ (fun e => p e + q e)); [bnd|]. eapply near0_impl; [|apply (near0_and _ _ Ep Eq_)]. cbn. intros e [H1 H2].
  rewrite H1, H2. ring.
Qed.
Lemma D_opp f a : derivative_at_0 f a -> derivative_at_0 (fun e => - f e) (- a).
Proof.
  intros Hf. destruct (deriv_elim _ _ Hf) as [p [Bp Ep]]. apply (deriv_intro _ _ (fun e => - p e)); [bnd|].
  eapply near0_impl; [|exact Ep]. cbn. intros e H1. rewrite H1. ring.
Qed.
Lemma D_sub f g a b : derivative_at_0 f a -> derivative_at_0 g b -> derivative_at_0 (fun e => f e - g e) (a - b).
Proof. intros Hf Hg. apply (D_add f (fun e => - g e) a (- b) Hf (D_opp g b Hg)). Qed.
Lemma D_mul f g a b : derivative_at_0 f a -> derivative_at_0 g b -> derivative_at_0 (fun e => f e * g e) (a * g 0 + f 0 * b).
Proof.
  intros Hf Hg. destruct (deriv_elim _ _ Hf) as [p [Bp Ep]]. destruct (deriv_elim _ _ Hg) as [q [Bq Eq_]].
  apply (deriv_intro _ _ (fun e => f 0 * q e + g 0 * p e + a * b + e * (a * q e + b * p e) + e * e * (p e * q e))); [bnd|].
  eapply near0_impl; [|apply (near0_and _ _ Ep Eq_)]. cbn. intros e [H1 H2]. rewrite H1, H2. ring.
Qed.
Lemma D_scale c f a : derivative_at_0 f a -> derivative_at_0 (fun e => c * f e) (c * a).
Proof. intros H. apply (D_eq _ (0 * f 0 + c * a)); [ring|]. apply (D_mul (fun _ => c) f 0 a (D_const c) H). Qed.
Lemma D_sum {A} (l : list A) (f : A -> Qc -> Qc) (d : A -> Qc) : (forall a, In a l -> derivative_at_0 (f a) (d a)) ->
  derivative_at_0 (fun e => sumf (fun a => f a e) l) (sumf d l).
Proof.
  induction l as [|a l IH]; intros H.
  - apply (D_ext (fun _ => 0)); [apply near0_all; reflexivity|apply D_const].
  - apply (D_ext (fun e => f a e + sumf (fun a => f a e) l)); [apply near0_all; reflexivity|]. rewrite sumf_cons.
    apply D_add; [apply H; left; reflexivity|apply IH; intros; apply H; right; assumption].
Qed.
(** Lipschitz form *)
Lemma D_lip f d : derivative_at_0 f d -> exists u, bounded0 u /\ near0 (fun e => f e = f 0 + e * u e).
Proof.
  intros H. destruct (deriv_elim _ _ H) as [p [Bp Ep]]. exists (fun e => d + e * p e). split; [bnd|].
  eapply near0_impl; [|exact Ep]. cbn. intros e H1. rewrite H1. ring.
Qed.
(** continuity: strict inequalities persist *)
Lemma lip_lt (f : Qc -> Qc) u c : bounded0 u -> near0 (fun e => f e = f 0 + e * u e) -> f 0 < c -> near0 (fun e => f e < c).
Proof.
  intros [U HU] E L.
  assert (S : near0 (fun e => Qcabs e * (Qcabs U + 1) < c - f 0)).
  { assert (P : 0 < Qcabs U + 1) by (assert (h := Qcabs_nonneg U); qclra).
    exists ((c - f 0) / (Qcabs U + 1) / (1 + 1)). split; [apply Qcdiv_pos; [apply Qcdiv_pos; [qclra|exact P]|reflexivity]|].
    intros e He. apply (Qcle_lt_trans _ ((c - f 0) / (1 + 1))).
    - replace ((c - f 0) / (1 + 1)) with ((c - f 0) / (Qcabs U + 1) / (1 + 1) * (Qcabs U + 1)) by (field; split; [discriminate|apply Qc_pos_neq0, P]).
      apply Qcmult_le_compat_r; [exact He|apply Qclt_le_weak, P].
    - assert (X : 0 < c - f 0) by qclra. set (x := c - f 0) in *. replace x with (x / (1 + 1) + x / (1 + 1)) at 2 by (field; discriminate).
      assert (0 < x / (1 + 1)) by (apply Qcdiv_pos; [exact X|reflexivity]). set (y := x / (1+1)) in *. qclra. }
  eapply near0_impl; [|apply (near0_and _ _ S (near0_and _ _ E HU))]. cbn. intros e [H1 [H2 H3]]. rewrite H2.
  assert (H4 : Qcabs (e * u e) <= Qcabs e * (Qcabs U + 1)).
  { apply abs_mul_le; [apply Qcle_refl|]. eapply Qcle_trans; [exact H3|]. assert (h := Qcle_Qcabs U). qclra. }
  assert (H5 := Qcle_Qcabs (e * u e)). set (z := e * u e) in *. qclra.
Qed.
Lemma D_lt f d c : derivative_at_0 f d -> f 0 < c -> near0 (fun e => f e < c).
Proof. intros H L. destruct (D_lip _ _ H) as [u [Hu E]]. apply (lip_lt f u c Hu E L). Qed.
Lemma D_gt f d c : derivative_at_0 f d -> c < f 0 -> near0 (fun e => c < f e).
Proof.
  intros H L. eapply near0_impl; [|apply (D_lt _ _ (- c) (D_opp _ _ H))]; cbn; [|qclra]. intros e h. qclra.
Qed.
Lemma D_neq0 f d : derivative_at_0 f d -> f 0 <> 0 -> near0 (fun e => f e <> 0).
Proof.
  intros H N. destruct (Qc_dec (f 0) 0) as [[L|L]|E]; [| |contradiction].
  - eapply near0_impl; [|apply (D_lt _ _ _ H L)]. cbn. intros e h E. rewrite E in h. revert h. apply Qcle_not_lt, Qcle_refl.
  - eapply near0_impl; [|apply (D_gt _ _ _ H L)]. cbn. intros e h E. rewrite E in h. revert h. apply Qcle_not_lt, Qcle_refl.
Qed.
Lemma Qcabs_inv a : a <> 0 -> Qcabs (/ a) * Qcabs a = 1.
Proof. intros N. rewrite <- Qcabs_Qcmult, Qcmult_comm, Qcmult_inv_r by exact N. apply Qcabs_pos. discriminate. Qed.
Lemma bnd_inv g d : derivative_at_0 g d -> g 0 <> 0 -> bounded0 (fun e => / g e).
Proof.
  intros H N. exists (/ (Qcabs (g 0) / (1 + 1))).
  assert (P : 0 < Qcabs (g 0)).
  { destruct (Qc_le_or_lt (Qcabs (g 0)) 0) as [L|L]; [|exact L]. exfalso. apply N, Qcabs_null, Qcle_antisym; [exact L|apply Qcabs_nonneg]. }
  assert (P2 : 0 < Qcabs (g 0) / (1 + 1)) by (apply Qcdiv_pos; [exact P|reflexivity]).
  assert (HH : Qcabs (g 0) / (1 + 1) + Qcabs (g 0) / (1 + 1) = Qcabs (g 0)) by (field; discriminate).
  assert (S : near0 (fun e => Qcabs (g 0) / (1 + 1) < Qcabs (g e))).
  { set (y := Qcabs (g 0) / (1 + 1)) in *. destruct (Qc_dec (g 0) 0) as [[L|L]|E]; [| |contradiction].
    - assert (A : Qcabs (g 0) = - g 0) by (apply Qcabs_neg, Qclt_le_weak, L). rewrite A in HH.
      eapply near0_impl; [|apply (D_lt _ _ (- y) H); qclra]. cbn. intros e h. assert (h2 := Qcle_Qcabs (- g e)). rewrite Qcabs_opp in h2. qclra.
    - assert (A : Qcabs (g 0) = g 0) by (apply Qcabs_pos, Qclt_le_weak, L). rewrite A in HH.
      eapply near0_impl; [|apply (D_gt _ _ y H); qclra]. cbn. intros e h. assert (h2 := Qcle_Qcabs (g e)). qclra. }
  eapply near0_impl; [|exact S]. cbn. intros e He. set (y := Qcabs (g 0) / (1 + 1)) in *.
  assert (Ne : g e <> 0). { intros E. rewrite E, abs0 in He. qclra. }
  assert (I := Qcabs_inv (g e) Ne). set (q := Qcabs (g e)) in *. set (p := Qcabs (/ g e)) in *.
  assert (I2 : / y * y = 1) by (rewrite Qcmult_comm; apply Qcmult_inv_r, Qc_pos_neq0, P2).
  assert (Pi : 0 < / y) by (apply Qcinv_pos, P2). assert (Pp : 0 <= p) by apply Qcabs_nonneg. set (i := / y) in *.
  clearbody i p q y. clear - I He I2 Pi Pp P2.
  destruct (Qc_le_or_lt p i) as [L|L]; [exact L|exfalso].
  assert (i * y < p * q); [|rewrite I, I2 in H; revert H; apply Qcle_not_lt, Qcle_refl].
  apply (Qclt_trans _ (p * y)); [apply Qcmult_lt_compat_r; assumption|]. rewrite (Qcmult_comm p y), (Qcmult_comm p q).
  apply Qcmult_lt_compat_r; [|exact He]. apply (Qclt_trans _ i); assumption.
Qed.
Lemma D_inv g d : derivative_at_0 g d -> g 0 <> 0 -> derivative_at_0 (fun e => / g e) (- d / (g 0 * g 0)).
Proof.
  intros H N. assert (BI := bnd_inv g d H N). assert (NZ := D_neq0 g d H N). destruct (deriv_elim _ _ H) as [p [Bp Ep]].
  apply (deriv_intro _ _ (fun e => (d * (d + e * p e) - g 0 * p e) * / g e * / (g 0 * g 0))); [bnd|].
  eapply near0_impl; [|apply (near0_and _ _ Ep NZ)]. cbn. intros e [H1 H2].
  assert (X : d + e * p e = (g e - g 0) / e \/ e = 0).
  { destruct (Qceqb_spec e 0) as [->|Ne]; [right; reflexivity|left]. rewrite H1. field. exact Ne. }
  destruct (Qceqb_spec e 0) as [->|Ne]; [field; exact N|]. 
  set (G := g e) in *. assert (P : p e = (G - g 0 - e * d) / (e * e)) by (rewrite H1; field; exact Ne). rewrite P. field. repeat split; assumption.
Qed.
Lemma D_div f g a b : derivative_at_0 f a -> derivative_at_0 g b -> g 0 <> 0 ->
  derivative_at_0 (fun e => f e / g e) ((a - (f 0 / g 0) * b) / g 0).
Proof.
  intros Hf Hg N. apply (D_eq _ (a * / g 0 + f 0 * (- b / (g 0 * g 0)))); [field; exact N|].
  apply (D_mul f (fun e => / g e) a _ Hf (D_inv g b Hg N)).
Qed.
Lemma D_unique f a b : derivative_at_0 f a -> derivative_at_0 f b -> a = b.
Proof.
  intros Ha Hb. destruct (deriv_elim _ _ Ha) as [p [Bp Ep]]. destruct (deriv_elim _ _ Hb) as [q [Bq Eq_]].
  destruct (bnd_sub _ _ Bq Bp) as [C [r [Hr HC]]]. destruct (near0_and _ _ Ep Eq_) as [s [Hs HS]].
  destruct (Qceqb_spec a b) as [E|N]; [exact E|exfalso].
  assert (P : 0 < Qcabs (a - b)).
  { destruct (Qc_le_or_lt (Qcabs (a - b)) 0) as [L|L]; [|exact L]. exfalso. apply N. assert (Z : a - b = 0) by (apply Qcabs_null, Qcle_antisym; [exact L|apply Qcabs_nonneg]).
    transitivity (a - b + b); [ring|rewrite Z; ring]. }
  assert (C0 : 0 <= C) by (eapply Qcle_trans; [apply Qcabs_nonneg|apply (HC 0); rewrite abs0; apply Qclt_le_weak, Hr]).
  destruct (Qcmin_ex r s Hr Hs) as [m [Hm [M1 M2]]].
  destruct (Qcmin_ex m (Qcabs (a - b) / (C + 1) / (1 + 1)) Hm) as [e [He [L1 L2]]]; [apply Qcdiv_pos; [apply Qcdiv_pos; [exact P|qclra]|reflexivity]|].
  assert (Ae : Qcabs e = e) by (apply Qcabs_pos, Qclt_le_weak, He).
  assert (Her : Qcabs e <= r) by (rewrite Ae; apply (Qcle_trans _ m); assumption).
  assert (H1 : Qcabs (q e - p e) <= C) by (exact (HC e Her)).
  assert (Hes : Qcabs e <= s) by (rewrite Ae; apply (Qcle_trans _ m); assumption).
  assert (H2 := HS e Hes). cbn beta in H2.
  destruct H2 as [H2 H3].
  assert (H4 : a - b = e * (q e - p e)).
  { assert (Z : e * (a - b - e * (q e - p e)) = 0). { transitivity (f e - f e); [|ring]. rewrite H2 at 1. rewrite H3. ring. }
    apply Qcmult_integral in Z. destruct Z as [Z|Z]; [exfalso; rewrite Z in He; revert He; apply Qcle_not_lt, Qcle_refl|].
    transitivity (a - b - e * (q e - p e) + e * (q e - p e)); [ring|rewrite Z; ring]. }
  assert (H5 : Qcabs (a - b) <= e * C) by (rewrite H4; apply abs_mul_le; [rewrite Ae; apply Qcle_refl|exact H1]).
  assert (H6 : e * C <= Qcabs (a - b) / (1 + 1)).
  { apply (Qcle_trans _ (e * (C + 1))); [qcnra|]. replace (Qcabs (a - b) / (1 + 1)) with (Qcabs (a - b) / (C + 1) / (1 + 1) * (C + 1)) by (field; split; [discriminate|apply Qc_pos_neq0; qclra]).
    apply Qcmult_le_compat_r; [exact L2|qclra]. }
  assert (H7 : Qcabs (a - b) / (1 + 1) + Qcabs (a - b) / (1 + 1) = Qcabs (a - b)) by (field; discriminate).
  set (y := Qcabs (a - b) / (1 + 1)) in *. set (x := Qcabs (a - b)) in *. clearbody x y. qclra.
Qed.
(** chain rule *)
Lemma D_comp (m g : Qc -> Qc) dm dg : derivative_at_0 (fun t => m (g 0 + t)) dm -> derivative_at_0 g dg -> derivative_at_0 (fun e => m (g e)) (dm * dg).
Proof.
  intros Hm Hg. destruct (D_lip _ _ Hg) as [u [Bu Eu]]. destruct (deriv_elim _ _ Hg) as [q [Bq Eq_]].
  destruct Hm as [r [B [rho [Hr Hm]]]].
  assert (SM : near0 (fun e => Qcabs (e * u e) <= r)).
  { destruct Bu as [U [s [Hs HU]]]. assert (P : 0 < Qcabs U + 1) by (assert (h := Qcabs_nonneg U); qclra).
    destruct (Qcmin_ex s (r / (Qcabs U + 1)) Hs) as [w [Hw [W1 W2]]]; [apply Qcdiv_pos; assumption|].
    exists w. split; [exact Hw|]. intros e He. apply (Qcle_trans _ (r / (Qcabs U + 1) * (Qcabs U + 1))); [|replace (r / (Qcabs U + 1) * (Qcabs U + 1)) with r by (field; apply Qc_pos_neq0, P); apply Qcle_refl].
    apply abs_mul_le; [eapply Qcle_trans; eassumption|]. eapply Qcle_trans; [apply HU; eapply Qcle_trans; eassumption|]. assert (h := Qcle_Qcabs U). qclra. }
  assert (E0 : m (g 0 + 0) = m (g 0)) by (f_equal; ring).
  apply (deriv_intro _ _ (fun e => dm * q e + u e * u e * rho (e * u e))).
  - apply bnd_add; [bnd|]. apply bnd_mul; [bnd|]. exists B. eapply near0_impl; [|exact SM]. cbn. intros e h. apply Hm, h.
  - eapply near0_impl; [|apply (near0_and _ _ SM (near0_and _ _ Eu Eq_))]. cbn. intros e [h1 [h2 h3]].
    destruct (Hm _ h1) as [h4 _]. rewrite E0 in h4. rewrite <- h2 in h4. rewrite h4. 
    assert (X : e * u e = e * dg + e * e * q e). { transitivity (g e - g 0); [rewrite h2; ring|rewrite h3; ring]. }
    transitivity (m (g 0) + e * u e * dm + e * u e * (e * u e) * rho (e * u e)); [reflexivity|]. rewrite X at 1. ring.
Qed.
