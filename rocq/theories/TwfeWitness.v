(** Concrete cases for C117-C118. No property content. *)
From Coq Require Import Qcabs.
From Verif Require Import Base ListLib ReduceModel Calc DrdidModel DrdidSpec DrdidProofs DrdidProofs2 DrdidWitness DrdidWitness2 Witness RcModel RcSpec TwfeModel TwfeSpec.

(** Gauss-Jordan elimination, with the result checked: an oracle for any number of regressors. *)
Definition row_sub (c : Qc) (a b : list Qc) : list Qc := map (fun p => fst p - c * snd p) (combine a b).
Definition gj_step (rows : list (list Qc)) (i : nat) : list (list Qc) :=
  let piv := nth i rows nil in let d := nth i piv 0 in
  let pr := map (fun v => v / d) piv in
  map (fun j => if (j =? i)%nat then pr else let r := nth j rows nil in row_sub (nth i r 0) r pr) (seq 0 (length rows)).
Definition gauss (k : nat) (rows : list (list Qc)) : list (list Qc) := fold_left gj_step (seq 0 k) rows.
Definition chk_ne (k : nat) (l : list punit) (beta : list Qc) : bool :=
  forallb (fun j => Qceqb (sumf (fun u => p_w u * (1 - p_D u) * (p_dy u - dotk k (p_x u) beta) * x_at u j) l) 0) (seq 0 k).
Definition chk_inv (k : nat) (M N : matrix) : bool :=
  forallb (fun i => forallb (fun j => Qceqb (mat_mul k M N i j) (ind (i =? j)%nat) && Qceqb (mat_mul k N M i j) (ind (i =? j)%nat)) (seq 0 k)) (seq 0 k).
Definition wit_twfe (k : nat) : oracle :=
  {| o_logit := fun _ => None; o_mu := fun z => z;
     o_wls := fun l => let aug := map (fun i => map (fun j => sumf (fun u => p_w u * (1 - p_D u) * x_at u i * x_at u j) l) (seq 0 k) ++ (sumf (fun u => p_w u * (1 - p_D u) * p_dy u * x_at u i) l :: nil)) (seq 0 k) in
       let beta := map (fun r => nth k r 0) (gauss k aug) in if chk_ne k l beta then Some beta else None;
     o_inv := fun M => let aug := map (fun i => map (fun j => mget M i j) (seq 0 k) ++ map (fun j => ind (i =? j)%nat) (seq 0 k)) (seq 0 k) in
       let N := map (skipn k) (gauss k aug) in if chk_inv k M N then Some N else None |}.
Lemma tw_add_pos (a b : Qc) : 0 < a -> 0 < b -> 0 < a + b.
Proof. intros A B. apply Qclt_le_trans with (y := a); [exact A|]. rewrite <- (Qcplus_0_r a) at 1. apply Qcplus_le_compat; [apply Qcle_refl|apply Qclt_le_weak, B]. Qed.

Lemma Qceqb_eq a b : Qceqb a b = true -> a = b.
Proof. destruct (Qceqb_spec a b); [auto|discriminate]. Qed.
Lemma wit_twfe_wls k : wls_ok (wit_twfe k) k.
Proof.
  intros l b E. cbn [wit_twfe o_wls] in E. cbn zeta in E. match type of E with (if ?c then Some ?v else None) = _ => destruct c eqn:C; [|discriminate]; injection E as <- end.
  intros j Hj. unfold chk_ne in C. rewrite forallb_forall in C. apply Qceqb_eq, C. apply in_seq. lia.
Qed.
Lemma wit_twfe_inv k : inv_ok (wit_twfe k) k.
Proof.
  intros M N E. cbn [wit_twfe o_inv] in E. cbn zeta in E. match type of E with (if ?c then Some ?v else None) = _ => destruct c eqn:C; [|discriminate]; injection E as <- end.
  intros i j Hi Hj. unfold chk_inv in C. rewrite forallb_forall in C. specialize (C i ltac:(apply in_seq; lia)). rewrite forallb_forall in C. specialize (C j ltac:(apply in_seq; lia)).
  apply andb_true_iff in C. destruct C as [C1 C2]. split; apply Qceqb_eq; assumption.
Qed.
(** five units with one covariate and unequal weights *)
Definition mkt (i : Z) (d : bool) (y1 y0 w x : Z) : punit := {| p_id := i; p_d := d; p_y1 := qz y1; p_y0 := qz y0; p_w := qz w; p_x := qz x :: nil |}.
Definition wit_tp : list punit := mkt 1 false 3 1 2 0 :: mkt 2 false 5 1 1 1 :: mkt 3 true 9 2 1 0 :: mkt 4 true 8 1 2 1 :: mkt 5 false 2 2 1 3 :: nil.
(** the same change in every unit of a group *)
Definition wit_tf : list punit := mkt 1 false 3 1 1 0 :: mkt 2 false 6 4 1 1 :: mkt 3 true 9 2 1 0 :: mkt 4 true 8 1 1 1 :: nil.

(** ** repeated cross-sections: one row per cell, two in the treated post cell *)
Definition mkr (i : Z) (d t : bool) (y : Z) : runit := {| r_id := i; r_d := d; r_post := t; r_y := qz y; r_w := 1; r_x := nil |}.
Definition wit_tr : list runit := mkr 1 false false 1 :: mkr 2 false true 3 :: mkr 3 true false 2 :: mkr 4 true true 7 :: mkr 5 true true 9 :: nil.
Definition wit_th (u : runit) : Qc := if (r_id u =? 5)%Z then 1 else 0.
Definition wit_trx : list runit := map (fun p => rset_x (qz (snd p) :: nil) (fst p)) (combine (wit_tr ++ map (fun u => {| r_id := r_id u + 5; r_d := r_d u; r_post := r_post u; r_y := r_y u + 1; r_w := qz 2; r_x := nil |}) wit_tr) (0 :: 1 :: 2 :: 3 :: 5 :: 1 :: 0 :: 4 :: 2 :: 2 :: nil)%Z).
Definition xs4 (r : punit) (a b c d : Qc) : bool := Qceqb (x_at r 0) a && Qceqb (x_at r 1) b && Qceqb (x_at r 2) c && Qceqb (x_at r 3) d && negb (p_d r).
Lemma xs4_ok r a b c d : xs4 r a b c d = true -> x_at r 0 = a /\ x_at r 1 = b /\ x_at r 2 = c /\ x_at r 3 = d /\ p_D r = 0.
Proof.
  unfold xs4. intros H. repeat (apply andb_true_iff in H; destruct H as [H ?]). repeat split; try (apply Qceqb_eq; assumption). unfold p_D. destruct (p_d r); [discriminate|reflexivity].
Qed.
Definition sat_wls (rows : list punit) : option (list Qc) :=
  match rows with
  | a :: b :: c :: d :: f :: nil =>
      if xs4 a 1 0 0 0 && xs4 b 1 1 0 0 && xs4 c 1 0 1 0 && xs4 d 1 1 1 1 && xs4 f 1 1 1 1 && negb (Qceqb (p_w d + p_w f) 0)
      then let m := (p_w d * p_dy d + p_w f * p_dy f) / (p_w d + p_w f) in
           Some (p_dy a :: (p_dy b - p_dy a) :: (p_dy c - p_dy a) :: (m - p_dy b - p_dy c + p_dy a) :: nil)
      else None
  | _ => None
  end.
Definition sat_inv (M : matrix) : option matrix :=
  let g i j := mget M i j in
  let w11 := g 3%nat 3%nat in let w10 := g 2%nat 2%nat - w11 in let w01 := g 1%nat 1%nat - w11 in let w00 := g 0%nat 0%nat - w10 - w01 - w11 in
  if forallb (fun q => Qceqb (g (fst q) (snd q)) w11) ((0, 3) :: (3, 0) :: (1, 3) :: (3, 1) :: (2, 3) :: (3, 2) :: (1, 2) :: (2, 1) :: nil)%nat
     && Qceqb (g 0%nat 1%nat) (g 1%nat 1%nat) && Qceqb (g 1%nat 0%nat) (g 1%nat 1%nat) && Qceqb (g 0%nat 2%nat) (g 2%nat 2%nat) && Qceqb (g 2%nat 0%nat) (g 2%nat 2%nat)
     && negb (Qceqb w00 0) && negb (Qceqb w01 0) && negb (Qceqb w10 0) && negb (Qceqb w11 0)
  then let a := / w00 in let b := / w01 in let c := / w10 in let d := / w11 in
    Some ((a :: - a :: - a :: a :: nil) :: (- a :: a + b :: a :: - a - b :: nil) :: (- a :: a :: a + c :: - a - c :: nil) :: (a :: - a - b :: - a - c :: a + b + c + d :: nil) :: nil)
  else None.
Definition wit_sat : oracle := {| o_logit := fun _ => None; o_mu := fun z => z; o_wls := sat_wls; o_inv := sat_inv |}.
Lemma wit_sat_wls : wls_ok wit_sat 4.
Proof.
  intros l bt E. cbn [wit_sat o_wls] in E. unfold sat_wls in E. destruct l as [|a [|b [|c [|d [|f [|? ?]]]]]]; try discriminate.
  match type of E with (if ?q then _ else _) = _ => destruct q eqn:C; [|discriminate] end. injection E as <-.
  do 5 (apply andb_true_iff in C; destruct C as [C ?]).
  repeat match goal with H : xs4 _ _ _ _ _ = true |- _ => apply xs4_ok in H; destruct H as [? [? [? [? ?]]]] end.
  assert (N : p_w d + p_w f <> 0) by (match goal with H : negb (Qceqb _ 0) = true |- _ => destruct (Qceqb_spec (p_w d + p_w f) 0); [discriminate H|assumption] end).
  intros j Hj. rewrite !sumf_cons, sumf_nil. unfold dotk. cbn [seq]. rewrite !sumf_cons, !sumf_nil. cbn [nth].
  change (nth 0 (p_x ?r) 0) with (x_at r 0). 
  unfold x_at in *. 
  destruct j as [|[|[|[|j]]]]; [| | | |lia];
  repeat match goal with H : nth _ (p_x _) _ = _ |- _ => rewrite H; clear H end; repeat match goal with H : p_D _ = 0 |- _ => rewrite H; clear H end; field; exact N.
Qed.
Lemma wit_sat_inv : inv_ok wit_sat 4.
Proof.
  intros M N E. cbn [wit_sat o_inv] in E. unfold sat_inv in E. cbn zeta in E.
  match type of E with (if ?q then _ else _) = _ => destruct q eqn:C; [|discriminate] end. injection E as <-.
  do 8 (apply andb_true_iff in C; destruct C as [C ?]). rewrite forallb_forall in C.
  assert (C' : forall q, In q ((0, 3) :: (3, 0) :: (1, 3) :: (3, 1) :: (2, 3) :: (3, 2) :: (1, 2) :: (2, 1) :: nil)%nat -> mget M (fst q) (snd q) = mget M 3 3) by (intros q Hq; apply Qceqb_eq, C, Hq). clear C.
  assert (E03 := C' (0, 3)%nat ltac:(cbn; tauto)). assert (E30 := C' (3, 0)%nat ltac:(cbn; tauto)). assert (E13 := C' (1, 3)%nat ltac:(cbn; tauto)). assert (E31 := C' (3, 1)%nat ltac:(cbn; tauto)).
  assert (E23 := C' (2, 3)%nat ltac:(cbn; tauto)). assert (E32 := C' (3, 2)%nat ltac:(cbn; tauto)). assert (E12 := C' (1, 2)%nat ltac:(cbn; tauto)). assert (E21 := C' (2, 1)%nat ltac:(cbn; tauto)). clear C'. cbn [fst snd] in *.
  repeat match goal with H : Qceqb _ _ = true |- _ => apply Qceqb_eq in H end.
  repeat match goal with H : negb (Qceqb ?x 0) = true |- _ => let H' := fresh "N" in assert (H' : x <> 0) by (destruct (Qceqb_spec x 0); [discriminate H|assumption]); clear H end.
  intros i j Hi Hj. unfold mat_mul. cbn [seq]. rewrite !sumf_cons, !sumf_nil.
  unfold mget in *. destruct i as [|[|[|[|i]]]]; try lia; (destruct j as [|[|[|[|j]]]]; try lia); cbn [nth ind Nat.eqb];
  rewrite ?E03, ?E30, ?E13, ?E31, ?E23, ?E32, ?E12, ?E21;
  repeat match goal with H : nth _ (nth ?i M _) _ = nth _ (nth ?j M _) _ |- _ => rewrite ?H; clear H end;
  revert N N0 N1 N2; generalize (nth 0 (nth 0 M []) 0) (nth 1 (nth 1 M []) 0) (nth 2 (nth 2 M []) 0) (nth 3 (nth 3 M []) 0); intros g0 g1 g2 g3 N N0 N1 N2; split; field; repeat split; assumption.
Qed.
Lemma half_bounds e : Qcabs e <= half -> 0 < 1 + e * 1.
Proof. intros He. apply Qcabs_Qcle_condition in He. destruct He as [He1 He2]. unfold half in *. clear He2. qclra. Qed.
Lemma wit_tr_est : near0 (fun e => has_est (twfe_did_rc wit_sat 0 (map (rreweight e wit_th) wit_tr))).
Proof.
  exists half. split; [reflexivity|]. intros e He. assert (P := half_bounds e He).
  set (c := 1 + e * 1) in *.
  assert (E : map (rreweight e wit_th) wit_tr = map (fun u => rset_w (if (r_id u =? 5)%Z then c else 1) u) wit_tr).
  { apply map_ext_in. intros u Hu. cbn in Hu. repeat (destruct Hu as [<-|Hu]; [unfold rreweight, wit_th; cbn [mkr r_id Z.eqb Pos.eqb r_w]; f_equal; unfold c; ring|]). destruct Hu. }
  rewrite E. clear E. set (l := map _ wit_tr). unfold twfe_did_rc.
  assert (N0 : rany_neg l = false).
  { unfold rany_neg, l. cbn [wit_tr map existsb rset_w mkr r_w r_id Z.eqb Pos.eqb]. destruct (Qcltb_spec c 0) as [L|_]; [exfalso; apply (Qclt_not_le _ _ L), Qclt_le_weak; exact P|reflexivity]. }
  rewrite N0. cbn [Nat.ltb Nat.leb andb]. cbn zeta. unfold rnormalise. set (m := mean r_w l).
  assert (Pm : 0 < m). { unfold m, l, mean. apply Qcdiv_pos; [|reflexivity]. apply sumf_pos; [|eexists; split; [left; reflexivity|reflexivity]]. intros a Ha. cbn in Ha. repeat (destruct Ha as [<-|Ha]; [first [discriminate|apply Qclt_le_weak; exact P]|]). destruct Ha. }
  assert (Pc : 0 < c / m) by (apply Qcdiv_pos; assumption). assert (P1 : 0 < 1 / m) by (apply Qcdiv_pos; [reflexivity|assumption]).
  unfold twfe_fit. cbn [wit_sat o_wls o_inv Nat.add].
  set (L := map rc_row _).
  assert (S : sat_wls L <> None).
  { set (rr := fun (i : Z) (d t : bool) (y : Z) (w : Qc) => rc_row (rset_w w (mkr i d t y))).
    change L with (rr 1%Z false false 1%Z (1 / m) :: rr 2%Z false true 3%Z (1 / m) :: rr 3%Z true false 2%Z (1 / m) :: rr 4%Z true true 7%Z (1 / m) :: rr 5%Z true true 9%Z (c / m) :: nil).
    assert (X : forall i d t y w, xs4 (rr i d t y w) 1 (ind t) (ind d) (ind d * ind t) = true) by (intros i d t y w; destruct d, t; reflexivity).
    assert (X1 := X 1%Z false false 1%Z (1 / m)). assert (X2 := X 2%Z false true 3%Z (1 / m)). assert (X3 := X 3%Z true false 2%Z (1 / m)). assert (X4 := X 4%Z true true 7%Z (1 / m)). assert (X5 := X 5%Z true true 9%Z (c / m)).
    cbn [ind] in X1, X2, X3, X4, X5. replace (0 * 0) with 0 in X1 by ring. replace (0 * 1) with 0 in X2 by ring. replace (1 * 0) with 0 in X3 by ring. replace (1 * 1) with 1 in X4, X5 by ring.
    unfold sat_wls. rewrite X1, X2, X3, X4, X5. cbn [andb].
    change (p_w (rr 4%Z true true 7%Z (1 / m))) with (1 / m). change (p_w (rr 5%Z true true 9%Z (c / m))) with (c / m).
    destruct (Qceqb_spec (1 / m + c / m) 0) as [Z0|_]; [|cbn [negb]; discriminate].
    exfalso. revert Z0. apply Qc_pos_neq0. apply tw_add_pos; assumption. }
  assert (T : sat_inv (ols_gram 4 L) <> None).
  { set (r := fun (q : nat) (i : nat) => nth i (nth q ((1 :: 0 :: 0 :: 0 :: nil) :: (1 :: 1 :: 0 :: 0 :: nil) :: (1 :: 0 :: 1 :: 0 :: nil) :: (1 :: 1 :: 1 :: 1 :: nil) :: nil) nil) 0).
    assert (G : forall i j, (i < 4)%nat -> (j < 4)%nat -> mget (ols_gram 4 L) i j = (1 / m * (r 0%nat i * r 0%nat j + r 1%nat i * r 1%nat j + r 2%nat i * r 2%nat j + r 3%nat i * r 3%nat j) + c / m * (r 3%nat i * r 3%nat j)) / qn 5).
    { intros i j Hi Hj. unfold ols_gram. rewrite mget_mat_of by assumption. unfold mean. unfold L, l. cbn [wit_tr map rset_w mkr r_w r_id Z.eqb Pos.eqb length]. rewrite !sumf_cons, sumf_nil.
      f_equal. unfold p_D, x_at. cbn [rc_row p_x p_d p_w r_P r_D r_post r_d rset_w mkr ind r_w r_id Z.eqb Pos.eqb r_x]. unfold r. cbn [nth]. 
      destruct i as [|[|[|[|i]]]]; try lia; (destruct j as [|[|[|[|j]]]]; try lia); cbn [nth]; ring. }
    assert (H5 : qn 5 <> 0) by discriminate. assert (P5 : 0 < qn 5) by reflexivity.
    assert (A1 : 0 < 1 / m / qn 5) by (apply Qcdiv_pos; assumption). assert (A2 : 0 < (1 / m + c / m) / qn 5). { apply Qcdiv_pos; [|assumption]. apply tw_add_pos; assumption. }
    apply Qc_pos_neq0 in A1. apply Qc_pos_neq0 in A2.
    unfold sat_inv. cbn zeta. cbn [forallb fst snd]. rewrite !G by lia. unfold r. cbn [nth].
    assert (Q : forall x y : Qc, x = y -> Qceqb x y = true) by (intros x y ->; destruct (Qceqb_spec y y); congruence).
    assert (Q0 : forall x y : Qc, x = y -> y <> 0 -> negb (Qceqb x 0) = true) by (intros x y -> Hy; destruct (Qceqb_spec y 0); [contradiction|reflexivity]).
    match goal with |- (if ?q then _ else _) <> None => assert (X : q = true); [|rewrite X; discriminate] end.
    repeat (apply andb_true_iff; split); first [reflexivity|apply Q; unfold Qcdiv; ring|apply (Q0 _ _ ltac:(instantiate (1 := 1 / m / qn 5); unfold Qcdiv; ring) A1)|apply (Q0 _ ((1 / m + c / m) / qn 5)); [unfold Qcdiv; ring|exact A2]|apply (Q0 _ (1 / m / qn 5)); [unfold Qcdiv; ring|exact A1]]. }
  destruct (sat_wls L); [|congruence]. destruct (sat_inv (ols_gram 4 L)); [|congruence]. eexists; eexists; reflexivity.
Qed.
