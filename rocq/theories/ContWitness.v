(** An exact least-squares routine and matrix inverse, to exhibit concrete cases: Gauss-Jordan elimination, checked. *)
From Verif Require Import Base ListLib ReduceModel DrdidModel DrdidSpec SplineModel SplineSpec SplineProofs4 ContModel ContSpec ContProofs3.
From Coq Require Import Sorting.Sorted.

Definition axpy (a : Qc) (x y : list Qc) : list Qc := map (fun p => snd p - a * fst p) (combine x y).
Fixpoint pick (c : nat) (l : list (list Qc)) : option (list Qc * list (list Qc)) :=
  match l with
  | [] => None
  | r :: q => if Qceqb (nth c r 0) 0 then match pick c q with Some (p, q') => Some (p, r :: q') | None => None end else Some (r, q)
  end.
Fixpoint gj (fuel c : nat) (done todo : list (list Qc)) : option (list (list Qc)) :=
  match fuel with
  | O => Some done
  | S f => match pick c todo with
           | None => None
           | Some (p, q) => let p' := vscale (1 / nth c p 0) p in
               let cl := map (fun r => axpy (nth c r 0) p' r) in gj f (S c) (cl done ++ [p']) (cl q)
           end
  end.
Definition gj_inv (k : nat) (M : matrix) : option matrix :=
  match gj k 0 [] (map (fun p => snd p ++ map (fun j => ind (fst p =? j)%nat) (seq 0 k)) (combine (seq 0 k) M)) with
  | Some R => Some (map (skipn k) R) | None => None
  end.
Definition check_inv (k : nat) (M N : matrix) : bool :=
  forallb (fun i => forallb (fun j => Qceqb (mat_mul k M N i j) (ind (i =? j)%nat) && Qceqb (mat_mul k N M i j) (ind (i =? j)%nat)) (seq 0 k)) (seq 0 k).
Definition exact_inv (M : matrix) : option matrix :=
  match gj_inv (length M) M with Some N => if check_inv (length M) M N then Some N else None | None => None end.
Definition exact_lstsq (X : list (list Qc)) (y : list Qc) : option (list Qc) :=
  let k := length (hd [] X) in
  match exact_inv (mat_of k (fun a b => sumf (fun x => nth a x 0 * nth b x 0) X)) with
  | Some N => Some (mv k N (vec_of k (fun j => sumf (fun p => nth j (fst p) 0 * snd p) (combine X y))))
  | None => None
  end.
Definition exact : coracle := {| co_lstsq := exact_lstsq; co_inv := exact_inv |}.

Lemma exact_inv_ok : cinv_ok (co_inv exact).
Proof.
  intros M N k H L. cbn in H. unfold exact_inv in H. destruct (gj_inv (length M) M) as [N'|]; [|discriminate]. rewrite L in H.
  destruct (check_inv k M N') eqn:C; [|discriminate]. injection H as <-. intros i j Hi Hj. unfold check_inv in C. rewrite forallb_forall in C.
  specialize (C i ltac:(apply in_seq; lia)). rewrite forallb_forall in C. specialize (C j ltac:(apply in_seq; lia)). apply andb_prop in C. destruct C as [C1 C2].
  destruct (Qceqb_spec (mat_mul k M N' i j) (ind (i =? j)%nat)); [|discriminate]. destruct (Qceqb_spec (mat_mul k N' M i j) (ind (i =? j)%nat)); [|discriminate]. auto.
Qed.
Lemma nth_seq_map (f : nat -> Qc) n j : (j < n)%nat -> nth j (map f (seq 0 n)) 0 = f j.
Proof. intros H. rewrite (nth_indep _ 0 (f 0%nat)) by (rewrite map_length, seq_length; lia). rewrite (map_nth f), seq_nth by lia. reflexivity. Qed.
Lemma mget_mat_of k f i j : (i < k)%nat -> (j < k)%nat -> mget (mat_of k f) i j = f i j.
Proof.
  intros Hi Hj. unfold mget, mat_of. rewrite (nth_indep _ [] (map (f 0%nat) (seq 0 k))) by (rewrite map_length, seq_length; lia).
  rewrite (map_nth (fun i => map (f i) (seq 0 k))), seq_nth by lia. now apply nth_seq_map.
Qed.
Lemma sumf_ind_nth (f : nat -> Qc) i n : (i < n)%nat -> sumf (fun b => ind (i =? b)%nat * f b) (seq 0 n) = f i.
Proof.
  intros H. assert (S : forall s m, (s <= i < s + m)%nat -> sumf (fun b => ind (i =? b)%nat * f b) (seq s m) = f i).
  { intros s m. revert s. induction m as [|m IH]; intros s Hm; [lia|]. cbn [seq]. rewrite sumf_cons. destruct (Nat.eqb_spec i s) as [->|N].
    - rewrite sumf_zero; [unfold ind; ring|]. intros b Hb. apply in_seq in Hb. destruct (Nat.eqb_spec s b); [lia|]. unfold ind. ring.
    - rewrite IH by lia. unfold ind. ring. }
  apply S. lia.
Qed.
Lemma exact_lstsq_ok : lstsq_ok (co_lstsq exact).
Proof.
  split.
  - intros X y c k H Xne Len Rows. cbn in H. unfold exact_lstsq in H.
    assert (E : length (hd [] X) = k). { destruct X as [|x X]; [easy|]. apply Rows. now left. }
    rewrite E in H. set (G := mat_of k (fun a b => sumf (fun x => nth a x 0 * nth b x 0) X)) in *.
    destruct (exact_inv G) as [N|] eqn:I; [|discriminate]. injection H as <-.
    assert (Iv : is_inverse k G N). { apply exact_inv_ok; [exact I|]. unfold G, mat_of. now rewrite map_length, seq_length. }
    set (v := fun j => sumf (fun p => nth j (fst p) 0 * snd p) (combine X y)).
    assert (Lc : length (mv k N (vec_of k v)) = k) by (unfold mv; now rewrite map_length, seq_length).
    split; [exact Lc|]. intros j Hj.
    set (c := mv k N (vec_of k v)) in *.
    assert (Cb : forall b, (b < k)%nat -> nth b c 0 = sumf (fun l => mget N b l * v l) (seq 0 k)).
    { intros b Hb. unfold c, mv. rewrite nth_seq_map by exact Hb. apply sumf_ext. intros l Hl. apply in_seq in Hl. unfold vec_of. now rewrite nth_seq_map by lia. }
    rewrite (sumf_ext _ (fun p => nth j (fst p) 0 * snd p - sumf (fun b => nth j (fst p) 0 * nth b (fst p) 0 * nth b c 0) (seq 0 k))).
    2:{ intros [x z] Hp. cbn [fst snd]. apply in_combine_l in Hp. rewrite <- (dotk_dotl k); [|now apply Rows|exact Lc]. unfold dotk.
        rewrite (sumf_ext (fun b => nth j x 0 * nth b x 0 * nth b c 0) (fun b => nth j x 0 * (nth b x 0 * nth b c 0))) by (intros; ring). rewrite sumf_mul_l. ring. }
    rewrite sumf_sub. fold (v j). rewrite sumf_swap.
    rewrite (sumf_ext _ (fun b => mget G j b * sumf (fun l => mget N b l * v l) (seq 0 k))).
    2:{ intros b Hb. apply in_seq in Hb. rewrite sumf_mul_r, Cb by lia. f_equal. unfold G. rewrite mget_mat_of by lia.
        clear -Len. revert y Len. induction X as [|x X IH]; intros [|z y] L; cbn in L; try discriminate; [reflexivity|]. cbn [combine]. rewrite !sumf_cons. cbn [fst]. f_equal. apply IH. lia. }
    rewrite (sumf_ext _ (fun b => sumf (fun l => mget G j b * mget N b l * v l) (seq 0 k))) by (intros b _; rewrite <- sumf_mul_l; apply sumf_ext; intros; ring).
    rewrite sumf_swap. rewrite (sumf_ext _ (fun l => ind (j =? l)%nat * v l)).
    2:{ intros l Hl. apply in_seq in Hl. rewrite sumf_mul_r. f_equal. apply (Iv j l); lia. }
    rewrite sumf_ind_nth by exact Hj. ring.
  - intros X y y' _. cbn. unfold exact_lstsq. destruct (exact_inv _); [discriminate|reflexivity].
Qed.

(** Executable form of [panel_ok]. *)
Fixpoint sortedb (l : list Z) : bool := match l with a :: (b :: _) as r => (a <? b)%Z && sortedb r | _ => true end.
Lemma sortedb_ok l : sortedb l = true -> StronglySorted Z.lt l.
Proof.
  intros H. apply Sorted_StronglySorted; [intros x y z; lia|]. induction l as [|a l IH]; [constructor|]. destruct l as [|b l]; [repeat constructor|].
  cbn [sortedb] in H. apply andb_prop in H. destruct H as [H1 H2]. constructor; [now apply IH|]. constructor. now apply Z.ltb_lt.
Qed.
Definition unit_okb (ant : Z) (T : nat) (u : cunit) : bool :=
  match k_g u with
  | None => Qceqb (k_dose u) 0
  | Some g => (2 + ant <=? g)%Z && (g <=? Z.of_nat T)%Z && Qcltb 0 (k_dose u)
  end && Qcltb 0 (k_w u).
Definition panel_okb (ant : Z) (T : nat) (us : list cunit) : bool :=
  (2 <=? T)%nat && (0 <=? ant)%Z && negb (length us =? 0)%nat && sortedb (map k_id us) && forallb (unit_okb ant T) us.
Lemma panel_okb_ok ant T us : panel_okb ant T us = true -> panel_ok ant T us.
Proof.
  unfold panel_okb. rewrite !andb_true_iff. intros [[[[H1 H2] H3] H4] H5]. split; [now apply Nat.leb_le|]. split; [now apply Z.leb_le|].
  split; [intros ->; discriminate|]. split; [now apply sortedb_ok|]. intros u Hu. rewrite forallb_forall in H5. specialize (H5 u Hu). unfold unit_okb in H5.
  apply andb_prop in H5. destruct H5 as [H5 H6]. split.
  - destruct (k_g u) as [g|].
    + rewrite !andb_true_iff in H5. destruct H5 as [[A B] C]. split; [now apply Z.leb_le|]. split; [now apply Z.leb_le|]. destruct (Qcltb_spec 0 (k_dose u)); [assumption|discriminate].
    + destruct (Qceqb_spec (k_dose u) 0); [assumption|discriminate].
  - destruct (Qcltb_spec 0 (k_w u)); [assumption|discriminate].
Qed.
Ltac by_panel := apply panel_okb_ok; vm_compute; reflexivity.

Definition mkc (i : Z) (g : option Z) (d : Z) (y : Z -> Qc) : cunit := {| k_id := i; k_g := g; k_dose := qz d; k_w := 1; k_y := y |}.
Definition opts (nyt : bool) (ant : Z) (deg nk : nat) (dv : list Qc) : copts :=
  {| co_nyt := nyt; co_ant := ant; co_univ := false; co_deg := deg; co_nknots := nk; co_dvals := Some dv |}.
(** Two cohorts with five dose levels each and two never-treated units; arbitrary-looking outcomes. *)
Definition noise (i t : Z) : Qc := qz (((i * i * 7 + t * t * 3 + i * t * 5) mod 11)%Z).
Definition wit_panel : list cunit :=
  map (fun p => let '(i, g, d) := p in mkc i g d (noise i))
    [(1, Some 2, 1); (2, Some 2, 2); (3, Some 2, 3); (4, Some 2, 4); (5, Some 2, 6);
     (6, Some 3, 1); (7, Some 3, 2); (8, Some 3, 4); (9, Some 3, 5); (10, Some 3, 6); (11, None, 0); (12, None, 0)]%Z.
Definition with_y (y : cunit -> Z -> Qc) (u : cunit) : cunit := {| k_id := k_id u; k_g := k_g u; k_dose := k_dose u; k_w := k_w u; k_y := y u |}.
Definition all_est (x : cont_out) : bool :=
  match x with ContOk r => forallb (fun c => match pc_out c with CEst _ => true | _ => false end) (r_cells r) | _ => false end.
Definition result_of (x : cont_out) : cont_result :=
  match x with ContOk r => r | _ => {| r_cells := []; r_weights := []; r_dose := []; r_att := 0; r_acrt := 0; r_att_d := None; r_acrt_d := None;
    r_att_inf := []; r_acrt_inf := []; r_att_d_inf := []; r_acrt_d_inf := [] |} end.
Lemma all_est_ok x : all_est x = true -> x = ContOk (result_of x) /\ forall c, In c (r_cells (result_of x)) -> exists e, pc_out c = CEst e.
Proof.
  destruct x as [| |r]; try discriminate. cbn. intros H. split; [reflexivity|]. intros c Hc. rewrite forallb_forall in H. specialize (H c Hc).
  destruct (pc_out c); try discriminate. eauto.
Qed.
Fixpoint qlist_eqb (a b : list Qc) : bool := match a, b with [], [] => true | x :: a', y :: b' => Qceqb x y && qlist_eqb a' b' | _, _ => false end.
Lemma qlist_eqb_eq : forall a b, qlist_eqb a b = true -> a = b.
Proof.
  induction a as [|x a IH]; intros [|y b] H; cbn in H; try discriminate; [reflexivity|]. apply andb_prop in H. destruct H as [H1 H2]. f_equal; [|now apply IH].
  destruct (Qceqb_spec x y); [assumption|discriminate].
Qed.
