(** Model of one distributed DiD cell: moderndid/distributed/_did_partition.py and
    moderndid/dask/_did_streaming.py:34-206 (panel data, CPU). Definitions only.
    A partition is the list of its units; the numerical routines (IRLS fit, solve, inverse) are inputs; [None] is an
    exception they raise. *)
From Verif Require Import Base ReduceModel DrdidModel.

Inductive method := MDr | MReg | MIpw.

Definition qmin (a b : Qc) : Qc := if Qcltb b a then b else a.
Definition eps10 : Qc := Q2Qc (1 # 10000000000).
(** propensity score: ones for reg; otherwise clip(mu, 1e-10, 1 - 1e-10), then minimum with 1 - 1e-6
    (_did_partition.py:204-211, 285-292) *)
Definition dist_ps (m : method) (mu : Qc -> Qc) (k : nat) (gamma : list Qc) (u : punit) : Qc :=
  match m with MReg => 1 | _ => qmin (clip eps10 (1 - eps10) (mu (dotk k (p_x u) gamma))) (1 - eps6) end.
(** keep_ps (_did_partition.py:206, 212-213) *)
Definition dist_keep (m : method) (tl : Qc) (ps : punit -> Qc) (u : punit) : Qc :=
  match m with MReg => 1 | _ => if p_d u then 1 else ind (Qcltb (ps u) tl) end.
(** or_delta (_did_partition.py:216, 296) *)
Definition dist_out (m : method) (k : nat) (beta : list Qc) (u : punit) : Qc :=
  match m with MIpw => 0 | _ => dotk k (p_x u) beta end.
(** w_treat, w_control (_did_partition.py:218-219, 298-299) *)
Definition dist_wt (m : method) (tl : Qc) (ps : punit -> Qc) (u : punit) : Qc := dist_keep m tl ps u * p_D u * p_w u.
Definition dist_wc (m : method) (tl : Qc) (ps : punit -> Qc) (u : punit) : Qc :=
  match m with
  | MReg => dist_keep m tl ps u * (1 - p_D u) * p_w u
  | _ => dist_keep m tl ps u * ps u * (1 - p_D u) / (1 - ps u) * p_w u
  end.

(** the dict of _partition_did_global_stats (_did_partition.py:224-247) *)
Record gstats := { s_wt : Qc; s_wc : Qc; s_rt : Qc; s_rc : Qc; s_n : nat; s_wtX : list Qc; s_wcX : list Qc;
                   s_wcrX : list Qc; s_xpx : matrix; s_info : matrix }.
Definition sum_col (k : nat) (f : punit -> Qc) (l : list punit) : list Qc := vec_of k (fun j => sumf (fun u => f u * x_at u j) l).
(** weighted_gram(X, w) without response: X.T @ (w X) (C04 models its tiling) *)
Definition wgram (k : nat) (f : punit -> Qc) (l : list punit) : matrix :=
  mat_of k (fun i j => sumf (fun u => x_at u i * f u * x_at u j) l).
(** _partition_did_global_stats (_did_partition.py:183-247); an empty partition gives None *)
Definition partition_stats (m : method) (mu : Qc -> Qc) (k : nat) (tl : Qc) (gamma beta : list Qc) (l : list punit) : option gstats :=
  let ps := dist_ps m mu k gamma in
  let wt := dist_wt m tl ps in let wc := dist_wc m tl ps in
  let r := fun u => p_dy u - dist_out m k beta u in
  match l with
  | [] => None
  | _ => Some {| s_wt := sumf wt l; s_wc := sumf wc l; s_rt := sumf (fun u => wt u * r u) l; s_rc := sumf (fun u => wc u * r u) l;
                 s_n := length l; s_wtX := sum_col k wt l; s_wcX := sum_col k wc l; s_wcrX := sum_col k (fun u => wc u * r u) l;
                 s_xpx := wgram k (fun u => (1 - p_D u) * p_w u) l;
                 s_info := match m with MReg => mat_of k (fun _ _ => 0) | _ => wgram k (fun u => p_w u * ps u * (1 - ps u)) l end |}
  end.
(** sum_global_stats (distributed/_utils.py:39-64); every entry of these dicts is present *)
Definition add_gstats (a b : gstats) : gstats :=
  {| s_wt := s_wt a + s_wt b; s_wc := s_wc a + s_wc b; s_rt := s_rt a + s_rt b; s_rc := s_rc a + s_rc b; s_n := (s_n a + s_n b)%nat;
     s_wtX := vadd (s_wtX a) (s_wtX b); s_wcX := vadd (s_wcX a) (s_wcX b); s_wcrX := vadd (s_wcrX a) (s_wcrX b);
     s_xpx := madd (s_xpx a) (s_xpx b); s_info := madd (s_info a) (s_info b) |}.
Definition sum_global_stats (a b : option gstats) : option gstats :=
  match a, b with None, _ => b | _, None => a | Some x, Some y => Some (add_gstats x y) end.

(** numerical routines of the driver: IRLS fit over the partitions, np.linalg.solve, matrix inverse (inv, solve against the
    identity, or pinv) *)
Record dist_oracle := { d_irls : list (list punit) -> option (list Qc); d_mu : Qc -> Qc;
                        d_solve : matrix -> list Qc -> option (list Qc); d_inv : matrix -> option matrix }.

(** _partition_did_or_gram (_did_partition.py:165-180) *)
Definition or_row (u : punit) : drow := {| dx := p_x u; dw := p_w u; dy := p_dy u |}.
Definition or_gram (k : nat) (l : list punit) : option gram3 :=
  match filter (fun u => negb (p_d u)) l with [] => None | c => Some (partition_gram k (map or_row c)) end.
(** distributed_wls_from_futures (dask/_regression.py:127-159). When every partition returns None the unpacking of None
    raises a TypeError (not the documented ValueError): None here. [fan] is tree_reduce's split_every. *)
Definition dist_wls (o : dist_oracle) (k fan : nat) (parts : list (list punit)) : option (list Qc) :=
  match tree_reduce (length parts) sum_gram_pair_or_none fan (map (or_gram k) parts) with
  | TROk (Some (a, b, _)) => d_solve o a b
  | _ => None
  end.

(** _finalize_global_stats (_did_partition.py:943-1018). Outer None: an exception; inner None: no data. *)
Record gagg := { g_wt : Qc; g_wc : Qc; g_at : Qc; g_ac : Qc; g_att : Qc; g_hm2 : list Qc; g_xim1 : list Qc; g_xim3 : list Qc }.
Definition finalize (o : dist_oracle) (m : method) (k : nat) (agg : option gstats) : option (option gagg) :=
  match agg with
  | None => Some None
  | Some s =>
      if (s_n s =? 0)%nat then Some None else
      let n := qn (s_n s) in
      let mt := s_wt s / n in let mc := s_wc s / n in
      let at_ := if Qcltb 0 mt then s_rt s / n / mt else 0 in
      let ac := if Qcltb 0 mc then s_rc s / n / mc else 0 in
      let m2 := vec_of k (fun j => (nth j (s_wcrX s) 0 - ac * nth j (s_wcX s) 0) / n) in
      let zeros := vec_of k (fun _ => 0) in
      let hm2 := match m with MReg => Some zeros
                 | _ => option_map (fun H => mv k (mscale n H) m2) (d_inv o (s_info s)) end in
      let xx := match m with MIpw => Some (zeros, zeros)
                | _ => option_map (fun X => (mv k X (vec_of k (fun j => nth j (s_wtX s) 0 / n)), mv k X (vec_of k (fun j => nth j (s_wcX s) 0 / n))))
                         (d_inv o (mscale (1 / n) (s_xpx s))) end in
      match hm2, xx with
      | Some h, Some (x1, x3) => Some (Some {| g_wt := mt; g_wc := mc; g_at := at_; g_ac := ac; g_att := at_ - ac; g_hm2 := h; g_xim1 := x1; g_xim3 := x3 |})
      | _, _ => None
      end
  end.

(** _partition_compute_did_if (_did_partition.py:250-330), one unit *)
Definition dist_if (m : method) (mu : Qc -> Qc) (k : nat) (tl : Qc) (gamma beta : list Qc) (g : gagg) (u : punit) : Qc :=
  let ps := dist_ps m mu k gamma in
  let wt := dist_wt m tl ps u in let wc := dist_wc m tl ps u in
  let r := p_dy u - dist_out m k beta u in
  let cont_ps := match m with MReg => 0 | _ => dotk k (vscale (p_w u * (p_D u - ps u)) (p_x u)) (g_hm2 g) end in
  let or_ex := vscale ((1 - p_D u) * p_w u * r) (p_x u) in
  let treat_or := match m with MIpw => 0 | _ => - dotk k or_ex (g_xim1 g) end in
  let cont_or := match m with MIpw => 0 | _ => - dotk k or_ex (g_xim3 g) end in
  (wt * r - wt * g_at g + treat_or) / g_wt g - (wc * r - wc * g_ac g + cont_ps + cont_or) / g_wc g.

(** inf_func_mat[indices[valid], counter] = ...: write by unit identifier; ids not in unique_ids are skipped
    (_did_streaming.py:193-203; searchsorted on the sorted distinct ids) *)
Definition write_id (ids : list Z) (col : list Qc) (p : Z * Qc) : list Qc :=
  map (fun q => if (fst q =? fst p)%Z then snd p else snd q) (combine ids col).

Inductive cell_result := CSkip | CRaise | CDone (att : Qc) (column : list Qc).
(** streaming_did_cell_single_control (_did_streaming.py:130-206); [parts] the merged partitions, [completed] the same
    partitions in the order their influence tasks complete, [ids] the sorted distinct ids of the panel. *)
Definition dist_cell (o : dist_oracle) (m : method) (k fan : nat) (tl : Qc) (ids : list Z) (parts completed : list (list punit)) : cell_result :=
  if (length (concat parts) =? 0)%nat then CSkip else
  match parts with
  | [] | [] :: _ => CSkip                              (* part_futures[0].result() is None *)
  | _ =>
      let gamma := match m with MReg => Some (vec_of k (fun _ => 0)) | _ => d_irls o parts end in
      let beta := match m with MIpw => Some (vec_of k (fun _ => 0)) | _ => dist_wls o k fan parts end in
      match gamma, beta with
      | Some gamma, Some beta =>
          match tree_reduce (length parts) sum_global_stats fan (map (partition_stats m (d_mu o) k tl gamma beta) parts) with
          | TROk agg =>
              match finalize o m k agg with
              | None => CRaise
              | Some None => CSkip
              | Some (Some g) =>
                  let scale := qn (length ids) / qn (length (concat parts)) in
                  CDone (g_att g)
                    (fold_left (write_id ids)
                       (flat_map (map (fun u => (p_id u, scale * dist_if m (d_mu o) k tl gamma beta g u))) completed)
                       (map (fun _ => 0) ids))
              end
          | _ => CRaise
          end
      | _, _ => CRaise
      end
  end.
