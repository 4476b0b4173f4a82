(** Model of the Wald pre-test of att_gt (did/att_gt.py:391-397, 444-486) and of the distributed back ends (dask/_did_mp.py:802-845,
    spark/_did_mp.py:819-861), and of the pre-test of cont_did (didcont/estimation/process_attgt.py:47-48, 62-84). Definitions only. Numbers are rationals; the numerical rank, the linear solver and the chi-square
    distribution function are inputs. NaN covariances do not occur for rational influence values. *)
From Verif Require Import Base ListLib AttGtModel AggteModel SeModel.

(** one estimated cell: group, period, estimate, influence values (att_gt.py:380-391) *)
Record wcell := { w_g : Z; w_t : Z; w_att : Qc; w_inf : list Qc }.
(** np.linalg.matrix_rank(V) = V.shape[0], np.linalg.solve, and round(1 - chi2.cdf(., q), 5) (att_gt.py:467, 477, 479);
    the unrounded p-value of cont_did (process_attgt.py:82) *)
Record woracle := { wo_full : list (list Qc) -> bool; wo_solve : list (list Qc) -> list Qc -> option (list Qc); wo_pval : Qc -> nat -> Qc; wo_pval_raw : Qc -> nat -> Qc }.
Inductive wald_result := WNone | WStat (stat : Qc) (q : nat) (pval : Qc).
(** variance_matrix[np.ix_(pre, pre)] (att_gt.py:452) *)
Definition wmat (n : nat) (pre : list wcell) : list (list Qc) := map (fun a => map (fun b => vcov n (w_inf a) (w_inf b)) pre) pre.
(** la.norm(V) == 0 (att_gt.py:466) *)
Definition wnorm0 (v : list (list Qc)) : bool := forallb (forallb (fun x => Qceqb x 0)) v.
(** lines 465-486, from the selected cells on *)
Definition wald_of (o : woracle) (n : nat) (pre : list wcell) : wald_result :=
  let v := wmat n pre in let a := map w_att pre in
  if wnorm0 v || negb (wo_full o v) then WNone
  else match wo_solve o v a with
       | Some x => let s := qn n * sumf (fun p => fst p * snd p) (combine a x) in WStat s (length pre) (wo_pval o s (length pre))
       | None => WNone
       end.
(** the analytical standard error of the cell is set to NaN (att_gt.py:393-394, 403) *)
Definition w_nan (n : nat) (c : wcell) : bool := match reported_se2 (se2 n (w_inf c)) with None => true | Some _ => false end.
(** att_gt.py:444-486: cells with group > time and a usable standard error *)
Definition wald (o : woracle) (n : nat) (cells : list wcell) : wald_result :=
  wald_of o n (filter (fun c => negb (w_nan n c)) (filter (fun c => (w_t c <? w_g c)%Z) cells)).
(** _compute_wald_pretest (dask/_did_mp.py:802-845): the standard errors are an argument; no selected cell returns early *)
Definition wald_dist (o : woracle) (n : nat) (se : wcell -> option Qc) (cells : list wcell) : wald_result :=
  let pre := filter (fun c => match se c with None => false | Some _ => true end) (filter (fun c => (w_t c <? w_g c)%Z) cells) in
  match pre with [] => WNone | _ => wald_of o n pre end.
(** process_att_gt (didcont/estimation/process_attgt.py:63-84): every cell with group > time is kept *)
Definition wald_cont (o : woracle) (n : nat) (cells : list wcell) : wald_result :=
  let pre := filter (fun c => (w_t c <? w_g c)%Z) cells in
  match pre with
  | [] => WNone
  | _ => if negb (wo_full o (wmat n pre)) then WNone
         else match wo_solve o (wmat n pre) (map w_att pre) with
              | Some x => let s := qn n * sumf (fun p => fst p * snd p) (combine (map w_att pre) x) in WStat s (length pre) (wo_pval_raw o s (length pre))
              | None => WNone
              end
  end.
(** the base cell of _process_pte_cell under base_period="universal" (didcont/estimation/process_panel.py:590-595) *)
Definition base_cell (n : nat) (g anticipation : Z) : wcell := {| w_g := g; w_t := g - 1 - anticipation; w_att := 0; w_inf := repeat 0 n |}.
