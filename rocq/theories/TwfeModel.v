(** Model of moderndid/drdid/estimators/twfe_did_panel.py and twfe_did_rc.py (numpy backend, boot=False). Definitions only.
    Numbers are rationals; the condition-number test before the matrix inverse is part of [o_inv]. Rows of the regression are
    [punit]s with p_d = false, so that [o_wls] is the weighted least squares of p_y1 on p_x over all rows. *)
From Verif Require Import Base ReduceModel DrdidModel RcModel.

(** _stack_data and the design matrix [1, d, post, d * post, x] (twfe_did_panel.py:240-264), one row *)
Definition stack_row (post : bool) (u : punit) : punit :=
  {| p_id := p_id u; p_d := false; p_y1 := if post then p_y1 u else p_y0 u; p_y0 := 0; p_w := p_w u;
     p_x := 1 :: p_D u :: ind post :: p_D u * ind post :: p_x u |}.
Definition stack (l : list punit) : list punit := map (stack_row false) l ++ map (stack_row true) l.
(** _fit_twfe_regression (twfe_did_panel.py:266-297, twfe_did_rc.py:202-236): coefficient 3 and its influence values *)
Definition twfe_fit (o : oracle) (k : nat) (rows : list punit) : pan_result :=
  match o_wls o rows with
  | None => PRaise
  | Some beta =>
      match o_inv o (ols_gram k rows) with
      | None => PRaise
      | Some M => PEst (nth 3 beta 0) (map (fun r => nth 3 (alr_wols k (fun r => dotk k (p_x r) beta) M r) 0) rows)
      end
  end.
Definition set_x (x : list Qc) (u : punit) : punit :=
  {| p_id := p_id u; p_d := p_d u; p_y1 := p_y1 u; p_y0 := p_y0 u; p_w := p_w u; p_x := x |}.
(** twfe_did_panel with [p] covariate columns, 0 for covariates=None (twfe_did_panel.py:103-189, 214-237): a leading column of ones
    is dropped; without columns ordid is called on the stacked data, which keeps units and weights, requires both groups
    (core/preprocess/validators.py:335-354) and runs reg_did_panel on an intercept. *)
Definition twfe_did_panel (o : oracle) (p : nat) (l0 : list punit) : pan_result :=
  if any_neg l0 then PRaise else
  let l1 := normalise l0 in
  let const := (0 <? p)%nat && forallb (fun u => Qceqb (x_at u 0) 1) l1 in
  let p' := if const then (p - 1)%nat else p in
  let l := if const then map (fun u => set_x (tl (p_x u)) u) l1 else l1 in
  if (p' =? 0)%nat then
    if two_groups l then reg_did_panel o 1 (map (set_x [1]) l) else PRaise
  else if negb (existsb p_d l) then PEst 0 (map (fun _ => 0) (stack l))
  else if negb (existsb (fun u => negb (p_d u)) l) then PRaise
  else twfe_fit o (4 + p') (stack l).
(** np.std(inf, ddof=1) / sqrt(len) squared (twfe_did_panel.py:120, twfe_did_rc.py:99) *)
Definition se2 (inf : list Qc) : Qc :=
  let n := qn (length inf) in
  sumf (fun v => (v - qsum inf / n) * (v - qsum inf / n)) inf / (n - 1) / n.

(** design matrix [1, post, d, d * post, x] of repeated cross-sections (twfe_did_rc.py:182-200), one row *)
Definition rc_row (u : runit) : punit :=
  {| p_id := r_id u; p_d := false; p_y1 := r_y u; p_y0 := 0; p_w := r_w u;
     p_x := 1 :: r_P u :: r_D u :: r_D u * r_P u :: r_x u |}.
Definition rset_x (x : list Qc) (u : runit) : runit :=
  {| r_id := r_id u; r_d := r_d u; r_post := r_post u; r_y := r_y u; r_w := r_w u; r_x := x |}.
(** twfe_did_rc (twfe_did_rc.py:95-96, 147-177), [p] covariate columns *)
Definition twfe_did_rc (o : oracle) (p : nat) (l0 : list runit) : pan_result :=
  if rany_neg l0 then PRaise else
  let l1 := rnormalise l0 in
  let const := (0 <? p)%nat && forallb (fun u => Qceqb (nth 0 (r_x u) 0) 1) l1 in
  let p' := if const then (p - 1)%nat else p in
  let l := if const then map (fun u => rset_x (tl (r_x u)) u) l1 else l1 in
  twfe_fit o (4 + p') (map rc_row l).
