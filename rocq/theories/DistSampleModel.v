(** Model of the assembly of a distributed DiD cell's sample from the long panel: moderndid/dask/_did_streaming.py:579-677 (streamed
    cell), moderndid/dask/_utils.py:119-218 (wide pivot of a cohort) and moderndid/distributed/_did_partition.py:14-140.
    Definitions only. Rows are complete (no nulls); partitions come from repartition(), which only groups rows. *)
From Verif Require Import Base ListLib PreprocessModel DrdidModel DistDidModel.

(** group_filter (_did_streaming.py:631-640) *)
Definition stream_filter (never : bool) (g t pret : Z) (r : row) : bool :=
  if never then grp_eqb (r_g r) (Fin 0) || grp_eqb (r_g r) (Fin g)
  else grp_eqb (r_g r) (Fin 0) || grp_gtz (r_g r) (Z.max t pret) || grp_eqb (r_g r) (Fin g).
(** post_dask.merge(pre_dask, on=id_col, how="inner") (_did_streaming.py:648-652) *)
Definition stream_merge (never : bool) (g t pret : Z) (data : list row) : list (row * row) :=
  let f := filter (stream_filter never g t pret) data in
  flat_map (fun a => map (pair a) (filter (fun b => (r_id b =? r_id a)%Z) (filter (fun b => (r_t b =? pret)%Z) f)))
    (filter (fun a => (r_t a =? t)%Z) f).
(** _build_did_partition_arrays (_did_partition.py:14-48): covariates and weights of the post row *)
Definition stream_unit (has_w : bool) (g : Z) (p : row * row) : punit :=
  {| p_id := r_id (fst p); p_d := grp_eqb (r_g (fst p)) (Fin g); p_y1 := r_y (fst p); p_y0 := r_y (snd p);
     p_w := if has_w then r_w (fst p) else 1; p_x := 1 :: r_x (fst p) |}.
Definition stream_units (has_w never : bool) (g t pret : Z) (data : list row) : list punit :=
  map (stream_unit has_w g) (stream_merge never g t pret data).

(** a table of prepare_cohort_wide_pivot: unit id with its _y_{period} columns *)
Definition ytable := list (Z * list (Z * Qc)).
(** merge(on=id_col, how="inner") *)
Definition inner_join (A B : ytable) : ytable :=
  flat_map (fun a => map (fun b => (fst a, snd a ++ snd b)) (filter (fun b => (fst b =? fst a)%Z) B)) A.
(** one level of the balanced merge tree (_utils.py:198-205) *)
Fixpoint merge_level (l : list ytable) : list ytable :=
  match l with A :: B :: l' => inner_join A B :: merge_level l' | _ => l end.
(** while len(level) > 1 (_utils.py:197-206); fuel = length suffices (C39_merge_tree) *)
Fixpoint merge_tree (fuel : nat) (l : list ytable) : option ytable :=
  match l with
  | [A] => Some A
  | [] => None
  | _ => match fuel with O => None | S f => merge_tree f (merge_level l) end
  end.
(** filtered[time == tp][[id, y]] *)
Definition period_table (f : list row) (tp : Z) : ytable := map (fun r => (r_id r, [(tp, r_y r)])) (filter (fun r => (r_t r =? tp)%Z) f).
(** prepare_cohort_wide_pivot (_utils.py:168-218); [times]: the sorted distinct t and pret of the cohort's computed cells.
    Result rows: the base row (of the first needed period) with all outcomes. *)
Definition wide_pivot (g : Z) (times : list Z) (data : list row) : option (list (row * list (Z * Qc))) :=
  let f := filter (fun r => grp_eqb (r_g r) (Fin 0) || grp_eqb (r_g r) (Fin g)) data in
  match times with
  | [] => None
  | t0 :: _ =>
      match merge_tree (length times) (map (period_table f) times) with
      | None => None
      | Some wide => Some (flat_map (fun a => map (fun b => (a, snd b)) (filter (fun b => (fst b =? r_id a)%Z) wide))
                             (filter (fun r => (r_t r =? t0)%Z) f))
      end
  end.
(** column _y_{p} *)
Definition ycol (ys : list (Z * Qc)) (p : Z) : Qc := match find (fun q => (fst q =? p)%Z) ys with Some q => snd q | None => 0 end.
(** _build_did_base_partition and _attach_cell_outcomes (_did_partition.py:88-140) *)
Definition wide_unit (has_w : bool) (g t pret : Z) (p : row * list (Z * Qc)) : punit :=
  {| p_id := r_id (fst p); p_d := grp_eqb (r_g (fst p)) (Fin g); p_y1 := ycol (snd p) t; p_y0 := ycol (snd p) pret;
     p_w := if has_w then r_w (fst p) else 1; p_x := 1 :: r_x (fst p) |}.
