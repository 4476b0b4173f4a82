(** Model of the panel utilities of moderndid (moderndid/core/panel.py and
    moderndid/core/preprocess/utils.py).

    A frame is a list of rows; unit identifiers and periods are integers (no nulls in those two
    columns), and [r_val] carries all the other columns of the row as one value.
    Where polars does not fix the order of a result (unique(), group_by() without
    maintain_order, sort() of tied rows) the model takes the order as an argument and the
    theorems quantify over every order polars may choose. *)
From Verif Require Import Base ListLib.
Local Open Scope nat_scope.
Local Open Scope list_scope.

Record prow (A : Type) := PRow { r_id : Z; r_t : Z; r_val : A }.
Arguments PRow {A}. Arguments r_id {A}. Arguments r_t {A}. Arguments r_val {A}.

Definition pkey {A} (r : prow A) : Z * Z := (r_id r, r_t r).
Definition pair_eqb (a b : Z * Z) : bool := (fst a =? fst b)%Z && (snd a =? snd b)%Z.

(** df[col].n_unique() on an integer column *)
Definition n_unique (l : list Z) : nat := length (zuniq l).
(** rows of one unit / of one unit-period pair, in frame order *)
Definition unit_rows {A} (df : list (prow A)) (i : Z) : list (prow A) := filter (fun r => (r_id r =? i)%Z) df.
Definition rows_at {A} (df : list (prow A)) (k : Z * Z) : list (prow A) := filter (fun r => pair_eqb (pkey r) k) df.
(** df.select([idname, tname]).unique().height, len(df.unique(subset=[idname, tname])) *)
Definition n_pairs {A} (df : list (prow A)) : nat := length (uniq pair_eqb (map pkey df)).

Definition n_periods {A} (df : list (prow A)) : nat := n_unique (map r_t df).
Definition n_units {A} (df : list (prow A)) : nat := n_unique (map r_id df).
(** group_by(idname).agg(pl.col(tname).n_unique()) at one unit *)
Definition obs_periods {A} (df : list (prow A)) (i : Z) : nat := n_unique (map r_t (unit_rows df i)).

(** core/preprocess/utils.py:288-312 is_balanced_panel (re-exported by core/panel.py) *)
Definition is_balanced {A} (df : list (prow A)) : bool :=
  forallb (fun i => obs_periods df i =? n_periods df) (zuniq (map r_id df)).

(** core/preprocess/utils.py:36-60 make_balanced_panel: counts ROWS per unit *)
Definition make_balanced {A} (df : list (prow A)) : list (prow A) :=
  match df with
  | [] => df
  | _ =>
    let complete := filter (fun i => length (unit_rows df i) =? n_periods df) (zuniq (map r_id df)) in
    filter (fun r => zmem (r_id r) complete) df
  end.

(** core/panel.py:604-616 complete_data *)
Definition complete_data {A} (min_periods : option nat) (df : list (prow A)) : list (prow A) :=
  match df with
  | [] => df
  | _ =>
    let m := match min_periods with Some m => m | None => n_periods df end in
    let keep := filter (fun i => m <=? obs_periods df i) (zuniq (map r_id df)) in
    filter (fun r => zmem (r_id r) keep) df
  end.

(** core/panel.py:735-742 scan_gaps; [ids], [times] are the distinct units and periods in the
    order in which unique() returned them *)
Definition scan_gaps {A} (ids times : list Z) (df : list (prow A)) : list (Z * Z) :=
  filter (fun k => negb (existsb (pair_eqb k) (map pkey df))) (list_prod ids times).

(** core/panel.py:775-781 has_gaps *)
Definition has_gaps {A} (df : list (prow A)) : bool := n_pairs df <? n_units df * n_periods df.

(** core/panel.py:552-559 fill_panel_gaps: cross join then left join; a pair without a row gets
    one row whose other columns are null ([None]) *)
Definition fill_gaps {A} (ids times : list Z) (df : list (prow A)) : list (prow (option A)) :=
  flat_map (fun k => match rows_at df k with
                     | [] => [PRow (fst k) (snd k) None]
                     | rs => map (fun r => PRow (fst k) (snd k) (Some (r_val r))) rs
                     end) (list_prod ids times).

(** core/panel.py:490-497 deduplicate_panel with strategy "first" / "last":
    df.unique(subset=[idname, tname], keep=strategy); [keys] are the distinct pairs in the order
    in which polars returned them *)
Definition dedup_first {A} (keys : list (Z * Z)) (df : list (prow A)) : list (prow A) :=
  flat_map (fun k => firstn 1 (rows_at df k)) keys.
Definition dedup_last {A} (keys : list (Z * Z)) (df : list (prow A)) : list (prow A) :=
  flat_map (fun k => firstn 1 (rev (rows_at df k))) keys.

(** polars mean(): the mean of the non-null entries, null if there are none *)
Definition non_null (l : list (option Qc)) : list Qc :=
  flat_map (fun o => match o with Some x => [x] | None => [] end) l.
Definition pl_mean (l : list (option Qc)) : option Qc :=
  match non_null l with [] => None | xs => Some (qsum xs / qn (length xs))%Qc end.
(** core/panel.py:498-509 deduplicate_panel with strategy "mean": the numeric columns (a list per
    row, [k] of them) are averaged, the other columns ([B]) are taken from the first row.
    Numbers are exact rationals (the code: float64, also for integer columns). *)
Definition dedup_mean {B} (k : nat) (keys : list (Z * Z)) (df : list (prow (list (option Qc) * B)))
  : list (prow (list (option Qc) * B)) :=
  flat_map (fun p => match rows_at df p with
                     | [] => []
                     | r :: rs => [PRow (fst p) (snd p)
                         (map (fun j => pl_mean (map (fun q => nth j (fst (r_val q)) None) (r :: rs))) (seq 0 k),
                          snd (r_val r))]
                     end) keys.

(** * get_group: core/preprocess/utils.py:85-139 (core/panel.py:226-305 only re-wraps the result) *)

(** pl.col(treatname) > 0; a null comparison is null and both filter() and any() drop it *)
Definition treated {A} (treat : A -> option Qc) (r : prow A) : bool :=
  match treat (r_val r) with Some d => negb (Qcleb d 0) | None => false end.

(** utils.py:126-133: running count of treated rows of the same unit along the sorted frame;
    the row is kept when it is treated and the count is 1 *)
Fixpoint first_treat_rows {A} (treat : A -> option Qc) (seen l : list (prow A)) : list (prow A) :=
  match l with
  | [] => []
  | r :: l' =>
    let cum := length (filter (fun s => (r_id s =? r_id r)%Z && treated treat s) seen)
               + (if treated treat r then 1 else 0) in
    if (cum =? 1) && treated treat r then r :: first_treat_rows treat (r :: seen) l'
    else first_treat_rows treat (r :: seen) l'
  end.

(** utils.py:131-139: group_by(idname).agg(first of tname), left join on the unit, fill_null(0).
    [sorted] is the frame sorted by (unit, period), ties in the order polars left them.
    The result lists each input row with its value of "G". *)
Definition get_group {A} (treat : A -> option Qc) (sorted df : list (prow A)) : list (prow A * Z) :=
  let tbl := first_treat_rows treat [] sorted in
  map (fun r => (r, match find (fun f => (r_id f =? r_id r)%Z) tbl with Some f => r_t f | None => 0%Z end)) df.

(** utils.py:109-123, the branch treat_period is not None, for a frame without a column "G" *)
Definition get_group_static {A} (treat : A -> option Qc) (tp : Z) (df : list (prow A)) : list (prow A * Z) :=
  map (fun r => (r, if existsb (treated treat) (unit_rows df (r_id r)) then tp else 0%Z)) df.

(** The two branches on a frame that already has a column "G" ([oldG] of each row): with_columns
    replaces it (utils.py:135-137), while join() keeps the left column under its name and calls
    the new one "G_right" (utils.py:123).  The value listed is that of the column named "G". *)
Definition get_group_over {A} (oldG : A -> Z) (treat : A -> option Qc) (sorted df : list (prow A)) : list (prow A * Z) :=
  get_group treat sorted df.
Definition get_group_static_over {A} (oldG : A -> Z) (treat : A -> option Qc) (tp : Z) (df : list (prow A)) : list (prow A * Z) :=
  map (fun r => (r, oldG (r_val r))) df.

(** * get_first_difference: core/preprocess/utils.py:62-82 *)
Definition osub (a b : option Qc) : option Qc :=
  match a, b with Some x, Some y => Some (x - y)%Qc | _, _ => None end.
(** shift(1).over(idname): the previous row of the same unit in the sorted frame; [seen] is the
    reversed prefix *)
Fixpoint fd_rows {A} (y : A -> option Qc) (seen l : list (prow A)) : list (prow A * option Qc) :=
  match l with
  | [] => []
  | r :: l' =>
    let prev := match find (fun s => (r_id s =? r_id r)%Z) seen with Some s => y (r_val s) | None => None end in
    (r, osub (y (r_val r)) prev) :: fd_rows y (r :: seen) l'
  end.
Definition first_difference {A} (y : A -> option Qc) (sorted : list (prow A)) : list (prow A * option Qc) :=
  fd_rows y [] sorted.

(** * are_varying / diagnose_panel *)
(** n_unique() of an arbitrary column within a unit is > 1; null counts as one value *)
Definition varies_in {A V} (veqb : V -> V -> bool) (col : A -> V) (df : list (prow A)) (i : Z) : bool :=
  1 <? length (uniq veqb (map (fun r => col (r_val r)) (unit_rows df i))).
(** core/panel.py:691-701 are_varying, at one column *)
Definition are_varying {A V} (veqb : V -> V -> bool) (col : A -> V) (df : list (prow A)) : bool :=
  existsb (varies_in veqb col df) (zuniq (map r_id df)).

Inductive suggestion :=
| SDedup (n : nat) | SFill (n : nat) | SBalance (n : nat) | SMissing (n : nat)
| SSingle (n : nat) | SEarly (n : nat) | SVarying.

Record diagnostics := Diag {
  d_n_units : nat; d_n_periods : nat; d_n_obs : nat; d_balanced : bool;
  d_n_dups : nat; d_n_unbalanced : nat; d_n_gaps : nat; d_n_missing : nat; d_n_single : nat;
  d_n_early : option nat; d_varying : option bool; d_suggestions : list suggestion }.

Definition oqeqb (a b : option Qc) : bool :=
  match a, b with Some x, Some y => Qceqb x y | None, None => true | _, _ => false end.

(** df[tname].min() of a non-empty frame *)
Definition first_period {A} (df : list (prow A)) : Z := hd 0%Z (zuniq (map r_t df)).

(** core/panel.py:166-228 diagnose_panel.  [treat = None]: no treatment column given.
    [has_null]: does the row contain a null in any column (drop_nulls). Counts are naturals: the two
    subtractions of the code (n_obs - len(deduped), n_units*n_periods - len(deduped)) never go below
    zero. *)
Definition diagnose {A} (treat : option (A -> option Qc)) (has_null : A -> bool) (df : list (prow A)) : diagnostics :=
  let nu := n_units df in let np := n_periods df in
  let dups := length df - n_pairs df in
  let ids := zuniq (map r_id df) in
  let unb := length (filter (fun i => obs_periods df i <? np) ids) in
  let gaps := nu * np - n_pairs df in
  let miss := length df - length (filter (fun r => negb (has_null (r_val r))) df) in
  let single := length (filter (fun i => obs_periods df i =? 1) ids) in
  let early := match treat with
    | None => None
    | Some f => Some (n_unique (map r_id (filter (fun r => (r_t r =? first_period df)%Z && treated f r) df)))
    end in
  let vary := match treat with None => None | Some f => Some (are_varying oqeqb f df) end in
  Diag nu np (length df) (is_balanced df) dups unb gaps miss single early vary
    ((if 0 <? dups then [SDedup dups] else [])
     ++ (if 0 <? gaps then [SFill gaps] else [])
     ++ (if (0 <? unb) && (dups =? 0) then [SBalance unb] else [])
     ++ (if 0 <? miss then [SMissing miss] else [])
     ++ (if 0 <? single then [SSingle single] else [])
     ++ (match early with Some e => if 0 <? e then [SEarly e] else [] | None => [] end)
     ++ (match vary with Some true => [SVarying] | _ => [] end)).

(** core/preprocess/utils.py:434-451 create_ddd_subgroups, elementwise (treat and partition are
    numeric arrays; np.where evaluates per element) *)
Definition ddd_code (treat treat_val partition : Qc) : Z :=
  let is_treated := Qceqb treat treat_val in
  let is_eligible := Qceqb partition 1 in
  (if is_treated && is_eligible then 4
   else if is_treated && negb is_eligible then 3
   else if is_eligible then 2 else 1)%Z.
Definition ddd_subgroups (treat_val : Qc) (rows : list (Qc * Qc)) : list Z :=
  map (fun tp => ddd_code (fst tp) treat_val (snd tp)) rows.
