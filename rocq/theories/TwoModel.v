(** Model of the two-period front end: preprocess_drdid (moderndid/core/preprocessing.py:11-92, core/preprocess/{validators,
    transformers,builders}.py) and the calls drdid, ordid and ipwdid (drdid/drdid.py, ordid.py, ipwdid.py) without bootstrap.
    Definitions only. Simplifications: ids and periods are integers, numbers are rationals, NaN is not modelled (null is); the formula is
    represented by the row of the model matrix it gives, [t_x], which depends on the row alone (no stateful transforms). *)
From Verif Require Import Base ListLib DrdidModel ImpModel RcModel ImpRcModel.

(** One row of the user's data frame; [None] is a null, [t_x = None] a null in some variable of the formula. *)
Record traw := { t_id : option Z; t_t : option Z; t_d : option Qc; t_y : option Qc; t_w : option Qc; t_x : option (list Qc) }.
(** One row of the processed frame. *)
Record trow := { q_id : Z; q_t : Z; q_d : Qc; q_y : Qc; q_w : Qc; q_x : list Qc }.

Fixpoint all_some {A B} (f : A -> option B) (l : list A) : option (list B) :=
  match l with
  | [] => Some []
  | a :: l' => match f a, all_some f l' with Some b, Some r => Some (b :: r) | _, _ => None end
  end.
Definition keep_some {A B} (f : A -> option B) (l : list A) : list B :=
  flat_map (fun a => match f a with Some b => [b] | None => [] end) l.

(** PrePostDataValidator (validators.py:338-354): a null among the periods or treatments makes [sorted] raise. *)
Definition valid_data (l : list traw) : bool :=
  match all_some t_t l, all_some t_d l with
  | Some ts, Some ds => (length (zuniq ts) =? 2)%nat && forallb (fun d => Qceqb d 0 || Qceqb d 1) ds && existsb (fun d => Qceqb d 0) ds && existsb (fun d => Qceqb d 1) ds
  | _, _ => false
  end.
Definition oz_eqb (a b : option Z) : bool := match a, b with Some x, Some y => (x =? y)%Z | None, None => true | _, _ => false end.
Definition oq_eqb (a b : option Qc) : bool := match a, b with Some x, Some y => Qceqb x y | None, None => true | _, _ => false end.
Definition obs_of (r : traw) (l : list traw) : nat := length (filter (fun s => oz_eqb (t_id s) (t_id r)) l).
(** PrePostPanelValidator with panel=True (validators.py:377-390, 706-718): some unit is observed more than once; one treatment per unit. *)
Definition valid_panel (l : list traw) : bool :=
  negb (forallb (fun r => (obs_of r l =? 1)%nat) l) &&
  forallb (fun a => forallb (fun b => negb (oz_eqb (t_id a) (t_id b)) || oq_eqb (t_d a) (t_d b)) l) l.

(** PrePostColumnSelector and drop_nulls (transformers.py:404-426, 78-91): the id column is used for panels only, the weights when named
    ([wn]); WeightNormalizer's np.ones otherwise (transformers.py:101). *)
Definition clean (panel wn : bool) (r : traw) : option trow :=
  match (if panel then t_id r else Some 0%Z), t_t r, t_d r, t_y r, (if wn then t_w r else Some 1), t_x r with
  | Some i, Some t, Some d, Some y, Some w, Some x => Some {| q_id := i; q_t := t; q_d := d; q_y := y; q_w := w; q_x := x |}
  | _, _, _, _, _, _ => None
  end.
Definition q_set_w (w : Qc) (r : trow) : trow := {| q_id := q_id r; q_t := q_t r; q_d := q_d r; q_y := q_y r; q_w := w; q_x := q_x r |}.
(** WeightNormalizer (transformers.py:101-104) *)
Definition q_normalise (l : list trow) : list trow := map (fun r => q_set_w (q_w r / mean q_w l) r) l.

Definition periods (l : list trow) : list Z := zuniq (map q_t l).
Definition q_count (i : Z) (l : list trow) : nat := length (filter (fun r => (q_id r =? i)%Z) l).
(** PrePostPanelBalancer (transformers.py:468-481) *)
Definition q_balance (l : list trow) : list trow := filter (fun r => (q_count (q_id r) l =? length (periods l))%nat) l.
Definition at_time (t : Z) (l : list trow) : list trow := filter (fun r => (q_t r =? t)%Z) l.
Definition has_id (i : Z) (l : list trow) : bool := existsb (fun r => (q_id r =? i)%Z) l.
(** rows of [l] whose id also occurs in [m], sorted by id (transformers.py:499-507, builders.py:285-298) *)
Definition common_sorted (l m : list trow) : list trow :=
  isort (fun a b => (q_id a <=? q_id b)%Z) (filter (fun r => has_id (q_id r) m) l).
Fixpoint qlist_eqb (a b : list Qc) : bool :=
  match a, b with [], [] => true | x :: a', y :: b' => Qceqb x y && qlist_eqb a' b' | _, _ => false end.
(** one entry of the arrays y1, y0, D, covariates, weights (builders.py:300-309): everything but y0 is read in the post period *)
Definition unit_of (p : trow * trow) : punit :=
  let (post, pre) := p in
  {| p_id := q_id post; p_d := Qceqb (q_d post) 1; p_y1 := q_y post; p_y0 := q_y pre; p_w := q_w post; p_x := q_x post |}.

(** Result of the preprocessing: an exception; arrays with undefined weights (mean weight zero); data. *)
Inductive prep (A : Type) := PBad | PUndef | PData (l : list A).
Arguments PBad {A}. Arguments PUndef {A}. Arguments PData {A} l.

(** preprocess_drdid with panel=True: validators, then the pipeline of transformers.py:1156-1167 (a null raises, 83-88), the invariance
    checks (transformers.py:492-518) and _build_two_period_did_data (builders.py:257-309). *)
Definition preprocess_panel (wn : bool) (l : list traw) : prep punit :=
  if negb (valid_data l && valid_panel l) then PBad else
  match all_some (clean true wn) l with
  | None => PBad
  | Some rows =>
      if Qceqb (mean q_w rows) 0 then PUndef else
      let data := q_balance (q_normalise rows) in
      match periods data with
      | [pre; post] =>
          let a := common_sorted (at_time pre data) (at_time post data) in
          let b := common_sorted (at_time post data) (at_time pre data) in
          if negb (qlist_eqb (map q_d a) (map q_d b)) then PBad
          else if negb (qlist_eqb (map q_w a) (map q_w b)) then PBad
          else PData (map unit_of (combine b a))
      | _ => PBad
      end
  end.

(** one entry of the arrays of a repeated cross-section (builders.py:311-320) *)
Definition runit_of (post : Z) (r : trow) : runit :=
  {| r_id := q_id r; r_d := Qceqb (q_d r) 1; r_post := (q_t r =? post)%Z; r_y := q_y r; r_w := q_w r; r_x := q_x r |}.
(** preprocess_drdid with panel=False (rows with a null are dropped, transformers.py:78-91) *)
Definition preprocess_rc (wn : bool) (l : list traw) : prep runit :=
  if negb (valid_data l) then PBad else
  let rows := keep_some (clean false wn) l in
  match periods rows with
  | [pre; post] => if Qceqb (mean q_w rows) 0 then PUndef else PData (map (runit_of post) (q_normalise rows))
  | _ => PBad
  end.

(** The calls. A mean weight of zero gives NaN weights, represented by [PNaN]. *)
Definition after {A} (p : prep A) (f : list A -> pan_result) : pan_result :=
  match p with PBad => PRaise | PUndef => PNaN | PData us => f us end.
Definition valid_trim (tl : Qc) : bool := Qcltb 0 tl && Qcltb tl 1.
(** drdid with panel=True (drdid.py:233-256, 274-317); [imp] is est_method='imp' *)
Definition drdid_call (o : oracle) (k : nat) (tl : Qc) (imp wn : bool) (l : list traw) : pan_result :=
  if negb (valid_trim tl) then PRaise else
  after (preprocess_panel wn l) (if imp then drdid_imp_panel o k tl else drdid_panel o k tl).
(** ordid with panel=True (ordid.py:180-206) *)
Definition ordid_call (o : oracle) (k : nat) (wn : bool) (l : list traw) : pan_result := after (preprocess_panel wn l) (reg_did_panel o k).
(** ipwdid with panel=True (ipwdid.py:196-264); [std] is est_method='std_ipw' *)
Definition ipwdid_call (o : oracle) (k : nat) (tl : Qc) (std wn : bool) (l : list traw) : pan_result :=
  if negb (valid_trim tl) then PRaise else
  after (preprocess_panel wn l) (if std then std_ipw_did_panel o k tl else ipw_did_panel o k tl).
(** the same with panel=False (drdid.py:319-370: the four values of est_method; ordid.py:208-218; ipwdid.py:266-291) *)
Inductive rc_method := MImp | MTrad | MImpLocal | MTradLocal.
Definition drdid_rc_call (o : roracle) (k : nat) (tl : Qc) (m : rc_method) (wn : bool) (l : list traw) : pan_result :=
  if negb (valid_trim tl) then PRaise else
  after (preprocess_rc wn l) (match m with MImp => drdid_imp_rc o k tl | MTrad => drdid_rc o k tl
    | MImpLocal => drdid_imp_local_rc o k tl | MTradLocal => drdid_trad_rc o k tl end).
Definition ordid_rc_call (o : roracle) (k : nat) (wn : bool) (l : list traw) : pan_result := after (preprocess_rc wn l) (reg_did_rc o k).
Definition ipwdid_rc_call (o : roracle) (k : nat) (tl : Qc) (std wn : bool) (l : list traw) : pan_result :=
  if negb (valid_trim tl) then PRaise else
  after (preprocess_rc wn l) (if std then std_ipw_did_rc o k tl else ipw_did_rc o k tl).
