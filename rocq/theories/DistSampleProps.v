(** C39: the sample of a distributed cell. *)
From Coq Require Import Permutation.
From Verif Require Import Base ListLib PreprocessModel PreprocessSpec AttGtSpec DrdidModel DistDidModel DistSampleModel DistSampleSpec DistSampleProofs.
Local Open Scope list_scope.

(** A streamed cell holds each qualifying unit observed in both periods exactly once, with its own outcomes at [t] and [pret], its own
    weight and covariates (of period [t]) and the treated flag of its own group. *)
Theorem C39_streamed_sample :
  forall has_w never g t pret data, panel_rows data ->
  NoDup (map p_id (stream_units has_w never g t pret data)) /\
  (forall u, In u (stream_units has_w never g t pret data) -> is_cell_unit has_w g t pret t data u) /\
  (forall i, (exists u, In u (stream_units has_w never g t pret data) /\ p_id u = i) <->
     observed_at data i t /\ observed_at data i pret /\ exists r, In r data /\ r_id r = i /\ dist_role never g t pret (r_g r)).
Proof. exact stream_sample. Qed.
Print Assumptions C39_streamed_sample.
(** The wide pivot never fails on a computed cell; it holds each never-treated or cohort-[g] unit observed in all needed periods once,
    with covariates and weight of the first needed period. *)
Theorem C39_wide_sample :
  forall has_w g t pret times data, panel_rows data -> In t times -> In pret times ->
  exists L, wide_pivot g times data = Some L /\
  NoDup (map p_id (map (wide_unit has_w g t pret) L)) /\
  (forall u, In u (map (wide_unit has_w g t pret) L) -> is_cell_unit has_w g t pret (hd 0%Z times) data u) /\
  (forall i, (exists u, In u (map (wide_unit has_w g t pret) L) /\ p_id u = i) <->
     (forall p, In p times -> observed_at data i p) /\ exists r, In r data /\ r_id r = i /\ dist_role true g t pret (r_g r)).
Proof. exact wide_sample. Qed.
Print Assumptions C39_wide_sample.
(** On balanced data with time-constant covariates the two paths give the same sample up to order. *)
Theorem C39_wide_equals_streamed :
  forall has_w g t pret times data, panel_rows data -> time_constant data -> In t times -> In pret times ->
  (forall r p, In r data -> r_g r = Fin 0 \/ r_g r = Fin g -> In p times -> observed_at data (r_id r) p) ->
  exists L, wide_pivot g times data = Some L /\ Permutation (map (wide_unit has_w g t pret) L) (stream_units has_w true g t pret data).
Proof. exact wide_equals_stream. Qed.
Print Assumptions C39_wide_equals_streamed.
(** The distributed treated/comparison roles are the local ones (recoded group [e]) for not-yet-treated comparisons without anticipation,
    and for never-treated comparisons when the never-treated units are coded 0. *)
Theorem C39_roles_match_local :
  forall never ant m g t pret g' e, group_code m g' e -> (0 < g <= m)%Z -> (t <= m)%Z -> (pret <= m)%Z -> (0 <= Z.max t pret)%Z ->
  (never = false /\ ant = 0%Z \/ never = true /\ g' <> Inf /\ forall z, g' = Fin z -> (z <= m)%Z) ->
  (dist_role never g t pret g' <-> is_treated g e \/ is_comparison never ant g t pret e) /\ (g' = Fin g <-> is_treated g e).
Proof. exact roles_agree. Qed.
Print Assumptions C39_roles_match_local.

(** Concrete panel: units 1 (group 3), 2 (never, coded 0), 3 (group 5, beyond the last period 4), 4 (never, coded inf), 5 (group 4);
    periods 1..4, covariate = 10 id + period. *)
Definition c39_row (i t : Z) (g : grp) : row := {| r_id := i; r_t := t; r_g := g; r_y := qz (100 * i + t)%Z; r_w := qz i; r_x := [qz (10 * i + t)%Z] |}.
Definition c39_data : list row :=
  flat_map (fun t => [c39_row 1 t (Fin 3); c39_row 2 t (Fin 0); c39_row 3 t (Fin 5); c39_row 4 t Inf; c39_row 5 t (Fin 4)]) [1; 2; 3; 4]%Z.
Lemma c39_panel : panel_rows c39_data.
Proof.
  split.
  - apply NoDup_count_occ' with (decA := fun a b : Z * Z => ltac:(decide equality; apply Z.eq_dec) : {a = b} + {a <> b}).
    intros x Hx. vm_compute in Hx. repeat destruct Hx as [<-|Hx]; try reflexivity. destruct Hx.
  - intros r r' H H'. vm_compute in H, H'. repeat (destruct H as [<-|H]; [repeat (destruct H' as [<-|H']; [cbn; intros E; first [reflexivity|discriminate E]|]); destruct H'|]). destruct H.
Qed.
Example c39_streamed_ids : map p_id (stream_units true false 3 4 2 c39_data) = [1; 2; 3; 4]%Z /\ map p_id (stream_units true true 3 4 2 c39_data) = [1; 2]%Z.
Proof. split; reflexivity. Qed.
Example c39_wide_ids : exists L, wide_pivot 3 [1; 2; 3; 4]%Z c39_data = Some L /\ map p_id (map (wide_unit true 3 4 2) L) = [1; 2]%Z.
Proof. eexists. split; [vm_compute; reflexivity|reflexivity]. Qed.

(** Not-yet-treated comparisons with anticipation: the distributed cell uses a unit that the local rule excludes. *)
Theorem C39_anticipation_refuted :
  exists never ant m g t pret g' e, group_code m g' e /\ (0 < g <= m)%Z /\ (t <= m)%Z /\ (pret <= m)%Z /\ (pret + ant < g)%Z /\
  dist_role never g t pret g' /\ ~ (is_treated g e \/ is_comparison never ant g t pret e).
Proof.
  exists false, 1%Z, 4%Z, 3%Z, 3%Z, 1%Z, (Fin 4), (Fin 4). repeat split; try lia.
  - constructor; [discriminate|discriminate].
  - right; right. split; [reflexivity|]. cbn. lia.
  - intros [H|[_ H]]; [discriminate H|]. cbn in H. lia.
Qed.
Print Assumptions C39_anticipation_refuted.
(** Never-treated units coded inf, or with a group after the last period, are comparison units locally but not in the distributed cell. *)
Theorem C39_never_code_refuted :
  forall m g t pret ant, (0 < g <= m)%Z -> (t <= m)%Z -> (pret <= m)%Z ->
  (exists e, group_code m Inf e /\ is_comparison true ant g t pret e /\ ~ dist_role true g t pret Inf) /\
  (exists e, group_code m (Fin (m + 1)) e /\ is_comparison true ant g t pret e /\ ~ dist_role true g t pret (Fin (m + 1))).
Proof.
  intros m g t pret ant Hg Ht Hp. split; exists Inf; (split; [constructor; lia|split; [split; [discriminate|reflexivity]|]]).
  - intros [H|[H|[H _]]]; discriminate.
  - intros [H|[H|[H _]]]; [injection H; lia|injection H; lia|discriminate].
Qed.
Print Assumptions C39_never_code_refuted.
(** With time-varying covariates the wide and the streamed path use covariates of different periods for the same unit and cell. *)
Theorem C39_covariate_period_refuted :
  exists data g t pret times L u v, panel_rows data /\ wide_pivot g times data = Some L /\ In t times /\ In pret times /\
  In u (map (wide_unit true g t pret) L) /\ In v (stream_units true true g t pret data) /\ p_id u = p_id v /\ p_x u <> p_x v.
Proof.
  exists c39_data, 3%Z, 4%Z, 2%Z, [1; 2; 3; 4]%Z. eexists. eexists. eexists. split; [apply c39_panel|]. split; [vm_compute; reflexivity|].
  split; [cbn; tauto|]. split; [cbn; tauto|]. split; [left; reflexivity|]. split; [left; reflexivity|]. split; [reflexivity|].
  intros E. apply (f_equal (fun l => Qceqb (nth 1 l 0) (qz 14))) in E. vm_compute in E. discriminate E.
Qed.
Print Assumptions C39_covariate_period_refuted.
