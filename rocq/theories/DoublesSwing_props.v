(** Theorems about the knots of a swing trajectory with doubles: C191. *)
From Coq Require Import Reals ZArith List Bool Lia Lra.
From Flocq Require Import Core.
From Verif Require Import Base Geom3 Spline_model Swing_model Swing_proofs Footsteps_model Wpg_model Doubles_model Doubles_spec Doubles_proofs DoublesReplan_model DoublesReplan_spec
  DoublesReplan_proofs DoublesReplan_props DoublesSwing_model DoublesSwing_spec DoublesSwing_proofs.
Import ListNotations.
Open Scope R_scope.

(** If the step, what remains of it, its plateau and what follows are not negligible beside the time, the trajectory is made. It starts at the given time, position and
    velocity; ends at rest at the target, at the end of the step up to 2^-51; and is at rest at the height at the times of the plateau that are ahead, up to 2^-49. *)
Theorem C191_partial ts D h r s e elapsed v : sound_swing ts D r elapsed ->
  let B := Rabs ts + D in
  exists w te apex, d_make_cswing ts D h r s e elapsed v = Ok w /\
    cs_points (cw_x w) = [SPoint ts (vx s) (vx v); SPoint te (vx e) 0] /\
    cs_points (cw_y w) = [SPoint ts (vy s) (vy v); SPoint te (vy e) 0] /\
    cs_points (cw_z w) = SPoint ts (vz s) (vz v) :: map (fun t => SPoint t h 0) apex ++ [SPoint te (vz e) 0] /\
    Rabs (te - (ts + (1 - elapsed) * D)) <= B / 2 ^ 51 /\ ts < te /\
    (forall t, In t apex -> ts < t /\ exists a, plateau ts D r elapsed a /\ Rabs (t - a) <= B / 2 ^ 49) /\
    (forall a, plateau ts D r elapsed a -> ts + B / 2 ^ 49 < a -> exists t, In t apex /\ Rabs (t - a) <= B / 2 ^ 49).
Proof.
  intros S B. pose proof (te_near ts D r elapsed S) as TN. pose proof (te_after ts D r elapsed S) as TA. pose proof (apex_increasing ts D r elapsed S) as AI.
  pose proof (apex_near ts D r elapsed S) as AN. pose proof (apex_all ts D r elapsed S) as AA. destruct (W_facts ts D r elapsed S) as (W0 & _). fold B in TN, AN, AA, W0.
  assert (E51 : B / 2 ^ 51 = 4 * (unit_error * B)) by (unfold unit_error; field). assert (E49 : B / 2 ^ 49 = 16 * (unit_error * B)) by (unfold unit_error; field). rewrite E51, E49.
  set (te := d_add ts (d_mul (d_sub 1 elapsed) D)) in *. set (apex := filter _ _) in *.
  destruct (add_points_new ts (vx s) (vx v) [(te, vx e, 0)]) as (x & Ex & Px & _); [cbn; auto|]. destruct (add_points_new ts (vy s) (vy v) [(te, vy e, 0)]) as (y & Ey & Py & _); [cbn; auto|].
  destruct (add_points_new ts (vz s) (vz v) _ (AI h (vz e))) as (z & Ez & Pz & _). exists (CSwing x y z), te, apex. split.
  - unfold d_make_cswing. fold te. fold apex. rewrite Ex. cbn [obind]. rewrite Ey. cbn [obind]. rewrite Ez. reflexivity.
  - cbn [cw_x cw_y cw_z]. split; [exact Px|]. split; [exact Py|]. split; [rewrite Pz, map_app, map_map; reflexivity|]. split; [exact TN|]. split; [exact TA|]. split.
    + intros t H. destruct (AN t H) as (A & a & P & N). split; [exact A|]. exists a. split; [exact P|lra].
    + intros a P L. destruct (AA a P ltac:(lra)) as (t & I & N). exists t. split; [exact I|lra].
Qed.
Print Assumptions C191_partial.

(** When nothing remains of the step, or when what remains is lost in the rounding of the time, it is refused. *)
Theorem C191_over_behaviour ts D h r s e elapsed v : is_double ts -> (1 <= elapsed /\ 0 <= D) \/ d_add ts (d_mul (d_sub 1 elapsed) D) = ts ->
  d_make_cswing ts D h r s e elapsed v = Throw ERuntime.
Proof.
  intros Dt H. assert (L : d_add ts (d_mul (d_sub 1 elapsed) D) <= ts).
  { destruct H as [(H & P)|H]; [|rewrite H; lra]. apply double_below; [exact Dt|]. assert (A : d_sub 1 elapsed <= 0) by (apply double_below; [apply is_double_0|lra]).
    assert (d_mul (d_sub 1 elapsed) D <= 0) by (apply double_below; [apply is_double_0|nra]). lra. }
  unfold d_make_cswing. set (te := d_add ts _) in *. cbn [add_points]. unfold add_point, new_spline, last_point. cbn [cs_points rev app cs_angular cs_pieces sp_t].
  destruct Rle_dec; [reflexivity|lra].
Qed.
Print Assumptions C191_over_behaviour.

(** The step of 0.3 s planned at 0 and replanned at 0.03 and 0.3, a time at which its part was not over: the trajectory of the foot cannot be made, and the exception leaves replan. *)
Theorem C191_replan_behaviour h r start target v :
  planned_at ex_short ex_planned 0 /\ in_turn ex_short ex_planned 0 [double (3 / 100); double (3 / 10)] /\
  let s := d_replans ex_short ex_planned 0 [double (3 / 100); double (3 / 10)] in
  d_make_cswing (double (3 / 10)) (d_virt_duration ex_short s) h r start target (u_elapsed_ratio s) v = Throw ERuntime.
Proof.
  destruct C188_behaviour as (A & B & E & _). split; [exact A|]. split; [exact B|]. cbv zeta. apply C191_over_behaviour; [apply double_is|]. left. rewrite E.
  assert (0 < / 2 ^ 52) by (apply Rinv_0_lt_compat, pow_lt; lra). split; [lra|]. apply double_pos.
  set (s := d_replans _ _ _ _). change (0 <= d03 * 1). unfold d03. lra.
Qed.
Print Assumptions C191_replan_behaviour.

(** What C59 says of exact numbers is false of doubles: a step that is not over, with a rise ratio below 1, can be refused. *)
Theorem C191_refuted : ~ (forall ts D h r s e elapsed v, is_double ts -> is_double D -> is_double r -> is_double elapsed -> 0 < D -> 0 <= elapsed < 1 -> r < 1 ->
  exists w, d_make_cswing ts D h r s e elapsed v = Ok w).
Proof.
  intros H. assert (D2 : is_double (1 - / 2 ^ 53)).
  { exists 9007199254740991%Z, (-53)%Z. split; [|split; lia]. change (-53)%Z with (- Z.of_nat 53)%Z. rewrite <- bpow_power, bpow_inv. lra. }
  destruct (H 4 1 1 0 v3_zero v3_zero (1 - / 2 ^ 53) v3_zero (is_double_int 4 ltac:(lia)) is_double_1 is_double_0 D2) as (w & E); [lra|lra|lra|].
  rewrite C191_over_behaviour in E; [discriminate|apply (is_double_int 4); lia|]. right. assert (D53 : is_double (/ 2 ^ 53)).
  { exists 1%Z, (-53)%Z. split; [|split; lia]. change (-53)%Z with (- Z.of_nat 53)%Z. rewrite <- bpow_power, bpow_inv. lra. }
  assert (S : d_sub 1 (1 - / 2 ^ 53) = / 2 ^ 53) by (unfold d_sub; replace (1 - (1 - / 2 ^ 53)) with (/ 2 ^ 53) by ring; now apply double_id).
  rewrite S. unfold d_mul. rewrite Rmult_1_r, (double_id _ D53). unfold d_add. rewrite (double_near _ 3 4503599627370496).
  - change (bpow radix2 (3 - 53)) with (/ IZR 1125899906842624). lra.
  - change (bpow radix2 (3 - 1)) with 4. change (bpow radix2 3) with 8. lra.
  - lia.
  - change (bpow radix2 (53 - 3)) with (IZR 1125899906842624). apply Rabs_def1; lra.
Qed.
Print Assumptions C191_refuted.

(** [C191_partial] applies to a step of 1 s at 1000 s of which a half is elapsed, with a plateau of a quarter. *)
Example C191_example : sound_swing 1000 1 (/ 4) (/ 2).
Proof.
  assert (D4 : is_double (/ 4)) by (exists 1%Z, (-2)%Z; split; [|split; lia]; change (-2)%Z with (- Z.of_nat 2)%Z; rewrite <- bpow_power, bpow_inv; lra).
  assert (D2 : is_double (/ 2)) by (exists 1%Z, (-1)%Z; split; [|split; lia]; change (-1)%Z with (- Z.of_nat 1)%Z; rewrite <- bpow_power, bpow_inv; lra).
  split; [apply (is_double_int 1000); lia|]. split; [apply is_double_1|]. split; [exact D4|]. split; [exact D2|].
  split; [rewrite <- Rinv_1; apply Rinv_le_contravar; [lra|apply pow_R1_Rle; lra]|]. rewrite (Rabs_right 1000) by lra. repeat split; lra.
Qed.
