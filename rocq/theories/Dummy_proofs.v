(** Lemmas about the dummy walk. *)
From Coq Require Import Reals List ZArith Bool String Lra Lia.
From Verif Require Import Base Linalg Angle Geom3 Tools_model Geometry_model Geometry_spec Geometry_proofs Geometry_props Spline_model Spline_spec Spline_proofs Spline_props Footsteps_model Footsteps_spec Footsteps_proofs Footsteps_proofs2 Footsteps_proofs3 Footsteps_props Footsteps_props2 Robot_model Robot_spec Robot_proofs Robot_props Wpg_model Dummy_model Dummy_spec.
Import ListNotations.
Open Scope R_scope.

(** ** Frames on the floor *)
Lemma planar_mul x y a x' y' a' : frame_mul (planar x y a) (planar x' y' a') = planar (cos a * x' - sin a * y' + x) (sin a * x' + cos a * y' + y) (a + a').
Proof. unfold frame_mul, planar. cbn [fr_R fr_t]. rewrite rot_z_mul. f_equal. unfold rot_z. apply V3_ext; m3; ring. Qed.
Lemma planar_inv x y a : frame_inv (planar x y a) = planar (- (cos a * x + sin a * y)) (sin a * x - cos a * y) (- a).
Proof.
  unfold frame_inv, planar. cbn [fr_R fr_t]. f_equal; [|unfold rot_z; apply V3_ext; m3; ring].
  unfold rot_z. rewrite cos_neg, sin_neg. apply M3_ext; m3; ring.
Qed.
Lemma floor_mul A B : on_floor A -> on_floor B -> on_floor (frame_mul A B).
Proof. intros (x & y & a & ->) (x' & y' & a' & ->). rewrite planar_mul. repeat eexists. Qed.
Lemma floor_inv A : on_floor A -> on_floor (frame_inv A).
Proof. intros (x & y & a & ->). rewrite planar_inv. repeat eexists. Qed.
Lemma floor_flatten T : on_floor (flatten_on_floor T).
Proof. unfold flatten_on_floor. repeat eexists. Qed.
Lemma flatten_floor T : on_floor T -> flatten_on_floor T = T.
Proof. intros (x & y & a & ->). apply C43_planar. Qed.
Lemma rigid_of_floor T : on_floor T -> rigid T.
Proof. intros (x & y & a & ->). apply rotation_z. Qed.
Lemma floor_of_motion T : on_floor T -> floor_motion T.
Proof. intros (x & y & a & ->). exists a, x, y, 0. reflexivity. Qed.
Lemma floor_level T : on_floor T -> level T.
Proof. intros (x & y & a & ->). unfold level, planar. cbn [fr_R]. unfold rot_z. split; apply V3_ext; m3; ring. Qed.
Lemma floor_translation y : translation 0 y 0 = planar 0 y 0.
Proof. unfold translation, planar. now rewrite rot_z_0. Qed.

(** Interpolations between frames on the floor do not tilt. *)
Lemma quat_of_rot_z a : qx (quat_of (rot_z a)) = 0 /\ qy (quat_of (rot_z a)) = 0.
Proof.
  unfold quat_of. destruct (Rlt_dec 0 _) as [H|H]; cbn [qx qy].
  - unfold rot_z. cbn [m21 m12 m02 m20]. split; ring.
  - cbn [rot_z m00 m11 m22 m3_trace] in *. assert (cos a <= -1/2).
    { revert H. unfold rot_z, m3_trace. cbn [m00 m11 m22]. intros. lra. }
    destruct (Rlt_dec (cos a) (cos a)); [lra|]. destruct (Rlt_dec (cos a) 1); [|lra]. cbn [qx qy]. unfold rot_z. cbn [m21 m12 m02 m20]. split; ring.
Qed.
Lemma quat_level q v : qx q = 0 -> qy q = 0 -> level (Frame (quat_matrix q) v).
Proof. intros Hx Hy. unfold level, quat_matrix. cbn [fr_R]. rewrite Hx, Hy. split; apply V3_ext; m3; ring. Qed.
Lemma comb_level k a l b : qx a = 0 -> qy a = 0 -> qx b = 0 -> qy b = 0 -> qx (quat_comb k a l b) = 0 /\ qy (quat_comb k a l b) = 0.
Proof. intros H1 H2 H3 H4. cbn [quat_comb qx qy]. rewrite H1, H2, H3, H4. split; ring. Qed.
Lemma slerp_level a t b : qx a = 0 -> qy a = 0 -> qx b = 0 -> qy b = 0 -> qx (slerp a t b) = 0 /\ qy (slerp a t b) = 0.
Proof. intros. unfold slerp. destruct (Rle_dec _ _); apply comb_level; assumption. Qed.
Lemma interpolate_level A B t : on_floor A -> on_floor B -> level (interpolate_frames A B t).
Proof.
  intros (x & y & a & ->) (x' & y' & a' & ->). unfold interpolate_frames, planar. cbn [fr_R fr_t].
  destruct (quat_of_rot_z a), (quat_of_rot_z a'). destruct (slerp_level (quat_of (rot_z a)) t (quat_of (rot_z a'))); try assumption. apply quat_level; assumption.
Qed.

(** ** The height of the feet *)
Lemma lift_rise p : 0 < w_rise_ratio p < 1 -> 0 < 1 / 2 - w_rise_ratio p / 2 < 1 / 2 + w_rise_ratio p / 2 /\ 1 / 2 + w_rise_ratio p / 2 < 1.
Proof. lra. Qed.
Lemma lift_pos p s t : 0 < w_rise_ratio p < 1 -> lift_ok p s -> snd (pos s t) = Ok (lift_height p t) /\ lift_ok p (fst (pos s t)).
Proof.
  intros Hr (R & Ha & Ep). destruct (lift_rise p Hr) as ((H1 & H2) & H3). split.
  - unfold pos. rewrite (interpolation_value s _ _ _ t VValue (reachable_inv s R) Ep). f_equal.
    unfold lift_height, clamped, clamp. cbn [sp_t last]. cbv zeta.
    replace (1 - (1 / 2 - w_rise_ratio p / 2)) with (1 / 2 + w_rise_ratio p / 2) by lra.
    set (a := 1 / 2 - w_rise_ratio p / 2) in *. set (b := 1 / 2 + w_rise_ratio p / 2) in *. assert (Eb : b = 1 - a) by (unfold a, b; lra). clearbody a b.
    destruct (Rle_dec t 0) as [T0|T0].
    { rewrite Rmin_right, Rmax_left by lra. cbn [ext sp_t]. destruct (Rle_dec 0 a); [|lra]. unfold one, the_fit, polynom_value, fit. cbn. field. lra. }
    destruct (Rle_dec t a) as [T1|T1].
    { rewrite Rmin_right, Rmax_right by lra. cbn [ext sp_t]. destruct (Rle_dec t a); [|lra]. unfold one, the_fit, polynom_value, fit, smooth. cbn. field. lra. }
    destruct (Rle_dec t b) as [T2|T2].
    { rewrite Rmin_right, Rmax_right by lra. cbn [ext sp_t]. destruct (Rle_dec t a); [lra|]. destruct (Rle_dec t b); [|lra]. unfold one, the_fit, polynom_value, fit. cbn. field. lra. }
    destruct (Rle_dec t 1) as [T3|T3].
    { rewrite Rmin_right, Rmax_right by lra. cbn [ext sp_t]. destruct (Rle_dec t a); [lra|]. destruct (Rle_dec t b); [lra|]. subst b. unfold one, the_fit, polynom_value, fit, smooth. cbn. field; lra. }
    rewrite Rmin_left, Rmax_right by lra. cbn [ext sp_t]. destruct (Rle_dec 1 a); [lra|]. destruct (Rle_dec 1 b); [lra|]. subst b. unfold one, the_fit, polynom_value, fit, smooth. cbn. field. lra.
  - destruct (C33_queries s t VValue R) as (Q1 & (y & Q2) & _). unfold lift_ok. split; [|split].
    + apply (reachable_step s (CQuery t VValue)); [exact R|]. cbn [scall_run]. unfold pos. destruct (interpolation s t VValue) as [s1 o]. cbn [snd fst] in *. subst o. reflexivity.
    + unfold pos. now rewrite (proj2 (interpolation_times s t VValue)).
    + unfold pos. rewrite Q1. exact Ep.
Qed.

(** What reset makes of the trajectory. *)
Lemma add_points_ok p s : 0 < w_rise_ratio p < 1 -> reachable s -> cs_angular s = false ->
  exists s', add_points (clear s) (lift_points p) = (s', Ok tt) /\ lift_ok p s'.
Proof.
  intros Hr R Ha. destruct (lift_rise p Hr) as ((H1 & H2) & H3). unfold lift_points. cbn [add_points].
  unfold clear at 1. unfold add_point at 1. cbn [cs_points cs_angular last_point rev app]. cbn [cs_pieces].
  unfold add_point at 1. cbn [cs_points cs_angular last_point rev app cs_pieces sp_t sp_x]. rewrite Ha. destruct (Rle_dec _ 0); [lra|].
  unfold add_point at 1. cbn [cs_points cs_angular last_point rev app cs_pieces sp_t sp_x]. destruct (Rle_dec _ _); [lra|].
  unfold add_point at 1. cbn [cs_points cs_angular last_point rev app cs_pieces sp_t sp_x]. destruct (Rle_dec _ _); [lra|].
  eexists. split; [reflexivity|]. split; [|split; reflexivity].
  assert (R0 : reachable (clear s)) by (apply (reachable_step s CClear); [exact R|reflexivity]).
  pose proof (add_point_reachable _ 0 0 0 R0) as R1. unfold clear in R1. unfold add_point in R1 at 1. cbn [cs_points cs_angular last_point rev app cs_pieces fst] in R1.
  pose proof (add_point_reachable _ (1 / 2 - w_rise_ratio p / 2) (w_foot_height p) 0 R1) as R2. unfold add_point in R2 at 1. cbn [cs_points cs_angular last_point rev app cs_pieces sp_t sp_x] in R2. rewrite Ha in R2. destruct (Rle_dec _ 0) in R2; [lra|]. cbn [fst] in R2.
  pose proof (add_point_reachable _ (1 / 2 + w_rise_ratio p / 2) (w_foot_height p) 0 R2) as R3. unfold add_point in R3 at 1. cbn [cs_points cs_angular last_point rev app cs_pieces sp_t sp_x] in R3. destruct (Rle_dec (1 / 2 + w_rise_ratio p / 2) _) in R3; [lra|]. cbn [fst] in R3.
  pose proof (add_point_reachable _ 1 0 0 R3) as R4. unfold add_point in R4 at 1. cbn [cs_points cs_angular last_point rev app cs_pieces sp_t sp_x] in R4. destruct (Rle_dec 1 _) in R4; [lra|]. cbn [fst] in R4. exact R4.
Qed.

(** Other ratios are refused, when the second point is added or when the third or the fourth one is. *)
Lemma add_points_refused p s : ~ 0 < w_rise_ratio p < 1 -> cs_angular s = false -> exists s', add_points (clear s) (lift_points p) = (s', Throw ERuntime) /\ cs_angular s' = false.
Proof.
  intros Hr Ha. unfold lift_points. cbn [add_points].
  unfold clear at 1. unfold add_point at 1. cbn [cs_points cs_angular last_point rev app]. cbn [cs_pieces].
  unfold add_point at 1. cbn [cs_points cs_angular last_point rev app cs_pieces sp_t sp_x]. rewrite Ha. destruct (Rle_dec _ 0); [eexists; split; reflexivity|].
  unfold add_point at 1. cbn [cs_points cs_angular last_point rev app cs_pieces sp_t sp_x]. destruct (Rle_dec _ _); [eexists; split; reflexivity|].
  lra.
Qed.

(** ** Steps *)
Lemma spaced_wanted p s x y a : spaced p s x y a = wanted p s (V3 x y a).
Proof. reflexivity. Qed.
Lemma clipped_towards c p s T st : positive_limits p -> exists g, clipped_opposite_footstep c p (create_footstep p s T) (vx st) (vy st) (vz st) = Some g /\ step_towards c p s T (f_frame g) st.
Proof.
  intros P. destruct (C50_clipped_opposite_footstep c p (create_footstep p s T) (vx st) (vy st) (vz st) P) as (g & r & j & Ec & Eg & J & Ef & (_ & Sf) & Al & Ov & _).
  cbn [create_footstep f_side f_frame] in *. exists g. split; [exact Eg|].
  destruct (clip_factor c p (spaced p s (vx st) (vy st) (vz st)) P) as (k & K & Ek & _ & K1 & _). rewrite Ec in Ek. injection Ek as ->.
  replace (spaced p s (vx st) (vy st) (vz st)) with (wanted p s st) in * by reflexivity.
  pose proof (pow_9_10 j) as Pj. exists ((9 / 10) ^ j * k). split; [nra|]. rewrite v3_scale_scale in Al, Sf. split; [exact Al|]. split; [exact Sf|].
  intros A O. rewrite (K1 A) in *. destruct j as [|j]; [cbn [pow]; ring|]. exfalso.
  specialize (Ov 0%nat ltac:(lia)). cbn [pow] in Ov. rewrite !v3_scale_scale, !Rmult_1_l, v3_scale_1 in Ov.
  unfold opposite_footstep in Ov. cbn [create_footstep f_width f_length f_side f_frame f_polygon f_computed] in Ov. rewrite opposite_frame_planar in Ov.
  unfold landing, create_footstep in O. unfold create_footstep in Ov. rewrite O in Ov. discriminate.
Qed.

Lemma landing_moved D p s T st : landing p s (frame_mul D T) st = frame_mul D (landing p s T st).
Proof. unfold landing. apply frame_mul_assoc. Qed.
Lemma towards_moved c p s D T U st : on_floor D -> step_towards c p s T U st -> step_towards c p s (frame_mul D T) (frame_mul D U) st.
Proof.
  intros HD (k & K & A & E & O). exists k. split; [exact K|]. split; [exact A|]. split; [rewrite landing_moved, <- E; reflexivity|].
  intros A' O'. apply O; [exact A'|]. rewrite landing_moved, !create_moved, overlap_moved in O' by (apply floor_of_motion; exact HD). exact O'.
Qed.
Lemma towards_floor c p s T U st : on_floor T -> step_towards c p s T U st -> on_floor U.
Proof. intros HT (k & _ & _ & -> & _). apply floor_mul; [exact HT|]. repeat eexists. Qed.

Lemma other_flying (b : bool) : (if b then Right else Left) = other_side (if b then Left else Right).
Proof. destruct b; reflexivity. Qed.
Lemma next_support c p w dx dy da : positive_limits (w_base p) -> exists U,
  compute_next_support c p w dx dy da = (dw_set_feet (dw_set_step w (V3 dx dy da)) (dw_support_left w) (dw_left w) (dw_right w) U, Ok tt) /\
  step_towards c (w_base p) (support_of w) (foot_of w (support_of w)) U (V3 dx dy da).
Proof.
  intros P. unfold compute_next_support. cbn [dw_set_step dw_support_left dw_left dw_right].
  destruct (C52_repetitive_plan c (w_base p) dx dy da 2 (if dw_support_left w then Right else Left) (dw_left w) (dw_right w) P) as (l & El & Ll & _ & _ & E1 & St & _).
  rewrite El. destruct (nth_error l 2) as [f|] eqn:E2; [|apply nth_error_None in E2; rewrite Ll in E2; cbn in E2; lia].
  exists (f_frame f). split; [reflexivity|].
  specialize (St 1%nat _ f ltac:(cbn; lia) E1 E2).
  destruct (clipped_towards c (w_base p) (support_of w) (foot_of w (support_of w)) (V3 dx dy da) P) as (g & Eg & Tg). cbn [vx vy vz] in Eg.
  assert (Es : other_side (if dw_support_left w then Right else Left) = support_of w) by (unfold support_of; destruct (dw_support_left w); reflexivity).
  rewrite Es in St. replace (target_of (dw_left w) (dw_right w) (support_of w)) with (foot_of w (support_of w)) in St by reflexivity.
  assert (f = g) by congruence. subst. exact Tg.
Qed.

(** ** The calls *)
Definition same_feet (w w' : dwalk) : Prop :=
  dw_offset w' = dw_offset w /\ dw_support_left w' = dw_support_left w /\ dw_left w' = dw_left w /\ dw_right w' = dw_right w /\ dw_next w' = dw_next w /\ dw_step w' = dw_step w.
Lemma same_feet_ok c p w w' : same_feet w w' -> lift_ok p (dw_lift w') -> walk_ok c p w -> walk_ok c p w'.
Proof.
  intros (_ & E2 & E3 & E4 & E5 & E6) L (F1 & F2 & F3 & _ & S). unfold walk_ok, support_of, foot_of in *. rewrite E2, E3, E4, E5, E6. auto.
Qed.

(** The targets of update(t). *)
Definition flying_target (p : wparams) (T U : frame) (t : R) : frame := lifted (interpolate_frames T U t) (lift_height p t).
Definition left_target (p : wparams) (w : dwalk) (t : R) : frame := if dw_support_left w then dw_left w else flying_target p (dw_left w) (dw_next w) t.
Definition right_target (p : wparams) (w : dwalk) (t : R) : frame := if dw_support_left w then flying_target p (dw_right w) (dw_next w) t else dw_right w.
Lemma update_spec ik c p w t : 0 < w_rise_ratio p < 1 -> walk_ok c p w -> exists W, same_feet w W /\ lift_ok p (dw_lift W) /\ dw_robot W = dw_robot w /\
  dw_targets W = (left_target p w t, right_target p w t, trunk_target p w (left_target p w t) (right_target p w t)) /\ update ik p w t = solve_walk ik W.
Proof.
  intros Hr (_ & _ & _ & L & _). destruct (lift_pos p (dw_lift w) t Hr L) as [Ep Lp]. unfold update.
  destruct (pos (dw_lift w) t) as [s o]. cbn [fst snd] in *. subst o.
  eexists. split; [|split; [|split; [|split; [|reflexivity]]]]; try reflexivity; [|exact Lp].
  unfold same_feet. cbn [dw_set_targets dw_set_lift dw_offset dw_support_left dw_left dw_right dw_next dw_step]. repeat split.
Qed.
Lemma solve_same ik W w' o : solve_walk ik W = (w', o) -> same_feet W w' /\ dw_lift w' = dw_lift W /\ dw_targets w' = dw_targets W /\
  (forall r, ik (dw_robot W) (dw_targets W) = Ok r -> dw_robot w' = r /\ o = Ok tt).
Proof.
  unfold solve_walk. intros H. destruct (ik (dw_robot W) (dw_targets W)) as [r| |]; injection H as <- <-; (split; [repeat split|]; split; [reflexivity|]; split; [reflexivity|]); intros r' Hr'; try discriminate.
  injection Hr' as <-. split; reflexivity.
Qed.
Lemma same_feet_trans a b d : same_feet a b -> same_feet b d -> same_feet a d.
Proof. unfold same_feet. intuition congruence. Qed.

Lemma support_cases (w : dwalk) : foot_of w (support_of w) = if dw_support_left w then dw_left w else dw_right w.
Proof. unfold foot_of, support_of. destruct (dw_support_left w); reflexivity. Qed.

Lemma next_step_spec c p w dx dy da : positive_limits (w_base p) -> walk_ok c p w -> exists w', next_step c p w dx dy da = (w', Ok tt) /\ walk_ok c p w' /\
  dw_support_left w' = negb (dw_support_left w) /\ foot_of w' (support_of w) = foot_of w (support_of w) /\ foot_of w' (support_of w') = dw_next w /\
  dw_step w' = V3 dx dy da /\ dw_robot w' = dw_robot w /\ dw_targets w' = dw_targets w /\ dw_offset w' = dw_offset w.
Proof.
  intros P (F1 & F2 & F3 & L & S). unfold next_step.
  match goal with |- context [compute_next_support c p ?W dx dy da] => destruct (next_support c p W dx dy da P) as (U & E & T) end.
  rewrite E. eexists. split; [reflexivity|].
  unfold support_of, foot_of in *. cbn [dw_set_feet dw_set_step dw_support_left dw_left dw_right dw_next dw_lift dw_step dw_robot dw_targets dw_offset] in *.
  destruct (dw_support_left w) eqn:B; cbn [dw_set_feet dw_set_step dw_support_left dw_left dw_right dw_next dw_lift dw_step dw_robot dw_targets dw_offset negb] in *.
  - split; [|repeat split]. unfold walk_ok, support_of, foot_of. cbn. repeat (split; [assumption|]). split; [|split; [exact L|exact T]]. eapply towards_floor; [|exact T]. exact F3.
  - split; [|repeat split]. unfold walk_ok, support_of, foot_of. cbn. repeat (split; [assumption|]). split; [|split; [exact L|exact T]]. eapply towards_floor; [|exact T]. exact F3.
Qed.

(** The motion of update_T_world_support. *)
Definition replacement (w : dwalk) (T : frame) : frame := frame_mul (flatten_on_floor T) (frame_inv (foot_of w (support_of w))).
Lemma replacement_floor c p w T : walk_ok c p w -> on_floor (replacement w T).
Proof.
  intros (F1 & F2 & _). apply floor_mul; [apply floor_flatten|]. apply floor_inv. unfold foot_of, support_of. destruct (dw_support_left w); assumption.
Qed.
Lemma replacement_support c p w T : walk_ok c p w -> frame_mul (replacement w T) (foot_of w (support_of w)) = flatten_on_floor T.
Proof.
  intros (F1 & F2 & _). unfold replacement. rewrite frame_mul_assoc, frame_inv_l, frame_mul_id_r; [reflexivity|].
  apply rigid_of_floor. unfold foot_of, support_of. destruct (dw_support_left w); assumption.
Qed.
Definition replaced (w : dwalk) (T : frame) : dwalk :=
  let D := replacement w T in dw_set_feet w (dw_support_left w) (frame_mul D (dw_left w)) (frame_mul D (dw_right w)) (frame_mul D (dw_next w)).
Lemma replaced_ok c p w T : walk_ok c p w -> walk_ok c p (replaced w T).
Proof.
  intros H. pose proof (replacement_floor c p w T H) as D. destruct H as (F1 & F2 & F3 & L & S). unfold replaced, walk_ok. cbv zeta.
  set (K := replacement w T) in *. clearbody K.
  unfold support_of, foot_of in *. cbn [dw_set_feet dw_support_left dw_left dw_right dw_next dw_lift dw_step].
  split; [apply floor_mul; assumption|]. split; [apply floor_mul; assumption|]. split; [apply floor_mul; assumption|]. split; [exact L|].
  destruct (dw_support_left w); apply towards_moved; assumption.
Qed.
Lemma place_spec pn c p w T : walk_ok c p w -> update_T_world_support pn w T =
  match set_T_world_frame_name pn (dw_robot w) (if dw_support_left w then "left_foot" else "right_foot") (flatten_on_floor T) with
  | Ok r => (dw_set_robot (replaced w T) (update_kinematics r), Ok tt)
  | Throw e => (replaced w T, Throw e)
  | UB => (replaced w T, UB)
  end.
Proof.
  intros H. pose proof (replacement_floor c p w T H) as D. pose proof (replacement_support c p w T H) as Es. rewrite support_cases in Es. unfold update_T_world_support.
  assert (E : frame_mul (flatten_on_floor T) (frame_inv (if dw_support_left w then dw_left w else dw_right w)) = replacement w T) by (unfold replacement; rewrite support_cases; reflexivity).
  cbv zeta. rewrite E. destruct H as (F1 & F2 & F3 & _).
  rewrite (flatten_floor (frame_mul _ (dw_left w))) by (apply floor_mul; assumption). rewrite (flatten_floor (frame_mul _ (dw_right w))) by (apply floor_mul; assumption).
  rewrite (flatten_floor (frame_mul _ (dw_next w))) by (apply floor_mul; assumption).
  cbn [dw_set_feet dw_support_left dw_left dw_right dw_robot]. unfold replaced. cbv zeta. destruct (dw_support_left w); rewrite Es; reflexivity.
Qed.
