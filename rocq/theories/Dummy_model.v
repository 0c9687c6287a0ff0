(** Model of src/placo/humanoid/dummy_walk.cpp: the walk, its footsteps and the targets of its inverse kinematics.
    The inverse kinematics themselves (solve(), dummy_walk.cpp:128-136: noise, update and solver, see the models of the kinematics) are an argument:
    what they do to the robot for given targets. *)
From Coq Require Import Reals List ZArith Bool String.
From Verif Require Import Base Geom3 Tools_model Geometry_model Spline_model Footsteps_model Robot_model Wpg_model.
Import ListNotations.
Open Scope R_scope.

(** dummy_walk.h:40-105. [dw_targets] are the targets of the tasks of the left foot, of the right foot and of the trunk. The robot and the parameters are
    references. *)
Record dwalk : Type := DWalk {
  dw_robot : robot; dw_offset : R; dw_support_left : bool; dw_lift : cubic_spline; dw_left : frame; dw_right : frame; dw_next : frame; dw_step : vec3;
  dw_targets : frame * frame * frame
}.
Definition dw_set_robot (w : dwalk) (r : robot) : dwalk :=
  DWalk r (dw_offset w) (dw_support_left w) (dw_lift w) (dw_left w) (dw_right w) (dw_next w) (dw_step w) (dw_targets w).
Definition dw_set_lift (w : dwalk) (s : cubic_spline) : dwalk :=
  DWalk (dw_robot w) (dw_offset w) (dw_support_left w) s (dw_left w) (dw_right w) (dw_next w) (dw_step w) (dw_targets w).
Definition dw_set_feet (w : dwalk) (support_left : bool) (left right next : frame) : dwalk :=
  DWalk (dw_robot w) (dw_offset w) support_left (dw_lift w) left right next (dw_step w) (dw_targets w).
Definition dw_set_step (w : dwalk) (s : vec3) : dwalk :=
  DWalk (dw_robot w) (dw_offset w) (dw_support_left w) (dw_lift w) (dw_left w) (dw_right w) (dw_next w) s (dw_targets w).
Definition dw_set_targets (w : dwalk) (T : frame * frame * frame) : dwalk :=
  DWalk (dw_robot w) (dw_offset w) (dw_support_left w) (dw_lift w) (dw_left w) (dw_right w) (dw_next w) (dw_step w) T.

(** dummy_walk.cpp:121-126. *)
Definition translation (x y z : R) : frame := Frame m3_id (V3 x y z).

Section WithLibraries.
Variable pn : pin.
Variable ik : robot -> frame * frame * frame -> outcome robot.
Variable c : clipping.
Variable p : wparams.

(** dummy_walk.cpp:27-31: successive calls of add_point. *)
Fixpoint add_points (s : cubic_spline) (l : list (R * R)) : cubic_spline * outcome unit :=
  match l with
  | [] => (s, Ok tt)
  | (t, x) :: l' =>
      match add_point s t x 0 with
      | (s', Ok _) => add_points s' l'
      | (s', o) => (s', o)
      end
  end.
Definition lift_points : list (R * R) :=
  [(0, 0); (1 / 2 - w_rise_ratio p / 2, w_foot_height p); (1 / 2 + w_rise_ratio p / 2, w_foot_height p); (1, 0)].

(** dummy_walk.cpp:108-119: configure, plan, and footsteps[2]. A plan of which the numbers are not finite (see Footsteps_model.v) is [UB] here:
    nothing is said about it. *)
Definition compute_next_support (w : dwalk) (dx dy dtheta : R) : dwalk * outcome unit :=
  let w := dw_set_step w (V3 dx dy dtheta) in
  match repetitive_plan c (w_base p) dx dy dtheta 2 (if dw_support_left w then Right else Left) (dw_left w) (dw_right w) with
  | Some l =>
      match nth_error l 2 with
      | Some f => (dw_set_feet w (dw_support_left w) (dw_left w) (dw_right w) (f_frame f), Ok tt)
      | None => (w, UB)
      end
  | None => (w, UB)
  end.

(** dummy_walk.cpp:128-136. When solve() throws, the robot is left as it is (a simplification: it has been modified). *)
Definition solve_walk (w : dwalk) : dwalk * outcome unit :=
  match ik (dw_robot w) (dw_targets w) with
  | Ok r => (dw_set_robot w r, Ok tt)
  | Throw e => (w, Throw e)
  | UB => (w, UB)
  end.

(** dummy_walk.cpp:60-86. *)
Definition lifted (T : frame) (z : R) : frame := Frame (fr_R T) (V3 (vx (fr_t T)) (vy (fr_t T)) z).
Definition trunk_target (w : dwalk) (left right : frame) : frame :=
  let mid := interpolate_frames (flatten_on_floor left) (flatten_on_floor right) (1 / 2) in
  frame_mul (frame_mul mid (translation (dw_offset w) 0 (w_com_height p))) (Frame (rot_y (w_trunk_pitch p)) v3_zero).
Definition update (w : dwalk) (t : R) : dwalk * outcome unit :=
  let (s, o) := pos (dw_lift w) t in
  let w := dw_set_lift w s in
  match o with
  | Ok z =>
      let left := if dw_support_left w then dw_left w else lifted (interpolate_frames (dw_left w) (dw_next w) t) z in
      let right := if dw_support_left w then lifted (interpolate_frames (dw_right w) (dw_next w) t) z else dw_right w in
      solve_walk (dw_set_targets w (left, right, trunk_target w left right))
  | Throw e => (w, Throw e)
  | UB => (w, UB)
  end.

(** dummy_walk.cpp:24-43. *)
Definition reset_walk (w : dwalk) (support_left : bool) : dwalk * outcome unit :=
  let (s, o) := add_points (clear (dw_lift w)) lift_points in
  let w := dw_set_lift w s in
  match o with
  | Ok _ =>
      let w := dw_set_robot w (update_kinematics (reset pn (dw_robot w))) in
      let w := dw_set_feet w support_left (translation 0 (p_feet_spacing (w_base p) / 2) 0) (translation 0 (- p_feet_spacing (w_base p) / 2) 0) (dw_next w) in
      match compute_next_support w 0 0 0 with
      | (w, Ok _) => update w 0
      | r => r
      end
  | _ => (w, o)
  end.
(** dummy_walk.cpp:5-22; the frames are not initialised (the identity here). *)
Definition new_walk (r : robot) : dwalk * outcome unit :=
  reset_walk (DWalk r (5 / 100) false (new_spline false) frame_id frame_id frame_id v3_zero (frame_id, frame_id, frame_id)) false.

(** dummy_walk.cpp:45-58. *)
Definition next_step (w : dwalk) (dx dy dtheta : R) : dwalk * outcome unit :=
  let w :=
    if dw_support_left w then dw_set_feet w (dw_support_left w) (dw_left w) (dw_next w) (dw_next w)
    else dw_set_feet w (dw_support_left w) (dw_next w) (dw_right w) (dw_next w) in
  compute_next_support (dw_set_feet w (negb (dw_support_left w)) (dw_left w) (dw_right w) (dw_next w)) dx dy dtheta.

(** dummy_walk.cpp:88-106. *)
Definition update_T_world_support (w : dwalk) (T_world_support : frame) : dwalk * outcome unit :=
  let current := if dw_support_left w then dw_left w else dw_right w in
  let T := frame_mul (flatten_on_floor T_world_support) (frame_inv current) in
  let w := dw_set_feet w (dw_support_left w) (flatten_on_floor (frame_mul T (dw_left w))) (flatten_on_floor (frame_mul T (dw_right w))) (flatten_on_floor (frame_mul T (dw_next w))) in
  match (if dw_support_left w then set_T_world_frame_name pn (dw_robot w) "left_foot" (dw_left w) else set_T_world_frame_name pn (dw_robot w) "right_foot" (dw_right w)) with
  | Ok r => (dw_set_robot w (update_kinematics r), Ok tt)
  | Throw e => (w, Throw e)
  | UB => (w, UB)
  end.

End WithLibraries.
