(** Model of the comparisons of footsteps and supports (src/placo/humanoid/footsteps_planner.cpp:96-99, 212-227), and of src/placo/humanoid/kick.cpp. *)
From Coq Require Import Reals List Arith Bool.
From Verif Require Import Base Geom3 Geometry_model Footsteps_model Spline_model.
Import ListNotations.
Open Scope R_scope.

(** Eigen: squaredNorm() of the 4 x 4 matrix of an Affine3d, of which the last row is (0, 0, 0, 1); that of a difference of two of them has a null last row. *)
Definition m3_sqnorm (a : mat3) : R :=
  m00 a * m00 a + m01 a * m01 a + m02 a * m02 a + m10 a * m10 a + m11 a * m11 a + m12 a * m12 a + m20 a * m20 a + m21 a * m21 a + m22 a * m22 a.
Definition affine_sqnorm (t : frame) : R := m3_sqnorm (fr_R t) + v3_dot (fr_t t) (fr_t t) + 1.
Definition m3_sub (a b : mat3) : mat3 :=
  M3 (m00 a - m00 b) (m01 a - m01 b) (m02 a - m02 b) (m10 a - m10 b) (m11 a - m11 b) (m12 a - m12 b) (m20 a - m20 b) (m21 a - m21 b) (m22 a - m22 b).
Definition affine_sqdist (s t : frame) : R :=
  m3_sqnorm (m3_sub (fr_R s) (fr_R t)) + v3_dot (v3_sub (fr_t s) (fr_t t)) (v3_sub (fr_t s) (fr_t t)).
(** Eigen: Transform::isApprox with the precision 1e-12. *)
Definition frame_is_approx (s t : frame) : bool :=
  if Rle_dec (affine_sqdist s t) (1e-12 * 1e-12 * Rmin (affine_sqnorm s) (affine_sqnorm t)) then true else false.

(** footsteps_planner.cpp:96-99. *)
Definition footstep_eq (f g : footstep) : bool :=
  (match f_side f, f_side g with Left, Left | Right, Right => true | _, _ => false end) && frame_is_approx (f_frame f) (f_frame g).

(** footsteps_planner.cpp:212-227: the loop over k. *)
Fixpoint footsteps_eq (l m : list footstep) : bool :=
  match l, m with
  | f :: l', g :: m' => if negb (footstep_eq f g) then false else footsteps_eq l' m'
  | _, _ => true
  end.
Definition support_eq (s u : support) : bool :=
  if negb (Nat.eqb (List.length (u_footsteps s)) (List.length (u_footsteps u))) then false else footsteps_eq (u_footsteps s) (u_footsteps u).

(** kick.h:14-20. *)
Record kick_trajectory : Type := KickTrajectory { kt_t_start : R; kt_t_end : R; kt_foot : spline3 }.
(** kick.cpp:17-44: the points of the trajectory are commented out. *)
Definition make_kick (kicking_side : side) (t_start t_end : R) (start target : vec3) (T_world_opposite : frame) : kick_trajectory :=
  KickTrajectory t_start t_end new_spline3.
(** kick.cpp:6-14. *)
Definition kick_pos (k : kick_trajectory) (t : R) : kick_trajectory * outcome (R * R * R) :=
  let (s, o) := interpolation3 (kt_foot k) t VValue in (KickTrajectory (kt_t_start k) (kt_t_end k) s, o).
Definition kick_vel (k : kick_trajectory) (t : R) : kick_trajectory * outcome (R * R * R) :=
  let (s, o) := interpolation3 (kt_foot k) t VSpeed in (KickTrajectory (kt_t_start k) (kt_t_end k) s, o).
