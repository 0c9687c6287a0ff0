(** The knots of the trajectory of a swing foot in double arithmetic (see Doubles_model.v). The polynomials between the knots are not computed here. *)
From Coq Require Import Reals ZArith List Bool.
From Verif Require Import Base Geom3 Spline_model Swing_model Footsteps_model Wpg_model Doubles_model.
Import ListNotations.
Open Scope R_scope.

(** swing_foot_cubic.cpp:33-42, the vector t. *)
Definition d_apex_times (virt_t_start half_duration rise_ratio : R) : list R :=
  if Rlt_dec 0 rise_ratio then
    [d_sub (d_add virt_t_start half_duration) (d_mul half_duration rise_ratio); d_add (d_add virt_t_start half_duration) (d_mul half_duration rise_ratio)]
  else [d_add virt_t_start half_duration].

(** swing_foot_cubic.cpp:17-58. *)
Definition d_make_cswing (t_start virt_duration height rise_ratio : R) (start target : vec3) (elapsed_ratio : R) (start_vel : vec3) : outcome cswing :=
  let half_duration := d_div virt_duration 2 in
  let virt_t_start := d_sub t_start (d_mul elapsed_ratio virt_duration) in
  let t_end := d_add t_start (d_mul (d_sub 1 elapsed_ratio) virt_duration) in
  let apex := filter (fun t => if Rlt_dec t_start t then true else false) (d_apex_times virt_t_start half_duration rise_ratio) in
  x <- add_points (new_spline false) [(t_start, vx start, vx start_vel); (t_end, vx target, 0)] ;;
  y <- add_points (new_spline false) [(t_start, vy start, vy start_vel); (t_end, vy target, 0)] ;;
  z <- add_points (new_spline false) ((t_start, vz start, vz start_vel) :: map (fun t => (t, height, 0)) apex ++ [(t_end, vz target, 0)]) ;;
  Ok (CSwing x y z).

(** walk_pattern_generator.cpp:348. *)
Definition d_virt_duration (p : params) (s : support) : R := d_mul (d_default_duration p s) (u_time_ratio s).
