(** The displacement of one step of FootstepsPlannerNaive before the clipping to the ellipsoid, in double arithmetic (see Doubles_model.v). *)
From Coq Require Import Reals ZArith List Bool.
From Verif Require Import Base Doubles_model.
Open Scope R_scope.

(** footsteps_planner_naive.cpp:82-91 and 92-101: the factor after the two tests on a coordinate of the error, and whether one of them was true. *)
Definition d_window (limit error rescale : R) : R * bool :=
  let (r, out) := if Rlt_dec error (- limit) then (Rmin rescale (d_div (- limit) error), true) else (rescale, false) in
  if Rlt_dec limit error then (Rmin r (d_div limit error), true) else (r, out).

(** footsteps_planner_naive.cpp:80-104: the displacement in the frame of the support foot, and whether the target is accessible (arrived, before the yaw is looked
    at). The vertical coordinate of the error is 0. *)
Definition d_displacement (accessibility_length accessibility_width error_x error_y : R) : (R * R) * bool :=
  let (r, out_x) := d_window accessibility_length error_x 1 in
  let (rescale, out_y) := d_window accessibility_width error_y r in
  ((d_mul error_x rescale, d_mul error_y rescale), negb (out_x || out_y)).
