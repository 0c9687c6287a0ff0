(** The clipping of a step in double arithmetic (see Doubles_model.v). *)
From Coq Require Import Reals ZArith List Bool.
From Verif Require Import Base Geom3 Footsteps_model Doubles_model.
Open Scope R_scope.

(** sqrt on doubles is correctly rounded. *)
Definition d_sqrt (x : R) : R := double (sqrt x).

(** The norms of humanoid_parameters.cpp:45 (Eigen adds the three squares as x^2 + (y^2 + z^2)), 65 and 85. *)
Definition d_clip_norm (c : clipping) (s : vec3) : R :=
  match c with
  | Ellipsoid => d_sqrt (d_add (d_mul (vx s) (vx s)) (d_add (d_mul (vy s) (vy s)) (d_mul (vz s) (vz s))))
  | Box => d_add (d_add (Rabs (vx s)) (Rabs (vy s))) (Rabs (vz s))
  | Conic => d_add (d_sqrt (d_add (d_mul (vx s) (vx s)) (d_mul (vy s) (vy s)))) (Rabs (vz s))
  end.

(** humanoid_parameters.cpp:38-56, 58-76 and 78-96. The limits are not 0. *)
Definition d_clip (c : clipping) (p : params) (step : vec3) : vec3 :=
  let f := V3 (if Rle_dec 0 (vx step) then p_max_dx_forward p else p_max_dx_backward p) (p_max_dy p) (p_max_dtheta p) in
  let step := V3 (d_div (vx step) (vx f)) (d_div (vy step) (vy f)) (d_div (vz step) (vz f)) in
  let norm := d_clip_norm c step in
  let step := if Rlt_dec 1 norm then V3 (d_div (vx step) norm) (d_div (vy step) norm) (d_div (vz step) norm) else step in
  V3 (d_mul (vx step) (vx f)) (d_mul (vy step) (vy f)) (d_mul (vz step) (vz f)).
