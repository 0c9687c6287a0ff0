(** What is expected of the clipping of a step with doubles. *)
From Coq Require Import Reals ZArith List Bool.
From Verif Require Import Base Geom3 Footsteps_model Footsteps_spec Doubles_model Doubles_spec.
Open Scope R_scope.

(** A double that is 0, or from 2^-100 to 2^100 in absolute value. *)
Definition moderate (x : R) : Prop := is_double x /\ (x = 0 \/ / 2 ^ 100 <= Rabs x) /\ Rabs x <= 2 ^ 100.
Definition moderate_step (s : vec3) : Prop := moderate (vx s) /\ moderate (vy s) /\ moderate (vz s).
Definition moderate_limits (p : params) : Prop :=
  positive_limits p /\ moderate (p_max_dx_forward p) /\ moderate (p_max_dx_backward p) /\ moderate (p_max_dy p) /\ moderate (p_max_dtheta p).

(** The limits, larger by the factor [k]. *)
Definition enlarged (k : R) (p : params) : params :=
  Params (p_single_support_duration p) (p_single_support_timesteps p) (p_double_support_ratio p) (p_startend_double_support_ratio p)
    (k * p_max_dx_forward p) (k * p_max_dx_backward p) (k * p_max_dy p) (k * p_max_dtheta p) (p_dtheta_spacing p) (p_feet_spacing p) (p_foot_width p) (p_foot_length p).

(** [y] has the sign of [x], and is [x] up to [k] roundings. *)
Definition nearly (k : nat) (x y : R) : Prop := 0 <= x * y /\ within k (Rabs x) (Rabs y).

(** The limits a robot has by default (humanoid_parameters.h:100-115), as doubles. *)
Definition default_limits (p : params) : Prop :=
  p_max_dx_forward p = double (8 / 100) /\ p_max_dx_backward p = double (3 / 100) /\ p_max_dy p = double (4 / 100) /\ p_max_dtheta p = double (35 / 100).
