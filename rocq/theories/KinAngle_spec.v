(** Specification of the yaw and cone constraints of the kinematics solver. *)
From Coq Require Import Reals List ZArith Bool String.
From Verif Require Import Base Angle Geom3 Tools_model Geometry_model Robot_model Robot_spec KinTasks_model Kin_model Tasks_spec KinTasks_spec KinReg_spec.
Import ListNotations.
Open Scope R_scope.

(** The x axis of the frame [B] in the frame [A], its angle in the plane (x, y) of [A], and the length of its projection on this plane (the cosine of its elevation). *)
Definition heading (A B : frame) : vec3 := m3_vec (m3_t (fr_R A)) (frame_axis (fr_R B) 0).
Definition yaw_of (A B : frame) : R := atan2 (vy (heading A B)) (vx (heading A B)).
Definition level_part (A B : frame) : R := sqrt (vx (heading A B) * vx (heading A B) + vy (heading A B) * vy (heading A B)).
(** There is a yaw, and it is not a half turn, where it jumps. *)
Definition has_yaw (A B : frame) : Prop := ~ (vy (heading A B) = 0 /\ vx (heading A B) <= 0).

(** The angle between the axes z of two frames. *)
Definition tilt_of (A B : frame) : R := angle_between (z_axis A) (z_axis B).

(** Contract of the Jacobian of a frame in its own axes: its last rows give its angular velocity. *)
Definition turns_local (pn : pin) (m : rmodel) (q : R -> vec) (x : vec) (f : nat) : Prop :=
  let J := pn_jac pn (q 0) f Local in
  mrows J = 6%nat /\ mcols J = m_nv m /\ vlen x = m_nv m /\ always_rigid pn q f /\
  spins pn q f (m3_vec (fr_R (pn_frame pn (q 0) f)) (rows3 J 3 x)).

(** [w] is the angular velocity of [B] relatively to [A], in [A]. *)
Definition relative_spin (A B : R -> frame) (w : vec3) : Prop :=
  let M := fun u => m3_mul (m3_t (fr_R (A u))) (fr_R (B u)) in m3_deriv M 0 (m3_mul (skew w) (M 0)).
(** The axis z of [B] in [A], and the azimuths of the slices of a cone: n angles from the azimuth of this axis minus the range, included, to plus the range, excluded. *)
Definition pole (A B : frame) : vec3 := m3_vec (m3_t (fr_R A)) (z_axis B).
Definition azimuth (A B : frame) (range : R) (n k : nat) : R := atan2 (vy (pole A B)) (vx (pole A B)) - range + 2 * range * INR k / INR n.

(** The derivative on the right. *)
Definition right_deriv (f : R -> R) (d : R) : Prop :=
  forall eps, 0 < eps -> exists delta, 0 < delta /\ forall h, 0 < h < delta -> Rabs ((f h - f 0) / h - d) < eps.
