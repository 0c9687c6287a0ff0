(** Specification shared by the tasks of both solvers: the axes selected by a mask, and motions of the robot. *)
From Coq Require Import Reals List ZArith Bool String.
From Verif Require Import Base Geom3 Tools_model Geometry_model Robot_model Robot_spec.
Import ListNotations.
Open Scope R_scope.

(** The axes of the world, the axes of a frame of orientation [a], in the world, and the rows of a matrix. *)
Definition world_axis (i : nat) : vec3 := match i with 0 => V3 1 0 0 | 1 => V3 0 1 0 | _ => V3 0 0 1 end%nat.
Definition frame_axis (a : mat3) (i : nat) : vec3 :=
  match i with 0 => V3 (m00 a) (m10 a) (m20 a) | 1 => V3 (m01 a) (m11 a) (m21 a) | _ => V3 (m02 a) (m12 a) (m22 a) end%nat.
Definition row3 (M : mat) (i : nat) : vec3 := V3 (mat_at M i 0) (mat_at M i 1) (mat_at M i 2).

(** The direction of the row [k] of a task with the mask [m]: an axis of the world, an axis of the local frame, or a row of R_custom_world. *)
Definition mask_axis (m : axises_mask) (local : nat -> vec3) (k : nat) : vec3 :=
  let i := nth k (m_indices m) 0%nat in
  match m_frame m with TaskFrame => world_axis i | LocalFrame => local i | CustomFrame => row3 (m_R_custom m) i end.

(** At the time [t] the motion [q], of velocity [qd], is in the state of the robot, and has the acceleration [qdd]. *)
Record in_motion (r : robot) (q qd : R -> vec) (t : R) (qdd : vec) : Prop := InMotion {
  im_seen : up_to_date r;
  im_q : q t = st_q (r_state r);
  im_qd : qd t = st_qd (r_state r);
  im_size : vlen qdd = m_nv (r_model r) /\ forall u, vlen (qd u) = m_nv (r_model r);
  im_qdd : forall k, (k < m_nv (r_model r))%nat -> derivable_pt_lim (fun u => vat (qd u) k) t (vat qdd k) }.

(** A matrix that depends on the time has the derivative [D]. *)
Definition mat_deriv (M : R -> mat) (t : R) (D : mat) : Prop :=
  mrows D = mrows (M t) /\ mcols D = mcols (M t) /\
  forall i j, (i < mrows D)%nat -> (j < mcols D)%nat -> derivable_pt_lim (fun u => mat_at (M u) i j) t (mat_at D i j).

(** Contract of a frame along a motion: its Jacobian gives its velocities at any time, and the time variation of the Jacobian is its derivative. *)
Definition frame_contract (pn : pin) (m : rmodel) (q qd : R -> vec) (t : R) (f : nat) : Prop :=
  (forall u, jacobian_of pn m q u (qd u) f) /\ mat_deriv (fun u => pn_jac pn (q u) f LocalWorldAligned) t (pn_djac pn (q t) (qd t) f LocalWorldAligned).
(** The last three rows of the Jacobian in the world give the angular velocity too. *)
Definition frame_contract_world (pn : pin) (m : rmodel) (q qd : R -> vec) (t : R) (f : nat) : Prop :=
  (forall u, mrows (pn_jac pn (q u) f World) = 6%nat /\ mcols (pn_jac pn (q u) f World) = m_nv m /\ rigid (pn_frame pn (q u) f) /\
     m3_deriv (fun v => fr_R (pn_frame pn (q v) f)) u (m3_mul (skew (rows3 (pn_jac pn (q u) f World) 3 (qd u))) (fr_R (pn_frame pn (q u) f)))) /\
  mat_deriv (fun u => pn_jac pn (q u) f World) t (pn_djac pn (q t) (qd t) f World).
(** The same for the center of mass. *)
Definition com_contract (pn : pin) (m : rmodel) (q qd : R -> vec) (t : R) : Prop :=
  (forall u, mrows (pn_comjac pn (q u)) = 3%nat /\ mcols (pn_comjac pn (q u)) = m_nv m /\
     v3_deriv (fun v => pn_com pn (q v)) u (rows3 (pn_comjac pn (q u)) 0 (qd u))) /\
  mat_deriv (fun u => pn_comjac pn (q u)) t (pn_dcomjac pn (q t) (qd t)).

(** A function of the time with its first two derivatives: the first one at any time, the second one at [t]. *)
Definition twice (f : R -> vec3) (df : R -> vec3) (t : R) (ddf : vec3) : Prop := (forall u, v3_deriv f u (df u)) /\ v3_deriv df t ddf.

(** What second order dynamics ask of an error: error'' + kd error' + kp error = 0; here the left hand side. *)
Definition second_order (kp kd : R) (error derror dderror : vec3) : vec3 := v3_add dderror (v3_add (v3_scale kd derror) (v3_scale kp error)).
(** The same for a number, and the gain kd that is used: the critical one when kd is negative. *)
Definition second_order_r (kp kd error derror dderror : R) : R := dderror + (kd * derror + kp * error).
Definition damping (kp kd c : R) : Prop := (kd < 0 -> c = 2 * sqrt kp) /\ (0 <= kd -> c = kd).
(** A number that depends on the time, with its first two derivatives. *)
Definition twice_r (f df : R -> R) (t ddf : R) : Prop := (forall u, derivable_pt_lim f u (df u)) /\ derivable_pt_lim df t ddf.
(** The position of a joint varies with its velocity. *)
Definition joint_follows (r : robot) (q qd : R -> vec) (name : string) : Prop :=
  exists i k, get_joint_offset r name = Ok i /\ get_joint_v_offset r name = Ok k /\ forall u, derivable_pt_lim (fun v => vat (q v) i) u (vat (qd u) k).
