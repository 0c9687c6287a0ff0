(** The calls of a robot that take the name of a frame or of a joint, as Python users have them (bindings/expose-robot-wrapper.cpp:26-141). *)
From Coq Require Import Reals List Arith Bool String.
From Verif Require Import Base Geom3 Geometry_model Robot_model Manip_model.
Import ListNotations.
Open Scope R_scope.

(** expose-robot-wrapper.cpp:26-141: the calls, with their arguments. The dictionaries of torques are in Dicts_model. *)
Inductive call : Type :=
| Placement (f : string) | PlacementIn (a b : string) | Move (f : string) (T : frame)
| FrameJacobian (f reference : string) | FrameJacobianRate (f reference : string) | RelativeJacobian (a b : string)
| GravityTorques (f : string) | FixedTorques (qdd_a : vec) (f : string) | Hessian (f j : string)
| GetJoint (j : string) | SetJoint (j : string) (v : R) | GetLimits (j : string) | SetLimits (j : string) (lower upper : R) | Offset (j : string)
| Size (j : string) | VOffset (j : string) | VSize (j : string) | GetVelocity (j : string) | SetVelocity (j : string) (v : R) | GetAcceleration (j : string) | SetAcceleration (j : string) (v : R)
| VelocityLimit (j : string) (v : R) | TorqueLimit (j : string) (v : R) | RotorInertia (j : string) (v : R) | GearRatio (j : string) (v : R)
| JointJacobian (j reference : string).

(** What a call gives: a value, or, for a call that changes the robot, the changed robot. *)
Inductive answer : Type := APlace (T : frame) | ARobot (r : robot) | AMat (m : mat) | AVec (v : vec) | ANum (x : R) | APair (x y : R) | ANat (n : nat).

Definition give {A} (wrap : A -> answer) (o : outcome A) : outcome answer := x <- o ;; Ok (wrap x).

(** robot_wrapper.cpp:766-774. *)
Definition frame_names (r : robot) : list string := m_frames (r_model r).

Section Calls.
Variable pn : pin.
Variable hs : hessians.
Variable inv : mat -> mat.

(** robot_wrapper.cpp:431-434: both names are looked up before the call. *)
Definition get_T_a_b_name (r : robot) (a b : string) : outcome frame :=
  i <- get_frame_index r a ;; j <- get_frame_index r b ;; get_T_a_b pn r i j.
(** robot_wrapper.cpp:630-633. *)
Definition relative_position_jacobian_name (r : robot) (a b : string) : outcome mat :=
  i <- get_frame_index r a ;; j <- get_frame_index r b ;; relative_position_jacobian pn r i j.
(** robot_wrapper.cpp:728-731, 750-753. *)
Definition static_gravity_compensation_torques_name (r : robot) (f : string) : outcome vec :=
  i <- get_frame_index r f ;; static_gravity_compensation_torques pn inv r i.
Definition torques_from_acceleration_with_fixed_frame_name (r : robot) (qdd_a : vec) (f : string) : outcome vec :=
  i <- get_frame_index r f ;; torques_from_acceleration_with_fixed_frame pn inv r qdd_a i.

(** pinocchio: getFrameId is the number of frames when the model has no frame of this name. *)
Definition get_frame_id (r : robot) (f : string) : nat :=
  match position_of f (m_frames (r_model r)) with Some i => i | None => List.length (m_frames (r_model r)) end.
(** expose-robot-wrapper.cpp:57-61. *)
Definition get_frame_hessian_name (r : robot) (f j : string) : outcome mat :=
  k <- get_joint_v_offset r j ;; get_frame_hessian hs r (get_frame_id r f) k.

(** expose-robot-wrapper.cpp:26-141. *)
Definition run (r : robot) (c : call) : outcome answer :=
  match c with
  | Placement f => give APlace (get_T_world_frame_name pn r f)
  | PlacementIn a b => give APlace (get_T_a_b_name r a b)
  | Move f T => give ARobot (set_T_world_frame_name pn r f T)
  | FrameJacobian f k => give AMat (frame_jacobian_name pn r f k)
  | FrameJacobianRate f k => give AMat (frame_jacobian_time_variation_name pn r f k)
  | RelativeJacobian a b => give AMat (relative_position_jacobian_name r a b)
  | GravityTorques f => give AVec (static_gravity_compensation_torques_name r f)
  | FixedTorques qdd_a f => give AVec (torques_from_acceleration_with_fixed_frame_name r qdd_a f)
  | Hessian f j => give AMat (get_frame_hessian_name r f j)
  | GetJoint j => give ANum (get_joint r j)
  | SetJoint j v => give ARobot (set_joint r j v)
  | GetLimits j => give (fun l => APair (fst l) (snd l)) (get_joint_limits r j)
  | SetLimits j l u => give ARobot (set_joint_limits r j l u)
  | Offset j => give ANat (get_joint_offset r j)
  | Size j => give ANat (get_joint_size r j)
  | VOffset j => give ANat (get_joint_v_offset r j)
  | VSize j => give ANat (get_joint_v_size r j)
  | GetVelocity j => give ANum (get_joint_velocity r j)
  | SetVelocity j v => give ARobot (set_joint_velocity r j v)
  | GetAcceleration j => give ANum (get_joint_acceleration r j)
  | SetAcceleration j v => give ARobot (set_joint_acceleration r j v)
  | VelocityLimit j v => give ARobot (set_velocity_limit r j v)
  | TorqueLimit j v => give ARobot (set_torque_limit r j v)
  | RotorInertia j v => give ARobot (set_rotor_inertia r j v)
  | GearRatio j v => give ARobot (set_gear_ratio r j v)
  | JointJacobian j k => give AMat (joint_jacobian_name pn r j k)
  end.
End Calls.
