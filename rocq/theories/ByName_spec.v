(** Specification: the names a call mentions, and the names a robot has. *)
From Coq Require Import Reals List Arith Bool String.
From Verif Require Import Base Geom3 Geometry_model Robot_model ByName_model.
Import ListNotations.
Open Scope R_scope.

(** The frames and the joints that a call names. *)
Definition frames_named (c : call) : list string :=
  match c with
  | Placement f | Move f _ | FrameJacobian f _ | FrameJacobianRate f _ | GravityTorques f | FixedTorques _ f | Hessian f _ => [f]
  | PlacementIn a b | RelativeJacobian a b => [a; b]
  | _ => []
  end.
Definition joints_named (c : call) : list string :=
  match c with
  | GetJoint j | SetJoint j _ | GetLimits j | SetLimits j _ _ | Offset j | Size j | VOffset j | VSize j | GetVelocity j | SetVelocity j _
  | GetAcceleration j | SetAcceleration j _ | VelocityLimit j _ | TorqueLimit j _ | RotorInertia j _ | GearRatio j _ | JointJacobian j _ | Hessian _ j => [j]
  | _ => []
  end.

(** The robot has no frame, or no joint, of this name. *)
Definition no_frame (r : robot) (f : string) : Prop := ~ In f (m_frames (r_model r)).
Definition no_joint (r : robot) (j : string) : Prop := ~ In j (map jt_name (m_joints (r_model r))) /\ j <> "universe"%string.

(** The call names something that the robot does not have. *)
Definition misnamed (r : robot) (c : call) : Prop :=
  (exists f, In f (frames_named c) /\ no_frame r f) \/ (exists j, In j (joints_named c) /\ no_joint r j).

(** The calls that read or write a coordinate of the configuration of a joint, and those about frames; the Hessian names both a frame and a joint. *)
Definition about_positions (c : call) : Prop :=
  match c with GetJoint _ | SetJoint _ _ | GetLimits _ | SetLimits _ _ _ | Offset _ => True | _ => False end.
Definition about_frames (c : call) : Prop := frames_named c <> [] /\ joints_named c = [].

(** [i] is the place of a name in a list of names: the first one. *)
Definition first_at (name : string) (l : list string) (i : nat) : Prop :=
  nth_error l i = Some name /\ forall k, (k < i)%nat -> nth_error l k <> Some name.
