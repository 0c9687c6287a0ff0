(** Model of the workspace of a robot: the field data of RobotWrapper (robot_wrapper.h:701), in which pinocchio keeps what it computed.

    Robot_model.v says what the robot answers when asking a question writes nothing there. In the code most questions write: com_jacobian calls
    jacobianCenterOfMass, mass_matrix calls crba, self_collisions calls computeCollisions, and each of them computes again some of the placements and of
    the Jacobians of the joints, for the current configuration. Which ones is the business of pinocchio, and depends on its version: it is a parameter here. *)
From Coq Require Import Reals List Arith Bool String.
From Verif Require Import Base Geom3 Robot_model.
Import ListNotations.

(** What data holds: the placements of the joints (oMi) and of the frames (oMf), the Jacobian of the joints (J), its time variation (dJ), the velocities
    (v, ov) and the kinematic Hessians. *)
Inductive slot : Type := Placements | Frames | Jacobian | JacobianRate | Velocities | Hessians.

(** For each slot, the configuration and the velocity it was computed for. *)
Definition workspace : Type := slot -> vec * vec.

(** The methods of RobotWrapper that compute something and leave the state alone: get_T_world_frame (robot_wrapper.cpp:426-429), com_world (308-313),
    frame_jacobian (557-569), frame_jacobian_time_variation (576-584), joint_jacobian (591-598), joint_jacobian_time_variation (605-612),
    relative_position_jacobian (614-628), com_jacobian (635-638), com_jacobian_time_variation (640-644), centroidal_map (646-649), generalized_gravity
    (651-656), non_linear_effects (658-661), mass_matrix (673-687), self_collisions (455-499), distances (502-533) and get_frame_hessian (328-340). *)
Inductive question : Type :=
| AFrame (f : nat) | ACom | AJacobian (f : nat) (k : ref) | AJacobianRate (f : nat) (k : ref) | AJoint (j : nat) (k : ref) | AJointRate (j : nat) (k : ref)
| ARelative (a b : nat) | AComJacobian | AComJacobianRate | ACentroidal | AGravity | ANonLinear | AMass | ACollisions | ADistances
| AHessian (f dof : nat).

(** Where a slot gets its content when a question is asked: it is kept, computed for the current state, or computed from another slot. *)
Inductive source : Type := Keep | Now | From (s : slot).

Definition write (q : vec * vec) (w : workspace) (effect : slot -> source) : workspace := fun s =>
  match effect s with Keep => w s | Now => q | From s' => w s' end.

(** The robot, with its workspace. *)
Record working : Type := Working { wk_state : state; wk_data : workspace }.

Definition current (r : working) : vec * vec := (st_q (wk_state r), st_qd (wk_state r)).

(** robot_wrapper.cpp:315-321: framesForwardKinematics, computeJointJacobians, computeJointJacobiansTimeVariation and updateFramePlacements. The Hessians
    are not computed. *)
Definition refresh (s : slot) : source := match s with Hessians => Keep | _ => Now end.
(** robot_wrapper.cpp:323-326: computeJointKinematicHessians, from the Jacobian. *)
Definition refresh_hessians (s : slot) : source := match s with Hessians => From Jacobian | _ => Keep end.

(** What a program does with a robot: it changes the state (set_joint, state.q = ..., integrate, reset), places the robot by a frame
    (set_T_world_frame, robot_wrapper.cpp:446-453, reads the placement of the frame), calls update_kinematics or compute_hessians, or asks a question. *)
Inductive action : Type := Change (f : state -> state) | Place (f : nat) (g : outcome frame -> state -> state) | Update | UpdateHessians | Ask (k : question).

Section WithLibrary.
(** [effect]: what a question writes. [reply]: what is answered, given what the slots were computed for (after the question has written) and the state. *)
Variable A : Type.
Variable effect : question -> slot -> source.
Variable reply : question -> workspace -> vec * vec -> A.
Variable placement : A -> outcome frame.

Definition act (r : working) (a : action) : working * list A :=
  match a with
  | Change f => (Working (f (wk_state r)) (wk_data r), [])
  | Place f g =>
      let d := write (current r) (wk_data r) (effect (AFrame f)) in
      (Working (g (placement (reply (AFrame f) d (current r))) (wk_state r)) d, [])
  | Update => (Working (wk_state r) (write (current r) (wk_data r) refresh), [])
  | UpdateHessians => (Working (wk_state r) (write (current r) (wk_data r) refresh_hessians), [])
  | Ask k => let d := write (current r) (wk_data r) (effect k) in (Working (wk_state r) d, [reply k d (current r)])
  end.

(** A program, and what it is answered. *)
Fixpoint acts (r : working) (l : list action) : working * list A :=
  match l with
  | [] => (r, [])
  | a :: l' => let '(r1, o1) := act r a in let '(r2, o2) := acts r1 l' in (r2, o1 ++ o2)
  end.

End WithLibrary.

(** The answers of Robot_model.v as such a library: nothing is written by a question, and the slots are all those of [r_seen]. [geometry] answers
    self_collisions (true) and distances (false), [hessian] get_frame_hessian. *)
Inductive answered : Type := GotFrame (o : outcome frame) | GotPoint (v : vec3) | GotMatrix (o : outcome mat) | GotVector (v : vec) | GotGeometry (l : list R).
Definition robot_reply (pn : pin) (m : rmodel) (geometry : bool -> vec -> list R) (hessian : vec -> nat -> nat -> outcome mat)
    (k : question) (d : workspace) (q : vec * vec) : answered :=
  let r := Robot m (State (fst q) (snd q) (zeros (m_nv m))) (d Frames) in
  match k with
  | AFrame f => GotFrame (get_T_world_frame pn r f)
  | ACom => GotPoint (com_world pn r)
  | AJacobian f k => GotMatrix (Ok (frame_jacobian pn r f k))
  | AJacobianRate f k => GotMatrix (Ok (frame_jacobian_time_variation pn r f k))
  | AJoint j k => GotMatrix (Ok (pn_joint_jac pn (fst (r_seen r)) j k))
  | AJointRate j k => GotMatrix (Ok (joint_jacobian_time_variation pn r j k))
  | ARelative a b => GotMatrix (relative_position_jacobian pn r a b)
  | AComJacobian => GotMatrix (Ok (com_jacobian pn r))
  | AComJacobianRate => GotMatrix (Ok (pn_dcomjac pn (fst q) (snd q)))
  | ACentroidal => GotMatrix (Ok (pn_centroidal pn (fst q)))
  | AGravity => GotVector (generalized_gravity pn r)
  | ANonLinear => GotVector (non_linear_effects pn r)
  | AMass => GotMatrix (mass_matrix pn r)
  | ACollisions => GotGeometry (geometry true (fst q))
  | ADistances => GotGeometry (geometry false (fst q))
  | AHessian f dof => GotMatrix (hessian (fst (d Hessians)) f dof)
  end.
Definition got_placement (a : answered) : outcome frame := match a with GotFrame o => o | _ => UB end.
