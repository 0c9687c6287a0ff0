(** Specification of the humanoid: sound humanoids, histories of calls, where a camera looks. *)
From Coq Require Import Reals List ZArith Bool String.
From Verif Require Import Base Angle Geom3 Tools_model Geometry_model Footsteps_model Robot_model Robot_spec Humanoid_model.
Import ListNotations.
Open Scope R_scope.

(** [f] is a frame of the robot that is carried by its base. *)
Definition body_frame (moving : nat -> Prop) (r : robot) (f : nat) : Prop := (f < List.length (m_frames (r_model r)))%nat /\ moving f.

(** A humanoid of which the frames are placed by its configuration, with its feet and its trunk among them. *)
Definition hsound (pn : pin) (moving : nat -> Prop) (h : hrobot) : Prop :=
  frames_correct pn (r_model (hr_robot h)) moving /\ rigid (m_root (r_model (hr_robot h))) /\ unit_base (st_q (r_state (hr_robot h))) /\
  body_frame moving (hr_robot h) (hr_frame h) /\ body_frame moving (hr_robot h) (hr_left h) /\ body_frame moving (hr_robot h) (hr_right h) /\
  body_frame moving (hr_robot h) (hr_trunk h) /\ hr_left h <> hr_right h /\ rigid (hr_T h).

(** The calls of a user: they write the state of the robot, update its data, choose the support, and place the robot. *)
Inductive hop : Type :=
| HState (s : state) | HKinematics | HSupport (s : side) | HSupportFrame (s : side) (f : nat) | HFloor | HImu (a : mat3) | HOriented (a : mat3).
Definition hcall (pn : pin) (h : hrobot) (o : hop) : outcome hrobot :=
  match o with
  | HState s => Ok (with_robot h (set_state (hr_robot h) s))
  | HKinematics => Ok (with_robot h (update_kinematics (hr_robot h)))
  | HSupport s => update_support_side pn h s
  | HSupportFrame s f => update_support_frame pn h s f
  | HFloor => ensure_on_floor pn h
  | HImu a => update_from_imu pn h a
  | HOriented a => ensure_on_floor_oriented pn h a
  end.
Fixpoint hcalls (pn : pin) (h : hrobot) (l : list hop) : outcome hrobot :=
  match l with
  | [] => Ok h
  | o :: l' => h' <- hcall pn h o ;; hcalls pn h' l'
  end.

(** Calls with valid arguments. *)
Definition hop_ok (moving : nat -> Prop) (r : robot) (o : hop) : Prop :=
  match o with
  | HState s => unit_base (st_q s)
  | HSupportFrame _ f => body_frame moving r f
  | HImu a | HOriented a => rotation a
  | _ => True
  end.
(** The calls that place the robot; those that do not ask for a support frame by its index; those that keep the place of the support. *)
Definition places (o : hop) : bool := match o with HFloor | HImu _ | HOriented _ => true | _ => false end.
Definition by_side (o : hop) : bool := match o with HSupportFrame _ _ => false | _ => true end.
Definition keeps_place (o : hop) : bool := match o with HState _ | HKinematics | HFloor => true | _ => false end.

(** The foot of a side, and the last side that was asked for. *)
Definition foot (h : hrobot) (s : side) : nat := match s with Left => hr_left h | Right => hr_right h end.
Fixpoint last_side (l : list hop) (s : side) : side :=
  match l with
  | [] => s
  | HSupport s' :: l' => last_side l' s'
  | _ :: l' => last_side l' s
  end.

(** The placement of a frame for the current configuration. *)
Definition at_frame (pn : pin) (h : hrobot) (f : nat) : frame := pn_frame pn (st_q (r_state (hr_robot h))) f.
(** The placement is on the floor, with its z axis upwards. *)
Definition flat (T : frame) : Prop := vz (fr_t T) = 0 /\ m3_vec (fr_R T) (V3 0 0 1) = V3 0 0 1.

(** A two-sided inverse. *)
Definition two_sided (A B : mat) : Prop := times_is_identity A B /\ times_is_identity B A.
Definition inverts_both (inv : mat -> mat) : Prop := forall A, mrows A = mcols A -> (exists B, two_sided A B) -> two_sided A (inv A).

(** The generalized forces of forces along the z axes of the frames [l]. *)
Definition normal_forces (pn : pin) (r : robot) (l : list nat) (force : nat -> R) (k : nat) : R :=
  Rsum (List.length l) (fun i => mat_at (frame_jacobian pn r (nth i l 0%nat) Local) 2 k * force i).

(** A head at the placement [T]: it turns by [pan] around its z axis, then, at the height [pitch] on this axis, by [tilt] around its y axis. The
    camera is at the height [camera] above the second axis, and looks along its x axis. [target] is in front of it, on its optical axis. *)
Definition rot_y (a : R) : mat3 := M3 (cos a) 0 (sin a) 0 1 0 (- sin a) 0 (cos a).
Definition looks_at (T : frame) (pitch camera pan tilt : R) (target : vec3) : Prop :=
  exists s, 0 <= s /\ target = frame_act T (m3_vec (rot_z pan) (v3_add (V3 0 0 pitch) (m3_vec (rot_y tilt) (V3 s 0 camera)))).
