(** What reading a log should do. *)
From Coq Require Import Reals List ZArith Bool String.
From Verif Require Import Base Angle Geom3 Tools_model Geometry_model Footsteps_model Robot_model Robot_spec Humanoid_model Humanoid_spec Replay_model.
Import ListNotations.
Open Scope R_scope.

(** The floating base has the first places in q and in v. *)
Definition floating (m : rmodel) : Prop :=
  forall j, In j (m_joints m) -> jt_name j <> "root_joint"%string -> (7 <= jt_idx_q j /\ 6 <= jt_idx_v j)%nat.

(** A joint of the robot, other than its floating base. *)
Definition actuated (r : robot) (name : string) : Prop := has_joint r name /\ name <> "root_joint"%string.

(** The log has what is read in it. *)
Definition has_number (log : histories) (t : R) (name : string) : Prop := exists x, number log name t = Ok x.
Definition has_angle (log : histories) (t : R) (name : string) : Prop := exists x, angle log name t = Ok x.
Definition sensors : list string :=
  ["left_pressure_0"; "left_pressure_1"; "left_pressure_2"; "left_pressure_3"; "right_pressure_0"; "right_pressure_1"; "right_pressure_2"; "right_pressure_3"]%string.
Definition complete (log : histories) (t : R) (source : string) (r : robot) (use_imu velocities : bool) : Prop :=
  (forall name, actuated r name -> has_number log t (source ++ ":" ++ name)) /\
  (forall s, In s sensors -> has_number log t s) /\
  (use_imu = true -> forall s, In s ["imu_yaw"; "imu_pitch"; "imu_roll"]%string -> has_angle log t s) /\
  (velocities = true -> forall s, In s ["gyro_x"; "gyro_y"; "gyro_z"]%string -> has_number log t s).

(** The force that the sensors of a foot feel, and the foot that carries the robot. *)
Definition feels (log : histories) (t : R) (s : side) (p : R) : Prop :=
  exists a b c d, p = a + b + c + d /\
    match s with
    | Left => number log "left_pressure_0" t = Ok a /\ number log "left_pressure_1" t = Ok b /\ number log "left_pressure_2" t = Ok c /\ number log "left_pressure_3" t = Ok d
    | Right => number log "right_pressure_0" t = Ok a /\ number log "right_pressure_1" t = Ok b /\ number log "right_pressure_2" t = Ok c /\ number log "right_pressure_3" t = Ok d
    end.
Definition carries (log : histories) (t : R) (s : side) : Prop :=
  exists left right, feels log t Left left /\ feels log t Right right /\ (s = Left <-> right < left).

(** The orientation of the IMU: a roll around x, then a pitch around y, then a yaw around z, the axes being those of the world. *)
Definition roll_x (a : R) : mat3 := M3 1 0 0 0 (cos a) (- sin a) 0 (sin a) (cos a).
Definition tells_orientation (log : histories) (t : R) (a : mat3) : Prop :=
  exists roll pitch yaw, angle log "imu_roll" t = Ok roll /\ angle log "imu_pitch" t = Ok pitch /\ angle log "imu_yaw" t = Ok yaw /\
    forall v, m3_vec a v = m3_vec (rot_z yaw) (m3_vec (rot_y pitch) (m3_vec (roll_x roll) v)).
(** The angular velocity of the trunk, in its own axes. *)
Definition tells_rates (log : histories) (t : R) (w : vec3) : Prop :=
  number log "gyro_x" t = Ok (vx w) /\ number log "gyro_y" t = Ok (vy w) /\ number log "gyro_z" t = Ok (vz w).

Definition side_dec (a b : side) : {a = b} + {a <> b}.
Proof. decide equality. Defined.

(** A robot that can replay a log: its support is one of its feet. *)
Definition replayable (pn : pin) (moving : nat -> Prop) (h : hrobot) : Prop :=
  hsound pn moving h /\ well_formed_robot (hr_robot h) /\ floating (r_model (hr_robot h)) /\ hr_frame h = foot h (hr_side h) /\
  get_frame_index (hr_robot h) "trunk" = Ok (hr_trunk h).
(** The robot stands on its support, and its data is that of its configuration. *)
Definition stands (pn : pin) (h : hrobot) : Prop :=
  fst (r_seen (hr_robot h)) = st_q (r_state (hr_robot h)) /\ at_frame pn h (hr_frame h) = hr_T h.

(** The velocity of the point [f] and the angular velocity of the trunk determine the velocity of the base. *)
Definition observable (pn : pin) (q : vec) (f trunk : nat) : Prop :=
  exists V, two_sided (Mat 6 6 (fun i j => if Nat.ltb i 3 then mat_at (pn_jac pn q f Local) i j else mat_at (pn_jac pn q trunk Local) i j)) V.

(** The velocities given for the joints, when there are two or more: one for each of them; the Jacobians have the right sizes, and the velocity of the base is determined. *)
Definition well_posed (pn : pin) (h : hrobot) (v : vec) : Prop :=
  (1 < vlen v)%nat -> vlen v = (m_nv (r_model (hr_robot h)) - 6)%nat /\ (6 <= m_nv (r_model (hr_robot h)))%nat /\
    (forall q f, mrows (pn_jac pn q f Local) = 6%nat /\ mcols (pn_jac pn q f Local) = m_nv (r_model (hr_robot h))) /\
    (forall q s, unit_base q -> observable pn q (foot h s) (hr_trunk h)).

(** The joints are where the log tells. *)
Definition joints_told (log : histories) (t : R) (source : string) (r : robot) : Prop :=
  forall name x, actuated r name -> number log (source ++ ":" ++ name) t = Ok x -> get_joint r name = Ok x.

(** Between two states, the frame [f] did not move horizontally. *)
Definition did_not_slide (pn : pin) (f : nat) (h h' : hrobot) : Prop :=
  vx (fr_t (at_frame pn h' f)) = vx (fr_t (at_frame pn h f)) /\ vy (fr_t (at_frame pn h' f)) = vy (fr_t (at_frame pn h f)).

(** The states that the readings of a log at the times [ts] give, one after the other. *)
Fixpoint replay (pn : pin) (inv : mat -> mat) (h : hrobot) (log : histories) (source : string) (use_imu : bool) (qds : R -> vec) (ts : list R) : outcome (list hrobot) :=
  match ts with
  | [] => Ok []
  | t :: ts' =>
      h' <- read_from_histories pn inv h log t source use_imu (qds t) ;;
      l <- replay pn inv h' log source use_imu qds ts' ;;
      Ok (h' :: l)
  end.
(** What the user expects: at each time the robot has the joints of the log, it stands on the foot that carries it, and this foot has not slid since the
    state before. *)
Fixpoint follows_log (pn : pin) (log : histories) (source : string) (use_imu : bool) (h : hrobot) (ts : list R) (l : list hrobot) : Prop :=
  match ts, l with
  | [], [] => True
  | t :: ts', h' :: l' =>
      joints_told log t source (hr_robot h') /\ carries log t (hr_side h') /\ hr_frame h' = foot h (hr_side h') /\ stands pn h' /\
      vz (fr_t (at_frame pn h' (hr_frame h'))) = 0 /\ did_not_slide pn (hr_frame h') h h' /\
      (use_imu = true -> exists a, tells_orientation log t a /\ fr_R (at_frame pn h' (hr_trunk h')) = a) /\
      (use_imu = false -> hr_side h' = hr_side h -> at_frame pn h' (hr_frame h') = at_frame pn h (hr_frame h)) /\
      follows_log pn log source use_imu h' ts' l'
  | _, _ => False
  end.
