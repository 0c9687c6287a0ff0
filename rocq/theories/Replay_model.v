(** Model of HumanoidRobot::read_from_histories (src/placo/humanoid/humanoid_robot.cpp:237-303), which puts a robot in the state that a log tells.

    Simplifications. A history (rhoban_utils) is a function of time; a history that is not in the log throws, as an empty one does. What is left of
    the robot after an exception is not modelled. *)
From Coq Require Import Reals List ZArith Bool String.
From Verif Require Import Base Angle Geom3 Tools_model Geometry_model Footsteps_model Robot_model Humanoid_model.
Import ListNotations.
Open Scope R_scope.

(** rhoban_utils::HistoryCollection: number(name)->interpolate(t) and angle(name)->interpolate(t). *)
Record histories : Type := Histories { number : string -> R -> outcome R; angle : string -> R -> outcome R }.

(** pinocchio::rpy::rpyToMatrix(r, p, y) = Rz(y) Ry(p) Rx(r). *)
Definition rpy_to_matrix (r p y : R) : mat3 :=
  m3_mul (m3_mul (M3 (cos y) (- sin y) 0 (sin y) (cos y) 0 0 0 1) (M3 (cos p) 0 (sin p) 0 1 0 (- sin p) 0 (cos p)))
         (M3 1 0 0 0 (cos r) (- sin r) 0 (sin r) (cos r)).

Section WithPinocchio.
Variable pn : pin.
(** Eigen's inverse(). *)
Variable inv : mat -> mat.

(** humanoid_robot.cpp:242-249. An index that is not in qd_joints is undefined. *)
Definition replay_joint (log : histories) (t : R) (source : string) (qd_joints : vec) (r : robot) (name : string) : outcome robot :=
  x <- number log (source ++ ":" ++ name) t ;;
  r <- set_joint r name x ;;
  if Nat.ltb 1 (vlen qd_joints) then
    k <- get_joint_v_offset r name ;;
    v <- guard (Nat.leb 6 k) (vec_get qd_joints (k - 6)) ;;
    set_joint_velocity r name v
  else Ok r.
Fixpoint replay_joints (log : histories) (t : R) (source : string) (qd_joints : vec) (r : robot) (l : list string) : outcome robot :=
  match l with
  | [] => Ok r
  | name :: l' => r <- replay_joint log t source qd_joints r name ;; replay_joints log t source qd_joints r l'
  end.

(** humanoid_robot.cpp:252-260: the sum of four sensors. *)
Definition pressure (log : histories) (t : R) (foot : string) : outcome R :=
  a <- number log (foot ++ "_pressure_0") t ;; b <- number log (foot ++ "_pressure_1") t ;;
  c <- number log (foot ++ "_pressure_2") t ;; d <- number log (foot ++ "_pressure_3") t ;;
  Ok (a + b + c + d).

(** humanoid_robot.cpp:262-270. *)
Definition replay_support (log : histories) (t : R) (h : hrobot) : outcome hrobot :=
  left <- pressure log t "left" ;;
  right <- pressure log t "right" ;;
  h <- update_support_side pn h (if Rlt_dec right left then Left else Right) ;;
  ensure_on_floor pn h.

(** humanoid_robot.cpp:273-281. *)
Definition replay_imu (log : histories) (t : R) (use_imu : bool) (h : hrobot) : outcome hrobot :=
  if use_imu then
    yaw <- angle log "imu_yaw" t ;; pitch <- angle log "imu_pitch" t ;; roll <- angle log "imu_roll" t ;;
    update_from_imu pn h (rpy_to_matrix roll pitch yaw)
  else Ok h.

(** humanoid_robot.cpp:284-303. *)
Definition base_velocity (h : hrobot) (omega_trunk : vec3) (qd_joints : vec) : outcome vec :=
  let r := hr_robot h in
  let b := Vec 6 (fun i => match i with 3%nat => vx omega_trunk | 4%nat => vy omega_trunk | 5%nat => vz omega_trunk | _ => 0 end) in
  J_IMU <- frame_jacobian_name pn r "trunk" "local" ;;
  J <- stack_rows (frame_jacobian pn r (hr_frame h) Local) J_IMU ;;
  J <- guard (Nat.eqb (mcols J) (m_nv (r_model r))) (Ok J) ;;
  J_bf <- left_cols J 6 ;;
  J_a <- guard (Nat.leb 6 (m_nv (r_model r))) (right_cols J (m_nv (r_model r) - 6)) ;;
  a <- mat_vec J_a qd_joints ;;
  d <- vec_sub b a ;;
  mat_vec (inv J_bf) d.
(** state.qd[i] = qd_bf[i] for i from 0 to 5. *)
Definition with_base_velocity (r : robot) (v : vec) : outcome robot :=
  let qd := st_qd (r_state r) in
  guard (Nat.leb 6 (vlen qd) && Nat.leb 6 (vlen v)) (Ok (set_qd r (Vec (vlen qd) (fun k => if Nat.ltb k 6 then vat v k else vat qd k)))).
Definition replay_velocity (log : histories) (t : R) (qd_joints : vec) (h : hrobot) : outcome hrobot :=
  if Nat.ltb 1 (vlen qd_joints) then
    x <- number log "gyro_x" t ;; y <- number log "gyro_y" t ;; z <- number log "gyro_z" t ;;
    v <- base_velocity h (V3 x y z) qd_joints ;;
    r <- with_base_velocity (hr_robot h) v ;;
    Ok (with_robot h r)
  else Ok h.

Definition read_from_histories (h : hrobot) (log : histories) (t : R) (source : string) (use_imu : bool) (qd_joints : vec) : outcome hrobot :=
  r <- replay_joints log t source qd_joints (hr_robot h) (joint_names (hr_robot h) false) ;;
  h <- replay_support log t (with_robot h r) ;;
  h <- replay_imu log t use_imu h ;;
  replay_velocity log t qd_joints h.

End WithPinocchio.
