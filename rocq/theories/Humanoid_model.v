(** Model of src/placo/humanoid/humanoid_robot.cpp: the support of a humanoid, its placement on the floor, the IMU, its torques, the velocity of its
    center of mass, its DCM and ZMP, and its camera. read_from_histories is in Replay_model. *)
From Coq Require Import Reals List ZArith Bool String.
From Verif Require Import Base Angle Geom3 Tools_model Geometry_model Footsteps_model Robot_model.
Import ListNotations.
Open Scope R_scope.

(** humanoid_robot.h:119-147. [hr_pan_tilt], [hr_pan_camera] and [hr_trunk_foot] are the distances, [None] when they were never measured.
    support_is_both is never read nor written after the construction: it is not modelled. *)
Record hrobot : Type := HRobot {
  hr_robot : robot; hr_frame : nat; hr_side : side; hr_T : frame; hr_left : nat; hr_right : nat; hr_trunk : nat;
  hr_pan_tilt : option R; hr_pan_camera : option R; hr_trunk_foot : option R
}.
Definition with_robot (h : hrobot) (r : robot) : hrobot :=
  HRobot r (hr_frame h) (hr_side h) (hr_T h) (hr_left h) (hr_right h) (hr_trunk h) (hr_pan_tilt h) (hr_pan_camera h) (hr_trunk_foot h).
Definition with_support (h : hrobot) (f : nat) (s : side) (T : frame) : hrobot :=
  HRobot (hr_robot h) f s T (hr_left h) (hr_right h) (hr_trunk h) (hr_pan_tilt h) (hr_pan_camera h) (hr_trunk_foot h).

(** humanoid_robot.cpp:54-57. *)
Definition string_to_side (s : string) : side := if String.eqb s "right" then Right else Left.

Section WithPinocchio.
Variable pn : pin.

(** humanoid_robot.cpp:106-112. *)
Definition ensure_on_floor (h : hrobot) : outcome hrobot :=
  r <- set_T_world_frame pn (update_kinematics (hr_robot h)) (hr_frame h) (hr_T h) ;;
  Ok (with_robot h (update_kinematics r)).

(** humanoid_robot.cpp:39-52, for a robot [r] that was loaded. *)
Definition init_config (r : robot) : outcome hrobot :=
  left <- get_frame_index r "left_foot" ;;
  right <- get_frame_index r "right_foot" ;;
  trunk <- get_frame_index r "trunk" ;;
  ensure_on_floor (HRobot r left Left frame_id left right trunk None None None).

(** model.existFrame(name). *)
Definition exist_frame (r : robot) (name : string) : bool :=
  match position_of name (m_frames (r_model r)) with Some _ => true | None => false end.
(** get_T_a_b(a, b) with names. *)
Definition get_T_a_b_name (r : robot) (a b : string) : outcome frame :=
  i <- get_frame_index r a ;; j <- get_frame_index r b ;; get_T_a_b pn r i j.

(** humanoid_robot.cpp:8-32. The warnings are not modelled. *)
Definition measure_trunk (h : hrobot) : outcome hrobot :=
  let r := hr_robot h in
  if exist_frame r "trunk" && exist_frame r "left_hip_yaw" then
    T <- get_T_a_b_name r "trunk" "left_hip_yaw" ;;
    Ok (HRobot r (hr_frame h) (hr_side h) (hr_T h) (hr_left h) (hr_right h) (hr_trunk h) (hr_pan_tilt h) (hr_pan_camera h) (Some (Rabs (vy (fr_t T)))))
  else Ok h.
Definition measure_head (h : hrobot) : outcome hrobot :=
  let r := hr_robot h in
  if exist_frame r "head_base" && exist_frame r "head_pitch" && exist_frame r "camera" then
    A <- get_T_a_b_name r "head_base" "head_pitch" ;;
    B <- get_T_a_b_name r "head_base" "camera" ;;
    Ok (HRobot r (hr_frame h) (hr_side h) (hr_T h) (hr_left h) (hr_right h) (hr_trunk h) (Some (vz (fr_t A))) (Some (vz (fr_t B))) (hr_trunk_foot h))
  else Ok h.
Definition new_humanoid (r : robot) : outcome hrobot :=
  h <- init_config r ;; h <- measure_trunk h ;; measure_head h.

(** humanoid_robot.cpp:64-77. *)
Definition get_T_world_left (h : hrobot) : outcome frame := get_T_world_frame pn (hr_robot h) (hr_left h).
Definition get_T_world_right (h : hrobot) : outcome frame := get_T_world_frame pn (hr_robot h) (hr_right h).
Definition get_T_world_trunk (h : hrobot) : outcome frame := get_T_world_frame pn (hr_robot h) (hr_trunk h).

(** humanoid_robot.cpp:90-98. *)
Definition update_support_frame (h : hrobot) (s : side) (f : nat) : outcome hrobot :=
  if Nat.eqb f (hr_frame h) then Ok h
  else T <- get_T_world_frame pn (hr_robot h) f ;; Ok (with_support h f s (flatten_on_floor T)).
(** humanoid_robot.cpp:79-88. *)
Definition update_support_side (h : hrobot) (s : side) : outcome hrobot :=
  update_support_frame h s (match s with Left => hr_left h | Right => hr_right h end).
Definition update_support_side_name (h : hrobot) (s : string) : outcome hrobot := update_support_side h (string_to_side s).
(** humanoid_robot.cpp:100-104. *)
Definition update_support_frame_name (h : hrobot) (s f : string) : outcome hrobot :=
  i <- get_frame_index (hr_robot h) f ;; update_support_frame h (string_to_side s) i.

(** humanoid_robot.cpp:114-125. *)
Definition ensure_on_floor_oriented (h : hrobot) (rot : mat3) : outcome hrobot :=
  let r := update_kinematics (hr_robot h) in
  D <- get_T_a_b pn r (hr_trunk h) (hr_frame h) ;;
  let T := Frame (m3_mul rot (fr_R D)) (fr_t (hr_T h)) in
  r <- set_T_world_frame pn r (hr_frame h) T ;;
  Ok (with_robot (with_support h (hr_frame h) (hr_side h) T) (update_kinematics r)).
(** humanoid_robot.cpp:127-136. *)
Definition update_from_imu (h : hrobot) (rot : mat3) : outcome hrobot :=
  let r := update_kinematics (hr_robot h) in
  D <- get_T_a_b pn r (hr_trunk h) (hr_frame h) ;;
  let T := Frame (m3_mul rot (fr_R D)) (fr_t (hr_T h)) in
  r <- set_T_world_frame pn r (hr_frame h) T ;;
  Ok (with_robot (with_support h (hr_frame h) (hr_side h) T) (update_kinematics r)).

(** humanoid_robot.cpp:138-162. [inv] is Eigen's inverse(). A.leftCols(n) and A.rightCols(n) are blocks. The argument [support] is not used. *)
Definition left_cols (A : mat) (n : nat) : outcome mat := block A 0 0 (mrows A) n.
Definition right_cols (A : mat) (n : nat) : outcome mat := guard (Nat.leb n (mcols A)) (block A 0 (mcols A - n) (mrows A) n).
(** J << A.topRows(3), B.bottomRows(3). *)
Definition stack_rows (A B : mat) : outcome mat :=
  a <- block A 0 0 3 (mcols A) ;;
  b <- guard (Nat.leb 3 (mrows B)) (block B (mrows B - 3) 0 3 (mcols B)) ;;
  guard (Nat.eqb (mcols b) (mcols A)) (Ok (Mat 6 (mcols A) (fun i j => if Nat.ltb i 3 then mat_at a i j else mat_at b (i - 3) j))).
Definition get_com_velocity (inv : mat -> mat) (h : hrobot) (support : side) (omega_b : vec3) : outcome vec :=
  let r := hr_robot h in
  let J_C := com_jacobian pn r in
  J_u_C <- left_cols J_C 6 ;;
  J_a_C <- right_cols J_C 20 ;;
  J_IMU <- frame_jacobian_name pn r "trunk" "local" ;;
  J <- stack_rows (frame_jacobian pn r (hr_frame h) Local) J_IMU ;;
  J_u <- left_cols J 6 ;;
  J_a <- right_cols J 20 ;;
  P <- mat_mul J_u_C (inv J_u) ;;
  a <- mat_vec P (Vec 6 (fun i => match i with 3%nat => vx omega_b | 4%nat => vy omega_b | 5%nat => vz omega_b | _ => 0 end)) ;;
  PJ <- mat_mul P J_a ;;
  D <- mat_sub J_a_C PJ ;;
  qd <- guard (Nat.leb 6 (m_nv (r_model r))) (segment_of (st_qd (r_state r)) 6 (m_nv (r_model r) - 6)) ;;
  b <- mat_vec D qd ;;
  vec_add a b.

(** humanoid_robot.cpp:164-195. The points of the soles, and the matrix J_c, of which the columns are the third columns of the transposed
    Jacobians. *)
Definition sole_points : list string :=
  ["left_ps_0"; "left_ps_1"; "left_ps_2"; "left_ps_3"; "right_ps_0"; "right_ps_1"; "right_ps_2"; "right_ps_3"]%string.
Fixpoint sole_columns (r : robot) (l : list string) : outcome (list (nat -> R)) :=
  match l with
  | [] => Ok []
  | name :: l' =>
      J <- frame_jacobian_name pn r name "local" ;;
      c <- guard (Nat.ltb 2 (mrows J) && Nat.eqb (mcols J) (m_nv (r_model r))) (Ok (fun k => mat_at J 2 k)) ;;
      cs <- sole_columns r l' ;;
      Ok (c :: cs)
  end.
Definition get_torques (inv : mat -> mat) (h : hrobot) (acc_a contact_forces : vec) (use_non_linear_effects : bool) : outcome vec :=
  let r := hr_robot h in
  let nv := m_nv (r_model r) in
  cs <- sole_columns r sole_points ;;
  let J_c := Mat nv 8 (fun k i => nth i cs (fun _ => 0) k) in
  M <- mass_matrix pn r ;;
  M_bf <- block M 0 0 6 6 ;;
  M_a <- guard (Nat.leb 6 nv && Nat.leb (nv - 6) (mcols M)) (block M 0 (mcols M - (nv - 6)) 6 (nv - 6)) ;;
  let hh := if use_non_linear_effects then non_linear_effects pn r else generalized_gravity pn r in
  h_bf <- segment_of hh 0 6 ;;
  Jf <- mat_vec J_c contact_forces ;;
  f_bf <- segment_of Jf 0 6 ;;
  d <- vec_sub f_bf h_bf ;;
  e <- mat_vec M_a acc_a ;;
  d <- vec_sub d e ;;
  acc_bf <- mat_vec (inv M_bf) d ;;
  let acc := Vec (vlen acc_bf + vlen acc_a) (fun k => if Nat.ltb k (vlen acc_bf) then vat acc_bf k else vat acc_a (k - vlen acc_bf)) in
  u <- mat_vec M acc ;;
  u <- vec_add u hh ;;
  vec_sub u Jf.

(** humanoid_robot.cpp:197-207. A division by zero gives no number. *)
Definition dcm (h : hrobot) (omega : R) (com_velocity : point) : option point :=
  let c := com_world pn (hr_robot h) in
  if Req_EM_T omega 0 then None else Some (vx c + 1 / omega * fst com_velocity, vy c + 1 / omega * snd com_velocity).
Definition zmp (h : hrobot) (omega : R) (com_acceleration : point) : option point :=
  let c := com_world pn (hr_robot h) in
  if Req_EM_T omega 0 then None else Some (vx c - 1 / (omega * omega) * fst com_acceleration, vy c - 1 / (omega * omega) * snd com_acceleration).

(** humanoid_robot.cpp:209-234: the returned boolean, and the values written in pan and tilt. [tilt] is the value of tilt before the call, [None]
    stands for a value that is not a number: the ratio is not a number when both distances are null. Distances that were never measured are
    undefined. *)
Definition camera_look_at (h : hrobot) (tilt : option R) (target : vec3) : outcome (bool * R * option R) :=
  T <- get_T_world_frame_name pn (hr_robot h) "head_base" ;;
  match hr_pan_tilt h, hr_pan_camera h with
  | Some pan_tilt, Some pan_camera =>
      let p := frame_act (frame_inv T) target in
      let pan := atan2 (vy p) (vx p) in
      let x := sqrt (vx p * vx p + vy p * vy p) in
      let y := vz p - pan_tilt in
      let theta := PI / 2 - atan2 y x in
      let norm := sqrt (x * x + y * y) in
      if Req_EM_T norm 0 then
        if Req_EM_T pan_camera 0 then Ok (true, pan, None) else Ok (false, pan, tilt)
      else
        let ratio := pan_camera / norm in
        if Rlt_dec 1 ratio then Ok (false, pan, tilt)
        else if Rlt_dec ratio (-1) then Ok (false, pan, tilt)
        else Ok (true, pan, Some (theta - acos ratio))
  | _, _ => UB
  end.

End WithPinocchio.
