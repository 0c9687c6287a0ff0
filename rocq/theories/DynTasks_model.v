(** Model of the tasks of src/placo/dynamics: each of them computes the matrix A and the vector b of its equation A qdd = b (A tau = b for the torque
    task), the error and its derivative. *)
From Coq Require Import Reals List ZArith Bool String.
From Verif Require Import Base Geom3 Tools_model Geometry_model Robot_model KinTasks_model.
Import ListNotations.
Open Scope R_scope.

(** dynamics/task.h: A, b, error and derror after update(). *)
Record dyn_equation : Type := DynEquation { de_A : mat; de_b : vec; de_error : vec; de_derror : vec }.

(** dynamics/task.cpp:5-15. The square root of a negative kp (NaN) is not modelled: Coq's sqrt gives 0. *)
Definition get_kd (kp kd : R) : R := if Rlt_dec kd 0 then 2 * sqrt kp else kd.

(** J * qd, for a Jacobian with three rows; Eigen asserts (undefined in release) that the sizes agree. *)
Definition times3 (J : mat) (qd : vec) : outcome vec3 :=
  guard (Nat.eqb (mrows J) 3) (v <- mat_vec J qd ;; Ok (V3 (vat v 0) (vat v 1) (vat v 2))).

(** kp * error + get_kd() * derror + ddtarget. *)
Definition desired (kp kd : R) (error derror ddtarget : vec3) : vec3 :=
  v3_add (v3_add (v3_scale kp error) (v3_scale (get_kd kp kd) derror)) ddtarget.

(** What the tasks on three coordinates have in common: mask.apply on J, on desired - bias, on the error and its derivative. *)
Definition masked_equation (m : axises_mask) (J : mat) (rhs error derror : vec3) : outcome dyn_equation :=
  A <- apply_mask m J ;; b <- mask_v m rhs ;; e <- mask_v m error ;; de <- mask_v m derror ;; Ok (DynEquation A b e de).

Section WithRobot.
Variable pn : pin.

(** robot_wrapper.cpp:640-644. *)
Definition com_jacobian_time_variation (r : robot) : mat := pn_dcomjac pn (st_q (r_state r)) (st_qd (r_state r)).

(** dynamics/position_task.cpp:12-37. *)
Definition position_dynamics (N : nat) (r : robot) (kp kd : R) (f : nat) (target dtarget ddtarget : vec3) (m : axises_mask) : outcome dyn_equation :=
  J <- block (frame_jacobian pn r f LocalWorldAligned) 0 0 3 N ;;
  dJ <- block (frame_jacobian_time_variation pn r f LocalWorldAligned) 0 0 3 N ;;
  T <- get_T_world_frame pn r f ;;
  let m := with_local m (m3_t (fr_R T)) in
  let error := v3_sub target (fr_t T) in
  v <- times3 J (st_qd (r_state r)) ;;
  let derror := v3_sub dtarget v in
  bias <- times3 dJ (st_qd (r_state r)) ;;
  masked_equation m J (v3_sub (desired kp kd error derror ddtarget) bias) error derror.

(** dynamics/com_task.cpp:11-32. *)
Definition com_dynamics (r : robot) (kp kd : R) (target dtarget ddtarget : vec3) (m : axises_mask) : outcome dyn_equation :=
  let J := com_jacobian pn r in
  let error := v3_sub target (com_world pn r) in
  v <- times3 J (st_qd (r_state r)) ;;
  let derror := v3_sub dtarget v in
  bias <- times3 (com_jacobian_time_variation r) (st_qd (r_state r)) ;;
  masked_equation m J (v3_sub (desired kp kd error derror ddtarget) bias) error derror.

(** dynamics/orientation_task.cpp:12-40. [log3] is pinocchio::log3. *)
Variable log3 : mat3 -> vec3.
Definition orientation_dynamics (N : nat) (r : robot) (kp kd : R) (f : nat) (target : mat3) (omega domega : vec3) (m : axises_mask) : outcome dyn_equation :=
  T <- get_T_world_frame pn r f ;;
  J <- block (frame_jacobian pn r f World) 3 0 3 N ;;
  dJ <- block (frame_jacobian_time_variation pn r f World) 3 0 3 N ;;
  let error := log3 (m3_mul target (m3_t (fr_R T))) in
  v <- times3 J (st_qd (r_state r)) ;;
  let derror := v3_sub omega v in
  bias <- times3 dJ (st_qd (r_state r)) ;;
  masked_equation (with_local m (m3_t target)) J (v3_sub (desired kp kd error derror domega) bias) error derror.

(** dynamics/relative_position_task.cpp:16-64. mask.R_local_world is not set. The last two terms of e use the rows 3, 4, 5 of dJb - dJa. *)
Definition relative_position_dynamics (N : nat) (r : robot) (kp kd : R) (a b : nat) (target dtarget ddtarget : vec3) (m : axises_mask)
    : outcome dyn_equation :=
  Ta <- get_T_world_frame pn r a ;; Tb <- get_T_world_frame pn r b ;;
  let aRw := m3_t (fr_R Ta) in
  let a_AB := m3_vec aRw (v3_sub (fr_t Tb) (fr_t Ta)) in
  let qd := st_qd (r_state r) in
  Ja_lin <- block (frame_jacobian pn r a LocalWorldAligned) 0 0 3 N ;;
  Ja_rot <- block (frame_jacobian pn r a LocalWorldAligned) 3 0 3 N ;;
  Jb_lin <- block (frame_jacobian pn r b LocalWorldAligned) 0 0 3 N ;;
  dJa_rot <- block (frame_jacobian_time_variation pn r a LocalWorldAligned) 3 0 3 N ;;
  dJb_rot <- block (frame_jacobian_time_variation pn r b LocalWorldAligned) 3 0 3 N ;;
  w_omega_a <- times3 Ja_rot qd ;;
  let a_omega_w := v3_scale (-1) (m3_vec aRw w_omega_a) in
  D <- mat_sub Jb_lin Ja_lin ;;
  w_dAB <- times3 D qd ;;
  let a_dAB := v3_add (v3_cross a_omega_w a_AB) (m3_vec aRw w_dAB) in
  let error := v3_sub target a_AB in
  let derror := v3_sub dtarget a_dAB in
  J1 <- mat_mul (mat_of3 (m3_mul (skew a_AB) aRw)) Ja_rot ;;
  J2 <- mat_mul (mat_of3 aRw) D ;;
  J <- mat_add J1 J2 ;;
  dD <- mat_sub dJb_rot dJa_rot ;;
  x <- times3 dD qd ;; y <- times3 dJa_rot qd ;;
  let S := skew a_omega_w in
  let e := v3_scale 2 (m3_vec S (m3_vec aRw w_dAB)) in
  let e := v3_add e (v3_scale 2 (m3_vec S (m3_vec S a_AB))) in
  let e := v3_add e (m3_vec aRw x) in
  let e := v3_add e (m3_vec (skew a_AB) (m3_vec aRw y)) in
  masked_equation m J (v3_sub (desired kp kd error derror ddtarget) e) error derror.

(** dynamics/relative_orientation_task.cpp:16-56. [jlog] is pinocchio::Jlog3. mask.R_local_world is not set; domega_a_b is not rotated. *)
Variable jlog : mat3 -> mat3.
Definition relative_orientation_dynamics (N : nat) (r : robot) (kp kd : R) (a b : nat) (target : mat3) (omega domega : vec3) (m : axises_mask)
    : outcome dyn_equation :=
  Ja <- block (frame_jacobian pn r a World) 3 0 3 N ;; dJa <- block (frame_jacobian_time_variation pn r a World) 3 0 3 N ;;
  Jb <- block (frame_jacobian pn r b World) 3 0 3 N ;; dJb <- block (frame_jacobian_time_variation pn r b World) 3 0 3 N ;;
  Ta <- get_T_world_frame pn r a ;; Tb <- get_T_world_frame pn r b ;;
  let qd := st_qd (r_state r) in
  let M := m3_mul target (m3_t (m3_mul (m3_t (fr_R Ta)) (fr_R Tb))) in
  let error := m3_vec (fr_R Ta) (log3 M) in
  wa <- times3 Ja qd ;; wb <- times3 Jb qd ;;
  let derror := v3_sub (m3_vec (fr_R Ta) omega) (v3_sub wb wa) in
  D <- mat_sub Jb Ja ;; J <- mat_mul (mat_of3 (jlog M)) D ;;
  x <- times3 dJb qd ;; y <- times3 dJa qd ;;
  masked_equation m J (v3_sub (desired kp kd error derror domega) (m3_vec (jlog M) (v3_sub x y))) error derror.

End WithRobot.

(** ** Joints, gears and torques *)

(** dynamics/joints_task.h: the maps joints, djoints and ddjoints; set_joint writes the three of them (joints_task.cpp:10-15), so that they have the
    same keys: one entry is the target with its velocity and its acceleration. Entries kept in the order of insertion. *)
Definition joint_targets : Type := list (string * (R * R * R)).
Definition joints_dset (l : joint_targets) (joint : string) (target velocity acceleration : R) : joint_targets :=
  name_put joint (target, velocity, acceleration) l.
(** joints_task.cpp:17-25. *)
Definition joints_dget (l : joint_targets) (joint : string) : outcome R :=
  match name_find joint l with Some (t, _, _) => Ok t | None => Throw ERuntime end.
(** joints_task.cpp:36-54: for each entry, the column of its 1, then b, error and derror. *)
Fixpoint joints_drows (N : nat) (r : robot) (kp kd : R) (l : joint_targets) : outcome (list (nat * (R * R * R))) :=
  match l with
  | [] => Ok []
  | (name, (target, velocity, acceleration)) :: l' =>
      q <- get_joint r name ;; k <- get_joint_v_offset r name ;; dq <- vec_get (st_qd (r_state r)) k ;;
      guard (Nat.ltb k N)
        (rest <- joints_drows N r kp kd l' ;;
         Ok ((k, (kp * (target - q) + get_kd kp kd * (velocity - dq) + acceleration, target - q, velocity - dq)) :: rest))
  end.
(** joints_task.cpp:27-55. *)
Definition rows_equation (N : nat) (l : list ((nat -> R) * (R * R * R))) : dyn_equation :=
  let d := ((fun _ => 0), (0, 0, 0)) : (nat -> R) * (R * R * R) in
  let n := List.length l in
  DynEquation (Mat n N (fun k => fst (nth k l d))) (Vec n (fun k => fst (fst (snd (nth k l d))))) (Vec n (fun k => snd (fst (snd (nth k l d)))))
    (Vec n (fun k => snd (snd (nth k l d)))).
Definition joints_dynamics (N : nat) (r : robot) (kp kd : R) (l : joint_targets) : outcome dyn_equation :=
  rs <- joints_drows N r kp kd l ;;
  Ok (rows_equation N (map (fun x => ((fun j => if Nat.eqb j (fst x) then 1 else 0), snd x)) rs)).

(** dynamics/gear_task.cpp:10-14 and 16-22: set_gear clears every gear. *)
Definition set_dgear (r : robot) (target source : string) (ratio : R) : outcome gears := add_gear r [] target source ratio.
(** gear_task.cpp:37-59, one row: A(k, target) = -1, then A(k, source) = ratio; the sums of q_source * ratio and qd_source * ratio. *)
Fixpoint gear_dsources (N : nat) (q qd : vec) (l : list (nat * R)) (row : nat -> R) (sq sd : R) : outcome ((nat -> R) * R * R) :=
  match l with
  | [] => Ok (row, sq, sd)
  | (source, ratio) :: l' =>
      x <- vec_get q (source + 1) ;; y <- vec_get qd source ;;
      guard (Nat.ltb source N)
        (gear_dsources N q qd l' (fun j => if Nat.eqb j source then ratio else row j) (sq + x * ratio) (sd + y * ratio))
  end.
Definition gear_drow (N : nat) (q qd : vec) (kp kd : R) (target : nat) (l : list (nat * R)) : outcome ((nat -> R) * (R * R * R)) :=
  x <- vec_get q (target + 1) ;; y <- vec_get qd target ;;
  guard (Nat.ltb target N)
    (s <- gear_dsources N q qd l (fun j => if Nat.eqb j target then -1 else 0) 0 0 ;;
     let '(row, sq, sd) := s in
     Ok (row, (kp * (x - sq) + get_kd kp kd * (y - sd), x - sq, y - sd))).
Fixpoint gear_drows (N : nat) (q qd : vec) (kp kd : R) (g : gears) : outcome (list ((nat -> R) * (R * R * R))) :=
  match g with
  | [] => Ok []
  | (target, l) :: g' => x <- gear_drow N q qd kp kd target l ;; rest <- gear_drows N q qd kp kd g' ;; Ok (x :: rest)
  end.
(** gear_task.cpp:24-60. *)
Definition gear_dynamics (N : nat) (r : robot) (kp kd : R) (g : gears) : outcome dyn_equation :=
  rs <- gear_drows N (st_q (r_state r)) (st_qd (r_state r)) kp kd g ;; Ok (rows_equation N rs).

(** dynamics/torque_task.h: TargetTau. *)
Record target_tau : Type := TargetTau { tt_torque : R; tt_kp : R; tt_kd : R }.
(** torque_task.cpp:11-16 and 18-21. *)
Definition set_torque (l : list (string * target_tau)) (joint : string) (torque kp kd : R) : list (string * target_tau) :=
  name_put joint (TargetTau torque kp kd) l.
Definition reset_torque (l : list (string * target_tau)) (joint : string) : list (string * target_tau) :=
  filter (fun e => negb (String.eqb (fst e) joint)) l.
(** torque_task.cpp:23-44: error and derror are zero. *)
Fixpoint torque_rows (N : nat) (r : robot) (l : list (string * target_tau)) : outcome (list ((nat -> R) * (R * R * R))) :=
  match l with
  | [] => Ok []
  | (name, t) :: l' =>
      k <- get_joint_v_offset r name ;;
      guard (Nat.ltb k N)
        (q <- get_joint r name ;; qd <- get_joint_velocity r name ;; rest <- torque_rows N r l' ;;
         Ok (((fun j => if Nat.eqb j k then 1 else 0), (tt_torque t + tt_kp t * q - tt_kd t * qd, 0, 0)) :: rest))
  end.
Definition torque_dynamics (N : nat) (r : robot) (l : list (string * target_tau)) : outcome dyn_equation :=
  rs <- torque_rows N r l ;; Ok (rows_equation N rs).
