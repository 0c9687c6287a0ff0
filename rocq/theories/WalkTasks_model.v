(** Model of placo::humanoid::WalkTasks (humanoid/walk_tasks.h, humanoid/walk_tasks.cpp).

    The kinematics solver is represented by its memory (Ownership_model.v), the targets of the tasks and, for each task, what it was
    created for. Names, priorities and weights of the tasks (calls to configure) are in WalkPriority_model.v; reach_initial_pose, which runs
    the solver a hundred times on a randomly perturbed robot, is modelled up to its call to update_tasks. *)
From Coq Require Import Reals List Arith Bool String.
From Verif Require Import Base Geom3 Geometry_model Footsteps_model Ownership_model.
Import ListNotations.
Open Scope R_scope.

(** What a task of the walk is for. Feet and trunk: frame tasks are a position task and an orientation task. *)
Inductive role : Type := LeftPosition | LeftOrientation | RightPosition | RightOrientation | TrunkOrientation | CoM | TrunkPosition.
Definition role_eqb (a b : role) : bool :=
  match a, b with
  | LeftPosition, LeftPosition | LeftOrientation, LeftOrientation | RightPosition, RightPosition | RightOrientation, RightOrientation
  | TrunkOrientation, TrunkOrientation | CoM, CoM | TrunkPosition, TrunkPosition => true
  | _, _ => false
  end.

(** walk_tasks.h:22-48. [wt_ptr]: the pointers left_foot_task.position, left_foot_task.orientation, ..., com_task, trunk_task; [None] is nullptr
    or (for trunk_orientation_task before initialize_tasks) an uninitialised pointer. [wt_on]: solver != nullptr. [wt_role], [wt_target], [wt_rot]:
    for each task of the solver, what it was created for, and the members target_world and R_world_frame. *)
Record walk_tasks : Type := WalkTasks {
  wt_owner : owner; wt_on : bool; wt_ptr : role -> option nat; wt_mode : bool; wt_com_x : R; wt_com_y : R;
  wt_role : nat -> option role; wt_target : nat -> vec3; wt_rot : nat -> mat3 }.

(** What the robot tells: get_T_world_left(), get_T_world_right(), get_T_world_trunk() (frame "trunk"), com_world(). *)
Record walk_pose : Type := WalkPose { po_left : frame; po_right : frame; po_trunk : frame; po_com : vec3 }.

Definition set_ptr (f : role -> option nat) (r : role) (v : option nat) : role -> option nat := fun x => if role_eqb x r then v else f x.

(** A new object, on some solver. *)
Definition new_walk_tasks (s : owner) : walk_tasks :=
  WalkTasks s false (fun _ => None) false 0 0 (fun _ => None) (fun _ => v3_zero) (fun _ => m3_id).

(** solver->add_..._task(...), assigned to the pointer of [r]. The target is written in the new task. *)
Definition add_walk_task (w : walk_tasks) (r : role) (p : vec3) (rot : mat3) : walk_tasks :=
  let a := h_count (w_heap (wt_owner w)) in
  WalkTasks (create (wt_owner w) CTask []) (wt_on w) (set_ptr (wt_ptr w) r (Some a)) (wt_mode w) (wt_com_x w) (wt_com_y w)
    (upd (wt_role w) a (Some r)) (upd (wt_target w) a p) (upd (wt_rot w) a rot).

(** solver->remove_task( *pointer ) followed by the assignment of nullptr. A null pointer is [UB]. *)
Definition remove_walk_task (w : walk_tasks) (r : role) : outcome walk_tasks :=
  match wt_ptr w r with
  | None => UB
  | Some a => s <- run_op Kinematics (wt_owner w) (RemoveTask a) ;;
      Ok (WalkTasks s (wt_on w) (set_ptr (wt_ptr w) r None) (wt_mode w) (wt_com_x w) (wt_com_y w) (wt_role w) (wt_target w) (wt_rot w))
  end.

(** [if (p != nullptr) { solver->remove_task( *p ); p = nullptr; }]. *)
Definition remove_if_set (w : walk_tasks) (r : role) : outcome walk_tasks :=
  match wt_ptr w r with None => Ok w | Some _ => remove_walk_task w r end.

(** walk_tasks.cpp:29-57. solver is dereferenced: [UB] when null. *)
Definition update_com_task (w : walk_tasks) (po : walk_pose) : outcome walk_tasks :=
  guard (wt_on w)
  (if wt_mode w then
     w1 <- remove_if_set w CoM ;;
     Ok (match wt_ptr w1 TrunkPosition with None => add_walk_task w1 TrunkPosition (fr_t (po_trunk po)) m3_id | Some _ => w1 end)
   else
     w1 <- remove_if_set w TrunkPosition ;;
     Ok (match wt_ptr w1 CoM with None => add_walk_task w1 CoM (po_com po) m3_id | Some _ => w1 end)).

(** walk_tasks.cpp:11-27. *)
Definition initialize_tasks (w : walk_tasks) (po : walk_pose) : outcome walk_tasks :=
  let w0 := WalkTasks (wt_owner w) true (wt_ptr w) (wt_mode w) (wt_com_x w) (wt_com_y w) (wt_role w) (wt_target w) (wt_rot w) in
  let w1 := add_walk_task w0 LeftPosition (fr_t (po_left po)) m3_id in
  let w2 := add_walk_task w1 LeftOrientation v3_zero (fr_R (po_left po)) in
  let w3 := add_walk_task w2 RightPosition (fr_t (po_right po)) m3_id in
  let w4 := add_walk_task w3 RightOrientation v3_zero (fr_R (po_right po)) in
  let w5 := add_walk_task w4 TrunkOrientation v3_zero (fr_R (po_trunk po)) in
  update_com_task w5 po.

(** [pointer->member = value]: [UB] through a null or dangling pointer. *)
Definition write_target (w : walk_tasks) (r : role) (p : vec3) : outcome walk_tasks :=
  match wt_ptr w r with
  | None => UB
  | Some a => guard (h_alive (w_heap (wt_owner w)) a)
      (Ok (WalkTasks (wt_owner w) (wt_on w) (wt_ptr w) (wt_mode w) (wt_com_x w) (wt_com_y w) (wt_role w) (upd (wt_target w) a p) (wt_rot w)))
  end.
Definition write_rot (w : walk_tasks) (r : role) (m : mat3) : outcome walk_tasks :=
  match wt_ptr w r with
  | None => UB
  | Some a => guard (h_alive (w_heap (wt_owner w)) a)
      (Ok (WalkTasks (wt_owner w) (wt_on w) (wt_ptr w) (wt_mode w) (wt_com_x w) (wt_com_y w) (wt_role w) (wt_target w) (upd (wt_rot w) a m)))
  end.

(** walk_tasks.cpp:94-112, with frame_task.cpp: set_T_world_frame. *)
Definition update_tasks (w : walk_tasks) (po : walk_pose) (left right : frame) (com : vec3) (trunk : mat3) : outcome walk_tasks :=
  w1 <- update_com_task w po ;;
  let offset := m3_vec (fr_R (po_trunk po)) (V3 (wt_com_x w) (wt_com_y w) 0) in
  w2 <- write_target w1 (if wt_mode w then TrunkPosition else CoM) (v3_add com offset) ;;
  w3 <- write_target w2 LeftPosition (fr_t left) ;;
  w4 <- write_rot w3 LeftOrientation (fr_R left) ;;
  w5 <- write_target w4 RightPosition (fr_t right) ;;
  w6 <- write_rot w5 RightOrientation (fr_R right) ;;
  write_rot w6 TrunkOrientation trunk.

(** remove_task(FrameTask&) of the kinematics solver on a foot. The two pointers are left as they are by the code; the model forgets them, which
    only removes behaviours where they are read again before initialize_tasks. *)
Definition remove_foot (w : walk_tasks) (p o : role) : outcome walk_tasks :=
  match wt_ptr w p, wt_ptr w o with
  | Some a, Some b => s <- run_op Kinematics (wt_owner w) (RemoveFrameTask a b) ;;
      Ok (WalkTasks s (wt_on w) (set_ptr (set_ptr (wt_ptr w) p None) o None) (wt_mode w) (wt_com_x w) (wt_com_y w) (wt_role w) (wt_target w) (wt_rot w))
  | _, _ => UB
  end.

(** walk_tasks.cpp:114-133. *)
Definition remove_tasks (w : walk_tasks) : outcome walk_tasks :=
  if wt_on w then
    w1 <- remove_foot w LeftPosition LeftOrientation ;;
    w2 <- remove_foot w1 RightPosition RightOrientation ;;
    w3 <- remove_if_set w2 CoM ;;
    w4 <- remove_if_set w3 TrunkPosition ;;
    w5 <- remove_walk_task w4 TrunkOrientation ;;
    Ok (WalkTasks (wt_owner w5) false (wt_ptr w5) (wt_mode w5) (wt_com_x w5) (wt_com_y w5) (wt_role w5) (wt_target w5) (wt_rot w5))
  else Ok w.

(** std::map::operator[] on the left of an assignment: the last write of a key wins. *)
Definition map_set (l : list (string * vec3)) (k : string) (v : vec3) : list (string * vec3) :=
  filter (fun e => negb (String.eqb (fst e) k)) l ++ [(k, v)].
Fixpoint map_get (l : list (string * vec3)) (k : string) : option vec3 :=
  match l with [] => None | (k', v) :: r => if String.eqb k' k then Some v else map_get r k end.

(** [error[key] = pointer->error()]; [err a] is the error of the task at address [a]. *)
Definition record_error (w : walk_tasks) (err : nat -> vec3) (l : list (string * vec3)) (k : string) (r : role) : outcome (list (string * vec3)) :=
  match wt_ptr w r with
  | None => UB
  | Some a => guard (h_alive (w_heap (wt_owner w)) a) (Ok (map_set l k (err a)))
  end.

(** walk_tasks.cpp:151-168. *)
Definition get_tasks_error (w : walk_tasks) (err : nat -> vec3) : outcome (list (string * vec3)) :=
  l1 <- record_error w err [] "left_foot_orientation" LeftOrientation ;;
  l2 <- record_error w err l1 "right_foot_orientation" RightOrientation ;;
  l3 <- record_error w err l2 "left_foot_orientation" LeftPosition ;;
  l4 <- record_error w err l3 "right_foot_orientation" RightPosition ;;
  l5 <- record_error w err l4 "trunk_orientation" TrunkOrientation ;;
  if wt_mode w then record_error w err l5 "trunk_position" TrunkPosition else record_error w err l5 "com_position" CoM.

(** walk_tasks.h:53-60: the gains of the DCM controller and its memory, integral and last_error (not initialised by the code). *)
Record pid : Type := Pid { pd_p : R; pd_i : R; pd_d : R; pd_lambda : R; pd_integral : R * R; pd_last : R * R }.

(** walk_tasks.cpp:135-143, on the error dcm - trajectory.get_p_world_DCM(t + com_delay, omega): the new memory and com_offset. Dividing by
    elapsed = 0 gives an infinity or a NaN in C++: the theorems ask elapsed <> 0. *)
Definition pid_step (g : pid) (err : R * R) (elapsed : R) : pid * (R * R) :=
  let integral := ((1 - pd_lambda g) * fst (pd_integral g) + fst err * elapsed, (1 - pd_lambda g) * snd (pd_integral g) + snd err * elapsed) in
  let derivative := ((fst err - fst (pd_last g)) / elapsed, (snd err - snd (pd_last g)) / elapsed) in
  (Pid (pd_p g) (pd_i g) (pd_d g) (pd_lambda g) integral err,
   (pd_p g * fst err + pd_i g * fst integral + pd_d g * fst derivative, pd_p g * snd err + pd_i g * snd integral + pd_d g * snd derivative)).

(** walk_tasks.cpp:144-149: the rest of update_tasks_and_pid. *)
Definition update_tasks_and_pid (w : walk_tasks) (g : pid) (po : walk_pose) (left right : frame) (com : vec3) (trunk : mat3) (err : R * R) (elapsed : R)
  : pid * outcome walk_tasks :=
  let (g', off) := pid_step g err elapsed in
  (g', update_tasks w po left right (v3_add com (V3 (fst off) (snd off) 0)) trunk).

(** walk_tasks.cpp:59-73: the targets of reach_initial_pose: right foot, CoM, trunk orientation; [yaw] and [rpy] stand for the third angle of matrixToRpy and rpyToMatrix. *)
Definition initial_right (left : frame) (feet_spacing : R) : frame :=
  Frame (fr_R left) (v3_add (fr_t left) (m3_vec (fr_R left) (V3 0 (- feet_spacing) 0))).
Definition initial_com (left : frame) (feet_spacing com_height : R) : vec3 :=
  let c := fr_t (interpolate_frames left (initial_right left feet_spacing) (1 / 2)) in V3 (vx c) (vy c) com_height.
Definition initial_trunk (yaw : mat3 -> R) (rpy : R -> R -> R -> mat3) (left : frame) (trunk_pitch : R) : mat3 := rpy 0 trunk_pitch (yaw (fr_R left)).
Definition initial_targets (w : walk_tasks) (yaw : mat3 -> R) (rpy : R -> R -> R -> mat3) (po : walk_pose) (left : frame) (feet_spacing com_height trunk_pitch : R)
  : outcome walk_tasks :=
  w' <- write_rot w TrunkOrientation (initial_trunk yaw rpy left trunk_pitch) ;;
  update_tasks w' po left (initial_right left feet_spacing) (initial_com left feet_spacing com_height) (initial_trunk yaw rpy left trunk_pitch).
