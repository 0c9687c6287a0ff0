(** Model of the configuration of the tasks of a walk: WalkTasks::scaled and the calls to configure in humanoid/walk_tasks.cpp:11-57, with
    kinematics/frame_task.cpp:14-18 and tools/prioritized.cpp:35-40. It completes WalkTasks_model.v, which has the tasks and their targets. *)
From Coq Require Import Reals List Arith Bool String.
From Verif Require Import Base Geom3 Geometry_model Footsteps_model Ownership_model WalkTasks_model.
Import ListNotations.
Open Scope R_scope.

(** prioritized.h: name, priority (the walk only uses "soft" and "scaled": [true] is scaled), weight. *)
Record config : Type := Config { cf_name : string; cf_scaled : bool; cf_weight : R }.

(** A WalkTasks object with its member scaled (walk_tasks.h:40) and the configuration of each task of the solver. *)
Record priority_walk : Type := PriorityWalk { pw_walk : walk_tasks; pw_scaled : bool; pw_config : nat -> config }.

(** prioritized.cpp: the constructor, soft with weight 1; the name is that given by the solver's add function, left out here. *)
Definition unconfigured : config := Config "" false 1.

(** walk_tasks.h:40: scaled is false at first. *)
Definition new_priority_walk (s : owner) : priority_walk := PriorityWalk (new_walk_tasks s) false (fun _ => unconfigured).

(** The rest of the object. *)
Definition with_walk (q : priority_walk) (w : walk_tasks) : priority_walk := PriorityWalk w (pw_scaled q) (pw_config q).

(** [pointer = &solver->add_..._task(...); pointer->configure(name, scaled ? "scaled" : "soft", 1.)]. *)
Definition add_configured (q : priority_walk) (r : role) (name : string) (p : vec3) (m : mat3) : priority_walk :=
  PriorityWalk (add_walk_task (pw_walk q) r p m) (pw_scaled q)
    (upd (pw_config q) (h_count (w_heap (wt_owner (pw_walk q)))) (Config name (if pw_scaled q then true else false) 1)).

(** solver->add_frame_task followed by FrameTask::configure(name, ..., 1., 1.), frame_task.cpp:14-18. *)
Definition add_configured_frame (q : priority_walk) (rp ro : role) (name : string) (f : frame) : priority_walk :=
  let q1 := add_configured q rp (name ++ "_position") (fr_t f) m3_id in
  add_configured q1 ro (name ++ "_orientation") v3_zero (fr_R f).

(** walk_tasks.cpp:29-57. *)
Definition p_update_com_task (q : priority_walk) (po : walk_pose) : outcome priority_walk :=
  guard (wt_on (pw_walk q))
  (if wt_mode (pw_walk q) then
     w1 <- remove_if_set (pw_walk q) CoM ;;
     Ok (match wt_ptr w1 TrunkPosition with
         | None => add_configured (with_walk q w1) TrunkPosition "trunk" (fr_t (po_trunk po)) m3_id
         | Some _ => with_walk q w1 end)
   else
     w1 <- remove_if_set (pw_walk q) TrunkPosition ;;
     Ok (match wt_ptr w1 CoM with
         | None => add_configured (with_walk q w1) CoM "com" (po_com po) m3_id
         | Some _ => with_walk q w1 end)).

(** walk_tasks.cpp:11-27. *)
Definition p_initialize_tasks (q : priority_walk) (po : walk_pose) : outcome priority_walk :=
  let w := pw_walk q in
  let q0 := with_walk q (WalkTasks (wt_owner w) true (wt_ptr w) (wt_mode w) (wt_com_x w) (wt_com_y w) (wt_role w) (wt_target w) (wt_rot w)) in
  let q1 := add_configured_frame q0 LeftPosition LeftOrientation "left_foot" (po_left po) in
  let q2 := add_configured_frame q1 RightPosition RightOrientation "right_foot" (po_right po) in
  let q3 := add_configured q2 TrunkOrientation "trunk" v3_zero (fr_R (po_trunk po)) in
  p_update_com_task q3 po.

(** walk_tasks.cpp:94-112: what follows update_com_task only writes targets (WalkTasks_model.update_tasks). *)
Definition p_write_targets (w1 : walk_tasks) (po : walk_pose) (left right : frame) (com : vec3) (trunk : mat3) : outcome walk_tasks :=
  let offset := m3_vec (fr_R (po_trunk po)) (V3 (wt_com_x w1) (wt_com_y w1) 0) in
  w2 <- write_target w1 (if wt_mode w1 then TrunkPosition else CoM) (v3_add com offset) ;;
  w3 <- write_target w2 LeftPosition (fr_t left) ;;
  w4 <- write_rot w3 LeftOrientation (fr_R left) ;;
  w5 <- write_target w4 RightPosition (fr_t right) ;;
  w6 <- write_rot w5 RightOrientation (fr_R right) ;;
  write_rot w6 TrunkOrientation trunk.
Definition p_update_tasks (q : priority_walk) (po : walk_pose) (left right : frame) (com : vec3) (trunk : mat3) : outcome priority_walk :=
  q1 <- p_update_com_task q po ;;
  w <- p_write_targets (pw_walk q1) po left right com trunk ;;
  Ok (with_walk q1 w).
