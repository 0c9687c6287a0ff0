(** Model of WalkTasks on a planned walk: update_tasks(trajectory, t) and update_tasks_and_pid (humanoid/walk_tasks.cpp).

    Simplification: the arguments of the inner call are computed from left to right (C++ leaves the order open; the getters of the trajectory do not change it, see C54). *)
From Coq Require Import Reals List Arith Bool.
From Verif Require Import Base Geom3 Geometry_model Footsteps_model Wpg_model Ownership_model WalkTasks_model.
Open Scope R_scope.

Section WithLibraries.
Variable L : libs.

(** walk_tasks.cpp:86-90. [delay] is com_delay. *)
Definition follow (w : walk_tasks) (delay : R) (po : walk_pose) (j : wtraj) (t : R) : outcome walk_tasks :=
  left <- get_T_world_foot j Left t ;;
  right <- get_T_world_foot j Right t ;;
  com <- get_p_world_CoM L j (t + delay) ;;
  trunk <- get_R_world_trunk j t ;;
  update_tasks w po left right com trunk.

(** walk_tasks.cpp:135-149. integral and last_error are assigned before the tasks are updated. *)
Definition follow_pid (w : walk_tasks) (g : pid) (delay : R) (po : walk_pose) (j : wtraj) (t : R) (dcm : R * R) (omega elapsed : R) : pid * outcome walk_tasks :=
  match get_p_world_DCM L j (t + delay) omega with
  | Ok planned =>
      let (g', off) := pid_step g (fst dcm - fst planned, snd dcm - snd planned) elapsed in
      (g', left <- get_T_world_foot j Left t ;;
           right <- get_T_world_foot j Right t ;;
           com <- get_p_world_CoM L j (t + delay) ;;
           trunk <- get_R_world_trunk j t ;;
           update_tasks w po left right (v3_add com (V3 (fst off) (snd off) 0)) trunk)
  | Throw e => (g, Throw e)
  | UB => (g, UB)
  end.
End WithLibraries.
