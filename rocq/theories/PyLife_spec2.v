(** What each call of the Python API refers to without keeping it alive. *)
From Coq Require Import List Arith.
From Verif Require Import PyLife_model PyLife_spec.
Import ListNotations.

(** The object a call is about: the one it returns, or, for add_task and the like, the one it is made on. *)
Definition subject (s : pystate) (o : pystep) : nat := match o with Link h _ => h | _ => length (ps_py s) end.

(** [needs s o p]: in the state [s], the subject of the call [o] refers to something that dies with the Python object [p]. *)
Inductive needs (s : pystate) : pystep -> nat -> Prop :=
| solver_needs_robot robot : needs s (make_a_solver robot) (owner_of s robot)
| integrator_needs_problem variable : needs s (make_integrator variable) (owner_of s variable)
| planner_needs_parameters parameters : needs s (make_planner parameters) (owner_of s parameters)
| walk_needs_robot robot parameters : needs s (make_walk robot parameters) (owner_of s robot)
| walk_needs_parameters robot parameters : needs s (make_walk robot parameters) (owner_of s parameters)
| lipm_needs_problem problem : needs s (make_lipm problem) (owner_of s problem)
| frame_task_needs_solver solver : needs s (add_a_frame_task solver) (owner_of s solver)
| contact_needs_task solver task : needs s (add_contact_on solver task) (owner_of s task)
| contact_needs_frame_task solver frame_task b :
    In b (co_points (cpp_at s (addr s frame_task))) -> needs s (add_contact_on_frame solver frame_task) (co_root (cpp_at s b))
| robot_needs_robot solver : needs s (robot_of solver) (co_root (cpp_at s (nth 0 (co_points (cpp_at s (addr s solver))) 0)))
| solver_needs_task solver task : needs s (add_given solver task) (owner_of s task).
