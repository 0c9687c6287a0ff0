(** Model of the Python property [solver] of WalkTasks (bindings/expose-walk-pattern-generator.cpp:135-136).

    The lambda is [[](WalkTasks& tasks) { return *tasks.solver; }]: its return type is KinematicsSolver, so what Python gets is a copy. The class
    declares a destructor but no copy constructor (kinematics_solver.h:47-48): the copy holds the same pointers to tasks and constraints. When Python
    collects the copy, ~KinematicsSolver (kinematics_solver.cpp:18-21) calls clear on it. The Problem inside the solver is copied and destroyed along
    with it; that part is ProblemMemory_model.pcopy_and_destroy. *)
From Coq Require Import Reals List Arith Bool.
From Verif Require Import Base Geom3 Ownership_model WalkTasks_model.
Import ListNotations.

(** The copy held by Python: the pointers it has. *)
Record solver_copy : Type := SolverCopy { sc_tasks : list nat; sc_constraints : list nat }.

(** expose-walk-pattern-generator.cpp:135-136: [*tasks.solver], copied. The pointer solver is null until initialize_tasks and after remove_tasks. *)
Definition read_solver (w : walk_tasks) : outcome solver_copy :=
  guard (wt_on w) (Ok (SolverCopy (w_tasks (wt_owner w)) (w_constraints (wt_owner w)))).

(** The end of the Python object: clear on the copy. The original keeps its pointers. *)
Definition collect_solver (w : walk_tasks) (c : solver_copy) : outcome walk_tasks :=
  let s := wt_owner w in
  h1 <- delete_all (w_heap s) (sc_tasks c) ;;
  h2 <- delete_all h1 (sc_constraints c) ;;
  Ok (WalkTasks (Owner h2 (w_tasks s) (w_constraints s) (w_contacts s)) (wt_on w) (wt_ptr w) (wt_mode w) (wt_com_x w) (wt_com_y w)
        (wt_role w) (wt_target w) (wt_rot w)).

(** The expression [tasks.solver] whose value is not kept: for instance [tasks.solver.solve(True)], or reading it in a debugger. *)
Definition mention_solver (w : walk_tasks) : outcome walk_tasks := c <- read_solver w ;; collect_solver w c.
