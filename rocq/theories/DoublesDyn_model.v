(** The velocity limit of a joint in a solve of DynamicsSolver that integrates, in double arithmetic (see Doubles_model.v), for a joint whose position is one number
    of q and whose speed is one number of qd. *)
From Coq Require Import Reals ZArith List Bool.
From Verif Require Import Base Doubles_model DoublesLimits_model DoublesIntegrate_model.
Import ListNotations.
Open Scope R_scope.

(** dynamics_solver.cpp:275-284: the two rows of the joint, to be at most 0; the variable is its acceleration. *)
Definition d_velocity_rows (dt velocity_limit qd : R) : list d_row := [(dt, d_add (- velocity_limit) qd); (- dt, d_sub (- velocity_limit) qd)].

(** dynamics_solver.cpp:214-217, 275-284, 322 and problem/expression.cpp:290-298, 315-318: the constraints as given to the problem, to be nonnegative. The constant 0
    is subtracted from each row. *)
Definition d_velocity_constraints (dt velocity_limit qd : R) : outcome (list d_row) :=
  if Req_EM_T dt 0 then Throw ERuntime
  else Ok (map (fun e => d_row_le e (0, 0)) (d_velocity_rows dt velocity_limit qd)).

(** dynamics_solver.cpp:535-549: the acceleration is written in the state, which is integrated (robot_wrapper.cpp:694-710). *)
Definition d_solved (dt qdd : R) (s : d_jstate) : d_jstate := d_integrate dt (DJState (dq s) (dqd s) (Some qdd)).
