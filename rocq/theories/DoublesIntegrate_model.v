(** RobotWrapper::integrate in double arithmetic (see Doubles_model.v), for a joint whose position is one number of q and whose speed is one number of qd. *)
From Coq Require Import Reals ZArith List Bool.
From Verif Require Import Base Doubles_model.
Open Scope R_scope.

(** The entries of state.q, state.qd and state.qdd for the joint; None: the vector is empty. *)
Record d_jstate := DJState { dq : R; dqd : option R; dqdd : option R }.

(** robot_wrapper.cpp:694-710. pinocchio's integrate is the sum for such a joint. *)
Definition d_integrate (dt : R) (s : d_jstate) : d_jstate :=
  let qd := match dqd s with None => 0 | Some v => v end in
  let qd := match dqdd s with None => qd | Some a => d_add qd (d_mul dt a) end in
  DJState (d_add (dq s) (d_mul qd dt)) (Some qd) (dqdd s).
