(** The limits of a joint in a solve of KinematicsSolver, in double arithmetic (see Doubles_model.v), for a joint whose position is one number of q and
    whose speed is one number of qd. *)
From Coq Require Import Reals ZArith List Bool.
From Verif Require Import Base Doubles_model.
Import ListNotations.
Open Scope R_scope.

(** A row of an Expression, seen by one variable: the coefficient of the variable and the constant (expression.h). *)
Definition d_row : Type := (R * R)%type.

(** problem/expression.cpp:88-119, 170-181 (operator+), 136-143 (product by a number), 121-129 (operator- and the opposite). The constant added to each row
    when the other expression is a scalar (75-86, 90-97) is the same operation on a row. *)
Definition d_row_add (e o : d_row) : d_row := (d_add (fst e) (fst o), d_add (snd e) (snd o)).
Definition d_row_mul (e : d_row) (f : R) : d_row := (d_mul (fst e) f, d_mul (snd e) f).
Definition d_row_sub (e o : d_row) : d_row := d_row_add e (d_row_mul o (-1)).
Definition d_row_opp (e : d_row) : d_row := d_row_mul e (-1).
(** problem/expression.cpp:290-298, 335-343: the row of the constraint, to be nonnegative. *)
Definition d_row_le (e o : d_row) : d_row := d_row_opp (d_row_sub e o).

(** The entries of upperPositionLimit, lowerPositionLimit and velocityLimit (pinocchio::Model) for the joint. *)
Record d_joint := DJoint { dj_lower : R; dj_upper : R; dj_velocity : R }.

(** kinematics_solver.cpp:290-312: the rows of the joint in the constraints of the problem. [q]: the entry of state.q for the joint. *)
Definition d_limits (joint_limits velocity_limits : bool) (dt : R) (j : d_joint) (q : R) : outcome (list d_row) :=
  if velocity_limits && (if Req_EM_T dt 0 then true else false) then Throw ERuntime
  else Ok ((if joint_limits then [d_row_le (d_row_add (1, 0) (0, q)) (0, dj_upper j); d_row_le (0, dj_lower j) (d_row_add (1, 0) (0, q))] else []) ++
           (if velocity_limits then [d_row_le (1, 0) (0, d_mul dt (dj_velocity j)); d_row_le (0, d_mul (- dt) (dj_velocity j)) (1, 0)] else [])).

(** kinematics_solver.cpp:407-418: the position after the displacement, and the velocity written in the state if dt > 0. pinocchio's integrate and difference are
    the sum and the difference for such a joint. *)
Definition d_apply (q delta : R) : R := d_add q delta.
Definition d_speed (q q' dt : R) : R := d_div (d_sub q' q) dt.
