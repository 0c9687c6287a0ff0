(** What a user expects of the attribute [robot] of a solver: that it is the robot the solver was made with. *)
From Coq Require Import Reals List.
From Verif Require Import Base Robot_model PyRobot_model.
Import ListNotations.

(** Calling a method through the attribute is calling it on the robot: same exception, or same robot afterwards. *)
Definition is_the_robot (attribute : shared -> method -> outcome shared) : Prop := forall s f,
  match f (sh_robot s) with
  | Ok r => exists s', attribute s f = Ok s' /\ sh_robot s' = r
  | Throw e => attribute s f = Throw e
  | UB => attribute s f = UB
  end.

(** A method that changes neither the model (masses, limits) nor the state (q, qd, qdd); it may compute the frames and the Jacobians again. *)
Definition keeps_the_state (f : method) : Prop := forall r r', f r = Ok r' -> r_model r' = r_model r /\ r_state r' = r_state r.

(** A part of a program that only uses the attribute and what it gave. *)
Definition through_copies (c : statement) : Prop := match c with OnRobot _ => False | _ => True end.
