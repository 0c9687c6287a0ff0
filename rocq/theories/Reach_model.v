(** The loop of WalkTasks::reach_initial_pose (humanoid/walk_tasks.cpp:75-86), that brings the robot to the pose asked by the tasks. The targets of the tasks, set before
    the loop, are in WalkTasks_model (initial_targets); the tasks are those of the solver. *)
From Coq Require Import Reals List ZArith Bool String.
From Verif Require Import Base Geom3 Geometry_model Problem_model Robot_model KinTasks_model Kin_model.
Open Scope R_scope.

Section Reach.
Variable pn : pin.
Variable log3 : mat3 -> vec3.
Variable msqrt : mat -> mat.
(** The greatest double, the random configuration drawn by each call to add_q_noise, and the back-ends, that can answer differently each time. *)
Variable huge : R.
Variable draw : nat -> vec.
Variable qr : nat -> mat -> qr_result.
Variable qp : nat -> qp_problem -> qp_result.

(** walk_tasks.cpp:77-85: the body of the loop. The robot of the solver is the robot of the tasks. *)
Definition reach_step (i : nat) (s : ksolver) (r : robot) : ksolver * robot * outcome vec :=
  let r := if Nat.leb i 10 then add_q_noise huge (draw i) r (1 / 100) else r in
  let r := update_kinematics r in
  ksolve pn log3 msqrt (qr i) (qp i) s r true.

(** walk_tasks.cpp:75-86: [n] more iterations, from the iteration [i]. An exception of solve leaves the loop. *)
Fixpoint reach_loop (n i : nat) (s : ksolver) (r : robot) : ksolver * robot * outcome unit :=
  match n with
  | O => (s, r, Ok tt)
  | S n' =>
      match reach_step i s r with
      | (s', r', Ok _) => reach_loop n' (S i) s' r'
      | (s', r', Throw e) => (s', r', Throw e)
      | (s', r', UB) => (s', r', UB)
      end
  end.

Definition reach_pose (s : ksolver) (r : robot) : ksolver * robot * outcome unit := reach_loop 100 0 s r.
End Reach.
