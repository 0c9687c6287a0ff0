(** What a user expects of the errors of the tasks. *)
From Coq Require Import Reals List Arith Bool.
From Verif Require Import Base Linalg Geom3 Problem_model Robot_model Tools_model KinTasks_model Kin_model KinErrors_model.
Import ListNotations.
Open Scope R_scope.

(** The calls that compute the errors. *)
Definition computes (c : bench_call) : Prop := match c with BSolve _ | BDump => True | _ => False end.

Section WithRobot.
Variable pn : pin.
Variable log3 : mat3 -> vec3.
Variable msqrt : mat -> mat.
Variable qr : mat -> qr_result.
Variable qp : qp_problem -> qp_result.

(** The error of the [k]-th task for the target, the robot and the kinematics of the moment. *)
Definition current_error (b : bench) (k : nat) (v : vec) : Prop :=
  exists t A, nth_error (ks_tasks (be_solver b)) k = Some t /\
    task_update pn log3 msqrt (ks_N (be_solver b)) (ks_dt (be_solver b)) (be_robot b) (kt_kind t) = Ok (A, v).

(** The program reaches [b1] just before the call [c], that is followed by [l2]. *)
Definition at_call (b0 : bench) (l l1 : list bench_call) (c : bench_call) (l2 : list bench_call) (b1 : bench) : Prop :=
  l = l1 ++ c :: l2 /\ bench_run pn log3 msqrt qr qp b0 l1 = Some b1.

(** [v] is the error of the task [k] when it was computed for the last time, and each later computation of the errors failed. *)
Definition last_computed (b0 : bench) (l : list bench_call) (k : nat) (v : vec) : Prop :=
  exists l1 c l2 b1, at_call b0 l l1 c l2 b1 /\ computes c /\ current_error b1 k v /\
    forall l3 c' l4 b3, l2 = l3 ++ c' :: l4 -> at_call b0 l (l1 ++ c :: l3) c' l4 b3 -> computes c' -> snd (bench_step pn log3 msqrt qr qp b3 c') <> Ok tt.
(** The error of the task [k] was never computed with success. *)
Definition never_computed (b0 : bench) (l : list bench_call) (k : nat) : Prop :=
  forall l1 c l2 b1, at_call b0 l l1 c l2 b1 -> computes c -> (k < List.length (ks_tasks (be_solver b1)))%nat -> snd (bench_step pn log3 msqrt qr qp b1 c) <> Ok tt.
End WithRobot.
