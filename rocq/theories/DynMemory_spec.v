(** What a user expects of the errors of the tasks and of the wrenches of the contacts of a dynamics solver. *)
From Coq Require Import Reals List Arith Bool.
From Verif Require Import Base Geom3 Problem_model Robot_model DynTasks_model Dyn_model DynContacts_model DynMemory_model.
Import ListNotations.
Open Scope R_scope.

(** A solver without tasks and contacts. *)
Definition new_dbench (s : dsolver) (r : robot) : dbench := DBench (dset_contacts (dset_tasks s []) []) r [].

Section WithRobot.
Variable pn : pin.
Variable log3 : mat3 -> vec3.
Variable jlog : mat3 -> mat3.
Variable qr : mat -> qr_result.
Variable qp : qp_problem -> qp_result.

(** The program reaches [b1] just before the call [c], that is followed by [l2]. *)
Definition reaches_call (b0 : dbench) (l l1 : list dcall) (c : dcall) (l2 : list dcall) (b1 : dbench) : Prop :=
  l = l1 ++ c :: l2 /\ dm_run pn log3 jlog qr qp b0 l1 = Some b1.

(** The error and its derivative, for the target and the robot of the moment. *)
Definition error_now (b : dbench) (k : nat) (v : vec * vec) : Prop :=
  exists t e, nth_error (ds_tasks (dm_solver b)) k = Some t /\ dtask_update pn log3 jlog (ds_N (dm_solver b)) (dm_robot b) t = Ok e /\ v = (de_error e, de_derror e).
(** The call is one that looks at the tasks, and it ends without an exception, whether or not a solution was found. *)
Definition looks (b : dbench) (c : dcall) : Prop :=
  match c with MSolve _ | MDump => exists x, snd (dm_step pn log3 jlog qr qp b c) = Ok x | _ => False end.
Definition looks_or_throws (c : dcall) : Prop := match c with MSolve _ | MDump => True | _ => False end.

(** [v] is the error of the task [k] when it was computed for the last time: each later call that looks at the tasks raised an exception. *)
Definition last_looked (b0 : dbench) (l : list dcall) (k : nat) (v : vec * vec) : Prop :=
  exists l1 c l2 b1, reaches_call b0 l l1 c l2 b1 /\ looks_or_throws c /\ error_now b1 k v /\
    forall l3 c' l4 b3, l2 = l3 ++ c' :: l4 -> reaches_call b0 l (l1 ++ c :: l3) c' l4 b3 -> ~ looks b3 c'.
Definition never_looked (b0 : dbench) (l : list dcall) (k : nat) : Prop :=
  forall l1 c l2 b1, reaches_call b0 l l1 c l2 b1 -> (k < List.length (ds_tasks (dm_solver b1)))%nat -> ~ looks b1 c.

(** At this moment, the solver finds a solution, with the contact [k] active and this wrench on it. *)
Definition finds_wrench (b : dbench) (k : nat) (w : vec) : Prop :=
  exists c s' r' res c', nth_error (ds_contacts (dm_solver b)) k = Some c /\ co_active c = true /\
    dsolve pn log3 jlog qr qp (dm_solver b) (dm_robot b) false = (s', r', Ok res) /\ dr_success res = true /\ nth_error (ds_contacts s') k = Some c' /\ w = co_wrench c'.

(** [w] is the wrench of the contact [k] in the last solution in which it was active. *)
Definition last_wrench (b0 : dbench) (l : list dcall) (k : nat) (w : vec) : Prop :=
  exists l1 i l2 b1, reaches_call b0 l l1 (MSolve i) l2 b1 /\ finds_wrench b1 k w /\
    forall l3 i' l4 b3 w', l2 = l3 ++ MSolve i' :: l4 -> reaches_call b0 l (l1 ++ MSolve i :: l3) (MSolve i') l4 b3 -> ~ finds_wrench b3 k w'.
Definition never_pushed (b0 : dbench) (l : list dcall) (k : nat) : Prop :=
  forall l1 i l2 b1 w, reaches_call b0 l l1 (MSolve i) l2 b1 -> ~ finds_wrench b1 k w.
End WithRobot.
