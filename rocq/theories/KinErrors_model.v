(** Model of the errors a kinematics task reports (kinematics/task.cpp:5-13): error() and error_norm() read the member b, that update() wrote for the last time
    in solve (kinematics_solver.cpp:327-330) or dump_status (kinematics_solver.cpp:486-515). *)
From Coq Require Import Reals List Arith Bool.
From Verif Require Import Base Linalg Geom3 Problem_model Robot_model Tools_model KinTasks_model Kin_model.
Import ListNotations.
Open Scope R_scope.

(** A solver, its robot and, for each task of the solver, its member b: [None] when it holds unspecified values. *)
Record bench : Type := Bench { be_solver : ksolver; be_robot : robot; be_errors : list (option vec) }.

(** The solver with other tasks. *)
Definition with_tasks (s : ksolver) (l : list ktask) : ksolver :=
  KSolver (ks_N s) (ks_dt s) (ks_problem s) (ks_qd s) (ks_scale_var s) (ks_scale s) (ks_has_scaling s) (ks_masked s) (ks_masked_fbase s)
    (ks_joint_limits s) (ks_velocity_limits s) l (ks_cons s).

(** task.h:44: b is an empty matrix in a new task; distance_task.cpp:10 gives it one entry, not initialised. *)
Definition new_error (k : task_kind) : option vec := match k with KDistance _ _ _ => None | _ => Some (Vec 0 (fun _ => 0)) end.

(** MatrixXd::norm() of a column. *)
Definition column_norm (b : vec) : R := sqrt (Rsum (vlen b) (fun k => Rsqr (vat b k))).

(** kinematics/task.cpp:5-8 and 10-13. A read of unspecified values has no model. *)
Definition task_error (b : bench) (k : nat) : option vec := match nth_error (be_errors b) k with Some (Some v) => Some v | _ => None end.
Definition task_error_norm (b : bench) (k : nat) : option R := match task_error b k with Some v => Some (column_norm v) | None => None end.

Section WithRobot.
Variable pn : pin.
Variable log3 : mat3 -> vec3.
Variable msqrt : mat -> mat.

(** kinematics_solver.cpp:327-376, on the members b. The tasks that follow the one that fails keep theirs; that of the one that fails is unspecified. *)
Fixpoint errors_in_solve (r : robot) (s : ksolver) (l : list ktask) (mem : list (option vec)) : list (option vec) :=
  match l, mem with
  | t :: l', _ :: mem' =>
      match task_update pn log3 msqrt (ks_N s) (ks_dt s) r (kt_kind t) with
      | Ok e => let (s', o) := add_task_to_problem pn log3 msqrt r s t in
                Some (snd e) :: match o with Ok _ => errors_in_solve r s' l' mem' | _ => mem' end
      | _ => None :: mem'
      end
  | _, _ => mem
  end.
(** kinematics_solver.cpp:313-327: what comes before the tasks. *)
Definition before_tasks (s : ksolver) : ksolver :=
  let s := ensure_qd s in let s := kset_problem s (clear_constraints (ks_problem s)) in kset_scale s (ks_scale s) false.

(** kinematics_solver.cpp:486-515 (and 529-532), on the members b, and how the call ends. *)
Fixpoint errors_in_dump (s : ksolver) (r : robot) (l : list ktask) (mem : list (option vec)) : list (option vec) * outcome unit :=
  match l, mem with
  | t :: l', _ :: mem' =>
      match task_update pn log3 msqrt (ks_N s) (ks_dt s) r (kt_kind t) with
      | Ok e => let (mem'', o) := errors_in_dump s r l' mem' in (Some (snd e) :: mem'', o)
      | Throw e => (None :: mem', Throw e)
      | UB => (None :: mem', UB)
      end
  | _, _ => (mem, Ok tt)
  end.

(** What a user does: they do something with the robot, add a task, change a task (its target, its mask), change other settings of the solver, solve, or print
    the status. The last two end with an outcome; the others are given by what they leave. *)
Inductive bench_call : Type :=
| BRobot (r : robot) | BAdd (t : ktask) | BSet (k : nat) (kind : task_kind) | BOther (s : ksolver) | BSolve (apply : bool) | BDump.
Fixpoint replace (k : nat) (kind : task_kind) (l : list ktask) : list ktask :=
  match l, k with
  | [], _ => []
  | t :: l', O => KTask kind (kt_priority t) (kt_weight t) :: l'
  | t :: l', S k' => t :: replace k' kind l'
  end.

Definition bench_step (qr : mat -> qr_result) (qp : qp_problem -> qp_result) (b : bench) (c : bench_call) : bench * outcome unit :=
  let s := be_solver b in
  match c with
  | BRobot r => (Bench s r (be_errors b), Ok tt)
  | BAdd t => (Bench (with_tasks s (ks_tasks s ++ [t])) (be_robot b) (be_errors b ++ [new_error (kt_kind t)]), Ok tt)
  | BSet k kind => (Bench (with_tasks s (replace k kind (ks_tasks s))) (be_robot b) (be_errors b), Ok tt)
  | BOther s' => (Bench (with_tasks s' (ks_tasks s)) (be_robot b) (be_errors b), Ok tt)
  | BSolve apply =>
      let '(s', r', o) := ksolve pn log3 msqrt qr qp s (be_robot b) apply in
      (Bench s' r' (errors_in_solve (be_robot b) (before_tasks s) (ks_tasks s) (be_errors b)), x <- o ;; Ok tt)
  | BDump => let (mem, o) := errors_in_dump s (be_robot b) (ks_tasks s) (be_errors b) in (Bench s (be_robot b) mem, o)
  end.

(** A program. It goes on after an exception; after an undefined behaviour there is nothing. *)
Fixpoint bench_run (qr : mat -> qr_result) (qp : qp_problem -> qp_result) (b : bench) (l : list bench_call) : option bench :=
  match l with
  | [] => Some b
  | c :: l' => let (b', o) := bench_step qr qp b c in match o with UB => None | _ => bench_run qr qp b' l' end
  end.
Definition new_bench (r : robot) : bench := Bench (new_ksolver r) r [].

End WithRobot.
