(** Model of what a dynamics solver leaves in its tasks and in its contacts: error and derror of a task, written by update() in solve
    (dynamics_solver.cpp:403-407) and in dump_status (dynamics_solver.cpp:356-380), and wrench of a contact, written in solve (dynamics_solver.cpp:531-541).

    Simplification: no task and no contact is removed. *)
From Coq Require Import Reals List Arith Bool.
From Verif Require Import Base Geom3 Expression_model Problem_model Robot_model DynTasks_model Dyn_model DynContacts_model.
Import ListNotations.
Open Scope R_scope.

(** A solver, its robot and, for each task of the solver, its members error and derror: [None] when an update that failed left unspecified values. *)
Record dbench : Type := DBench { dm_solver : dsolver; dm_robot : robot; dm_errors : list (option (vec * vec)) }.

(** task.h:38 and 43: empty matrices in a new task. *)
Definition empty_error : vec * vec := (Vec 0 (fun _ => 0), Vec 0 (fun _ => 0)).

(** dynamics_solver.h: the settings of [s], with the tasks and the contacts of [t]. *)
Definition settings_of (s t : dsolver) : dsolver := dset_contacts (dset_tasks s (ds_tasks t)) (ds_contacts t).

Fixpoint replace_nth {A : Type} (k : nat) (f : A -> A) (l : list A) : list A :=
  match l, k with [], _ => [] | x :: l', O => f x :: l' | x :: l', S k' => x :: replace_nth k' f l' end.

Section WithRobot.
Variable pn : pin.
Variable log3 : mat3 -> vec3.
Variable jlog : mat3 -> mat3.

(** The loop on task->update() (dynamics_solver.cpp:403-407 and 360-362), on the members error and derror, and how it ends. *)
Fixpoint update_memory (N : nat) (r : robot) (l : list dtask) (mem : list (option (vec * vec))) : list (option (vec * vec)) * outcome unit :=
  match l, mem with
  | t :: l', _ :: mem' =>
      match dtask_update pn log3 jlog N r t with
      | Ok e => let (mem'', o) := update_memory N r l' mem' in (Some (de_error e, de_derror e) :: mem'', o)
      | Throw e => (None :: mem', Throw e)
      | UB => (None :: mem', UB)
      end
  | _, _ => (mem, Ok tt)
  end.

(** dynamics_solver.cpp:391-401: what comes before the loop. *)
Definition before_update (s : dsolver) (r : robot) : outcome unit :=
  let (_, v) := add_variable (clear_variables (clear_constraints (ds_problem s))) (m_nv (r_model r)) in
  qdd <- var_expr v (-1) (-1) ;;
  (if ds_masked_fbase s then e <- var_expr v 0 6 ;; c <- e_eq_d e 0 ;; Ok tt else Ok tt).

(** What a user does: they do something with the robot, add or change a task, add a contact or write one of its attributes, change the settings of the solver,
    solve, or print the status. *)
Inductive dcall : Type :=
| MRobot (r : robot) | MAddTask (t : dtask) | MSetTask (k : nat) (t : dtask) | MAddContact (m : maker) | MSetContact (k : nat) (a : attribute)
| MSettings (s : dsolver) | MSolve (integrate : bool) | MDump.

(** A call and how it ends; [Ok false] is a solve that reports that it failed. *)
Definition dm_step (qr : mat -> qr_result) (qp : qp_problem -> qp_result) (b : dbench) (c : dcall) : dbench * outcome bool :=
  let s := dm_solver b in
  match c with
  | MRobot r => (DBench s r (dm_errors b), Ok true)
  | MAddTask t => (DBench (dset_tasks s (ds_tasks s ++ [t])) (dm_robot b) (dm_errors b ++ [Some empty_error]), Ok true)
  | MSetTask k t => (DBench (dset_tasks s (replace_nth k (fun _ => t) (ds_tasks s))) (dm_robot b) (dm_errors b), Ok true)
  | MAddContact m => (DBench (dset_contacts s (ds_contacts s ++ [make_contact m])) (dm_robot b) (dm_errors b), Ok true)
  | MSetContact k a => (DBench (dset_contacts s (replace_nth k (fun c => write_attribute c a) (ds_contacts s))) (dm_robot b) (dm_errors b), Ok true)
  | MSettings s' => (DBench (settings_of s' s) (dm_robot b) (dm_errors b), Ok true)
  | MSolve i =>
      let '(s', r', o) := dsolve pn log3 jlog qr qp s (dm_robot b) i in
      (DBench s' r' (match before_update s (dm_robot b) with Ok _ => fst (update_memory (ds_N s) (dm_robot b) (ds_tasks s) (dm_errors b)) | _ => dm_errors b end),
       res <- o ;; Ok (dr_success res))
  | MDump => let (mem, o) := update_memory (ds_N s) (dm_robot b) (ds_tasks s) (dm_errors b) in (DBench s (dm_robot b) mem, _ <- o ;; Ok true)
  end.

(** A program. It goes on after an exception; after an undefined behaviour there is nothing. *)
Fixpoint dm_run (qr : mat -> qr_result) (qp : qp_problem -> qp_result) (b : dbench) (l : list dcall) : option dbench :=
  match l with
  | [] => Some b
  | c :: l' => let (b', o) := dm_step qr qp b c in match o with UB => None | _ => dm_run qr qp b' l' end
  end.

(** task.error and task.derror; contact.wrench (expose-dynamics.cpp:48, 166-167). *)
Definition reported (b : dbench) (k : nat) : option (vec * vec) := match nth_error (dm_errors b) k with Some m => m | None => None end.
Definition wrench_of (b : dbench) (k : nat) : option vec := match nth_error (ds_contacts (dm_solver b)) k with Some c => Some (co_wrench c) | None => None end.
End WithRobot.
