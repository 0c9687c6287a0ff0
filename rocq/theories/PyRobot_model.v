(** Model of the Python attribute [robot] of the solvers.

    expose-dynamics.cpp:131-132: the lambda [[](const DynamicsSolver& solver) { return solver.robot; }] returns a RobotWrapper, not a reference: what
    Python gets is a copy. RobotWrapper declares no copy constructor. The copy has its own model and its own state (robot_wrapper.h:78, 684-696), but the
    field data is a pointer (robot_wrapper.h:701): the frames and the Jacobians computed by one are those seen by the other. RobotWrapper never deletes
    data, so that collecting a copy has no effect.

    expose-kinematics.cpp:27-30: the lambda of the kinematics solver returns a reference to the robot. *)
From Coq Require Import Reals List Arith Bool String.
From Verif Require Import Base Geom3 Robot_model.
Import ListNotations.

(** The robot the solver was made with, whose [r_seen] is what data holds; and the copies made so far, with their model and state. *)
Record shared : Type := Shared { sh_robot : robot; sh_copies : list (rmodel * state) }.

(** A method of RobotWrapper: it may change the robot, and throw. *)
Definition method : Type := robot -> outcome robot.

(** The [i]-th copy as a RobotWrapper: it reads the shared data. *)
Definition as_robot (s : shared) (i : nat) : option robot :=
  match nth_error (sh_copies s) i with
  | Some (m, st) => Some (Robot m st (r_seen (sh_robot s)))
  | None => None
  end.

Fixpoint replace_nth {A : Type} (i : nat) (x : A) (l : list A) : list A :=
  match l, i with
  | [], _ => []
  | _ :: l', O => x :: l'
  | y :: l', S j => y :: replace_nth j x l'
  end.

(** The statements of a Python program: [r = solver.robot] for a dynamics solver, a method called on the robot itself, a method called on the [i]-th of the
    copies. *)
Inductive statement : Type := Attribute | OnRobot (f : method) | OnCopy (i : nat) (f : method).

Definition execute (s : shared) (c : statement) : outcome shared :=
  match c with
  | Attribute => Ok (Shared (sh_robot s) (sh_copies s ++ [(r_model (sh_robot s), r_state (sh_robot s))]))
  | OnRobot f => r <- f (sh_robot s) ;; Ok (Shared r (sh_copies s))
  | OnCopy i f =>
      match as_robot s i with
      | None => UB
      | Some r => r' <- f r ;;
          Ok (Shared (Robot (r_model (sh_robot s)) (r_state (sh_robot s)) (r_seen r'))
                     (replace_nth i (r_model r', r_state r') (sh_copies s)))
      end
  end.

Fixpoint execute_all (s : shared) (l : list statement) : outcome shared :=
  match l with
  | [] => Ok s
  | c :: l' => s' <- execute s c ;; execute_all s' l'
  end.

(** [solver.robot.f()] for a dynamics solver: the copy is not kept. *)
Definition dynamics_robot (s : shared) (f : method) : outcome shared :=
  s1 <- execute s Attribute ;;
  s2 <- execute s1 (OnCopy (List.length (sh_copies s)) f) ;;
  Ok (Shared (sh_robot s2) (sh_copies s)).

(** [solver.robot.f()] for a kinematics solver: expose-kinematics.cpp:27-30. *)
Definition kinematics_robot (s : shared) (f : method) : outcome shared := execute s (OnRobot f).
