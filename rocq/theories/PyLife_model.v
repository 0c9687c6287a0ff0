(** Model of the life of the objects handled from Python (bindings/*.cpp): who keeps whom alive.

    A Python object designates a C++ object. It either contains it (constructors and results returned by value) or only points to it (results returned
    by reference). With the policy return_internal_reference, the Python object returned keeps alive the Python object it was obtained from; with
    reference_existing_object it keeps nothing alive; the constructors exposed by the bindings use no with_custodian_and_ward, so that an object
    keeps none of its arguments alive. A Python object lives as long as a name of the program is bound to it or to something that keeps it alive
    (reference counting; cycles do not occur, an object only keeps older ones alive). When a Python object that contains a C++ object dies, that object
    is destroyed, and with it the objects it allocated (the tasks, constraints and contacts of a solver, the variables and constraints of a problem).

    Not modelled: remove_task, clear and the like, which destroy objects on request (Ownership_model, ProblemMemory_model), and copies (PySolver_model). *)
From Coq Require Import List Arith Bool.
Import ListNotations.

(** A C++ object: the C++ object that allocated it, if any; the Python object whose end is also its own; the addresses it stores. *)
Record cobj : Type := CObj { co_parent : option nat; co_root : nat; co_points : list nat }.

(** A Python object: the C++ object it designates; the Python objects it keeps alive, directly or not. *)
Record pobj : Type := PObj { po_addr : nat; po_keeps : list nat }.

(** The state: C++ objects and Python objects in order of creation, and the Python objects to which a name of the program is bound. *)
Record pystate : Type := PyState { ps_cpp : list cobj; ps_py : list pobj; ps_names : list nat }.

Definition py_start : pystate := PyState [] [] [].

Definition cpp_at (s : pystate) (a : nat) : cobj := nth a (ps_cpp s) (CObj None 0 []).
Definition py_at (s : pystate) (p : nat) : pobj := nth p (ps_py s) (PObj 0 []).
Definition addr (s : pystate) (p : nat) : nat := po_addr (py_at s p).

(** What a Python object stores about an argument: its address, or (a contact made for a frame task, contacts.cpp) the addresses stored in it. *)
Definition stored (s : pystate) (args through : list nat) : list nat :=
  map (addr s) args ++ flat_map (fun g => co_points (cpp_at s (addr s g))) through.

(** The steps of a Python program. The Python object created by a step gets the next number, and a name is bound to it. *)
Inductive pystep : Type :=
(** a constructor, with arguments stored by reference or pointer *)
| New (args through : list nat)
(** a method of [h] that allocates an object, stores references to its arguments in it, and returns it with return_internal_reference *)
| Child (h : nat) (args through : list nat)
(** a method of [h], or a constructor from [h], that allocates [n] objects in it and returns by value an object that points to them *)
| Made (h n : nat)
(** a getter with return_internal_reference: the [k]-th object that the object of [h] points to *)
| Inner (h k : nat)
(** a getter with reference_existing_object *)
| Outer (h k : nat)
(** a method of [h] that stores the address of [g] *)
| Link (h g : nat)
(** any other call on [h] *)
| Use (h : nat)
(** the name of [h] is deleted or bound to something else *)
| Drop (h : nat).

Definition bind (s : pystate) (cs : list cobj) (p : pobj) : pystate :=
  PyState (ps_cpp s ++ cs) (ps_py s ++ [p]) (length (ps_py s) :: ps_names s).

Definition set_points (l : list cobj) (a b : nat) : list cobj :=
  firstn a l ++ match nth_error l a with Some o => [CObj (co_parent o) (co_root o) (co_points o ++ [b])] | None => [] end ++ skipn (S a) l.

Definition py_do (s : pystate) (o : pystep) : pystate :=
  let n := length (ps_cpp s) in let me := length (ps_py s) in
  match o with
  | New args through => bind s [CObj None me (stored s args through)] (PObj n [])
  | Child h args through =>
      bind s [CObj (Some (addr s h)) (co_root (cpp_at s (addr s h))) (addr s h :: stored s args through)] (PObj n (h :: po_keeps (py_at s h)))
  | Made h k =>
      bind s (repeat (CObj (Some (addr s h)) (co_root (cpp_at s (addr s h))) [addr s h]) k ++ [CObj None me (seq n k)]) (PObj (n + k) [])
  | Inner h k => bind s [] (PObj (nth k (co_points (cpp_at s (addr s h))) 0) (h :: po_keeps (py_at s h)))
  | Outer h k => bind s [] (PObj (nth k (co_points (cpp_at s (addr s h))) 0) [])
  | Link h g => PyState (set_points (ps_cpp s) (addr s h) (addr s g)) (ps_py s) (ps_names s)
  | Use _ => s
  | Drop h => PyState (ps_cpp s) (ps_py s) (remove Nat.eq_dec h (ps_names s))
  end.

Definition py_run (l : list pystep) : pystate := fold_left py_do l py_start.

(** A Python object is alive. *)
Definition py_alive (s : pystate) (p : nat) : Prop := exists n, In n (ps_names s) /\ (p = n \/ In p (po_keeps (py_at s n))).

(** A C++ object has not been destroyed. *)
Definition cpp_alive (s : pystate) (a : nat) : Prop := py_alive s (co_root (cpp_at s a)).

(** The objects a call on the object [a] may read: what it points to, what it allocated, and so on from there. *)
Inductive follows (s : pystate) (a : nat) : nat -> Prop :=
| follows_self : follows s a a
| follows_points : forall b c, follows s a b -> In c (co_points (cpp_at s b)) -> follows s a c
| follows_child : forall b c, follows s a b -> c < length (ps_cpp s) -> co_parent (cpp_at s c) = Some b -> follows s a c.

(** A call on the Python object [h] is defined. *)
Definition defined_on (s : pystate) (h : nat) : Prop := forall b, follows s (addr s h) b -> cpp_alive s b.

(** The Python objects a step takes as receiver or argument. *)
Definition mentions (o : pystep) : list nat :=
  match o with
  | New args through => args ++ through
  | Child h args through => h :: args ++ through
  | Made h _ | Inner h _ | Outer h _ | Use h | Drop h => [h]
  | Link h g => [h; g]
  end.

(** The API in these terms. *)
(** expose-kinematics.cpp:21-22, expose-dynamics.cpp:91: KinematicsSolver(robot), DynamicsSolver(robot); expose-robot-wrapper.cpp:139-140: robot.make_solver(). *)
Definition make_a_solver (robot : nat) : pystep := New [robot] [].
(** expose-problem.cpp:86, 100: Integrator(variable, ...), ProblemPolynom(variable). *)
Definition make_integrator (variable : nat) : pystep := New [variable] [].
(** expose-footsteps.cpp:99, 103: FootstepsPlannerNaive(parameters), FootstepsPlannerRepetitive(parameters). *)
Definition make_planner (parameters : nat) : pystep := New [parameters] [].
(** expose-walk-pattern-generator.cpp:67, 185: WalkPatternGenerator(robot, parameters), DummyWalk(robot, parameters). *)
Definition make_walk (robot parameters : nat) : pystep := New [robot; parameters] [].
(** expose-walk-pattern-generator.cpp:163: LIPM(problem, ...), which adds two variables to the problem. *)
Definition make_lipm (problem : nat) : pystep := Made problem 2.
(** expose-problem.cpp:109-111: problem.add_variable, add_constraint, add_limit; expose-kinematics.cpp:33-126 and expose-dynamics.cpp:113-157: solver.add_..._task
    (other than frame tasks), solver.add_..._constraint. *)
Definition add_inside (owner : nat) : pystep := Child owner [] [].
(** expose-kinematics.cpp:49-52, expose-dynamics.cpp:145-146, 158-159: add_frame_task, add_relative_frame_task. *)
Definition add_a_frame_task (solver : nat) : pystep := Made solver 2.
(** expose-dynamics.cpp:103-112: add_point_contact(position_task), add_task_contact(task); add_planar_contact(frame_task) and the like. *)
Definition add_contact_on (solver task : nat) : pystep := Child solver [task] [].
Definition add_contact_on_frame (solver frame_task : nat) : pystep := Child solver [] [frame_task].
(** frame_task.position(), frame_task.orientation(), contact.position_task() ... *)
Definition part_of (frame_task k : nat) : pystep := Inner frame_task k.
(** expose-kinematics.cpp:27-29, expose-walk-pattern-generator.cpp:190-195: solver.robot, walk.robot, walk.parameters. *)
Definition robot_of (solver : nat) : pystep := Outer solver 0.
(** solver.add_task(task), solver.add_constraint(constraint). *)
Definition add_given (solver task : nat) : pystep := Link solver task.
