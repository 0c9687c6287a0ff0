(** Model of the memory of the two solvers: which objects they hold, and which ones they delete.

    Objects are numbered in the order in which they are allocated. What an object computes is not modelled
    here; what is modelled is its address, its class (task, constraint or contact), the flag [solver_memory]
    and, for a contact, the tasks it points to. Reading or deleting an object that is not alive is [UB]. *)
From Coq Require Import List Arith Bool.
From Verif Require Import Base.
Import ListNotations.

(** Which solver: placo::kinematics::KinematicsSolver or placo::dynamics::DynamicsSolver. *)
Inductive which : Type := Kinematics | Dynamics.

(** kinematics/task.h, dynamics/task.h, kinematics/constraint.h, dynamics/constraint.h, dynamics/contacts.h. *)
Inductive class : Type := CTask | CConstraint | CContact.

(** The heap: how many objects were allocated; for each of them whether it is alive, its class, its flag
    solver_memory (kinematics/task.h:34, dynamics/task.h:23, constraint.h:20, dynamics/contacts.h:32), the tasks
    it points to (dynamics/contacts.h: position_task, orientation_task, task), and how often the solver
    called [delete] on it. *)
Record heap : Type := Heap {
  h_count : nat; h_alive : nat -> bool; h_class : nat -> class; h_memory : nat -> bool;
  h_refs : nat -> list nat; h_deletes : nat -> nat }.

(** A solver: its sets of tasks and constraints (std::set, here lists without repetition) and its
    std::vector of contacts (dynamics_solver.h: tasks, constraints, contacts). *)
Record owner : Type := Owner { w_heap : heap; w_tasks : list nat; w_constraints : list nat; w_contacts : list nat }.

Definition upd {A : Type} (f : nat -> A) (a : nat) (v : A) : nat -> A := fun b => if Nat.eqb b a then v else f b.

(** The start: nothing allocated, nothing held. *)
Definition fresh_owner : owner :=
  Owner (Heap 0 (fun _ => false) (fun _ => CTask) (fun _ => false) (fun _ => []) (fun _ => O)) [] [] [].

(** operator new. *)
Definition allocate (h : heap) (c : class) (memory : bool) (refs : list nat) : heap :=
  Heap (S (h_count h)) (upd (h_alive h) (h_count h) true) (upd (h_class h) (h_count h) c)
    (upd (h_memory h) (h_count h) memory) (upd (h_refs h) (h_count h) refs) (h_deletes h).

(** [delete p] executed by a solver. *)
Definition solver_delete (h : heap) (a : nat) : outcome heap :=
  guard (h_alive h a) (Ok (Heap (h_count h) (upd (h_alive h) a false) (h_class h) (h_memory h) (h_refs h)
                                (upd (h_deletes h) a (S (h_deletes h a))))).

(** The end of life of an object of the user. *)
Definition user_delete (h : heap) (a : nat) : outcome heap :=
  guard (h_alive h a) (Ok (Heap (h_count h) (upd (h_alive h) a false) (h_class h) (h_memory h) (h_refs h) (h_deletes h))).

(** std::set::insert and std::set::erase. *)
Definition insert (a : nat) (l : list nat) : list nat := if existsb (Nat.eqb a) l then l else l ++ [a].
Definition erase (a : nat) (l : list nat) : list nat := filter (fun b => negb (Nat.eqb b a)) l.

(** [if (p->solver_memory) delete p]. *)
Definition delete_if_memory (h : heap) (a : nat) : outcome heap :=
  guard (h_alive h a) (if h_memory h a then solver_delete h a else Ok h).

(** The loops of clear: kinematics_solver.cpp:425-441, dynamics_solver.cpp:328-353. *)
Fixpoint delete_all (h : heap) (l : list nat) : outcome heap :=
  match l with
  | [] => Ok h
  | a :: r => h' <- delete_if_memory h a ;; delete_all h' r
  end.

(** The calls. *)
Inductive op : Type :=
(** add_..._task, add_..._constraint, add_..._contact: the solver allocates; a contact points to tasks *)
| Create (c : class) (refs : list nat)
(** the user allocates and destroys an object *)
| UserNew (c : class)
| UserDelete (a : nat)
(** add_task(Task&), add_constraint(Constraint&), add_contact(Contact&) *)
| AddTask (a : nat)
| AddConstraint (a : nat)
| AddContact (a : nat)
(** remove_task(Task&), remove_task(FrameTask&), remove_constraint, remove_contact *)
| RemoveTask (a : nat)
| RemoveFrameTask (a b : nat)
| RemoveConstraint (a : nat)
| RemoveContact (a : nat)
(** clear(), also called by the destructors *)
| Clear
(** solve(): here, the objects it visits *)
| Visit.

(** kinematics_solver.h:479-505, dynamics_solver.h:459-505 (templates add_task, add_constraint, add_contact). *)
Definition create (s : owner) (c : class) (refs : list nat) : owner :=
  let h := w_heap s in
  let h' := allocate h c true refs in
  match c with
  | CTask => Owner h' (insert (h_count h) (w_tasks s)) (w_constraints s) (w_contacts s)
  | CConstraint => Owner h' (w_tasks s) (insert (h_count h) (w_constraints s)) (w_contacts s)
  | CContact => Owner h' (w_tasks s) (w_constraints s) (w_contacts s ++ [h_count h])
  end.

(** kinematics_solver.cpp:517-527, dynamics_solver.cpp:624-640: the object is written ([solver = this]) and inserted. *)
Definition add_task_op (s : owner) (a : nat) : outcome owner :=
  guard (h_alive (w_heap s) a) (Ok (Owner (w_heap s) (insert a (w_tasks s)) (w_constraints s) (w_contacts s))).
Definition add_constraint_op (s : owner) (a : nat) : outcome owner :=
  guard (h_alive (w_heap s) a) (Ok (Owner (w_heap s) (w_tasks s) (insert a (w_constraints s)) (w_contacts s))).
Definition add_contact_op (s : owner) (a : nat) : outcome owner :=
  guard (h_alive (w_heap s) a) (Ok (Owner (w_heap s) (w_tasks s) (w_constraints s) (w_contacts s ++ [a]))).

(** kinematics_solver.cpp:451-459 (deletes what has solver_memory); dynamics_solver.cpp:565-570 (deletes always). *)
Definition remove_task_op (k : which) (s : owner) (a : nat) : outcome owner :=
  h <- match k with
       | Kinematics => delete_if_memory (w_heap s) a
       | Dynamics => solver_delete (w_heap s) a
       end ;;
  Ok (Owner h (erase a (w_tasks s)) (w_constraints s) (w_contacts s)).

(** kinematics_solver.cpp:461-474; dynamics_solver.cpp:572-576: position, then orientation. *)
Definition remove_frame_task_op (k : which) (s : owner) (a b : nat) : outcome owner :=
  s' <- remove_task_op k s a ;; remove_task_op k s' b.

(** kinematics_solver.cpp:476-484, dynamics_solver.cpp:589-597. *)
Definition remove_constraint_op (s : owner) (a : nat) : outcome owner :=
  h <- delete_if_memory (w_heap s) a ;;
  Ok (Owner h (w_tasks s) (erase a (w_constraints s)) (w_contacts s)).

(** dynamics_solver.cpp:578-587: std::remove takes every occurrence out. *)
Definition remove_contact_op (s : owner) (a : nat) : outcome owner :=
  h <- delete_if_memory (w_heap s) a ;;
  Ok (Owner h (w_tasks s) (w_constraints s) (erase a (w_contacts s))).

(** kinematics_solver.cpp:423-444, dynamics_solver.cpp:326-354. *)
Definition clear_op (k : which) (s : owner) : outcome owner :=
  h1 <- delete_all (w_heap s) (w_tasks s) ;;
  h2 <- delete_all h1 (w_constraints s) ;;
  h3 <- match k with Kinematics => Ok h2 | Dynamics => delete_all h2 (w_contacts s) end ;;
  Ok (Owner h3 [] [] (match k with Kinematics => w_contacts s | Dynamics => [] end)).

(** The objects read by solve: every task, every constraint, every contact and the tasks the contacts point to
    (kinematics_solver.cpp:304-398, dynamics_solver.cpp:387-558, contacts.cpp: update). Contacts are taken to be active. *)
Definition visit_op (s : owner) : outcome owner :=
  let h := w_heap s in
  guard (forallb (h_alive h) (w_tasks s) && forallb (h_alive h) (w_constraints s) &&
         forallb (fun c => h_alive h c && forallb (h_alive h) (h_refs h c)) (w_contacts s))%bool (Ok s).

Definition run_op (k : which) (s : owner) (o : op) : outcome owner :=
  match o with
  | Create c refs => Ok (create s c refs)
  | UserNew c => Ok (Owner (allocate (w_heap s) c false []) (w_tasks s) (w_constraints s) (w_contacts s))
  | UserDelete a => h <- user_delete (w_heap s) a ;; Ok (Owner h (w_tasks s) (w_constraints s) (w_contacts s))
  | AddTask a => add_task_op s a
  | AddConstraint a => add_constraint_op s a
  | AddContact a => add_contact_op s a
  | RemoveTask a => remove_task_op k s a
  | RemoveFrameTask a b => remove_frame_task_op k s a b
  | RemoveConstraint a => remove_constraint_op s a
  | RemoveContact a => remove_contact_op s a
  | Clear => clear_op k s
  | Visit => visit_op s
  end.

(** A history of calls. *)
Fixpoint run_ops (k : which) (s : owner) (l : list op) : outcome owner :=
  match l with
  | [] => Ok s
  | o :: r => s' <- run_op k s o ;; run_ops k s' r
  end.
