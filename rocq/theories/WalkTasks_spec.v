(** What a user of WalkTasks relies on: its histories and what is in the solver. *)
From Coq Require Import Reals List Arith Bool String.
From Verif Require Import Base Geom3 Ownership_model Ownership_spec WalkTasks_model.
Import ListNotations.
Open Scope R_scope.

(** The calls made on a WalkTasks object and, besides, on its solver. *)
Inductive walk_call : Type :=
| WInitialize (po : walk_pose)
| WSetMode (trunk_mode : bool)
| WSetOffset (x y : R)
| WUpdateCom (po : walk_pose)
| WUpdate (po : walk_pose) (left right : frame) (com : vec3) (trunk : mat3)
| WRemove
| WSolver (o : op).

(** Their effect. *)
Definition walk_step (w : walk_tasks) (c : walk_call) : outcome walk_tasks :=
  match c with
  | WInitialize po => initialize_tasks w po
  | WSetMode m => Ok (WalkTasks (wt_owner w) (wt_on w) (wt_ptr w) m (wt_com_x w) (wt_com_y w) (wt_role w) (wt_target w) (wt_rot w))
  | WSetOffset x y => Ok (WalkTasks (wt_owner w) (wt_on w) (wt_ptr w) (wt_mode w) x y (wt_role w) (wt_target w) (wt_rot w))
  | WUpdateCom po => update_com_task w po
  | WUpdate po l r c t => update_tasks w po l r c t
  | WRemove => remove_tasks w
  | WSolver o => s <- run_op Kinematics (wt_owner w) o ;;
      Ok (WalkTasks s (wt_on w) (wt_ptr w) (wt_mode w) (wt_com_x w) (wt_com_y w) (wt_role w) (wt_target w) (wt_rot w))
  end.

Fixpoint walk_run (w : walk_tasks) (l : list walk_call) : outcome walk_tasks :=
  match l with [] => Ok w | c :: r => w' <- walk_step w c ;; walk_run w' r end.

(** The objects a call on the solver takes out of it. *)
Definition takes_out (o : op) (a : nat) : Prop :=
  match o with
  | RemoveTask x | RemoveConstraint x | RemoveContact x => a = x
  | RemoveFrameTask x y => a = x \/ a = y
  | Clear => True
  | _ => False
  end.

(** The state of the solver's memory as a book (Ownership_spec.v): who owns what, what is in the solver, what is gone. *)
Definition book_of (s : owner) : book :=
  Book (h_count (w_heap s)) (h_class (w_heap s)) (fun a => negb (h_memory (w_heap s) a))
       (fun a => existsb (Nat.eqb a) (w_tasks s) || existsb (Nat.eqb a) (w_constraints s) || existsb (Nat.eqb a) (w_contacts s))%bool
       (fun a => negb (h_alive (w_heap s) a)) (h_refs (w_heap s)).

(** The user initializes, updates any number of times with any modes, removes, and may start again; meanwhile they use the
    solver for other things, with care (Ownership_spec.legal) and without taking out the tasks of the walk. *)
Definition walk_legal (w : walk_tasks) (c : walk_call) : Prop :=
  match c with
  | WInitialize _ => wt_on w = false
  | WUpdateCom _ | WUpdate _ _ _ _ _ => wt_on w = true
  | WSetMode _ | WSetOffset _ _ | WRemove => True
  | WSolver o => legal Kinematics (book_of (wt_owner w)) o /\ forall a, takes_out o a -> wt_role w a = None
  end.

(** The states reached: the solver may have been used before. *)
Inductive walk_reachable : walk_tasks -> Prop :=
| wr_start l b s : careful Kinematics l b -> run_ops Kinematics fresh_owner l = Ok s -> walk_reachable (new_walk_tasks s)
| wr_call w c w' : walk_reachable w -> walk_legal w c -> walk_step w c = Ok w' -> walk_reachable w'.

(** The tasks of a role that are in the solver. *)
Definition in_solver (w : walk_tasks) (r : role) (a : nat) : Prop := In a (w_tasks (wt_owner w)) /\ wt_role w a = Some r.
