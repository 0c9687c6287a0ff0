(** What a user of WalkTasks relies on about priorities: the histories of a walk whose flag scaled is written too, and the configuration
    a task should have. *)
From Coq Require Import Reals List Arith Bool String.
From Verif Require Import Base Geom3 Ownership_model Ownership_spec WalkTasks_model WalkTasks_spec WalkPriority_model.
Import ListNotations.
Open Scope R_scope.

(** A call of WalkTasks_spec.v, or [tasks.scaled = b]. *)
Inductive priority_call : Type := PCall (c : walk_call) | PScaled (b : bool).

Definition priority_step (q : priority_walk) (c : priority_call) : outcome priority_walk :=
  match c with
  | PScaled b => Ok (PriorityWalk (pw_walk q) b (pw_config q))
  | PCall (WInitialize po) => p_initialize_tasks q po
  | PCall (WUpdateCom po) => p_update_com_task q po
  | PCall (WUpdate po l r c t) => p_update_tasks q po l r c t
  | PCall c => w <- walk_step (pw_walk q) c ;; Ok (with_walk q w)
  end.

Definition priority_legal (q : priority_walk) (c : priority_call) : Prop :=
  match c with PScaled _ => True | PCall c => walk_legal (pw_walk q) c end.

(** The states reached; [settled]: when scaled is only written while the walk has no tasks in a solver. *)
Inductive priority_reachable (settled : bool) : priority_walk -> Prop :=
| pr_start l b s : careful Kinematics l b -> run_ops Kinematics fresh_owner l = Ok s -> priority_reachable settled (new_priority_walk s)
| pr_call q c q' : priority_reachable settled q -> priority_legal q c ->
    (settled = true -> match c with PScaled _ => wt_on (pw_walk q) = false | _ => True end) ->
    priority_step q c = Ok q' -> priority_reachable settled q'.

(** The names documented for the tasks: one per role, the two tasks of the trunk having the same. *)
Definition role_name (r : role) : string :=
  match r with
  | LeftPosition => "left_foot_position" | LeftOrientation => "left_foot_orientation"
  | RightPosition => "right_foot_position" | RightOrientation => "right_foot_orientation"
  | TrunkOrientation | TrunkPosition => "trunk" | CoM => "com"
  end.

(** The tasks made once, by initialize_tasks; the two others are exchanged when the mode changes. *)
Definition lasting (r : role) : Prop := r <> CoM /\ r <> TrunkPosition.
