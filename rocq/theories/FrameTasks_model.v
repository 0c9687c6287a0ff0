(** Model of FrameTask and RelativeFrameTask (src/placo/kinematics and src/placo/dynamics: frame_task.cpp, relative_frame_task.cpp), and of the
    calls of the solvers that make and remove them. The four classes have the same code: the frames of a task are one (FrameTask) or two
    (RelativeFrameTask).

    Simplifications. Addresses of tasks are numbers, given in order, never reused; the tasks of the solver are the ones that are not deleted.
    Masks are the default ones. *)
From Coq Require Import Reals List Arith Bool String.
From Verif Require Import Base Geom3 Geometry_model Tools_model.
Import ListNotations.
Open Scope R_scope.

(** position_task.h, orientation_task.h, relative_position_task.h, relative_orientation_task.h: the frames, and target_world or target,
    R_world_frame or R_a_b. *)
Inductive rigid : Type :=
| Position (frames : list nat) (target : vec3)
| Orientation (frames : list nat) (target : mat3).
Record ftask : Type := FTask { fk_prio : prioritized; fk_kind : rigid }.

(** frame_task.h and relative_frame_task.h: two pointers. [None] is nullptr. *)
Record frame_task : Type := FrameTask { ft_position : option nat; ft_orientation : option nat }.

(** frame_task.cpp:5-7: FrameTask(). *)
Definition null_frame_task : frame_task := FrameTask None None.

(** The tasks of the solver by address; [None] is a deleted task. *)
Definition memory : Type := list (option ftask).

(** Reading and writing through a pointer. *)
Definition task_at (m : memory) (p : option nat) : outcome ftask :=
  match p with
  | None => UB
  | Some a => match nth_error m a with Some (Some t) => Ok t | _ => UB end
  end.
Fixpoint put {A} (l : list A) (k : nat) (v : A) : list A :=
  match l, k with
  | [], _ => []
  | _ :: l', O => v :: l'
  | x :: l', S k' => x :: put l' k' v
  end.
Definition write_task (m : memory) (p : option nat) (t : ftask) : outcome memory :=
  match p with
  | None => UB
  | Some a => match nth_error m a with Some (Some _) => Ok (put m a (Some t)) | _ => UB end
  end.

(** add_position_task, add_orientation_task and their relative versions: new Task, with the default priority (task.h, prioritized.cpp:25-29). *)
Definition add_rigid (m : memory) (k : rigid) : memory * nat := (m ++ [Some (FTask new_prioritized k)], List.length m).

(** Prioritized::configure(std::string, std::string, double) through a pointer: the memory after the call, and what the call did. *)
Definition configure_at (m : memory) (p : option nat) (name priority : string) (weight : R) : memory * outcome unit :=
  match task_at m p with
  | Ok t =>
      let (pr, o) := configure_by_name (fk_prio t) name priority weight in
      match write_task m p (FTask pr (fk_kind t)) with Ok m' => (m', o) | _ => (m, UB) end
  | _ => (m, UB)
  end.

Section WithSVD.
(** Transform::rotation() of Eigen: the rotation nearest to the linear part, by singular values. *)
Variable rotation_of : mat3 -> mat3.

(** kinematics_solver.cpp:75-81 and 88-96, dynamics_solver.cpp:113-121 and 161-167. *)
Definition add_frame_task (m : memory) (frames : list nat) (T : frame) : memory * frame_task :=
  let (m, p) := add_rigid m (Position frames (fr_t T)) in
  let (m, o) := add_rigid m (Orientation frames (rotation_of (fr_R T))) in
  (m, FrameTask (Some p) (Some o)).

End WithSVD.

(** frame_task.cpp:14-18 and relative_frame_task.cpp:11-16: the second task is not configured when the first one throws. *)
Definition configure_frame (m : memory) (t : frame_task) (name priority : string) (position_weight orientation_weight : R) : memory * outcome unit :=
  match configure_at m (ft_position t) (name ++ "_position") priority position_weight with
  | (m, Ok _) => configure_at m (ft_orientation t) (name ++ "_orientation") priority orientation_weight
  | x => x
  end.

(** position->target_world and orientation->R_world_frame. *)
Definition position_target (m : memory) (p : option nat) : outcome vec3 :=
  t <- task_at m p ;; match fk_kind t with Position _ x => Ok x | _ => UB end.
Definition orientation_target (m : memory) (p : option nat) : outcome mat3 :=
  t <- task_at m p ;; match fk_kind t with Orientation _ x => Ok x | _ => UB end.
Definition set_position (m : memory) (p : option nat) (x : vec3) : outcome memory :=
  t <- task_at m p ;; match fk_kind t with Position f _ => write_task m p (FTask (fk_prio t) (Position f x)) | _ => UB end.
Definition set_orientation (m : memory) (p : option nat) (x : mat3) : outcome memory :=
  t <- task_at m p ;; match fk_kind t with Orientation f _ => write_task m p (FTask (fk_prio t) (Orientation f x)) | _ => UB end.

(** frame_task.cpp:20-26 and relative_frame_task.cpp:18-25. *)
Definition get_T (m : memory) (t : frame_task) : outcome frame :=
  x <- position_target m (ft_position t) ;; r <- orientation_target m (ft_orientation t) ;; Ok (Frame r x).

(** frame_task.cpp:28-32 and relative_frame_task.cpp:27-31. *)
Definition set_T (m : memory) (t : frame_task) (T : frame) : outcome memory :=
  m <- set_position m (ft_position t) (fr_t T) ;; set_orientation m (ft_orientation t) (fr_R T).

(** kinematics_solver.cpp:461-474, dynamics_solver.cpp:565-576 (tasks made by the solver). *)
Definition delete_task (m : memory) (p : option nat) : outcome memory :=
  match p with
  | None => UB
  | Some a => match nth_error m a with Some (Some _) => Ok (put m a None) | _ => UB end
  end.
Definition remove_frame_task (m : memory) (t : frame_task) : outcome memory :=
  m <- delete_task m (ft_position t) ;; delete_task m (ft_orientation t).

(** A program: it makes frame tasks, which it designates by their numbers, in order. *)
Inductive fcall : Type :=
| CAdd (frames : list nat) (T : frame)
| CSet (h : nat) (T : frame)
| CConfigure (h : nat) (name priority : string) (position_weight orientation_weight : R)
| CRemove (h : nat)
(** add_position_task or add_orientation_task *)
| COther (k : rigid).

Definition fprogram : Type := (memory * list frame_task)%type.
Definition new_program : fprogram := ([], []).
Definition the_task (s : fprogram) (h : nat) : frame_task := nth h (snd s) null_frame_task.

(** One call: what it leaves, and what it did. *)
Definition fstep (rotation_of : mat3 -> mat3) (s : fprogram) (c : fcall) : fprogram * outcome unit :=
  let (m, ts) := s in
  match c with
  | CAdd f T => let (m, t) := add_frame_task rotation_of m f T in ((m, ts ++ [t]), Ok tt)
  | CSet h T => match set_T m (the_task s h) T with Ok m => ((m, ts), Ok tt) | Throw e => (s, Throw e) | UB => (s, UB) end
  | CConfigure h name p wp wo => let (m, o) := configure_frame m (the_task s h) name p wp wo in ((m, ts), o)
  | CRemove h => match remove_frame_task m (the_task s h) with Ok m => ((m, ts), Ok tt) | Throw e => (s, Throw e) | UB => (s, UB) end
  | COther k => ((fst (add_rigid m k), ts), Ok tt)
  end.

(** A history of calls; the program goes on after an exception. *)
Fixpoint frun (rotation_of : mat3 -> mat3) (s : fprogram) (l : list fcall) : outcome fprogram :=
  match l with
  | [] => Ok s
  | c :: r => match fstep rotation_of s c with (_, UB) => UB | (s, _) => frun rotation_of s r end
  end.
