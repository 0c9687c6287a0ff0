(** Specification of what the tasks of the kinematics solver ask of the robot. The robot moves along [q] from its configuration, with the velocity
    [x]: the displacement that the solver returns, in a unit of time. *)
From Coq Require Import Reals List ZArith Bool String.
From Verif Require Import Base Geom3 Tools_model Geometry_model Robot_model Robot_spec KinTasks_model Kin_model Tasks_spec.
Import ListNotations.
Open Scope R_scope.

(** [q] starts from the configuration of the robot. *)
Definition starts (r : robot) (q : R -> vec) : Prop := up_to_date r /\ q 0 = st_q (r_state r).

(** The Jacobian of the center of mass gives its velocity; the last rows of the Jacobian of a frame in the world, its angular velocity. *)
Definition com_moves (pn : pin) (m : rmodel) (q : R -> vec) (x : vec) : Prop :=
  mrows (pn_comjac pn (q 0)) = 3%nat /\ mcols (pn_comjac pn (q 0)) = m_nv m /\ vlen x = m_nv m /\
  v3_deriv (fun u => pn_com pn (q u)) 0 (rows3 (pn_comjac pn (q 0)) 0 x).
Definition turns (pn : pin) (m : rmodel) (q : R -> vec) (x : vec) (f : nat) : Prop :=
  let J := pn_jac pn (q 0) f World in
  mrows J = 6%nat /\ mcols J = m_nv m /\ vlen x = m_nv m /\ rigid (pn_frame pn (q 0) f) /\
  m3_deriv (fun u => fr_R (pn_frame pn (q u) f)) 0 (m3_mul (skew (rows3 J 3 x)) (fr_R (pn_frame pn (q 0) f))).

(** ** Errors *)

(** The position of the origin of [b] in the frame [a]. *)
Definition position_in (A B : frame) : vec3 := m3_vec (m3_t (fr_R A)) (v3_sub (fr_t B) (fr_t A)).

(** The number of errors of a task, and each error as a function of the configuration; [q0] is the configuration when the solver is called, which
    fixes the local axes. [None]: the task is not of this sort. *)
Definition task_errors (pn : pin) (q0 : vec) (k : task_kind) : option (nat * (nat -> vec -> R)) :=
  match k with
  | KPosition f target m => Some (List.length (m_indices m), fun k q =>
      v3_dot (mask_axis m (frame_axis (fr_R (pn_frame pn q0 f))) k) (v3_sub target (fr_t (pn_frame pn q f))))
  | KCom target m => Some (List.length (m_indices m), fun k q => v3_dot (mask_axis m (row3 (m_R_local m)) k) (v3_sub target (pn_com pn q)))
  | KRelativePosition a b target m => Some (List.length (m_indices m), fun k q =>
      v3_dot (mask_axis m (row3 (m_R_local m)) k) (v3_sub target (position_in (pn_frame pn q a) (pn_frame pn q b))))
  | KDistance a b d => Some (1%nat, fun _ q => d - v3_norm (v3_sub (fr_t (pn_frame pn q b)) (fr_t (pn_frame pn q a))))
  | _ => None
  end.

(** What pinocchio computes for the frames of the task is right; a distance is not 0, where it has no derivative. *)
Definition task_motion (pn : pin) (m : rmodel) (q : R -> vec) (x : vec) (k : task_kind) : Prop :=
  match k with
  | KPosition f _ _ => jacobian_of pn m q 0 x f
  | KCom _ _ => com_moves pn m q x
  | KRelativePosition a b _ _ => jacobian_of pn m q 0 x a /\ jacobian_of pn m q 0 x b
  | KDistance a b _ => jacobian_of pn m q 0 x a /\ jacobian_of pn m q 0 x b /\ fr_t (pn_frame pn (q 0) a) <> fr_t (pn_frame pn (q 0) b)
  | _ => True
  end.

(** The error decreases by the part [s] of it, per unit of time. *)
Definition reduced (s : R) (e : R -> R) : Prop := derivable_pt_lim e 0 (- (s * e 0)).

(** The task is hard: it is followed entirely; or it is scaled: it is followed for the part that the solver gives in scale. *)
Definition imposed (s : ksolver) (t : ktask) (part : R) : Prop :=
  (kt_priority t = PHard /\ part = 1) \/ (kt_priority t = PScaled /\ part = ks_scale s).

(** ** Orientations *)

(** [w] is the angular velocity of the frame [f]. *)
Definition spins (pn : pin) (q : R -> vec) (f : nat) (w : vec3) : Prop :=
  m3_deriv (fun u => fr_R (pn_frame pn (q u) f)) 0 (m3_mul (skew w) (fr_R (pn_frame pn (q 0) f))).

(** Contract of pinocchio::log3 : exp3 gives back the rotation. *)
Definition log3_inverts (log3 : mat3 -> vec3) : Prop := forall a, rotation a -> exp3 (log3 a) = a.

(** The angle between two vectors that are not 0, and the contract of the rotation of a frame along the motion. *)
Definition angle_between (u v : vec3) : R := acos (v3_dot u v / (v3_norm u * v3_norm v)).
Definition always_rigid (pn : pin) (q : R -> vec) (f : nat) : Prop := forall u, rigid (pn_frame pn (q u) f).
