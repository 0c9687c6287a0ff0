(** Specification of the robot model: well-formed robots, and the contracts of the algorithms of pinocchio. *)
From Coq Require Import Reals List ZArith Bool String.
From Verif Require Import Base Geom3 Tools_model Geometry_model Robot_model.
Import ListNotations.
Open Scope R_scope.

(** The [n] numbers from [i] and the [m] numbers from [j] have nothing in common. *)
Definition apart (i n j m : nat) : Prop := (i + n <= j \/ j + m <= i)%nat.

(** The joints have different names, none of which is "universe", and each of them has its own place in q and in v; there is one limit for each
    entry of q and of v. *)
Definition well_formed (m : rmodel) : Prop :=
  NoDup (map jt_name (m_joints m)) /\ ~ In "universe"%string (map jt_name (m_joints m)) /\
  (forall j, In j (m_joints m) -> (jt_idx_q j + jt_nq j <= m_nq m /\ 0 < jt_nq j /\ jt_idx_v j + jt_nv j <= m_nv m /\ 0 < jt_nv j)%nat) /\
  (forall j k, In j (m_joints m) -> In k (m_joints m) -> jt_name j <> jt_name k ->
     apart (jt_idx_q j) (jt_nq j) (jt_idx_q k) (jt_nq k) /\ apart (jt_idx_v j) (jt_nv j) (jt_idx_v k) (jt_nv k)) /\
  vlen (m_lower m) = m_nq m /\ vlen (m_upper m) = m_nq m /\ vlen (m_velocity m) = m_nv m /\ vlen (m_effort m) = m_nv m /\
  vlen (m_rotor m) = m_nv m /\ vlen (m_gear m) = m_nv m.

(** A robot with a well-formed model, of which the state has the sizes of the model. *)
Definition well_formed_robot (r : robot) : Prop :=
  well_formed (r_model r) /\ vlen (st_q (r_state r)) = m_nq (r_model r) /\ vlen (st_qd (r_state r)) = m_nv (r_model r) /\
  vlen (st_qdd (r_state r)) = m_nv (r_model r).

(** The robot has a joint of this name. *)
Definition has_joint (r : robot) (name : string) : Prop := In name (map jt_name (m_joints (r_model r))).

(** A configuration whose first seven numbers are a placement. *)
Definition unit_base (q : vec) : Prop :=
  (7 <= vlen q)%nat /\ vat q 3 * vat q 3 + vat q 4 * vat q 4 + vat q 5 * vat q 5 + vat q 6 * vat q 6 = 1.

(** The same joints, the base being anywhere. *)
Definition same_joints (q q' : vec) : Prop := vlen q = vlen q' /\ forall k, (7 <= k < vlen q)%nat -> vat q k = vat q' k.

(** Contract of the placements: the frames of the robot ([moving]) are placed relatively to the base by the joints, and the base is placed by the
    first seven numbers of q relatively to the root. The other frames do not move. *)
Definition frames_correct (pn : pin) (m : rmodel) (moving : nat -> Prop) : Prop :=
  exists rel : vec -> nat -> frame,
    (forall q f, rigid (rel q f)) /\ (forall q q' f, same_joints q q' -> rel q f = rel q' f) /\
    (forall q f, moving f -> unit_base q -> pn_frame pn q f = frame_mul (frame_mul (m_root m) (q_base q)) (rel q f)).

(** Derivatives of vectors and of frames. [moves T t v w]: at [t] the origin of the frame has the velocity [v], and the frame the
    angular velocity [w], in the world. *)
Definition v3_deriv (f : R -> vec3) (t : R) (d : vec3) : Prop :=
  derivable_pt_lim (fun u => vx (f u)) t (vx d) /\ derivable_pt_lim (fun u => vy (f u)) t (vy d) /\
  derivable_pt_lim (fun u => vz (f u)) t (vz d).
Definition m3_deriv (f : R -> mat3) (t : R) (d : mat3) : Prop :=
  forall e, In e [m00; m01; m02; m10; m11; m12; m20; m21; m22] -> derivable_pt_lim (fun u => e (f u)) t (e d).
Definition moves (T : R -> frame) (t : R) (v w : vec3) : Prop :=
  v3_deriv (fun u => fr_t (T u)) t v /\ m3_deriv (fun u => fr_R (T u)) t (m3_mul (skew w) (fr_R (T t))).

(** The rows [i], [i + 1], [i + 2] of [J] applied to a velocity. *)
Definition row_of (J : mat) (i : nat) (qd : vec) : R := Rsum (mcols J) (fun k => mat_at J i k * vat qd k).
Definition rows3 (J : mat) (i : nat) (qd : vec) : vec3 := V3 (row_of J i qd) (row_of J (S i) qd) (row_of J (S (S i)) qd).

(** Contract of the Jacobians: the Jacobian of a frame has six rows and one column per degree of freedom, and at the time [t], when the
    robot moves along [q] with the velocity [qd], it gives the velocity and the angular velocity of the frame. *)
Definition jacobian_of (pn : pin) (m : rmodel) (q : R -> vec) (t : R) (qd : vec) (f : nat) : Prop :=
  mrows (pn_jac pn (q t) f LocalWorldAligned) = 6%nat /\ mcols (pn_jac pn (q t) f LocalWorldAligned) = m_nv m /\ vlen qd = m_nv m /\
  rigid (pn_frame pn (q t) f) /\
  moves (fun u => pn_frame pn (q u) f) t (rows3 (pn_jac pn (q t) f LocalWorldAligned) 0 qd) (rows3 (pn_jac pn (q t) f LocalWorldAligned) 3 qd).

(** The data was computed for the current state. *)
Definition up_to_date (r : robot) : Prop := r_seen r = (st_q (r_state r), st_qd (r_state r)).

(** [A] has an inverse; [inv] gives it. *)
Definition times_is_identity (A B : mat) : Prop :=
  mrows B = mrows A /\ mcols B = mrows A /\
  forall i j, (i < mrows A)%nat -> (j < mrows A)%nat -> Rsum (mcols A) (fun k => mat_at A i k * mat_at B k j) = if Nat.eqb i j then 1 else 0.
Definition invertible (A : mat) : Prop := mrows A = mcols A /\ exists B, times_is_identity A B.
Definition inverts (inv : mat -> mat) : Prop := forall A, invertible A -> times_is_identity A (inv A).

(** The generalized forces of a wrench [f] applied at a frame of Jacobian [J]. *)
Definition wrench_effort (J : mat) (f : nat -> R) (k : nat) : R := Rsum 6 (fun i => mat_at J i k * f i).

(** The calls that write the state or the limits of one joint. *)
Inductive op : Type :=
| SetJoint (name : string) (x : R) | SetVelocity (name : string) (x : R) | SetAcceleration (name : string) (x : R)
| SetLimits (name : string) (lower upper : R) | SetVelocityLimit (name : string) (x : R) | SetTorqueLimit (name : string) (x : R).

Definition op_name (o : op) : string :=
  match o with
  | SetJoint n _ | SetVelocity n _ | SetAcceleration n _ | SetLimits n _ _ | SetVelocityLimit n _ | SetTorqueLimit n _ => n
  end.

Definition call (r : robot) (o : op) : outcome robot :=
  match o with
  | SetJoint n x => set_joint r n x
  | SetVelocity n x => set_joint_velocity r n x
  | SetAcceleration n x => set_joint_acceleration r n x
  | SetLimits n l u => set_joint_limits r n l u
  | SetVelocityLimit n x => set_velocity_limit r n x
  | SetTorqueLimit n x => set_torque_limit r n x
  end.

(** One call after the other. *)
Fixpoint calls (r : robot) (l : list op) : outcome robot :=
  match l with
  | [] => Ok r
  | o :: l' => r' <- call r o ;; calls r' l'
  end.

(** The last value written by the calls that [sel] selects, or [d] when there is none. *)
Fixpoint last_written {A} (sel : op -> option A) (l : list op) (d : outcome A) : outcome A :=
  match l with
  | [] => d
  | o :: l' => last_written sel l' (match sel o with Some a => Ok a | None => d end)
  end.
Definition to (name n : string) {A} (a : A) : option A := if String.eqb n name then Some a else None.
Definition joint_written (name : string) (o : op) : option R := match o with SetJoint n x => to name n x | _ => None end.
Definition velocity_written (name : string) (o : op) : option R := match o with SetVelocity n x => to name n x | _ => None end.
Definition acceleration_written (name : string) (o : op) : option R := match o with SetAcceleration n x => to name n x | _ => None end.
Definition limits_written (name : string) (o : op) : option (R * R) := match o with SetLimits n l u => to name n (l, u) | _ => None end.
Definition velocity_limit_written (name : string) (o : op) : option R := match o with SetVelocityLimit n x => to name n x | _ => None end.
Definition torque_limit_written (name : string) (o : op) : option R := match o with SetTorqueLimit n x => to name n x | _ => None end.

(** The limits of the velocity and of the torque of a joint. *)
Definition velocity_limit_of (r : robot) (name : string) : outcome R :=
  k <- get_joint_v_offset r name ;; vec_get (m_velocity (r_model r)) k.
Definition torque_limit_of (r : robot) (name : string) : outcome R :=
  k <- get_joint_v_offset r name ;; vec_get (m_effort (r_model r)) k.

(** The Jacobian of a frame has six rows and one column per degree of freedom, the floating base being the first six of them. *)
Definition jacobian_sized (pn : pin) (r : robot) (f : nat) : Prop :=
  mrows (frame_jacobian pn r f LocalWorldAligned) = 6%nat /\ mcols (frame_jacobian pn r f LocalWorldAligned) = m_nv (r_model r) /\
  (6 <= m_nv (r_model r))%nat.

(** The part of the Jacobian for the floating base, transposed: the generalized forces a wrench applies to the base. *)
Definition base_jacobian_t (J : mat) : mat := Mat 6 6 (fun i j => mat_at J j i).

(** The bias forces and the mass matrix have the sizes of the model. *)
Definition dynamics_sized (pn : pin) (r : robot) : Prop :=
  (forall q, vlen (pn_gravity pn q) = m_nv (r_model r)) /\ (forall q qd, vlen (pn_nle pn q qd) = m_nv (r_model r)) /\
  (forall q, mrows (pn_crba pn q) = m_nv (r_model r) /\ mcols (pn_crba pn q) = m_nv (r_model r)).

(** Equation of motion: with the accelerations [qdd], the efforts [tau] (none on the floating base) and the wrench [f] applied at a frame of Jacobian [J]. *)
Definition equation_of_motion (n : nat) (M : mat) (h : vec) (J : mat) (qdd : nat -> R) (tau f : nat -> R) : Prop :=
  forall k, (k < n)%nat -> Rsum n (fun j => mat_at M k j * qdd j) + vat h k =
    (if Nat.ltb k 6 then 0 else tau (k - 6)%nat) + wrench_effort J f k.

(** Contract of integrate for the joints with one degree of freedom: the entry of q of such a joint is increased by its entry of v. *)
Definition integrates (pn : pin) (m : rmodel) : Prop :=
  forall q v, vlen q = m_nq m -> vlen v = m_nv m ->
    vlen (pn_integrate pn q v) = m_nq m /\
    forall j, In j (m_joints m) -> jt_nq j = 1%nat -> jt_nv j = 1%nat ->
      vat (pn_integrate pn q v) (jt_idx_q j) = vat q (jt_idx_q j) + vat v (jt_idx_v j).

(** The quadratic form of a matrix. *)
Definition quadratic (n : nat) (M : nat -> nat -> R) (x : nat -> R) : R := Rsum n (fun i => Rsum n (fun j => x i * M i j * x j)).
