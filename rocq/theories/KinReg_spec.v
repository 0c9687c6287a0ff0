(** Specification of the regularization, kinetic energy, centroidal momentum and wheel tasks of the kinematics solver. *)
From Coq Require Import Reals List ZArith Bool String.
From Verif Require Import Base Linalg Geom3 Tools_model Geometry_model Robot_model Robot_spec KinTasks_model Kin_model Kin_spec Tasks_spec KinTasks_spec KinCons_spec.
Import ListNotations.
Open Scope R_scope.

(** ** Regularization *)

(** What a user can do with a regularization task: set_weight, set_joint_weight, and use it in a solve. *)
Inductive reg_call : Type := RWeight (w : R) | RJoint (name : string) (w : R) | RUpdate.
Definition reg_step (N : nat) (r : robot) (t : regularization) (c : reg_call) : outcome regularization :=
  match c with
  | RWeight w => Ok (set_reg_weight t w)
  | RJoint name w => Ok (set_reg_joint_weight t name w)
  | RUpdate => x <- regularization_update N r t ;; Ok (fst x)
  end.
(** After the calls [l], the last one first. *)
Fixpoint reg_after (N : nat) (r : robot) (l : list reg_call) : outcome regularization :=
  match l with
  | [] => Ok new_regularization
  | c :: l => t <- reg_after N r l ;; reg_step N r t c
  end.

(** The last weight given to all the joints (1 if there is none), and to a joint. *)
Fixpoint default_weight (l : list reg_call) : R := match l with [] => 1 | RWeight w :: _ => w | _ :: l => default_weight l end.
Fixpoint joint_weight (l : list reg_call) (name : string) : option R :=
  match l with
  | [] => None
  | RJoint name' w :: l => if String.eqb name name' then Some w else joint_weight l name
  | _ :: l => joint_weight l name
  end.
(** [w] is the weight of the degree of freedom [j]: the weight of its joint, or else the weight of all the joints. *)
Definition dof_weight (r : robot) (l : list reg_call) (j : nat) (w : R) : Prop :=
  (exists name, dof_of r name j /\ joint_weight l name = Some w) \/
  ((forall name, dof_of r name j -> joint_weight l name = None) /\ w = default_weight l).
Definition no_negative (l : list reg_call) : Prop := forall c, In c l -> match c with RWeight w | RJoint _ w => 0 <= w | RUpdate => True end.

(** ** Kinetic energy *)

(** Contract of MatrixBase::sqrt() for this matrix: the symmetric square root. *)
Definition square_root (M S : mat) : Prop :=
  let n := mrows M in mcols M = n /\ mrows S = n /\ mcols S = n /\ (forall i j, (i < n)%nat -> (j < n)%nat -> mat_at S i j = mat_at S j i) /\
  forall i j, (i < n)%nat -> (j < n)%nat -> Rsum n (fun k => mat_at S i k * mat_at S k j) = mat_at M i j.
Definition kinetic_energy (M : mat) (v : nat -> R) : R := 1 / 2 * quadratic (mrows M) (mat_at M) v.

(** ** Wheels *)

(** The axis of the wheel, in the world; the vertical of the surface; the height of a point above the surface. *)
Definition z_axis (T : frame) : vec3 := V3 (m02 (fr_R T)) (m12 (fr_R T)) (m22 (fr_R T)).
Definition height (S : frame) (p : vec3) : R := v3_dot (z_axis S) (v3_sub p (fr_t S)).
(** [p] is on the circle of the wheel. *)
Definition on_wheel (T : frame) (radius : R) (p : vec3) : Prop := v3_dot (v3_sub p (fr_t T)) (z_axis T) = 0 /\ v3_norm (v3_sub p (fr_t T)) = radius.
(** [p] is the point of the circle that is the closest to the surface. *)
Definition wheel_contact_point (S T : frame) (radius : R) (p : vec3) : Prop :=
  on_wheel T radius p /\ forall p', on_wheel T radius p' -> height S p <= height S p'.

(** Contract of the Jacobian of a joint in its frame: it gives the velocities of the frame in its own axes. *)
Definition wheel_moves (pn : pin) (r : robot) (q : R -> vec) (x : vec) (joint : string) (T : R -> frame) : Prop :=
  exists f j, get_frame_index r joint = Ok f /\ joint_index r joint = Ok j /\ (forall u, T u = pn_frame pn (q u) f) /\ (forall u, rigid (T u)) /\
  let J := pn_joint_jac pn (q 0) j Local in
  mrows J = 6%nat /\ mcols J = m_nv (r_model r) /\ vlen x = m_nv (r_model r) /\
  let a := fr_R (T 0) in moves T 0 (m3_vec a (rows3 J 0 x)) (m3_vec a (rows3 J 3 x)).
