(** Specification of reach_initial_pose: limits, and what the robot reports. *)
From Coq Require Import Reals List ZArith Bool String.
From Verif Require Import Base Geom3 Tools_model Geometry_model Problem_model Problem_spec Robot_model Robot_spec KinTasks_model Kin_model Kin_spec.
Open Scope R_scope.

(** Every joint, the base excepted, is within its limits. *)
Definition in_limits (r : robot) : Prop :=
  forall name q lower upper, name <> "root_joint"%string -> get_joint r name = Ok q -> get_joint_limits r name = Ok (lower, upper) -> lower <= q <= upper.

(** Contract of pinocchio for a model with a floating base: every number of a configuration after the seven of the base is that of a joint. *)
Definition covered (m : rmodel) : Prop :=
  forall k, (7 <= k < m_nq m)%nat -> exists j, In j (m_joints m) /\ jt_name j <> "root_joint"%string /\ jt_idx_q j = k.

(** A configuration within the limits of the model: what randomConfiguration gives. *)
Definition random_in (m : rmodel) (q : vec) : Prop := forall k, (k < m_nq m)%nat -> vat (m_lower m) k <= vat q k <= vat (m_upper m) k.

(** The back-ends answer, and answer well. *)
Definition good_backends (qr : mat -> qr_result) (qp : qp_problem -> qp_result) : Prop :=
  qr_correct qr /\ qp_correct qp /\ ~ qr_fails qr /\ ~ qp_fails qp.

(** The robot reports what it is: the positions of its frames are those of its configuration. *)
Definition up_to_date (pn : pin) (r : robot) : Prop :=
  forall f T, get_T_world_frame pn r f = Ok T -> T = pn_frame pn (st_q (r_state r)) f.

(** Only wishes: every task is soft, there is no constraint and no degree of freedom is masked. *)
Definition only_wishes (s : ksolver) : Prop :=
  (forall t, In t (ks_tasks s) -> kt_priority t = PSoft) /\ ks_cons s = nil /\ ks_masked s = nil /\ ks_masked_fbase s = false.

(** The velocity limits, when they are on, allow not to move. *)
Definition can_stay (s : ksolver) (m : rmodel) : Prop :=
  ks_velocity_limits s = true -> 0 <= ks_dt s /\ forall k, (k < vlen (m_velocity m))%nat -> 0 <= vat (m_velocity m) k.
