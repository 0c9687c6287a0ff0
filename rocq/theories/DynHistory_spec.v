(** A history of solves of DynamicsSolver, with the joint limits enabled. *)
From Coq Require Import Reals List Bool.
From Verif Require Import Base Linalg Geom3 Expression_model Robot_model Robot_spec Problem_model KinTasks_model Kin_model DynTasks_model Dyn_model Dyn_spec.
Open Scope R_scope.

Section History.
Variable pn : pin.
Variable log3 : mat3 -> vec3.
Variable jlog : mat3 -> mat3.
Variable qr : mat -> qr_result.
Variable qp : qp_problem -> qp_result.
(** The period, a degree of freedom and its safe acceleration. *)
Variable dt : R.
Variable d : nat.
Variable safe : R.

(** A solver as it may be before a solve: whatever its tasks, contacts, constraints and other limits are. *)
Definition limited (s : dsolver) (r : robot) : Prop :=
  dsound pn log3 jlog s r /\ ds_joint_limits s = true /\ ds_dt s = dt /\ safe_at s d = safe.

(** The robot after some solves, that integrate or not, succeed or not. *)
Inductive driven (r0 : robot) : robot -> Prop :=
| driven_start : driven r0 r0
| driven_solve r s i s' r' o : driven r0 r -> limited s r -> dsolve pn log3 jlog qr qp s r i = (s', r', o) -> driven r0 r'.

(** One solve that integrates and succeeds. *)
Definition moved (r r' : robot) : Prop :=
  exists s s' res, limited s r /\ dsolve pn log3 jlog qr qp s r true = (s', r', Ok res) /\ dr_success res = true.
End History.

(** The robot after some solves, as above, whose periods may differ but are at most [longest]. *)
Inductive driven_upto (pn : pin) (log3 : mat3 -> vec3) (jlog : mat3 -> mat3) (qr : mat -> qr_result) (qp : qp_problem -> qp_result) (longest : R) (d : nat) (safe : R) (r0 : robot) : robot -> Prop :=
| upto_start : driven_upto pn log3 jlog qr qp longest d safe r0 r0
| upto_solve r dt s i s' r' o : driven_upto pn log3 jlog qr qp longest d safe r0 r -> 0 < dt <= longest -> limited pn log3 jlog dt d safe s r ->
    dsolve pn log3 jlog qr qp s r i = (s', r', o) -> driven_upto pn log3 jlog qr qp longest d safe r0 r'.

(** A joint with one degree of freedom, after a floating base: its velocity is the degree of freedom [d] and its position is the next number of q. *)
Definition joint_of_dof (m : rmodel) (d : nat) : Prop :=
  (6 <= d < m_nv m)%nat /\ exists j, In j (m_joints m) /\ jt_nq j = 1%nat /\ jt_nv j = 1%nat /\ jt_idx_v j = d /\ jt_idx_q j = S d.
