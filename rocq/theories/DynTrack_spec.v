(** A joint held at a target by a hard task, over solves of DynamicsSolver that integrate. *)
From Coq Require Import Reals List Bool String.
From Verif Require Import Base Linalg Geom3 Tools_model Expression_model Robot_model Robot_spec Problem_model KinTasks_model Kin_model DynTasks_model Dyn_model Dyn_spec.
Open Scope R_scope.

(** A joint with one degree of freedom: its name, its place in q and its place in qd. *)
Definition named_joint (r : robot) (name : string) (iq iv : nat) : Prop :=
  get_joint_offset r name = Ok iq /\ get_joint_v_offset r name = Ok iv /\
  exists j, In j (m_joints (r_model r)) /\ jt_nq j = 1%nat /\ jt_nv j = 1%nat /\ jt_idx_q j = iq /\ jt_idx_v j = iv.

Section Held.
Variable pn : pin.
Variable log3 : mat3 -> vec3.
Variable jlog : mat3 -> mat3.
Variable qr : mat -> qr_result.
Variable qp : qp_problem -> qp_result.
(** The period, the gain of the task, the joint and its target, at rest. *)
Variable dt kp : R.
Variable name : string.
Variable target : R.

(** The robot after [n] solves that succeed and integrate, with a hard joints task that has the target, the gain [kp] and the default (critical) damping, whatever
    else is in the solver. *)
Inductive held (r0 : robot) : nat -> robot -> Prop :=
| held_start : held r0 0 r0
| held_solve n r s t l s' r' res : held r0 n r -> dsound pn log3 jlog s r -> ds_dt s = dt ->
    In t (ds_tasks s) -> dt_priority t = PHard -> dt_kind t = DJoints l -> In (name, (target, 0, 0)) l -> dt_kp t = kp -> dt_kd t < 0 ->
    dsolve pn log3 jlog qr qp s r true = (s', r', Ok res) -> dr_success res = true -> held r0 (S n) r'.
End Held.
