(** A joint held at a target by a hard task with any damping, over solves of DynamicsSolver that integrate. *)
From Coq Require Import Reals List Bool String.
From Verif Require Import Base Linalg Geom3 Tools_model Expression_model Robot_model Robot_spec Problem_model KinTasks_model Kin_model DynTasks_model Dyn_model Dyn_spec Tasks_spec.
Open Scope R_scope.

(** As [held] (DynTrack_spec.v), with a coefficient [c] of damping, which is the kd of the task if it is not negative, else 2 sqrt(kp) ([damping], Tasks_spec.v). *)
Inductive held_damped (pn : pin) (log3 : mat3 -> vec3) (jlog : mat3 -> mat3) (qr : mat -> qr_result) (qp : qp_problem -> qp_result) (dt kp c : R) (name : string) (target : R) (r0 : robot) : nat -> robot -> Prop :=
| damped_start : held_damped pn log3 jlog qr qp dt kp c name target r0 0 r0
| damped_solve n r s t l s' r' res : held_damped pn log3 jlog qr qp dt kp c name target r0 n r -> dsound pn log3 jlog s r -> ds_dt s = dt ->
    In t (ds_tasks s) -> dt_priority t = PHard -> dt_kind t = DJoints l -> In (name, (target, 0, 0)) l -> dt_kp t = kp -> damping kp (dt_kd t) c ->
    dsolve pn log3 jlog qr qp s r true = (s', r', Ok res) -> dr_success res = true -> held_damped pn log3 jlog qr qp dt kp c name target r0 (S n) r'.
