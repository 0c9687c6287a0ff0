(** Specification of replanning. *)
From Coq Require Import Reals List ZArith Bool.
From Verif Require Import Base Geom3 Tools_model Spline_model Footsteps_model Footsteps_spec Wpg_model Wpg_spec WpgPlan_spec WpgFeet_spec.
Import ListNotations.
Open Scope R_scope.

(** A sequence of supports to go on walking: as for a new walk (WpgPlan_spec.walk_ok), but the first one can be single. *)
Definition rewalk_ok (hull : list point -> list point) (p : params) (supports : list support) : Prop :=
  (forall s, In s supports -> feet_ok s /\ polygon_ok hull s /\ time_ok p s) /\
  match supports with [] => False | s :: r => steps_follow s r end /\
  (forall l s r, supports = l ++ s :: r -> u_end s = true -> r = [] /\ forall n, steps p s n -> (3 <= n)%nat).

(** The walk can be read at [t]: the yaw of the trunk, and the pose and the velocity of the foot [sd]. *)
Definition reads_trunk (j : wtraj) (t : R) : Prop := (exists y, get_yaw_world_trunk j t = Ok y) /\ (exists dy, snd (vel (j_trunk j) t) = Ok dy).
Definition reads_foot (j : wtraj) (sd : side) (t : R) : Prop :=
  (exists F, get_T_world_foot j sd t = Ok F) /\ (exists v, get_v_world_foot j sd t = Ok v) /\ (exists y, get_yaw_world_foot j sd t = Ok y) /\
  (exists dy, snd (vel (foot_yaw j sd) t) = Ok dy).

(** The two walks have the same motion at [t]: CoM, trunk, feet, and the support except its progress. *)
Definition same_motion (L : libs) (j k : wtraj) (t : R) : Prop :=
  get_p_world_CoM L j t = get_p_world_CoM L k t /\ get_v_world_CoM L j t = get_v_world_CoM L k t /\ get_a_world_CoM L j t = get_a_world_CoM L k t /\
  get_R_world_trunk j t = get_R_world_trunk k t /\ get_yaw_world_trunk j t = get_yaw_world_trunk k t /\
  (forall sd, get_T_world_foot j sd t = get_T_world_foot k sd t /\ get_v_world_foot j sd t = get_v_world_foot k sd t /\ get_yaw_world_foot j sd t = get_yaw_world_foot k sd t) /\
  exists s s', get_support j t = Ok s /\ get_support k t = Ok s' /\ u_footsteps s = u_footsteps s' /\ u_t_start s = u_t_start s' /\ u_time_ratio s = u_time_ratio s' /\
    u_start s = u_start s' /\ u_end s = u_end s' /\ u_target_world_dcm s = u_target_world_dcm s'.

(** Every part lasts what remains of its support; it started with the walk or with the support, whichever is later. *)
Definition clocked (p : params) (j : wtraj) : Prop :=
  forall q, In q (j_parts j) -> lasts p (pt_support q) (pt_end q - pt_start q) /\ pt_start q = Rmax (j_start j) (u_t_start (pt_support q)).

(** A planner of footsteps that starts from the two feet it is given, makes at least one more step, alternates the feet and only turns
    them about the vertical. *)
Definition walks_on (planner : side -> frame -> frame -> outcome (list footstep)) : Prop :=
  forall sd left right fs, only_turned left -> only_turned right -> planner sd left right = Ok fs ->
    (2 < length fs)%nat /\ alternating sd fs /\ (forall f, In f fs -> only_turned (f_frame f)) /\
    (forall f, nth_error fs 0 = Some f -> f_frame f = match sd with Left => left | Right => right end) /\
    (forall f, nth_error fs 1 = Some f -> f_frame f = match sd with Left => right | Right => left end).
