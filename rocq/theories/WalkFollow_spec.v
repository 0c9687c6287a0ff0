(** What the tasks of the walk are asked to do when they follow a planned walk (C180). *)
From Coq Require Import Reals List Arith Bool.
From Verif Require Import Base Geom3 Swing_spec Footsteps_model Wpg_model WpgFeet_spec Ownership_model WalkTasks_model WalkTasks_spec WalkFollow_model.
Import ListNotations.
Open Scope R_scope.

(** The tasks in the solver ask for these poses; [x] and [y] shift the CoM (or the trunk) in the frame of the trunk. *)
Definition asked (w : walk_tasks) (body : frame) (x y : R) (left right : frame) (com : vec3) (trunk : mat3) : Prop :=
  (forall a, in_solver w (if wt_mode w then TrunkPosition else CoM) a -> wt_target w a = v3_add com (m3_vec (fr_R body) (V3 x y 0))) /\
  (forall a, in_solver w LeftPosition a -> wt_target w a = fr_t left) /\ (forall a, in_solver w LeftOrientation a -> wt_rot w a = fr_R left) /\
  (forall a, in_solver w RightPosition a -> wt_target w a = fr_t right) /\ (forall a, in_solver w RightOrientation a -> wt_rot w a = fr_R right) /\
  (forall a, in_solver w TrunkOrientation a -> wt_rot w a = trunk) /\
  forall r, r <> (if wt_mode w then CoM else TrunkPosition) -> exists a, in_solver w r a.

(** The settings of the user: trunk_mode, com_x and com_y. *)
Definition same_settings (w w' : walk_tasks) : Prop := wt_mode w' = wt_mode w /\ wt_com_x w' = wt_com_x w /\ wt_com_y w' = wt_com_y w.

(** A motion of the walk. *)
Record walk_motion_of : Type := Motion { mo_foot : side -> R -> frame; mo_com : R -> vec3; mo_heading : R -> R }.

(** It is continuous; the feet that are on the ground are at their footsteps. *)
Definition sound_motion (supports : list support) (parts : list part) (m : walk_motion_of) : Prop :=
  (forall sd, continuous3 (fun t => fr_t (mo_foot m sd t)) /\ exists Y, continuity Y /\ forall t, fr_R (mo_foot m sd t) = rot_z (Y t)) /\
  continuous3 (mo_com m) /\ continuity (mo_heading m) /\
  forall i s q sd F t, nth_error supports i = Some s -> nth_error parts i = Some q -> stands_at s sd F -> pt_start q <= t <= pt_end q -> mo_foot m sd t = F.

(** What the getters of a walk say. *)
Definition reads (L : libs) (j : wtraj) (pitch : R) (m : walk_motion_of) : Prop :=
  forall t, (forall sd, get_T_world_foot j sd t = Ok (mo_foot m sd t)) /\ get_p_world_CoM L j t = Ok (mo_com m t) /\
    get_R_world_trunk j t = Ok (m3_mul (rot_z (mo_heading m t)) (rot_y pitch)) /\ get_yaw_world_trunk j t = Ok (mo_heading m t).

(** A walk that was planned, or replanned with success, on these supports from [t0]. *)
Definition walked (L : libs) (g : wpg) (supports : list support) (t0 : R) (j : wtraj) : Prop :=
  exists ss, (exists c, plan L g supports c t0 = Ok (j, ss)) \/ (exists old, replan L g supports old t0 = Ok (j, ss) /\ j_success j = true).

(** The loop of a user: an update at each pose and time of a list. *)
Fixpoint follow_all (L : libs) (w : walk_tasks) (delay : R) (j : wtraj) (l : list (walk_pose * R)) : outcome walk_tasks :=
  match l with [] => Ok w | (po, t) :: r => w' <- follow L w delay po j t ;; follow_all L w' delay j r end.

(** The law of a discrete PID controller with a leaking integral: [e] is the error, [last] the previous one, [sum] the integral so far. *)
Definition pid_law (g : pid) (e last sum elapsed : R) : R :=
  pd_p g * e + pd_i g * ((1 - pd_lambda g) * sum + elapsed * e) + pd_d g * ((e - last) / elapsed).
