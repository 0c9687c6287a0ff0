(** The elapsed ratio of a replanned support in double arithmetic (see Doubles_model.v). *)
From Coq Require Import Reals ZArith List Bool.
From Verif Require Import Base Footsteps_model Wpg_model Doubles_model.
Import ListNotations.
Open Scope R_scope.

(** walk_pattern_generator.cpp:636-640 (replan_supports) and 832-835 (trim_old_trajectory, with the old t_start as the last replan). *)
Definition d_elapsed_ratio (p : params) (s : support) (t_replan t_last_replan : R) : R :=
  d_add (u_elapsed_ratio s)
        (d_div (d_sub t_replan (Rmax t_last_replan (u_t_start s))) (d_mul (d_default_duration p s) (u_time_ratio s))).

(** walk_pattern_generator.cpp:636-641: supports[0], which keeps the t_start of the current support (line 624 or 631). Its footsteps are the same:
    the planner starts from those of the current support. *)
Definition d_replanned (p : params) (s : support) (t_replan t_last_replan : R) : support :=
  Support (u_footsteps s) (u_t_start s) (d_elapsed_ratio p s t_replan t_last_replan) (u_time_ratio s) (u_target_world_dcm s) (u_start s) (u_end s) (u_polygon s) (u_computed s).

(** The same support replanned at each of these times: each replan is given the time of the previous one. *)
Fixpoint d_replans (p : params) (s : support) (t_last_replan : R) (times : list R) : support :=
  match times with
  | [] => s
  | t :: rest => d_replans p (d_replanned p s t t_last_replan) t rest
  end.

(** walk_pattern_generator.cpp:469, 477-480: the end of a part that starts at [t]. *)
Definition d_part_end (p : params) (s : support) (t : R) : R := d_add t (d_remaining_duration p s).
