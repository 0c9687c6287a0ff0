(** What is expected of replanning, with doubles. *)
From Coq Require Import Reals ZArith List Bool.
From Verif Require Import Base Footsteps_model Wpg_model Doubles_model Doubles_spec DoublesReplan_model.
Import ListNotations.
Open Scope R_scope.

(** Each time is one of the part of the support, as it was planned by then: not before its start, and before its end. *)
Fixpoint in_turn (p : params) (s : support) (t_start : R) (times : list R) : Prop :=
  match times with
  | [] => True
  | t :: rest => is_double t /\ t_start <= t < d_part_end p s t_start /\ in_turn p (d_replanned p s t t_start) t rest
  end.

(** A support planned at [t], of which nothing is elapsed. *)
Definition planned_at (p : params) (s : support) (t : R) : Prop :=
  walk_timings p s /\ u_elapsed_ratio s = 0 /\ u_t_start s = t /\ is_double t.

(** The times are the same as, or at least 2^-100 after, the previous ones. *)
Fixpoint spaced_times (t : R) (times : list R) : Prop :=
  match times with [] => True | u :: rest => (u - t = 0 \/ / 2 ^ 100 <= u - t) /\ spaced_times u rest end.
