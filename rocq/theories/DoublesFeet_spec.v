(** What is expected of the planning of the feet with doubles. *)
From Coq Require Import Reals List.
From Verif Require Import Base Geom3 Spline_model Swing_model Footsteps_model Wpg_model Wpg_spec WpgPlan_spec Doubles_model Doubles_spec DoublesSwing_model DoublesSwing_spec.
Import ListNotations.
Open Scope R_scope.

(** The supports of a new walk: the first and the last one are double, and each flying foot takes off from the previous support and lands in
    the next one (see WpgPlan_spec.v). *)
Definition walk_of_feet (supports : list support) : Prop :=
  (forall s, In s supports -> feet_ok s) /\
  match supports with [] => False | s :: r => length (u_footsteps s) = 2%nat /\ steps_follow s r end.

(** A part takes time. *)
Definition takes_time (q : part) : Prop := pt_start q < pt_end q.

(** The foot leaves at the time [a] and is at rest at [target] at the time [b], when its trajectory ends. *)
Definition goes (w : cswing) (a b : R) (target : vec3) : Prop :=
  let along (s : cubic_spline) (x : R) :=
    exists x0 v0 between, cs_points s = SPoint a x0 v0 :: between ++ [SPoint b x 0] in
  along (cw_x w) (vx target) /\ along (cw_y w) (vy target) /\ along (cw_z w) (vz target).

(** The trajectory whose feet are to be planned: its parts have the times computed by plan_com for these supports, and the yaws of the feet and of the
    trunk are not planned yet. *)
Definition to_plan (j : wtraj) (p : params) (supports : list support) (t : R) : Prop :=
  let times (q : part) := (pt_start q, pt_end q, pt_support q) in
  j_start j = t /\ map times (j_parts j) = map times (fst (d_parts p supports t)) /\
  j_left j = new_spline true /\ j_right j = new_spline true /\ j_trunk j = new_spline true.
