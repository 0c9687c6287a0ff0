(** Specification of the motion of the trunk in a walk (C179). *)
From Coq Require Import Reals List ZArith Bool.
From Verif Require Import Base Angle Geom3 Spline_model Footsteps_model Wpg_model WpgPlan_spec WpgFeet_spec.
Import ListNotations.
Open Scope R_scope.

(** Seen from above, the first axis of [F] points to the heading [y]. *)
Definition faces (F : frame) (y : R) : Prop := exists k, 0 <= k /\ m00 (fr_R F) = k * cos y /\ m10 (fr_R F) = k * sin y.

(** Both feet are on the ground. *)
Definition both_feet (s : support) : Prop := stands_on s Left /\ stands_on s Right.

(** The headings where the trunk stops. At the end of a support on both feet it is that of the frame of the support. A gait without double supports
    stops it at the end of the supports on one foot too: it is then the heading of the foot that lands. *)
Definition stop_heading (double : bool) (s : support) (next : option support) (F : frame) : Prop :=
  (both_feet s /\ support_frame s = Ok F) \/
  (double = false /\ exists sd s', ~ stands_on s sd /\ next = Some s' /\ stands_at s' sd F).

(** [t] is a time when the trunk stops: the start of the walk, or the end of such a support. *)
Definition trunk_stop (double : bool) (supports : list support) (parts : list part) (t0 t : R) : Prop :=
  t = t0 \/ exists i s q, nth_error supports i = Some s /\ nth_error parts i = Some q /\ t = pt_end q /\ (both_feet s \/ double = false).

(** The motion of the trunk along a walk that starts at [t0]: its heading [Y] and the rate [W] of its heading. The trunk leans by [pitch] and does not roll. Its
    heading does not change before and after the walk, and between two stops that follow each other it turns by half a turn at most. *)
Definition trunk_moves (double : bool) (supports : list support) (j : wtraj) (t0 pitch : R) (Y W : R -> R) : Prop :=
  (forall t, get_R_world_trunk j t = Ok (m3_mul (rot_z (Y t)) (rot_y pitch)) /\ get_yaw_world_trunk j t = Ok (Y t) /\ snd (Spline_model.vel (j_trunk j) t) = Ok (W t)) /\
  continuity Y /\ continuity W /\ (forall t, t <= t0 -> Y t = Y t0) /\ (forall t, j_end j <= t -> Y t = Y (j_end j)) /\
  (forall t, t0 < t < j_end j -> derivable_pt_lim Y t (W t)) /\
  (forall i s q F, nth_error supports i = Some s -> nth_error (j_parts j) i = Some q -> stop_heading double s (nth_error supports (S i)) F ->
     faces F (Y (pt_end q)) /\ W (pt_end q) = 0) /\
  (forall a b, trunk_stop double supports (j_parts j) t0 a -> trunk_stop double supports (j_parts j) t0 b -> a < b ->
     (forall c, trunk_stop double supports (j_parts j) t0 c -> ~ a < c < b) -> turn a b (W a) Y W).
