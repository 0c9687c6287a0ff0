(** What is expected of the knots of a swing trajectory with doubles. *)
From Coq Require Import Reals List.
From Verif Require Import Base Geom3 Spline_model Swing_model Doubles_model Doubles_spec.
Import ListNotations.
Open Scope R_scope.

(** When the foot is at its height: from the start to the end of the plateau, in the middle of the step; or at the middle if there is no plateau. *)
Definition plateau (t_start duration rise elapsed : R) (a : R) : Prop :=
  let middle := t_start - elapsed * duration + duration / 2 in
  (0 < rise /\ (a = middle - duration * rise / 2 \/ a = middle + duration * rise / 2)) \/ (rise <= 0 /\ a = middle).

(** The sizes for which a trajectory is asked: the step is not negligible beside the time, and neither are what remains of it, its plateau and what follows. *)
Definition sound_swing (t_start duration rise elapsed : R) : Prop :=
  is_double t_start /\ is_double duration /\ is_double rise /\ is_double elapsed /\ / 2 ^ 100 <= duration /\ 0 <= elapsed <= 1 /\
  let B := Rabs t_start + duration in
  B / 2 ^ 48 <= (1 - elapsed) * duration /\ B / 2 ^ 48 <= duration * (1 - rise) /\ (0 < rise -> B / 2 ^ 48 <= duration * rise).
