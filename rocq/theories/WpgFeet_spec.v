(** Specification of the motion of the feet in a walk. *)
From Coq Require Import Reals List ZArith Bool.
From Verif Require Import Base Angle Geom3 Tools_model Swing_spec Footsteps_model Wpg_model Wpg_spec WpgPlan_spec.
Import ListNotations.
Open Scope R_scope.

(** In the support, the foot [sd] is on the ground at [F]. *)
Definition stands_at (s : support) (sd : side) (F : frame) : Prop := exists f, In f (u_footsteps s) /\ f_side f = sd /\ f_frame f = F.

(** A frame that is only turned about the vertical axis. *)
Definition only_turned (F : frame) : Prop := exists a, fr_R F = rot_z a.

(** A foot that is on the ground in two supports that follow each other does not move. *)
Definition kept (s s' : support) : Prop := forall sd F F', stands_at s sd F -> stands_at s' sd F' -> F = F'.
Fixpoint feet_kept (l : list support) : Prop :=
  match l with
  | s :: ((s' :: _) as r) => kept s s' /\ feet_kept r
  | _ => True
  end.

(** A foot moves from [s] at [a], with the velocity [v], to [e] at [b], and stops. The step began at [begin]. Its velocity is [V]. In the
    middle share [r] of the step the foot is at the height [h]. When the foot starts from rest, it goes straight to [e] seen from
    above, and its height stays between those of [s], [e] and [h]. *)
Definition flight (h r begin a b : R) (s e v : vec3) (P V : R -> vec3) : Prop :=
  P a = s /\ P b = e /\ V a = v /\ V b = V3 0 0 0 /\ continuous3 V /\ (forall t, a < t < b -> velocity_of P V t) /\
  let first := begin + (b - begin) * (1 - r) / 2 in
  let last := begin + (b - begin) * (1 + r) / 2 in
  (0 < r -> a < first -> forall t, first <= t <= last -> vz (P t) = h) /\
  (0 < r -> a < last -> vz (P last) = h) /\
  (r <= 0 -> a < (begin + b) / 2 -> vz (P ((begin + b) / 2)) = h) /\
  (vx v = 0 -> vy v = 0 -> forall t, a <= t <= b -> exists q, 0 <= q <= 1 /\ vx (P t) = vx s + q * (vx e - vx s) /\ vy (P t) = vy s + q * (vy e - vy s)) /\
  (vz v = 0 -> forall t, a <= t <= b -> Rmin (vz s) (Rmin h (vz e)) <= vz (P t) <= Rmax (vz s) (Rmax h (vz e))).

(** A heading turns from [y] at [a], with the rate [dy], to [y'] at [b], by half a turn at most, and stops. When it starts from rest it
    turns in one direction. *)
Definition turn (a b dy : R) (Y W : R -> R) : Prop :=
  Rabs (Y b - Y a) <= PI /\ W a = dy /\ W b = 0 /\ (forall t, a < t < b -> derivable_pt_lim Y t (W t)) /\
  (dy = 0 -> forall t, a <= t <= b -> exists q, 0 <= q <= 1 /\ Y t = Y a + q * (Y b - Y a)).

(** Supports to walk on: one foot or both, turned about the vertical only, for a positive time; the feet on the ground do not slide, and
    only the first support can have begun already. *)
Definition feet_walk (p : params) (supports : list support) : Prop :=
  (forall s, In s supports -> feet_ok s /\ time_ok p s /\ forall f, In f (u_footsteps s) -> only_turned (f_frame f)) /\
  feet_kept supports /\ (forall i s, nth_error supports (S i) = Some s -> u_elapsed_ratio s = 0).

(** The motion of the foot [sd] along a walk, from [t0] to [t1]: its position [P], its heading [Y], and the rate of its heading [W]. *)
Definition moves (j : wtraj) (sd : side) (t0 t1 : R) (P : R -> vec3) (Y W : R -> R) : Prop :=
  (forall t, get_T_world_foot j sd t = Ok (Frame (rot_z (Y t)) (P t))) /\ continuous3 P /\ continuity Y /\ continuity W /\
  (forall t, t <= t0 -> P t = P t0 /\ Y t = Y t0) /\ (forall t, t1 <= t -> P t = P t1 /\ Y t = Y t1).
