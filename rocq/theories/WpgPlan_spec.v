(** Specification of when a walk can be planned. *)
From Coq Require Import Reals List ZArith Bool.
From Verif Require Import Base Geom3 Tools_model Problem_model Polynom_spec Lipm_spec Footsteps_model Wpg_model Wpg_spec.
Import ListNotations.
Open Scope R_scope.

(** Jerks exist that move the CoM from the states [sx], [sy] (position, velocity, acceleration along each axis) through all the
    supports: at every timestep of a support the ZMP is in its polygon, with the margin, and at the end of an end support the robot
    stands still, its CoM above the frame of the support. *)
Fixpoint walkable (hull : list point -> list point) (p : wparams) (omega_2 : R) (supports : list support) (sx sy : nat -> R) : Prop :=
  match supports with
  | [] => True
  | s :: rest =>
      exists n d polygon ux uy,
        steps (w_base p) s n /\ lasts (w_base p) s d /\ snd (support_support_polygon hull s) = Ok polygon /\
        let X := jerk_run (d / INR n) ux sx in
        let Y := jerk_run (d / INR n) uy sy in
        (forall k, (1 <= k <= n)%nat ->
           inside polygon (w_zmp_margin p) (X k 0%nat - X k 2%nat / omega_2, Y k 0%nat - Y k 2%nat / omega_2)) /\
        (u_end s = true -> exists f, support_frame s = Ok f /\
           X n 0%nat = vx (fr_t f) /\ Y n 0%nat = vy (fr_t f) /\ X n 1%nat = 0 /\ Y n 1%nat = 0 /\ X n 2%nat = 0 /\ Y n 2%nat = 0) /\
        walkable hull p omega_2 rest (X n) (Y n)
  end.

(** A foot of the support is on the side [sd]. *)
Definition stands_on (s : support) (sd : side) : Prop := exists f, In f (u_footsteps s) /\ f_side f = sd.

(** One foot, or one foot on each side. *)
Definition feet_ok (s : support) : Prop :=
  (exists f, u_footsteps s = [f]) \/ (exists f g, u_footsteps s = [f; g] /\ f_side g = other_side (f_side f)).

(** The support has a polygon, with vertices. Consecutive vertices differ. *)
Definition polygon_ok (hull : list point -> list point) (s : support) : Prop :=
  exists polygon, snd (support_support_polygon hull s) = Ok polygon /\ polygon <> [] /\ forall i A B, edge polygon i A B -> A <> B.

(** A support that is not over and takes time. *)
Definition time_ok (p : params) (s : support) : Prop :=
  (exists d, default_duration p s d /\ 0 < d) /\ 0 < u_time_ratio s /\ u_elapsed_ratio s < 1.

(** A foot that is in the air is on the ground before and after. *)
Definition lands (s s' : support) : Prop := forall f, u_footsteps s = [f] -> stands_on s' (other_side (f_side f)).
Fixpoint steps_follow (s : support) (l : list support) : Prop :=
  match l with
  | [] => length (u_footsteps s) = 2%nat
  | s' :: r => lands s s' /\ lands s' s /\ steps_follow s' r
  end.

(** A sequence of supports to walk on: the first and the last one are double, and each flying foot takes off from the previous
    support and lands in the next one. Only the last support may ask the robot to stop, and then it has three timesteps at
    least. *)
Definition walk_ok (hull : list point -> list point) (p : params) (supports : list support) : Prop :=
  (forall s, In s supports -> feet_ok s /\ polygon_ok hull s /\ time_ok p s) /\
  match supports with [] => False | s :: r => length (u_footsteps s) = 2%nat /\ steps_follow s r end /\
  (forall l s r, supports = l ++ s :: r -> u_end s = true -> r = [] /\ forall n, steps p s n -> (3 <= n)%nat).
