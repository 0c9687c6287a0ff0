(** What is expected of the sampling of an integrator with doubles. *)
From Coq Require Import Reals ZArith List Bool.
From Verif Require Import Doubles_spec.
Import ListNotations.
Open Scope R_scope.

(** A sampling: [n] timesteps (an int) of [dt] from [t_start], asked at [t]; the number of timesteps from one to the other fits an int too. *)
Definition sampling (n : Z) (dt t_start t : R) : Prop :=
  (0 < n < 2 ^ 31)%Z /\ amount dt /\ 0 < dt /\ is_double t_start /\ is_double t /\ Rabs (t - t_start) <= 2 ^ 30 * dt.
