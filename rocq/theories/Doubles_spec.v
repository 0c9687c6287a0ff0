(** What is expected of the timings of a walk computed with doubles. *)
From Coq Require Import Reals ZArith List Bool.
From Flocq Require Core.
From Verif Require Import Base Footsteps_model Wpg_model Doubles_model.
Import ListNotations.
Open Scope R_scope.

(** The numbers a double can hold: m * 2^e with |m| < 2^53 and -1074 <= e. *)
Definition is_double (x : R) : Prop := exists m e : Z, x = IZR m * powerRZ 2 e /\ (Z.abs m < 2 ^ 53)%Z /\ (-1074 <= e)%Z.

(** [y] is [x], for a nonnegative [x], up to [k] roundings. *)
Definition within (k : nat) (x y : R) : Prop := (1 - / 2 ^ 53) ^ k * x <= y <= (1 + / 2 ^ 53) ^ k * x.

(** A nonnegative double, zero or at least 2^-100. *)
Definition amount (x : R) : Prop := is_double x /\ (x = 0 \/ / 2 ^ 100 <= x).

(** The parameters and the supports of a walk: amounts of time, a positive number of timesteps (an int), a nonnegative number of them for the double
    supports, and an elapsed ratio from 0 to 1. *)
Definition walk_timings (p : params) (s : support) : Prop :=
  amount (p_single_support_duration p) /\ (0 < p_single_support_timesteps p < 2 ^ 31)%Z /\ (0 <= d_default_timesteps p s < 2 ^ 31)%Z /\
  is_double (u_elapsed_ratio s) /\ 0 <= u_elapsed_ratio s <= 1 /\ amount (u_time_ratio s).

(** What remains of a support, computed without rounding, the number of timesteps being given. *)
Definition exact_remaining (p : params) (s : support) (timesteps : Z) : R :=
  (1 - u_elapsed_ratio s) *
  (if is_both s then IZR timesteps * (p_single_support_duration p / IZR (p_single_support_timesteps p)) else p_single_support_duration p) *
  u_time_ratio s.
Fixpoint exact_end (p : params) (supports : list support) (t : R) : R :=
  match supports with [] => t | s :: rest => exact_end p rest (t + exact_remaining p s (d_default_timesteps p s)) end.
