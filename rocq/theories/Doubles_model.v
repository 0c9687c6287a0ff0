(** The timings of a walk in double arithmetic. The other models compute with real numbers; this one rounds the result of each operation
    to the nearest double, ties to even, as the processor does (Flocq: binary64 without overflow). It models again, with these operations:
    humanoid/humanoid_parameters.cpp:8-31, humanoid/walk_pattern_generator.cpp:466-480, 494, 645-669. Infinities and NaN are not modelled:
    the theorems ask for a nonzero number of timesteps. No operation is fused with another. *)
From Coq Require Import Reals ZArith List Bool.
From Flocq Require Core.
From Verif Require Import Base Geom3 Tools_model Geometry_model Footsteps_model Spline_model Swing_model Lipm_model Wpg_model.
Import ListNotations.
Open Scope R_scope.

(** The nearest double. *)
Definition double (x : R) : R := Flocq.Core.Generic_fmt.round Flocq.Core.Zaux.radix2 (Flocq.Core.FLT.FLT_exp (-1074) 53) Flocq.Core.Round_NE.ZnearestE x.

(** The operators +, -, * and / on doubles. *)
Definition d_add (x y : R) : R := double (x + y).
Definition d_sub (x y : R) : R := double (x - y).
Definition d_mul (x y : R) : R := double (x * y).
Definition d_div (x y : R) : R := double (x / y).

(** humanoid_parameters.cpp:8-11. *)
Definition d_dt (p : params) : R := d_div (p_single_support_duration p) (IZR (p_single_support_timesteps p)).

(** humanoid_parameters.cpp:13-21. *)
Definition d_double_support_timesteps (p : params) : Z := Footsteps_model.round (d_mul (p_double_support_ratio p) (IZR (p_single_support_timesteps p))).
Definition d_startend_double_support_timesteps (p : params) : Z :=
  Footsteps_model.round (d_mul (p_startend_double_support_ratio p) (IZR (p_single_support_timesteps p))).

(** walk_pattern_generator.cpp:645-656. *)
Definition d_default_timesteps (p : params) (s : support) : Z :=
  if is_both s then
    if u_start s || u_end s then d_startend_double_support_timesteps p else d_double_support_timesteps p
  else p_single_support_timesteps p.

(** walk_pattern_generator.cpp:658-669, with humanoid_parameters.cpp:23-31. *)
Definition d_default_duration (p : params) (s : support) : R :=
  if is_both s then d_mul (IZR (d_default_timesteps p s)) (d_dt p) else p_single_support_duration p.

(** walk_pattern_generator.cpp:469-470. *)
Definition d_remaining_duration (p : params) (s : support) : R :=
  d_mul (d_mul (d_sub 1 (u_elapsed_ratio s)) (d_default_duration p s)) (u_time_ratio s).
Definition d_remaining_timesteps (p : params) (s : support) : nat :=
  Z.to_nat (Z.max 1 (trunc (d_mul (d_sub 1 (u_elapsed_ratio s)) (IZR (d_default_timesteps p s))))).

(** walk_pattern_generator.cpp:466-480, 494: the parts and the final time. The CoM and the swing are planned later. *)
Fixpoint d_parts (p : params) (supports : list support) (t : R) : list part * R :=
  match supports with
  | [] => ([], t)
  | s :: rest =>
      let t' := d_add t (d_remaining_duration p s) in
      let (parts, t_end) := d_parts p rest t' in
      (Part t t' s None (CSwing (new_spline false) (new_spline false) (new_spline false)) :: parts, t_end)
  end.

(** walk_pattern_generator.cpp:482: does the LIPM of this part start from the given position, instead of the end of the previous LIPM? *)
Definition d_starts_afresh (t_start : R) (q : part) : bool := if Req_EM_T (pt_start q) t_start then true else false.
