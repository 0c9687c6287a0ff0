(** Model of placo::humanoid::LIPM (src/placo/humanoid/lipm.cpp, lipm.h).

    Simplifications. The pointers x_var and y_var are the positions of the variables in the problem. The number of
    timesteps is a natural number. A division by omega = 0 is not distinguished (the theorems exclude it). *)
From Coq Require Import Reals List ZArith Bool.
From Verif Require Import Base Expression_model Problem_model Integrator_model Swing_model.
Import ListNotations.
Open Scope R_scope.

(** lipm.h:38-65. *)
Record lipm : Type := Lipm {
  lp_dt : R; lp_timesteps : nat; lp_start : R;
  lp_xv : nat; lp_yv : nat;
  lp_x : integrator; lp_y : integrator }.

(** lipm.cpp:47-59. *)
Definition new_lipm (mexp : mat -> mat) (pb : problem) (dt : R) (timesteps : nat) (t_start : R)
    (pos vel acc : R * R) : outcome (problem * lipm) :=
  let '(pb1, xv) := add_variable pb timesteps in
  let '(pb2, yv) := add_variable pb1 timesteps in
  x <- new_integrator_order mexp xv (from_vector (vec_of [fst pos; fst vel; fst acc])) 3 dt ;;
  y <- new_integrator_order mexp yv (from_vector (vec_of [snd pos; snd vel; snd acc])) 3 dt ;;
  Ok (pb2, Lipm dt timesteps t_start (length (p_vars pb)) (length (p_vars pb1)) (set_t_start x t_start) (set_t_start y t_start)).

(** Reading the variable behind a pointer. *)
Definition deref {A} (pb : problem) (ref : nat) (k : variable -> outcome A) : outcome A :=
  match nth_error (p_vars pb) ref with Some v => k v | None => UB end.

(** lipm.cpp:61-72, and 74-77 which only calls it. *)
Definition new_lipm_from (mexp : mat -> mat) (pb : problem) (dt : R) (timesteps : nat) (t_start : R) (previous : lipm)
  : outcome (problem * lipm) :=
  let '(pb1, xv) := add_variable pb timesteps in
  let '(pb2, yv) := add_variable pb1 timesteps in
  ex <- deref pb2 (lp_xv previous) (fun v => ig_expr (lp_x previous) v (-1) (-1)) ;;
  x <- new_integrator_order mexp xv ex 3 dt ;;
  ey <- deref pb2 (lp_yv previous) (fun v => ig_expr (lp_y previous) v (-1) (-1)) ;;
  y <- new_integrator_order mexp yv ey 3 dt ;;
  Ok (pb2, Lipm dt timesteps t_start (length (p_vars pb)) (length (p_vars pb1)) (set_t_start x t_start) (set_t_start y t_start)).

(** lipm.cpp:79-82. *)
Definition lipm_t_end (l : lipm) : R := lp_start l + INR (lp_timesteps l) * lp_dt l.

(** The same expression for both axes, stacked. *)
Definition both (pb : problem) (l : lipm) (f : integrator -> variable -> outcome expr) : outcome expr :=
  deref pb (lp_xv l) (fun v => deref pb (lp_yv l) (fun w =>
    a <- f (lp_x l) v ;; b <- f (lp_y l) w ;; e_stack a b)).

(** lipm.cpp:84-87, 89-92, 94-97, 99-102. *)
Definition lipm_pos (pb : problem) (l : lipm) (timestep : Z) : outcome expr := both pb l (fun ig v => ig_expr ig v timestep 0).
Definition lipm_vel (pb : problem) (l : lipm) (timestep : Z) : outcome expr := both pb l (fun ig v => ig_expr ig v timestep 1).
Definition lipm_acc (pb : problem) (l : lipm) (timestep : Z) : outcome expr := both pb l (fun ig v => ig_expr ig v timestep 2).
Definition lipm_jerk (pb : problem) (l : lipm) (timestep : Z) : outcome expr := both pb l (fun ig v => ig_expr ig v timestep 3).

(** lipm.cpp:104-108. *)
Definition lipm_dcm (pb : problem) (l : lipm) (timestep : Z) (omega : R) : outcome expr :=
  both pb l (fun ig v => a <- ig_expr ig v timestep 0 ;; b <- ig_expr ig v timestep 1 ;; e_add a (scale_e (1 / omega) b)).

(** lipm.cpp:110-114. *)
Definition lipm_zmp (pb : problem) (l : lipm) (timestep : Z) (omega_2 : R) : outcome expr :=
  both pb l (fun ig v => a <- ig_expr ig v timestep 0 ;; b <- ig_expr ig v timestep 2 ;; e_sub a (scale_e (1 / omega_2) b)).

(** lipm.cpp:116-120. *)
Definition lipm_dzmp (pb : problem) (l : lipm) (timestep : Z) (omega_2 : R) : outcome expr :=
  both pb l (fun ig v => a <- ig_expr ig v timestep 1 ;; b <- ig_expr ig v timestep 3 ;; e_sub a (scale_e (1 / omega_2) b)).

(** lipm.cpp:122-125. *)
Definition compute_omega (com_height : R) : R := sqrt (9.80665 / com_height).

(** lipm.h:15-28, struct Trajectory. *)
Record ltraj : Type := LTraj { lt_x : trajectory; lt_y : trajectory }.

(** lipm.cpp:127-137. The integrators, which keep their trajectory, are returned too. *)
Definition lipm_get_trajectory (pb : problem) (l : lipm) : outcome (lipm * ltraj) :=
  deref pb (lp_xv l) (fun v => deref pb (lp_yv l) (fun w =>
    x <- get_trajectory (lp_x l) v (p_x pb) ;;
    y <- get_trajectory (lp_y l) w (p_x pb) ;;
    let with_start tr t := Trajectory (tr_u tr) (tr_M tr) (tr_keys tr) (tr_order tr) (tr_dt tr) t in
    Ok (Lipm (lp_dt l) (lp_timesteps l) (lp_start l) (lp_xv l) (lp_yv l) (fst x) (fst y),
        LTraj (with_start (snd x) (ig_start (lp_x l))) (with_start (snd y) (ig_start (lp_y l)))))).

(** lipm.cpp:8-26. *)
Definition lt_value (mexp : mat -> mat) (tr : ltraj) (t : R) (diff : Z) : outcome (R * R) :=
  x <- traj_value mexp (lt_x tr) t diff ;; y <- traj_value mexp (lt_y tr) t diff ;; Ok (x, y).
Definition lt_pos (mexp : mat -> mat) (tr : ltraj) (t : R) : outcome (R * R) := lt_value mexp tr t 0.
Definition lt_vel (mexp : mat -> mat) (tr : ltraj) (t : R) : outcome (R * R) := lt_value mexp tr t 1.
Definition lt_acc (mexp : mat -> mat) (tr : ltraj) (t : R) : outcome (R * R) := lt_value mexp tr t 2.
Definition lt_jerk (mexp : mat -> mat) (tr : ltraj) (t : R) : outcome (R * R) := lt_value mexp tr t 3.

(** lipm.cpp:28-31, 33-36, 38-41. *)
Definition lt_dcm (mexp : mat -> mat) (tr : ltraj) (t omega : R) : outcome (R * R) :=
  p <- lt_pos mexp tr t ;; v <- lt_vel mexp tr t ;; Ok (fst p + 1 / omega * fst v, snd p + 1 / omega * snd v).
Definition lt_zmp (mexp : mat -> mat) (tr : ltraj) (t omega_2 : R) : outcome (R * R) :=
  p <- lt_pos mexp tr t ;; a <- lt_acc mexp tr t ;; Ok (fst p - 1 / omega_2 * fst a, snd p - 1 / omega_2 * snd a).
Definition lt_dzmp (mexp : mat -> mat) (tr : ltraj) (t omega_2 : R) : outcome (R * R) :=
  v <- lt_vel mexp tr t ;; j <- lt_jerk mexp tr t ;; Ok (fst v + 1 / omega_2 * fst j, snd v + 1 / omega_2 * snd j).
