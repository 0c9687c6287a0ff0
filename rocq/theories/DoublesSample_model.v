(** The sampling of an integrator in double arithmetic (see Doubles_model.v). *)
From Coq Require Import Reals ZArith List Bool.
From Flocq Require Core.
From Verif Require Import Base Integrator_model Doubles_model.
Import ListNotations.
Open Scope R_scope.

(** integrator.cpp:11, 15-21 (Trajectory::value): the index k, [n] being the number of inputs. *)
Definition d_step (n : Z) (dt t_start t : R) : Z :=
  let k := Flocq.Core.Raux.Zfloor (d_div (d_sub t t_start) dt) in
  let k := if (k <? 0)%Z then 0%Z else k in
  if (k >=? n)%Z then (n - 1)%Z else k.

(** integrator.cpp:23: remaining_dt. *)
Definition d_offset (n : Z) (dt t_start t : R) : R :=
  Rmax 0 (Rmin dt (d_sub (d_sub t t_start) (d_mul (IZR (d_step n dt t_start t)) dt))).

(** integrator.cpp:25-28: value(t, order), the highest derivative. *)
Definition d_highest (inputs : list R) (dt t_start t : R) : option R := nth_error inputs (Z.to_nat (d_step (Z.of_nat (length inputs)) dt t_start t)).

(** integrator.cpp:172-174, 182 (expr_t): the step and remaining_dt. *)
Definition d_expr_step (n : Z) (dt t_start t : R) : Z := Z.max (Z.min (n - 1) (Integrator_model.Ztrunc (d_div (d_sub t t_start) dt))) 0.
Definition d_expr_offset (n : Z) (dt t_start t : R) : R := d_sub (d_sub t t_start) (d_mul (IZR (d_expr_step n dt t_start t)) dt).
