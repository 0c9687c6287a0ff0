(** What is expected of repeated calls of integrate with doubles. *)
From Coq Require Import Reals.
From Verif Require Import Doubles_model Doubles_spec DoublesIntegrate_model.
Open Scope R_scope.

(** The state after [n] calls. *)
Fixpoint after (n : nat) (dt : R) (s : d_jstate) : d_jstate := match n with O => s | S k => d_integrate dt (after k dt s) end.

(** [y] is [x + n * d] up to [k] roundings of a number of size [|x| + n * |d|]. *)
Definition drifts (k n : nat) (x d y : R) : Prop := Rabs (y - (x + INR n * d)) <= ((1 + / 2 ^ 53) ^ k - 1) * (Rabs x + INR n * Rabs d).

(** A double whose size is 0 or at least 2^-100. *)
Definition sized (x : R) : Prop := is_double x /\ (x = 0 \/ / 2 ^ 100 <= Rabs x).
