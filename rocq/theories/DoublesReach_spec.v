(** What is expected of the displacement of one step with doubles. *)
From Coq Require Import Reals.
From Verif Require Import Doubles_spec.
Open Scope R_scope.

(** [r] is the largest factor, at most 1, with which the error is within the accessible area. *)
Definition largest_factor (length width ex ey r : R) : Prop :=
  let fits r := 0 <= r <= 1 /\ Rabs (r * ex) <= length /\ Rabs (r * ey) <= width in
  fits r /\ forall r', fits r' -> r' <= r.

(** A coordinate of the error: a double, 0 or from 2^-100 to 2^100 in absolute value. *)
Definition sound_error (e : R) : Prop := is_double e /\ (e = 0 \/ / 2 ^ 100 <= Rabs e <= 2 ^ 100).
(** An accessible length: a double from 2^-100 to 2^100. *)
Definition sound_length (l : R) : Prop := is_double l /\ / 2 ^ 100 <= l <= 2 ^ 100.

(** [s] has the sign of [e], and its size is that of [r * e] up to two roundings. *)
Definition scaled (r e s : R) : Prop := 0 <= s * e /\ within 2 (Rabs (r * e)) (Rabs s).
